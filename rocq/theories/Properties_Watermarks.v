(** * Properties C09 to C12: operations on watermark arrays
    (arcticpy/trap_managers.py, trap_managers_utils.pyx). *)
From Coq Require Import ZArith List Bool Reals Lra Lia.
From Coquelicot Require Import Hierarchy RInt.
From Verif Require Import Num Py RFacts CCDModel TrapsModel ManagerModel Spec WatermarkFacts.
Import ListNotations.
Open Scope R_scope.

(** C09. *)
Theorem C09_count_is_integral_of_occupancy k traps w :
  k <> KTime -> Forall (fun r => 0 <= fst r) w -> volume w <= 1 ->
  n_trapped (mkManager k traps w) w = electrons traps (occupancy w) 0 1.
Proof. exact (count_is_integral k traps w). Qed.
Print Assumptions C09_count_is_integral_of_occupancy.

Theorem C09_count_bounds k traps w :
  k <> KTime -> Forall (fun t => 0 <= t_density t) traps ->
  Forall (fun r => 0 <= fst r) w -> volume w <= 1 ->
  Forall (fun r => Forall (fun f => 0 <= f <= 1) (snd r)) w ->
  0 <= n_trapped (mkManager k traps w) w <= Rsum (map (@t_density R) traps).
Proof. exact (count_bounds k traps w). Qed.
Print Assumptions C09_count_bounds.

(** Two species, two levels in use and two free ones. *)
Definition example_traps : list (trap R) :=
  [mkTrap 10 2 RInf (1/2) false CInstant; mkTrap 8 5 RInf (1/5) false CInstant].
Definition example_wm : wmarks R :=
  [(1/2, [3/4; 1/2]); (1/4, [1/4; 0]); (0, [0; 0]); (0, [0; 0])].
Example C09_example : Forall (fun r => 0 <= fst r) example_wm /\ volume example_wm <= 1 /\
  n_trapped (mkManager KSlow example_traps example_wm) example_wm = 3.75 + 2 + 0.625.
Proof.
  unfold example_wm, volume, Rsum, n_trapped. cbn. repeat split; try lra.
  repeat constructor; cbn; lra.
Qed.

(** C10.  The split is done on the manager's array and on a copy with the same volumes
    (the initial state kept for the case of too few electrons). *)
Theorem C10_split_changes_nothing n w w_copy live free v :
  well_formed n w live (S free) -> well_formed n w_copy live (S free) ->
  map fst w = map fst w_copy -> 0 < v <= volume w ->
  let max_index := max_watermark_index w in
  let index := index_above_cloud v w max_index in
  exists w' w_copy' live' free',
    slow_split w w_copy v index max_index = Ok (w', w_copy', (Z.of_nat live' - 1)%Z) /\
    well_formed n w' live' free' /\ well_formed n w_copy' live' free' /\
    map fst w' = map fst w_copy' /\
    (live' <= S live)%nat /\ (live' + free' = live + S free)%nat /\
    volume (firstn (Z.to_nat (index + 1)) w') = v /\
    (forall s x, 0 <= x ->
       occupancy w' s x = occupancy w s x /\ occupancy w_copy' s x = occupancy w_copy s x) /\
    (forall ds, cy_n_trapped w' ds = cy_n_trapped w ds /\
                cy_n_trapped w_copy' ds = cy_n_trapped w_copy ds).
Proof. exact (split_spec n w w_copy live free v). Qed.
Print Assumptions C10_split_changes_nothing.

Lemma example_well_formed : well_formed 2 example_wm 2 2.
Proof.
  split; [|unfold volume, Rsum; cbn; lra].
  exists [(1/2, [3/4; 1/2]); (1/4, [1/4; 0])]. split; [reflexivity|]. split; [reflexivity|].
  repeat constructor; cbn; lra.
Qed.
Example C10_example : well_formed 2 example_wm 2 (S 1) /\ 0 < 1/3 <= volume example_wm.
Proof. split; [exact example_well_formed|]. unfold volume, Rsum; cbn; lra. Qed.

(** C11. *)
Theorem C11_collapse_changes_nothing n w w_copy live free :
  (0 < n)%nat -> well_formed n w live (S free) -> well_formed n w_copy live (S free) ->
  map fst w = map fst w_copy ->
  exists w' w_copy' live' free' depth,
    collapse 1 n w = w' /\ collapse_with_copy 1 n w w_copy = Ok (w', w_copy') /\
    well_formed n w' live' free' /\ well_formed n w_copy' live' free' /\
    (live' <= live)%nat /\ (live' + free' = live + S free)%nat /\ map fst w' = map fst w_copy' /\
    volume w' = volume w /\
    (forall ds, length ds = n ->
       cy_n_trapped w' ds = cy_n_trapped w ds /\ cy_n_trapped w_copy' ds = cy_n_trapped w_copy ds) /\
    (forall s x, (s < n)%nat -> 0 <= x -> occupancy w' s x = occupancy w s x) /\
    0 <= depth /\
    (forall s x, (s < n)%nat -> 0 <= x < depth -> occupancy w s x = 1) /\
    (forall s x, (s < n)%nat -> depth <= x -> occupancy w_copy' s x = occupancy w_copy s x) /\
    (forall s x, (s < n)%nat -> 0 <= x < depth ->
       occupancy w_copy' s x = RInt (occupancy w_copy s) 0 depth / depth).
Proof. exact (collapse_spec n w w_copy live free). Qed.
Print Assumptions C11_collapse_changes_nothing.

(** Two full levels (which get merged) below the example's levels. *)
Example C11_example :
  let w := [(1/8, [1; 1]); (1/8, [1; 1]); (1/4, [1/4; 0]); (0, [0; 0]); (0, [0; 0])] in
  well_formed 2 w 3 (S 1) /\ exists w', collapse 1 2 w = w' /\ length (filter (fun r => Rltb 0 (fst r)) w') = 2%nat.
Proof.
  cbn zeta. split.
  - split; [|unfold volume, Rsum; cbn; lra].
    exists [(1/8, [1; 1]); (1/8, [1; 1]); (1/4, [1/4; 0])]. split; [reflexivity|]. split; [reflexivity|].
    repeat constructor; cbn; lra.
  - eexists. split; [reflexivity|]. unfold collapse, collapse_index. cbn [seq map nth vals snd]. rnum.
    rewrite !(proj2 (Reqb_true 1 1) eq_refl), (proj2 (Reqb_false (1/4) 1)), (proj2 (Reqb_false 0 1)) by lra.
    cbn. rewrite (proj2 (Rltb_true 0 (1 / 4))) by lra. rewrite (proj2 (Rltb_true 0 (0 + 1/8 + 1/8))) by lra.
    rewrite !(proj2 (Rltb_false 0 0)) by lra. reflexivity.
Qed.

(** C12. *)
Theorem C12_index_above_cloud w cloud max_index :
  Forall (fun r => 0 <= fst r) w -> 0 <= cloud ->
  let i := index_above_cloud cloud w max_index in
  (cloud = 0 -> i = (-1)%Z) /\
  (volume w < cloud -> i = (max_index + 1)%Z) /\
  (0 < cloud <= volume w -> (0 <= i < Z.of_nat (length w))%Z /\
     volume (firstn (Z.to_nat i) w) < cloud <= volume (firstn (S (Z.to_nat i)) w)).
Proof. exact (index_spec w cloud max_index). Qed.
Print Assumptions C12_index_above_cloud.

Example C12_example : Forall (fun r => 0 <= fst r) example_wm /\ 0 < 1/2 <= volume example_wm /\
  volume example_wm < 9/10.
Proof. unfold example_wm, volume, Rsum. cbn. split; [repeat constructor; cbn; lra|lra]. Qed.
