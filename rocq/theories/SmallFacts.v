(** * Poisson realisations of traps, single phases of a CCD, and conversions of watermarks. *)
From Coq Require Import ZArith List Bool Reals Lra Lia.
From Coquelicot Require Import Rcomplements Rbar Hierarchy RInt.
From Verif Require Import Num Py RFacts CCDModel TrapsModel ManagerModel Spec SpecImage SpecReadout SpecManagers CCDFacts TrapsFacts WmFacts ArrayFacts
  ClockFacts ManagerSetFacts.
Import ListNotations.
Open Scope R_scope.

(** ** Poisson realisations. *)
Definition realisation (draw : nat -> nat -> R -> R) (rows : nat) (col i : nat) (t : trap R) : trap R :=
  mkTrap (draw col i (t_density t * INR rows) / INR rows) (t_release_timescale t) RInf (1 / t_release_timescale t) false CTrap.
Definition realisations (draw : nat -> nat -> R -> R) (rows columns : nat) (traps : list (trap R)) : list (trap R) :=
  flat_map (fun col => map (fun '(i, t) => realisation draw rows col i t) (combine (seq 0 (length traps)) traps)) (seq 0 columns).
Lemma mapM_total {A B} (f : A -> result B) (g : A -> B) l : (forall a, In a l -> f a = Ok (g a)) -> mapM f l = Ok (map g l).
Proof.
  induction l as [|a l IH]; intros H; [reflexivity|]. cbn [mapM map]. rewrite H by now left. cbn [bind]. rewrite IH; [reflexivity|]. intros b Hb. apply H. now right.
Qed.
Lemma list_prod_flat {A B} (a : list A) (b : list B) : list_prod a b = flat_map (fun x => map (fun y => (x, y)) b) a.
Proof. induction a as [|x a IH]; [reflexivity|]. cbn [list_prod flat_map]. now rewrite IH. Qed.
Lemma map_flat_map {A B C} (f : B -> C) (g : A -> list B) l : map f (flat_map g l) = flat_map (fun x => map f (g x)) l.
Proof. induction l as [|a l IH]; [reflexivity|]. cbn [flat_map]. now rewrite map_app, IH. Qed.
Lemma poisson_ok draw traps rows columns : (0 < rows)%nat -> Forall (fun t => t_release_timescale t <> 0) traps ->
  poisson_trap draw traps rows columns = Ok (realisations draw rows columns traps).
Proof.
  intros Hr Ht. unfold poisson_trap.
  rewrite (mapM_total _ (fun '(col, (i, t)) => realisation draw rows col i t)).
  - f_equal. unfold realisations. rewrite list_prod_flat, map_flat_map. apply flat_map_ext. intros col. rewrite map_map. apply map_ext. now intros [i t].
  - intros [col [i t]] H. apply in_prod_iff in H as [_ H]. apply in_combine_r in H.
    rewrite Forall_forall in Ht. specialize (Ht t H). replace (Nat.eqb rows 0) with false by (symmetry; apply Nat.eqb_neq; lia).
    unfold trap_init, trap_init_class. rnum. replace (Reqb (t_release_timescale t) 0) with false by (symmetry; now apply Reqb_false).
    replace (Reqb 0 0) with true by (symmetry; now apply Reqb_true). unfold realisation. now rewrite INR_IZR_INZ.
Qed.
Lemma realisations_length draw rows columns traps : length (realisations draw rows columns traps) = (columns * length traps)%nat.
Proof.
  unfold realisations. generalize 0%nat at 2. induction columns as [|k IH]; intros a; [reflexivity|]. cbn [seq flat_map].
  rewrite app_length, map_length, combine_length, seq_length, Nat.min_id, IH. lia.
Qed.
Lemma realisations_nth draw rows columns traps col i t : (col < columns)%nat -> nth_error traps i = Some t ->
  nth_error (realisations draw rows columns traps) (col * length traps + i) = Some (realisation draw rows col i t).
Proof.
  intros Hc Ht. assert (Hi : (i < length traps)%nat) by (apply nth_error_Some; congruence).
  unfold realisations.
  assert (G : forall k a, (a <= col < a + k)%nat ->
    nth_error (flat_map (fun col => map (fun '(i, t) => realisation draw rows col i t) (combine (seq 0 (length traps)) traps)) (seq a k))
      ((col - a) * length traps + i) = Some (realisation draw rows col i t)).
  { induction k as [|k IH]; intros a Ha; [lia|]. cbn [seq flat_map].
    assert (L : length (map (fun '(i, t) => realisation draw rows a i t) (combine (seq 0 (length traps)) traps)) = length traps)
      by (rewrite map_length, combine_length, seq_length, Nat.min_id; reflexivity).
    destruct (Nat.eq_dec a col) as [->|Hne].
    - rewrite Nat.sub_diag, Nat.mul_0_l, Nat.add_0_l, nth_error_app1 by (rewrite L; exact Hi).
      rewrite (map_nth_error _ _ _ (d := (i, t))); [reflexivity|].
      clear -Ht. assert (H : forall a, nth_error (combine (seq a (length traps)) traps) i = Some (a + i, t)%nat).
      { revert i Ht. induction traps as [|u us IH]; intros [|i] Ht a; cbn in *; try discriminate; [rewrite Nat.add_0_r; congruence|].
        rewrite IH by exact Ht. do 2 f_equal. lia. }
      apply H.
    - rewrite nth_error_app2 by (rewrite L; nia). rewrite L.
      replace ((col - a) * length traps + i - length traps)%nat with ((col - S a) * length traps + i)%nat by nia.
      apply IH. lia. }
  specialize (G columns 0%nat). rewrite Nat.sub_0_r in G. apply G. lia.
Qed.
Lemma poisson_empty draw traps columns : traps <> [] -> (0 < columns)%nat -> poisson_trap draw traps 0 columns = Err NotANumber.
Proof. intros Ht Hc. destruct traps as [|t ts], columns as [|k]; try contradiction; [lia|]. reflexivity. Qed.
(** With draws equal to their means, the list holds the whole density once for every column. *)
Lemma Rsum_repeat_flat {A} (f : nat -> list R) x (l : list A) a : (forall k, Rsum (f k) = x) -> Rsum (flat_map f (seq a (length l))) = INR (length l) * x.
Proof.
  intros H. revert a. induction l as [|y l IH]; intros a; [cbn; lra|]. cbn [length seq flat_map]. rewrite Rsum_app, H, IH, S_INR. lra.
Qed.
Lemma mean_total rows columns traps : (0 < rows)%nat ->
  Rsum (map (@t_density R) (realisations (fun _ _ mean => mean) rows columns traps)) = INR columns * Rsum (map (@t_density R) traps).
Proof.
  intros Hr. unfold realisations. rewrite map_flat_map.
  assert (H : INR rows <> 0) by (apply not_0_INR; lia).
  pose proof (Rsum_repeat_flat (fun col => map (@t_density R) (map (fun '(i, t) => realisation (fun _ _ mean => mean) rows col i t) (combine (seq 0 (length traps)) traps)))
    (Rsum (map (@t_density R) traps)) (repeat tt columns) 0) as G.
  rewrite repeat_length in G. apply G. intros k. f_equal. rewrite map_map. clear G. generalize 0%nat.
  induction traps as [|t ts IH]; intros a; [reflexivity|]. cbn [length seq combine map]. rewrite IH. f_equal. cbn. field. exact H.
Qed.

(** ** Conversions between times and fill fractions. *)
Section Convert.
Variables (traps : list (trap R)).
Hypothesis Hexp : Forall (fun t => exponential t /\ 0 < t_release_timescale t) traps.
Lemma row_to_times (fs : list R) : length fs = length traps ->
  mapM (fun '(t, f) => time_elapsed_from_fill_fraction t f) (combine traps (zip_with (fun t time => fill_fraction_from_time_elapsed t time) traps fs)) = Ok fs.
Proof.
  revert fs. induction Hexp as [|t ts [He Ht] H IH]; intros [|f fs] L; cbn in L; try discriminate; [reflexivity|].
  cbn [zip_with combine map mapM]. unfold zip_with in *. cbn [combine map mapM]. rewrite time_of_fill by auto. cbn [bind]. rewrite IH by (auto; lia). reflexivity.
Qed.
Lemma row_to_fractions (fs : list R) : length fs = length traps -> Forall (fun f => 0 < f) fs -> exists times,
  mapM (fun '(t, f) => time_elapsed_from_fill_fraction t f) (combine traps fs) = Ok times /\
  zip_with (fun t time => fill_fraction_from_time_elapsed t time) traps times = fs.
Proof.
  revert fs. induction Hexp as [|t ts [He Ht] H IH]; intros [|f fs] L P; cbn in L; try discriminate; [exists []; split; reflexivity|].
  inversion P as [|? ? Pf P']; subst. destruct (IH H fs ltac:(lia) P') as (times & E1 & E2).
  destruct (fill_of_time t f He Ht Pf) as (time & E3 & E4). exists (time :: times). cbn [combine mapM]. rewrite E3. cbn [bind]. rewrite E1.
  split; [reflexivity|]. unfold zip_with in *. cbn [combine map]. rewrite E4, E2. reflexivity.
Qed.
End Convert.
Lemma first_zero_same_vol (a b : wmarks R) : map fst a = map fst b -> first_zero_volume a = first_zero_volume b.
Proof.
  intros H. unfold first_zero_volume. f_equal. unfold vol. rnum.
  rewrite <- (map_map fst (fun v => Reqb v 0) a), <- (map_map fst (fun v => Reqb v 0) b). now rewrite H.
Qed.
Lemma slice_fst a b f (w : wmarks R) : map fst (map_vals_slice a b f w) = map fst w.
Proof.
  unfold map_vals_slice. generalize 0%nat. induction w as [|r w IH]; intros k; [reflexivity|]. cbn [length seq combine map]. rewrite IH.
  destruct (_ && _)%bool; reflexivity.
Qed.
Lemma times_of_fractions traps (w : wmarks R) : Forall (fun t => exponential t /\ 0 < t_release_timescale t) traps ->
  Forall (fun r => length (snd r) = length traps) w -> to_elapsed_times traps (to_fill_fractions traps w) = Ok w.
Proof.
  intros Ht Hw. unfold to_elapsed_times. rewrite (first_zero_same_vol (to_fill_fractions traps w) w) by apply slice_fst.
  unfold to_fill_fractions, map_vals_slice. set (k := first_zero_volume w). cbn [Nat.leb andb]. rewrite map_length, combine_length, seq_length, Nat.min_id.
  generalize 0%nat. clearbody k. induction Hw as [|r w Hr Hw IH]; intros a; [reflexivity|]. cbn [length seq combine map mapM].
  destruct (Nat.ltb a k).
  - cbn [vals fst snd]. unfold vals. cbn [snd]. rewrite (row_to_times traps Ht (snd r) Hr). cbn [bind]. rewrite IH. cbn [bind]. unfold vol. cbn [fst]. now destruct r.
  - cbn [bind]. rewrite IH. reflexivity.
Qed.
Lemma fractions_of_times traps (w : wmarks R) : Forall (fun t => exponential t /\ 0 < t_release_timescale t) traps ->
  Forall (fun r => length (snd r) = length traps) w ->
  (forall i r, (i < first_zero_volume w)%nat -> nth_error w i = Some r -> Forall (fun f => 0 < f) (snd r)) ->
  exists w', to_elapsed_times traps w = Ok w' /\ to_fill_fractions traps w' = w.
Proof.
  intros Ht Hw Hp. unfold to_elapsed_times. set (k := first_zero_volume w) in *.
  assert (G : forall a, (forall i r, (a + i < k)%nat -> nth_error w i = Some r -> Forall (fun f => 0 < f) (snd r)) -> exists w',
    mapM (fun '(i, r) => if Nat.ltb i k then do vs <- mapM (fun '(t, f) => time_elapsed_from_fill_fraction t f) (combine traps (vals r)); Ok (vol r, vs) else Ok r)
      (combine (seq a (length w)) w) = Ok w' /\ map fst w' = map fst w /\ length w' = length w /\
    map (fun '(i, r) => if (Nat.leb 0 i && Nat.ltb i k)%bool then (vol r, zip_with (fun t time => fill_fraction_from_time_elapsed t time) traps (vals r)) else r)
      (combine (seq a (length w')) w') = w).
  { clear Hp. clearbody k. induction Hw as [|r w Hr Hw IH]; intros a Hp; [exists []; repeat split; reflexivity|].
    destruct (IH (S a)) as (w' & E1 & E2 & E3 & E4); [intros i q Hi Hq; apply (Hp (S i) q); [lia|exact Hq]|].
    cbn [length seq combine mapM]. destruct (Nat.ltb a k) eqn:Ea.
    - apply Nat.ltb_lt in Ea. destruct (row_to_fractions traps Ht (snd r) Hr) as (times & F1 & F2); [apply (Hp 0%nat r); [lia|reflexivity]|].
      unfold vals at 1. rewrite F1. cbn [bind]. rewrite E1. cbn [bind]. exists ((vol r, times) :: w'). split; [reflexivity|].
      split; [cbn; now rewrite E2|]. split; [cbn; now rewrite E3|]. cbn [length seq combine map]. rewrite E4.
      apply Nat.ltb_lt in Ea. rewrite Ea. cbn [Nat.leb andb vol vals fst snd]. unfold vals, vol. cbn [fst snd]. rewrite F2. now destruct r.
    - cbn [bind]. rewrite E1. cbn [bind]. exists (r :: w'). split; [reflexivity|].
      split; [cbn; now rewrite E2|]. split; [cbn; now rewrite E3|]. cbn [length seq combine map]. rewrite E4, Ea. cbn [andb Nat.leb]. reflexivity. }
  destruct (G 0%nat Hp) as (w' & E1 & E2 & E3 & E4). exists w'. split; [exact E1|]. unfold to_fill_fractions, map_vals_slice.
  rewrite (first_zero_same_vol w' w E2). exact E4.
Qed.

Lemma fill_time_near (t : trap R) f time : 0 < t_release_timescale t -> 0 < f -> time_elapsed_from_fill_fraction t f = Ok time ->
  Rabs (fill_fraction_from_time_elapsed t time - f) < 1 / 10000000.
Proof.
  intros Ht Hf. unfold time_elapsed_from_fill_fraction, fill_fraction_from_time_elapsed. destruct (t_class t) as [| |fill rel solve] eqn:Ec.
  1,2: intros [= <-]; rnum; replace (- (- t_release_timescale t * ln f) / t_release_timescale t) with (ln f) by (field; lra);
    rewrite exp_ln by exact Hf; rewrite Rminus_diag_eq by reflexivity; rewrite Rabs_R0; lra.
  rnum. replace (nq 1 10000000) with (1 / 10000000) by (unfold nq; rnum; reflexivity).
  destruct (Rltb (fill (solve f) - f) 0) eqn:E; [apply Rltb_true in E|apply Rltb_false in E];
    match goal with |- context [Rltb ?a (1 / 10000000)] => destruct (Rltb a (1 / 10000000)) eqn:E2 end; intros [= <-]; apply Rltb_true in E2.
  - rewrite Rabs_left by exact E. exact E2.
  - rewrite Rabs_right by (apply Rle_ge; exact E). exact E2.
Qed.

(** ** One phase of a CCD. *)
Lemma phase_ok {F} {num : Num F} fr fw no fp bl (c : ccd F) phase : ccd_init fr fw no fp bl = Ok c -> (phase < n_phases_of fr)%nat ->
  exists p, ccd_phase_init c phase = Ok p /\
    value_at fr phase = Some (cp_fraction p) /\ value_at fw phase = Some (cp_full_well p) /\
    value_at no phase = Some (cp_notch p) /\ value_at fp phase = Some (cp_fill_power p) /\
    nth_error (ccd_bloom c) phase = Some (cp_bloom p) /\
    (forall n surface, cp_fill p n surface = cloud_fractional_volume c n phase surface).
Proof.
  intros E Hp. pose proof (proj2 (ccd_init_ok _ _ _ _ _ _ E)) as (_ & L1 & L2 & L3 & L4 & L5 & H).
  specialize (H phase Hp) as (H1 & H2 & H3 & H4). unfold ccd_phase_init.
  assert (G : forall A (l : list A), length l = n_phases_of fr -> exists x, nth_error l phase = Some x).
  { intros A l L. destruct (nth_error l phase) eqn:En; [eauto|]. apply nth_error_None in En. lia. }
  destruct (G _ _ L1) as [a Ea], (G _ _ L2) as [b Eb], (G _ _ L3) as [n En], (G _ _ L4) as [q Eq], (G _ _ L5) as [bb Ebb].
  rewrite Ea, Eb, En, Eq, Ebb. cbn [of_option bind]. eexists. split; [reflexivity|]. cbn. repeat split; congruence.
Qed.
Lemma phase_err {F} {num : Num F} fr fw no fp bl (c : ccd F) phase : ccd_init fr fw no fp bl = Ok c -> (n_phases_of fr <= phase)%nat ->
  ccd_phase_init c phase = Err IndexError.
Proof.
  intros E Hp. pose proof (proj2 (ccd_init_ok _ _ _ _ _ _ E)) as (_ & L1 & _). unfold ccd_phase_init.
  rewrite (proj2 (nth_error_None _ _)) by (rewrite L1; exact Hp). reflexivity.
Qed.
Lemma bloom_value {F} {num : Num F} fr fw no fp bl (c : ccd F) phase : ccd_init fr fw no fp bl = Ok c -> (phase < n_phases_of fr)%nat ->
  nth_error (ccd_bloom c) phase = match bl with Some b => option_map BNum (value_at b phase) | None => Some (BList (ccd_full_well c)) end.
Proof.
  intros E Hp. unfold ccd_init in E. destruct (set_full_well _ _) as [c1|] eqn:E1; [|discriminate]. cbn [bind] in E.
  destruct (set_fill_power _ _) as [c2|] eqn:E2; [|discriminate]. cbn [bind] in E.
  destruct (set_notch _ _) as [c3|] eqn:E3; [|discriminate]. cbn [bind] in E.
  assert (N : ccd_n_phases c3 = n_phases_of fr).
  { unfold set_full_well, set_fill_power, set_notch in *. destruct (broadcast _ fw); [|discriminate]. injection E1 as <-.
    destruct (broadcast _ fp); [|discriminate]. injection E2 as <-. destruct (broadcast _ no); [|discriminate]. injection E3 as <-.
    cbn. now destruct fr. }
  unfold set_bloom in E. rewrite N in E. destruct bl as [[x|l]|]; cbn [bind] in E.
  - injection E as <-. cbn. now rewrite nth_error_repeat.
  - destruct (Nat.eqb _ _) eqn:El; [|discriminate]. injection E as <-. cbn. now rewrite nth_error_map.
  - injection E as <-. cbn. now rewrite nth_error_repeat.
Qed.
Lemma below_first_zero (w : wmarks R) j r : (j < first_zero_volume w)%nat -> nth_error w j = Some r -> fst r <> 0.
Proof.
  unfold first_zero_volume, np_argmax. intros Hj Hr.
  assert (G : forall l k i b, find_true l = Some k -> (i < k)%nat -> nth_error l i = Some b -> b = false).
  { clear. induction l as [|x l IH]; intros k i b H Hi Hb; [destruct i; discriminate|]. cbn in H. destruct x.
    - injection H as <-. lia.
    - destruct (find_true l) as [m|] eqn:E; [|discriminate]. injection H as <-.
      destruct i as [|i]; cbn in Hb; [congruence|]. apply (IH m i b eq_refl); [lia|exact Hb]. }
  destruct (find_true _) as [k|] eqn:E; [|lia].
  specialize (G _ _ j _ E Hj (map_nth_error _ _ _ Hr)). cbn in G. unfold vol in G. now apply Reqb_false in G.
Qed.
Lemma no_zero_volume (w : wmarks R) : Forall (fun r => fst r <> 0) w -> first_zero_volume w = 0%nat.
Proof.
  intros H. unfold first_zero_volume, np_argmax. replace (find_true _) with (@None nat); [reflexivity|].
  induction H as [|r w Hr H IH]; [reflexivity|]. cbn [map find_true]. unfold vol at 1. rnum.
  replace (Reqb (fst r) 0) with false by (symmetry; now apply Reqb_false). now rewrite <- IH.
Qed.
Lemma full_not_converted traps (w : wmarks R) : Forall (fun r => fst r <> 0) w -> to_fill_fractions traps w = w.
Proof.
  intros H. unfold to_fill_fractions. rewrite (no_zero_volume w H). unfold map_vals_slice. generalize 0%nat at 3.
  clear H. induction w as [|r w IH]; intros k; [reflexivity|]. cbn [length seq combine map]. rewrite IH.
  replace (Nat.ltb k 0) with false by reflexivity. now rewrite andb_false_r.
Qed.
