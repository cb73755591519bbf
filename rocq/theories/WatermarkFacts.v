(** * Watermark operations in terms of [well_formed]. *)
From Coq Require Import ZArith List Bool Reals Lra Lia.
From Coquelicot Require Import Rcomplements Rbar Hierarchy RInt.
From Verif Require Import Num Py RFacts CCDModel TrapsModel ManagerModel Spec WmFacts ArrayFacts CutFacts InstantFacts CaptureFacts.
Import ListNotations.
Open Scope R_scope.

(** ** C09: counting the trapped electrons. *)
Lemma count_is_integral k traps w : k <> KTime -> nonneg w -> volume w <= 1 ->
  n_trapped (mkManager k traps w) w = electrons traps (occupancy w) 0 1.
Proof.
  intros Hk Hw Hv. transitivity (trapped (dens traps) w).
  - destruct k; try congruence; apply cy_n_trapped_eq.
  - symmetry. apply electrons_trapped. intros s. now apply is_RInt_occupancy_upto.
Qed.

Lemma volume_nonneg_row fs d : Forall (fun f => 0 <= f <= 1) fs -> Forall (fun x => 0 <= x) d -> 0 <= dot fs d <= Rsum d.
Proof.
  intros Hf. revert d. induction Hf as [|f fs Hf0 Hf IH]; intros d Hd.
  - cbn. split; [lra|now apply Rsum_nonneg].
  - destruct d as [|x d]; cbn [dot]; [unfold Rsum; cbn; lra|].
    inversion Hd; subst. specialize (IH d H2). unfold Rsum in *; cbn [fold_right]. nra.
Qed.

Lemma count_bounds k traps w : k <> KTime -> Forall (fun t => 0 <= t_density t) traps -> nonneg w -> volume w <= 1 ->
  Forall (fun r => Forall (fun f => 0 <= f <= 1) (snd r)) w ->
  0 <= n_trapped (mkManager k traps w) w <= Rsum (dens traps).
Proof.
  intros Hk Hd Hw Hv Hf.
  assert (E : n_trapped (mkManager k traps w) w = trapped (dens traps) w) by (destruct k; try congruence; apply cy_n_trapped_eq).
  rewrite E. clear E.
  assert (Hd' : Forall (fun d => 0 <= d) (dens traps)) by (apply Forall_map; exact Hd).
  pose proof (Rsum_nonneg _ Hd') as HS.
  assert (H : 0 <= trapped (dens traps) w <= volume w * Rsum (dens traps)).
  { clear Hv. induction w as [|r w IH]; [rewrite volume_nil, trapped_nil; lra|].
    inversion Hw; subst. inversion Hf; subst. specialize (IH H2 H4).
    rewrite trapped_cons, volume_cons. unfold row_trapped.
    pose proof (volume_nonneg_row (snd r) (dens traps) H3 Hd'). nra. }
  nra.
Qed.

(** ** C10: splitting. *)
Lemma wf_levels n w live0 free : well_formed n w live0 free ->
  exists l, w = l ++ Zs n free /\ length l = live0 /\ good n l /\ volume l <= 1.
Proof.
  intros [(l & E & L & G) V]. exists l. split; [exact E|]. split; [auto|]. split; [auto|].
  rewrite E, volume_app in V. fold (zrow n) (Zs n free) in V. rewrite volume_Zs in V. lra.
Qed.
Lemma levels_wf n l free : good n l -> volume l <= 1 -> well_formed n (l ++ Zs n free) (length l) free.
Proof.
  intros G V. split; [exists l; auto|]. rewrite volume_app, volume_Zs. lra.
Qed.

Lemma good_cut n v l : good n l -> good n (below v l) /\ good n (above v l).
Proof.
  intros G. pose proof (cut_live l v (good_live n l G)) as [L1 L2].
  destruct (cut_vals (fun fs => length fs = n /\ Forall (fun f => 0 <= f <= 1) fs) l v) as [V1 V2].
  { eapply Forall_impl; [|exact G]. intros r (_ & a & b). auto. }
  split; apply Forall_forall; intros r Hr; (rewrite Forall_forall in *; unfold live in *; rewrite Forall_forall in *).
  - specialize (V1 r Hr). specialize (L1 r Hr). split; [auto|apply V1].
  - specialize (V2 r Hr). specialize (L2 r Hr). split; [auto|apply V2].
Qed.

Lemma split_spec n w wi live0 free v : well_formed n w live0 (S free) -> well_formed n wi live0 (S free) ->
  map fst w = map fst wi -> 0 < v <= volume w ->
  let mx := max_watermark_index w in
  let idx := index_above_cloud v w mx in
  exists w' wi' live' free',
    slow_split w wi v idx mx = Ok (w', wi', (Z.of_nat live' - 1)%Z) /\
    well_formed n w' live' free' /\ well_formed n wi' live' free' /\
    map fst w' = map fst wi' /\
    (live' <= S live0)%nat /\ (live' + free' = live0 + S free)%nat /\
    volume (firstn (Z.to_nat (idx + 1)) w') = v /\
    (forall s x, 0 <= x -> occupancy w' s x = occupancy w s x /\ occupancy wi' s x = occupancy wi s x) /\
    (forall ds, cy_n_trapped w' ds = cy_n_trapped w ds /\ cy_n_trapped wi' ds = cy_n_trapped wi ds).
Proof.
  intros Hw Hwi Hf Hv.
  apply wf_levels in Hw as (l & -> & Ll & G & V). apply wf_levels in Hwi as (li & -> & Lli & Gi & Vi).
  cbn zeta. rewrite volume_app, volume_Zs, Rplus_0_r in Hv.
  assert (Hf' : map fst l = map fst li).
  { rewrite !map_app in Hf. now apply app_inv_tail in Hf. }
  rewrite (max_index_Zs l n free (good_live n l G)).
  destruct (slow_split_cut l li n free v (Z.of_nat (length l) - 1) (good_live n l G) Hf' Hv) as (k' & E & Ei & Ek).
  cbn zeta in *. rewrite E, Ei, Nat2Z.id.
  destruct (good_cut n v l G) as [GB GA]. destruct (good_cut n v li Gi) as [GBi GAi].
  pose proof (cut_volume l v (good_live n l G) ltac:(lra)) as [VB VA].
  pose proof (cut_volume li v (good_live n li Gi) ltac:(rewrite <- (fst_volume l li Hf'); lra)) as [VBi VAi].
  pose proof (cut_same l li v Hf') as [S1 S2].
  pose proof (cut_length l v) as CL.
  assert (LE : (length (below v li) = length (below v l) /\ length (above v li) = length (above v l))%nat).
  { split; [apply (f_equal (@length R)) in S1; rewrite !map_length in S1; auto|apply (f_equal (@length R)) in S2; rewrite !map_length in S2; auto]. }
  exists (below v l ++ above v l ++ Zs n k'), (below v li ++ above v li ++ Zs n k'), (length (below v l) + length (above v l))%nat, k'.
  split; [do 2 f_equal; lia|].
  split. { rewrite app_assoc. rewrite <- app_length. apply levels_wf; [now apply good_app|]. rewrite volume_app; lra. }
  split. { rewrite app_assoc. rewrite <- (proj1 LE), <- (proj2 LE), <- app_length. apply levels_wf; [now apply good_app|]. rewrite volume_app. lra. }
  split. { rewrite !map_app. now rewrite S1, S2. }
  split; [lia|]. split; [lia|].
  split; [rewrite firstn_app_exact; auto|].
  split.
  - intros s x Hx. rewrite !app_assoc, !occupancy_app_Zs; auto;
      try (apply live_nonneg, (good_live n); auto; apply good_app; auto).
    rewrite !cut_occ by (auto; apply (good_live n); auto). auto.
  - intros ds. rewrite !cy_n_trapped_eq, !trapped_app, !trapped_Zs. 
    pose proof (cut_trapped ds l v). pose proof (cut_trapped ds li v). lra.
Qed.

(** ** C11: collapsing. *)
Lemma collapse_spec n w wi live0 free : (0 < n)%nat -> well_formed n w live0 (S free) -> well_formed n wi live0 (S free) ->
  map fst w = map fst wi ->
  exists w' wi' live' free' d,
    collapse 1 n w = w' /\ collapse_with_copy 1 n w wi = Ok (w', wi') /\
    well_formed n w' live' free' /\ well_formed n wi' live' free' /\
    (live' <= live0)%nat /\ (live' + free' = live0 + S free)%nat /\ map fst w' = map fst wi' /\
    volume w' = volume w /\
    (forall ds, length ds = n -> cy_n_trapped w' ds = cy_n_trapped w ds /\ cy_n_trapped wi' ds = cy_n_trapped wi ds) /\
    (forall s x, (s < n)%nat -> 0 <= x -> occupancy w' s x = occupancy w s x) /\
    0 <= d /\ (forall s x, (s < n)%nat -> 0 <= x < d -> occupancy w s x = 1) /\
    (forall s x, (s < n)%nat -> d <= x -> occupancy wi' s x = occupancy wi s x) /\
    (forall s x, (s < n)%nat -> 0 <= x < d -> occupancy wi' s x = RInt (occupancy wi s) 0 d / d).
Proof.
  intros Hn Hw Hwi Hf.
  apply wf_levels in Hw as (l & -> & Ll & G & V). apply wf_levels in Hwi as (li & -> & Lli & Gi & Vi).
  assert (Hf' : map fst l = map fst li).
  { rewrite !map_app in Hf. now apply app_inv_tail in Hf. }
  destruct (collapse_with_copy_sound n l li free Hn G (good_width n li Gi) Hf')
    as (l' & li' & k' & d & E & G' & [W' Gi'] & F' & L1 & L2 & V1 & V2 & T & O & Hd & D1 & D2 & D3).
  exists (l' ++ Zs n (S k')), (li' ++ Zs n (S k')), (length l'), (S k'), d.
  split.
  { unfold collapse_with_copy in E. unfold collapse.
    destruct (Nat.leb _ 1); [congruence|]. destruct (if neqb _ _ then _ else _); cbn [bind] in E; [congruence|discriminate]. }
  split; [exact E|].
  split; [apply levels_wf; [auto|lra]|].
  assert (NN : nonneg l) by (apply live_nonneg, (good_live n); auto).
  assert (NN' : nonneg l') by (apply live_nonneg, (good_live n); auto).
  assert (Lv' : live li') by (apply (fst_live l'); [auto|apply (good_live n); auto]).
  assert (NNi : nonneg li) by (apply live_nonneg, (good_live n); auto).
  assert (NNi' : nonneg li') by (apply live_nonneg; auto).
  split.
  { replace (length l') with (length li') by (apply (f_equal (@length R)) in F'; rewrite !map_length in F'; auto).
    apply levels_wf; [auto|lra]. }
  split; [lia|]. split; [lia|].
  split; [rewrite !map_app; now rewrite F'|].
  split; [rewrite !volume_app, !volume_Zs; lra|].
  split. { intros ds Hds. rewrite !cy_n_trapped_eq, !trapped_app, !trapped_Zs. destruct (T ds Hds); lra. }
  split. { intros s x Hs Hx. rewrite !occupancy_app_Zs by auto. auto. }
  split; [auto|].
  split. { intros s x Hs Hx. rewrite !occupancy_app_Zs by (auto; lra). auto. }
  split. { intros s x Hs Hx. rewrite !occupancy_app_Zs by (auto; lra). auto. }
  { intros s x Hs Hx. rewrite !occupancy_app_Zs by (auto; lra). rewrite D3 by auto. f_equal.
    apply RInt_ext. rewrite Rmin_left, Rmax_right by lra. intros y Hy.
    rewrite !occupancy_app_Zs by (auto; lra). reflexivity. }
Qed.

(** ** C12: the level above the cloud. *)
Lemma locate_nonneg w cloud : nonneg w -> 0 < cloud <= volume w ->
  exists a r b, w = a ++ r :: b /\ volume a < cloud <= volume a + fst r.
Proof.
  intros Hw. revert cloud. induction Hw as [|r w Hr Hw IH]; intros cloud Hc; [rewrite volume_nil in Hc; lra|].
  rewrite volume_cons in Hc. destruct (Rle_dec cloud (fst r)).
  - exists [], r, w. rewrite volume_nil. split; [reflexivity|lra].
  - destruct (IH (cloud - fst r)) as (a & q & b & -> & H); [lra|].
    exists (r :: a), q, b. rewrite volume_cons. split; [reflexivity|lra].
Qed.

Lemma index_spec w cloud mx : nonneg w -> 0 <= cloud ->
  let i := index_above_cloud cloud w mx in
  (cloud = 0 -> i = (-1)%Z) /\
  (volume w < cloud -> i = (mx + 1)%Z) /\
  (0 < cloud <= volume w -> (0 <= i < Z.of_nat (length w))%Z /\
     volume (firstn (Z.to_nat i) w) < cloud <= volume (firstn (S (Z.to_nat i)) w)).
Proof.
  intros Hw Hc i. split; [|split].
  - intros ->. apply index_above_zero.
  - intros H. apply index_above_none; auto. pose proof (nonneg_volume w Hw). lra.
  - intros H. destruct (locate_nonneg w cloud Hw H) as (a & r & b & E & H2). subst i.
    unfold nonneg in Hw. rewrite E in Hw |- *.
    apply Forall_app in Hw as [Ha Hb]. inversion Hb; subst.
    rewrite index_above_at by (auto; lra). rewrite Nat2Z.id, app_length. cbn [length].
    split; [lia|]. rewrite firstn_app_exact. 
    replace (S (length a)) with (length (a ++ [r])) by (rewrite app_length; cbn; lia).
    replace (a ++ r :: b) with ((a ++ [r]) ++ b) by (rewrite <- app_assoc; reflexivity).
    rewrite firstn_app_exact, volume_snoc. exact H2.
Qed.
