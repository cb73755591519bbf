(** * The HST ACS model on frames of a few thousand electrons. *)
From Coq Require Import ZArith List Bool Reals Lra Lia Sorted.
From Verif Require Import Num Py RFacts CCDModel TrapsModel ManagerModel ROEModel ClockModel MainModel Spec SpecROE SpecImage SpecReadout SpecColumn SpecBound SpecRecovery SpecPhases SpecWork SpecWindowOrder SpecAbove SpecHST SpecHSTImage SpecHSTFrame SpecSharp
  ROEExpressFacts HSTFacts DepthFacts AboveFacts Properties_Hst.
Import ListNotations.
Open Scope R_scope.

Lemma ln_power x n : 0 < x -> ln (x ^ n) = INR n * ln x.
Proof. intros Hx. rewrite <- (Rpower_pow n x Hx). unfold Rpower. apply ln_exp. Qed.
Lemma power_at_most x y : 0 < x <= 1 -> 0 < y -> x ^ 10 <= y ^ 21 -> Rpower x 0.478 <= y.
Proof.
  intros Hx Hy H. assert (L0 : ln x <= 0) by (destruct (proj2 Hx) as [h| ->]; [left; rewrite <- ln_1; apply ln_increasing; lra|rewrite ln_1; lra]).
  assert (L1 : INR 10 * ln x <= INR 21 * ln y).
  { rewrite <- !ln_power by lra. destruct H as [h|h]; [left; apply ln_increasing; [apply pow_lt; lra|exact h]|rewrite h; lra]. }
  replace (INR 10) with 10 in L1 by (cbn; lra). replace (INR 21) with 21 in L1 by (cbn; lra).
  rewrite <- (exp_ln y Hy). unfold Rpower. assert (L : 0.478 * ln x <= ln y) by lra. destruct L as [L| ->]; [left; now apply exp_increasing|lra].
Qed.
Lemma hst_depth n y : 0 < n <= 84700 -> 0 < y -> (n / 84700) ^ 10 <= y ^ 21 -> 0 <= depth 84700 0.478 n <= y.
Proof.
  intros Hn Hy H. split; [apply depth_range; lra|]. unfold depth. destruct (Rle_dec n 0); [lra|]. assert (n / 84700 <= 1) by lra. rewrite Rmin_right by exact H0. apply power_at_most; [lra|exact Hy|exact H].
Qed.
Lemma emptied_most t : 0 < t -> 1 - exp (- (1) / t) <= 1 / t.
Proof. intros Ht. pose proof (exp_ineq1_le (- (1) / t)). replace (- (1) / t) with (- (1 / t)) in * by (field; lra). lra. Qed.
Lemma traps_by_2018 date : launch <= date <= start_of_2018 -> 0 < traps_on date <= 3.0201.
Proof. intros [H1 H2]. split; [now apply total_pos|]. unfold traps_on, start_of_2018, launch, repair in *. destruct (Rlt_dec _ _); lra. Qed.

Section Frame.
Context (date : R) (rows cols express offset : nat).
Hypothesis Hdate : launch <= date <= start_of_2018.
Hypothesis Hrows : (0 < rows)%nat.
Hypothesis Hcols : (0 < cols)%nat.
Hypothesis Hexpress : express <> 1%nat /\ (express = 0%nat \/ S express <> rows).
Hypothesis Hall : INR (rows + offset) <= acs_rows.
Context (traps : list (trap R)) (c : ccd R) (r : roe R).
Hypothesis Hmodel : model_for_HST_ACS date = Ok (traps, c, r).
Let d := hst_direction traps c r express offset.
Lemma frame_pass : INR (rows + offset) / INR (passes_for (rows + offset) express) <= 1024.
Proof.
  unfold acs_rows in Hall. pose proof (pos_INR (rows + offset)) as P0. destruct Hexpress as [H1 _]. assert (N1 : 1 <= INR (rows + offset)) by (apply (le_INR 1); lia).
  assert (K : INR (rows + offset) <= 1024 * INR (passes_for (rows + offset) express)).
  { unfold passes_for. destruct (Nat.eqb_spec express 0); [lra|]. destruct (Nat.min_spec express (rows + offset)) as [[_ ->]|[_ ->]]; [|lra].
    assert (2 <= INR express) by (apply (le_INR 2); lia). lra. }
  assert (0 < INR (passes_for (rows + offset) express)) by lra.
  apply (Rmult_le_reg_r (INR (passes_for (rows + offset) express))); [assumption|]. unfold Rdiv. rewrite Rmult_assoc, Rinv_l by lra. lra.
Qed.
Lemma hst_narrow : narrow d rows 200 4900 0.78 0.19.
Proof.
  destruct (hst_facts date rows cols express offset (proj1 Hdate) Hrows Hcols (proj2 Hexpress) traps c r Hmodel) as (Ec & Et & Hset). fold d in Hset. pose proof (traps_by_2018 date Hdate) as HT.
  split; [reflexivity|lra|]. exists c, (TFlat traps), 1, DFloat, traps, 84700, 0.478. rewrite Ec.
  assert (T : SpecRecovery.traps_per_pixel (map (thinned (share hst_ccd 0)) traps) = traps_on date).
  { rewrite <- Et. unfold SpecRecovery.traps_per_pixel. f_equal. rewrite map_map. apply map_ext. intros t. unfold thinned, share. cbn. lra. }
  assert (E : traps_emptied 1 (map (thinned (share hst_ccd 0)) traps) <= 0.2382 * traps_on date).
  { destruct (hst_since date (proj1 Hdate)) as (d1 & d2 & d3 & x1 & x2 & x3 & E' & P1 & P2 & P3 & PS & R1 & R2 & T1 & T2 & N1 & N2). rewrite Hmodel in E'. injection E' as -> _ _.
    assert (B : 7.7 <= x2 /\ 37 <= x3).
    { destruct (Rlt_dec date cooling) as [h|h]; [specialize (N2 h); lra|]. specialize (N1 ltac:(lra)). unfold release_times_now in N1. injection N1 as -> -> ->. lra. }
    unfold traps_emptied. cbn [map thinned hst_trap share hst_ccd ccd_fractions nth t_density t_release_timescale]. cbn [Rsum fold_right]. rewrite !Rmult_1_r.
    pose proof (exp_pos (- (1) / x1)) as Q1. pose proof (emptied_most x2 ltac:(lra)) as Q2. pose proof (emptied_most x3 ltac:(lra)) as Q3.
    assert (I2 : 1 / x2 <= 1 / 7.7) by (unfold Rdiv; apply Rmult_le_compat_l; [lra|]; apply Rinv_le_contravar; lra). assert (I3 : 1 / x3 <= 1 / 37) by (unfold Rdiv; apply Rmult_le_compat_l; [lra|]; apply Rinv_le_contravar; lra).
    assert (A1 : d1 * (1 - exp (- (1) / x1)) <= d1 * 1) by (apply Rmult_le_compat_l; lra).
    assert (A2 : d2 * (1 - exp (- (1) / x2)) <= d2 * (1 / 7.7)) by (apply Rmult_le_compat_l; lra).
    assert (A3 : d3 * (1 - exp (- (1) / x3)) <= d3 * (1 / 37)) by (apply Rmult_le_compat_l; lra).
    rewrite <- PS. lra. }
  assert (E0 : 0 <= traps_emptied 1 (map (thinned (share hst_ccd 0)) traps)).
  { destruct (hst_since date (proj1 Hdate)) as (d1 & d2 & d3 & x1 & x2 & x3 & E' & P1 & P2 & P3 & PS & _ & _ & T1 & T2 & _). rewrite Hmodel in E'. injection E' as -> _ _.
    unfold traps_emptied. cbn [map thinned hst_trap share hst_ccd ccd_fractions nth t_density t_release_timescale]. cbn [Rsum fold_right]. rewrite !Rmult_1_r.
    assert (Q : forall t, 0 < t -> 0 <= 1 - exp (- (1) / t)).
    { intros t Ht. assert (exp (- (1) / t) < exp 0) by (apply exp_increasing; replace (- (1) / t) with (- (/ t)) by (field; lra); pose proof (Rinv_0_lt_compat t Ht); lra). rewrite exp_0 in H. lra. }
    pose proof (Rmult_le_pos d1 _ (Rlt_le _ _ P1) (Q x1 ltac:(lra))). pose proof (Rmult_le_pos d2 _ (Rlt_le _ _ P2) (Q x2 ltac:(lra))). pose proof (Rmult_le_pos d3 _ (Rlt_le _ _ P3) (Q x3 ltac:(lra))). lra. }
  cbv zeta. rewrite T. rewrite Ec in Hset. split; [exact Hset|]. split; [lra|]. split; [reflexivity|]. split; [reflexivity|]. split; [repeat split|]. split; [lra|].
  split.
  - intros x Hx. change (x = INR (rows + offset) / INR (passes_for (rows + offset) express)) in Hx. pose proof frame_pass as X. rewrite <- Hx in X.
    assert (D : 0 <= depth 84700 0.478 200 <= 0.0562) by (apply hst_depth; lra).
    assert (X0 : 0 <= x).
    { rewrite Hx. apply Rmult_le_pos; [apply pos_INR|]. destruct (Nat.eq_dec (passes_for (rows + offset) express) 0) as [Z|Z]; [rewrite Z; cbn; rewrite Rinv_0; lra|]. left. apply Rinv_0_lt_compat. apply lt_0_INR. lia. }
    assert (x * traps_on date <= 1024 * 3.0201) by (apply Rmult_le_compat; lra). assert (0 <= x * traps_on date) by (apply Rmult_le_pos; lra).
    assert (x * traps_on date * depth 84700 0.478 200 <= 1024 * 3.0201 * 0.0562) by (apply Rmult_le_compat; lra). lra.
  - assert (D : 0 <= depth 84700 0.478 (4900 + traps_on date) <= 0.2576).
    { apply hst_depth; [lra|lra|]. apply Rle_trans with ((4903.1 / 84700) ^ 10); [apply pow_incr; lra|lra]. }
    assert (traps_on date * depth 84700 0.478 (4900 + traps_on date) <= 3.0201 * 0.2576) by (apply Rmult_le_compat; lra).
    assert (traps_emptied 1 (map (thinned (share hst_ccd 0)) traps) * depth 84700 0.478 (4900 + traps_on date) <= (0.2382 * 3.0201) * 0.2576) by (apply Rmult_le_compat; lra).
    lra.
Qed.
End Frame.
