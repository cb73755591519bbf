(** * How fast the depth of a cloud grows with the number of electrons. *)
From Coq Require Import ZArith List Bool Reals Lra Lia.
From Verif Require Import Num Py RFacts CCDModel TrapsModel ManagerModel Spec SpecReadout SpecRecovery ReadoutImage.
Import ListNotations.
Open Scope R_scope.

Definition share_of (full n : R) : R := Rmin 1 (n / full).
Lemma depth_pos full beta n : 0 < n -> depth full beta n = Rpower (share_of full n) beta.
Proof. intros H. unfold depth. destruct (Rle_dec n 0); [lra|reflexivity]. Qed.
Lemma share_range full n : 0 < full -> 0 < n -> 0 < share_of full n <= 1.
Proof. intros Hf Hn. unfold share_of. pose proof (Rdiv_lt_0_compat n full Hn Hf). split; [apply Rmin_glb_lt; lra|apply Rmin_l]. Qed.
Lemma share_grows full a b : 0 < full -> 0 < a <= b -> share_of full a <= share_of full b.
Proof. intros Hf Hab. unfold share_of. apply Rle_min_compat_l. apply Rmult_le_compat_r; [left; apply Rinv_0_lt_compat, Hf|lra]. Qed.
Lemma power_between beta x y : 0 < beta -> 0 < x <= y -> y <= 1 ->
  exists c, x <= c <= y /\ Rpower y beta - Rpower x beta = beta * Rpower c (beta - 1) * (y - x).
Proof.
  intros Hb Hx Hy. destruct (Req_dec x y) as [->|Hne]; [exists y; split; [lra|]; lra|].
  destruct (MVT_cor2 (fun t => Rpower t beta) (fun t => beta * Rpower t (beta - 1)) x y) as (c & E & Hc); [lra| |].
  - intros c Hc. apply derivable_pt_lim_power. lra.
  - exists c. split; [lra|exact E].
Qed.
Lemma power_le_1 c e : 0 < c <= 1 -> 0 <= e -> Rpower c e <= 1.
Proof. intros Hc He. apply Rpower_le_1; lra. Qed.
Lemma depth_grows full beta a b : 0 < full -> 0 < beta -> 0 <= a <= b -> depth full beta a <= depth full beta b.
Proof.
  intros Hf Hb Hab. destruct (Req_dec a 0) as [->|Ha].
  - unfold depth at 1. destruct (Rle_dec 0 0); [|lra]. unfold depth. destruct (Rle_dec b 0); [lra|left; apply exp_pos].
  - rewrite !depth_pos by lra. apply Rle_Rpower_l; [lra|]. split; [apply share_range; lra|apply share_grows; lra].
Qed.
Lemma depth_slope_floor full beta floor a b : 0 < full -> 0 < beta -> 0 < floor -> floor <= a <= b ->
  depth full beta b - depth full beta a <= beta / floor * (b - a).
Proof.
  intros Hf Hb Hfl Hab. rewrite !depth_pos by lra.
  pose proof (share_range full a Hf ltac:(lra)) as Ra. pose proof (share_range full b Hf ltac:(lra)) as Rb. pose proof (share_grows full a b Hf ltac:(lra)) as G.
  destruct (power_between beta (share_of full a) (share_of full b) Hb ltac:(lra) ltac:(lra)) as (c & Hc & ->).
  assert (Hpc : Rpower c (beta - 1) <= / share_of full a).
  { unfold Rminus. rewrite Rpower_plus, Rpower_Ropp, Rpower_1 by lra.
    pose proof (power_le_1 c beta ltac:(lra) ltac:(lra)). assert (/ c <= / share_of full a) by (apply Rinv_le_contravar; lra).
    assert (0 < / c) by (apply Rinv_0_lt_compat; lra). pose proof (exp_pos (beta * ln c)) as E. change (0 < Rpower c beta) in E. nra. }
  assert (Hq : / share_of full a * (share_of full b - share_of full a) <= / floor * (b - a)).
  { unfold share_of in *. destruct (Rle_dec full a) as [Hfa|Hfa].
    - assert (1 <= a / full) by (apply (Rmult_le_reg_r full); [lra|]; unfold Rdiv; rewrite Rmult_assoc, Rinv_l; lra).
      assert (E : Rmin 1 (a / full) = 1) by (rewrite Rmin_left; lra). rewrite E in *. assert (Rmin 1 (b / full) = 1) as -> by lra.
      rewrite Rminus_eq_0, Rmult_0_r. apply Rmult_le_pos; [left; apply Rinv_0_lt_compat; lra|lra].
    - assert (E : Rmin 1 (a / full) = a / full).
      { apply Rmin_right. apply (Rmult_le_reg_r full); [lra|]. unfold Rdiv. rewrite Rmult_assoc, Rinv_l; lra. }
      rewrite E in *. pose proof (Rmin_r 1 (b / full)).
      assert (0 < / (a / full)) by (apply Rinv_0_lt_compat; lra).
      apply Rle_trans with (/ (a / full) * (b / full - a / full)); [apply Rmult_le_compat_l; lra|].
      replace (/ (a / full) * (b / full - a / full)) with (/ a * (b - a)) by (field; lra).
      apply Rmult_le_compat_r; [lra|]. apply Rinv_le_contravar; lra. }
  assert (0 <= share_of full b - share_of full a) by lra.
  replace (beta / floor * (b - a)) with (beta * (/ floor * (b - a))) by (field; lra).
  rewrite Rmult_assoc. apply Rmult_le_compat_l; [lra|]. eapply Rle_trans; [|exact Hq]. apply Rmult_le_compat_r; lra.
Qed.
Lemma depth_slope full beta a b : 0 < full -> 1 <= beta -> 0 <= a <= b -> depth full beta b - depth full beta a <= beta / full * (b - a).
Proof.
  intros Hf Hb Hab.
  assert (Sh : forall x y, 0 <= x <= y -> share_of full y - share_of full x <= (y - x) / full).
  { intros x y Hxy. unfold share_of. replace ((y - x) / full) with (y / full - x / full) by (field; lra).
    assert (x / full <= y / full) by (apply Rmult_le_compat_r; [left; apply Rinv_0_lt_compat, Hf|lra]).
    unfold Rmin. destruct (Rle_dec 1 (y / full)), (Rle_dec 1 (x / full)); lra. }
  assert (Ifull : 0 < / full) by (apply Rinv_0_lt_compat; lra).
  destruct (Req_dec b 0) as [->|Hb0]; [assert (a = 0) as -> by lra; lra|].
  destruct (Req_dec a 0) as [->|Ha].
  - unfold depth at 2. destruct (Rle_dec 0 0); [|lra]. rewrite depth_pos by lra. pose proof (share_range full b Hf ltac:(lra)) as Rb.
    assert (Rpower (share_of full b) beta <= share_of full b).
    { replace beta with (1 + (beta - 1)) by lra. rewrite Rpower_plus, Rpower_1 by lra. pose proof (power_le_1 (share_of full b) (beta - 1) Rb ltac:(lra)). nra. }
    specialize (Sh 0 b ltac:(lra)). unfold share_of in Sh at 2. replace (0 / full) with 0 in Sh by (unfold Rdiv; lra). rewrite (Rmin_right 1 0) in Sh by lra.
    assert (1 * ((b - 0) / full) <= beta * ((b - 0) / full)) by (apply Rmult_le_compat_r; [|lra]; apply Rmult_le_pos; lra).
    replace (beta / full * (b - 0)) with (beta * ((b - 0) / full)) by (field; lra). lra.
  - rewrite !depth_pos by lra. pose proof (share_range full a Hf ltac:(lra)) as Ra. pose proof (share_range full b Hf ltac:(lra)) as Rb. pose proof (share_grows full a b Hf ltac:(lra)) as G.
    destruct (power_between beta (share_of full a) (share_of full b) ltac:(lra) ltac:(lra) ltac:(lra)) as (c & Hc & ->).
    pose proof (power_le_1 c (beta - 1) ltac:(lra) ltac:(lra)). pose proof (exp_pos ((beta - 1) * ln c)) as E. change (0 < Rpower c (beta - 1)) in E.
    specialize (Sh a b ltac:(lra)). replace (beta / full * (b - a)) with (beta * ((b - a) / full)) by (field; lra). rewrite Rmult_assoc. apply Rmult_le_compat_l; [lra|]. nra.
Qed.
Definition slope_of (full beta floor : R) : R := if Req_EM_T floor 0 then beta / full else beta / floor.
Lemma mild_gradual traps full beta floor : 0 < full -> 0 < beta -> 0 <= traps_per_pixel traps -> mild (traps_per_pixel traps) full beta floor ->
  gradual traps (depth full beta) floor (slope_of full beta floor) /\ 0 < 1 - traps_per_pixel traps * slope_of full beta floor.
Proof.
  intros Hf Hb Hr Hm. set (rho := traps_per_pixel traps) in *. unfold slope_of. destruct Hm as [(-> & H1 & H2)|(H0 & H1 & H2)].
  - destruct (Req_EM_T 0 0); [|lra].
    assert (K : rho * (beta / full) < 1) by (apply (Rmult_lt_reg_r full); [lra|]; unfold Rdiv; rewrite !Rmult_assoc, Rinv_l; lra).
    assert (0 < beta / full) by (apply Rdiv_lt_0_compat; lra).
    split; [|lra]. constructor; [lra|lra| |].
    + intros a b Hab. pose proof (depth_grows full beta a b Hf Hb Hab). pose proof (depth_slope full beta a b Hf H1 Hab). lra.
    + intros a Ha. pose proof (depth_slope full beta 0 a Hf H1 ltac:(lra)) as D. assert (E : depth full beta 0 = 0) by (unfold depth; destruct (Rle_dec 0 0); [reflexivity|lra]).
      rewrite E in D. fold rho. assert (rho * depth full beta a <= rho * (beta / full * a)) by (apply Rmult_le_compat_l; lra). nra.
  - destruct (Req_EM_T floor 0); [lra|].
    assert (K : rho * (beta / floor) < 1) by (apply (Rmult_lt_reg_r floor); [lra|]; unfold Rdiv; rewrite !Rmult_assoc, Rinv_l; lra).
    assert (0 < beta / floor) by (apply Rdiv_lt_0_compat; lra).
    split; [|lra]. constructor; [lra|lra| |].
    + intros a b Hab. pose proof (depth_grows full beta a b Hf Hb ltac:(lra)). pose proof (depth_slope_floor full beta floor a b Hf Hb H0 Hab). lra.
    + intros a Ha. destruct (depth_sensitive full beta Hf Hb) as [_ D]. specialize (D a ltac:(lra)). fold rho. nra.
Qed.
