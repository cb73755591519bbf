(** * Bounds for the effect of a trap species on ellipticities. *)
From Coq Require Import Reals Lra Ratan.
From Verif Require Import TrapsModel EllipticityModel.
Open Scope R_scope.

Lemma PI_near : 3141 / 1000 < PI < 3142 / 1000.
Proof.
  pose proof (PI_2_3_7_ineq 3) as [H G]. revert H G. unfold PI_2_3_7_tg. cbn [sum_f_R0 Nat.add Nat.mul plus mult].
  unfold tg_alt, Ratan_seq. cbn. intros H G. split; lra.
Qed.
Lemma ellipticity_bounds (t : trap R) : 0 < t_density t ->
  t_density t * (5 / 10000) < delta_ellipticity t < t_density t * (2051 / 10000).
Proof.
  intros Hd. unfold delta_ellipticity. set (x := (ln _ - _) / _). set (y := _ / (2 * _ ^ 2)).
  pose proof (atan_bound x) as [A1 A2]. pose proof PI_near as [P1 P2].
  assert (E1 : 0 < exp y) by apply exp_pos.
  assert (E2 : exp y <= 1).
  { rewrite <- exp_0. assert (Hy : y <= 0).
    { unfold y, Rdiv. rewrite <- (Rmult_0_l (/ (2 * (4132 / 10000) ^ 2))). apply Rmult_le_compat_r; [left; apply Rinv_0_lt_compat; lra|].
      match goal with |- - ?a <= 0 => assert (0 <= a) by apply pow2_ge_0; lra end. }
    destruct Hy as [Hy|Hy]; [left; apply exp_increasing; exact Hy|right; now rewrite Hy]. }
  split; apply Rmult_lt_compat_l; try exact Hd; lra.
Qed.
(** Timescales far beyond the sigmoid: no smaller an effect than at the centre. *)
Lemma ellipticity_slow (t : trap R) : 0 < t_density t -> exp (1628 / 1000) <= t_release_timescale t ->
  t_density t * (5333 / 100000) < delta_ellipticity t.
Proof.
  intros Hd Ht. unfold delta_ellipticity. set (y := _ / (2 * _ ^ 2)). pose proof (exp_pos y).
  assert (L : 1628 / 1000 <= ln (t_release_timescale t)).
  { rewrite <- (ln_exp (1628 / 1000)). destruct Ht as [Ht|Ht]; [left; apply ln_increasing; [apply exp_pos|exact Ht]|right; now rewrite Ht]. }
  assert (A : 0 <= atan ((ln (t_release_timescale t) - 1628 / 1000) / (2951 / 10000))).
  { rewrite <- atan_0. set (z := (ln _ - _) / _). assert (Hz : 0 <= z) by (unfold z; apply Rmult_le_pos; [lra|left; apply Rinv_0_lt_compat; lra]).
    destruct Hz as [Hz|Hz]; [left; now apply atan_increasing|right; now rewrite <- Hz]. }
  apply Rmult_lt_compat_l; [exact Hd|]. lra.
Qed.
(** ** The most harmful lifetimes *)
Lemma atan_ge q : 0 < q -> q / (1 + q ^ 2) <= atan q.
Proof.
  intros Hq. destruct (MVT_cor2 atan (fun x => / (1 + x ^ 2)) 0 q Hq (fun c _ => derivable_pt_lim_atan c)) as (c & E & Hc).
  rewrite atan_0, !Rminus_0_r in E. rewrite E. unfold Rdiv. rewrite Rmult_comm. apply Rmult_le_compat_r; [lra|]. apply Rinv_le_contravar; nra.
Qed.
Lemma exp_small y : 0 <= y -> exp (- y) <= / (1 + y / 8) ^ 8.
Proof.
  intros Hy. rewrite exp_Ropp. apply Rinv_le_contravar; [apply pow_lt; lra|]. replace y with (y / 8 + y / 8 + y / 8 + y / 8 + y / 8 + y / 8 + y / 8 + y / 8) at 2 by field.
  rewrite !exp_plus. pose proof (exp_ineq1_le (y / 8)). replace (exp (y / 8) * exp (y / 8) * exp (y / 8) * exp (y / 8) * exp (y / 8) * exp (y / 8) * exp (y / 8) * exp (y / 8)) with (exp (y / 8) ^ 8) by ring.
  apply pow_incr. lra.
Qed.
Lemma atan_le x y : x <= y -> atan x <= atan y.
Proof. intros [H|H]; [left; now apply atan_increasing|right; now rewrite H]. Qed.
Lemma exp_mono x y : x <= y -> exp x <= exp y.
Proof. intros [H|H]; [left; now apply exp_increasing|right; now rewrite H]. Qed.
Lemma ellipticity_worst (t u : trap R) : 0 < t_density t -> t_density u = t_density t -> t_release_timescale t = exp (4553 / 10000) ->
  (0 < t_release_timescale u <= 1 \/ exp 2 <= t_release_timescale u) -> delta_ellipticity u < delta_ellipticity t.
Proof.
  intros Hd Eu Et Hu. unfold delta_ellipticity. rewrite Eu, Et, ln_exp. apply Rmult_lt_compat_l; [exact Hd|].
  set (L := ln (t_release_timescale u)). pose proof PI_near as [P1 P2].
  assert (A : - (134115 / 100000) <= atan ((4553 / 10000 - 1628 / 1000) / (2951 / 10000))).
  { replace ((4553 / 10000 - 1628 / 1000) / (2951 / 10000)) with (- / (2951 / 11727)) by field. rewrite atan_opp, atan_inv by lra.
    pose proof (atan_ge (2951 / 11727) ltac:(lra)) as Q. replace (2951 / 11727 / (1 + (2951 / 11727) ^ 2)) with (2951 * 11727 / (11727 ^ 2 + 2951 ^ 2)) in Q by field. lra. }
  replace (- (4553 / 10000 - 4553 / 10000) ^ 2 / (2 * (4132 / 10000) ^ 2)) with 0 by field. rewrite exp_0.
  set (bump := exp (- (L - 4553 / 10000) ^ 2 / (2 * (4132 / 10000) ^ 2))).
  destruct Hu as [[H0 Hu]|Hu].
  - assert (HL : L <= 0) by (unfold L; rewrite <- ln_1; destruct Hu as [Hu|Hu]; [left; now apply ln_increasing|right; now rewrite Hu]).
    assert (B : atan ((L - 1628 / 1000) / (2951 / 10000)) <= - (PI / 4)).
    { rewrite <- atan_1, <- atan_opp. apply atan_le. apply Rmult_le_reg_r with (2951 / 10000); [lra|]. unfold Rdiv at 1. rewrite Rmult_assoc, Rinv_l by lra. lra. }
    assert (C : bump <= 65 / 100).
    { apply Rle_trans with (exp (- (6 / 10))).
      - apply exp_mono. unfold Rdiv at 1. apply Rmult_le_reg_r with (2 * (4132 / 10000) ^ 2); [lra|]. rewrite Rmult_assoc, Rinv_l by lra. nra.
      - apply Rle_trans with (/ (1 + 6 / 10 / 8) ^ 8); [apply exp_small; lra|lra]. }
    lra.
  - assert (HL : 2 <= L) by (unfold L; rewrite <- (ln_exp 2); destruct Hu as [Hu|Hu]; [left; apply ln_increasing; [apply exp_pos|exact Hu]|right; now rewrite Hu]).
    pose proof (atan_bound ((L - 1628 / 1000) / (2951 / 10000))) as [_ B].
    assert (C : bump <= 7 / 1000).
    { apply Rle_trans with (exp (- (698 / 100))).
      - apply exp_mono. unfold Rdiv at 1. apply Rmult_le_reg_r with (2 * (4132 / 10000) ^ 2); [lra|]. rewrite Rmult_assoc, Rinv_l by lra. nra.
      - apply Rle_trans with (/ (1 + 698 / 100 / 8) ^ 8); [apply exp_small; lra|lra]. }
    lra.
Qed.
