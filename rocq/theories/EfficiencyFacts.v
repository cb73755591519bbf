(** * What is left of a packet that passes many pixels with empty traps. *)
From Coq Require Import List Bool Reals Lra Lia Rfunctions.
From Coquelicot Require Import Rcomplements.
From Verif Require Import RFacts Spec SpecReadout SpecFirst DepthFacts AboveFacts FirstFacts.
Open Scope R_scope.

Section Packet.
Context (rho full beta : R).
Hypothesis Hrho : 0 <= rho.
Hypothesis Hf : 0 < full.
Hypothesis Hb : 0 < beta.
Notation past := (past_empty rho full beta).
Notation pixels := (past_pixels rho full beta).
Lemma past_is a : past a = Rmax 0 (a - rho * depth full beta a).
Proof. unfold past_empty, Rmin, Rmax. repeat destruct Rle_dec; lra. Qed.
Lemma past_0 : past 0 = 0.
Proof. unfold past_empty. rewrite depth_0, Rmult_0_r, Rmin_left by lra. ring. Qed.
Lemma past_pos a : 0 <= past a.
Proof. rewrite past_is. apply Rmax_l. Qed.
Lemma past_le a : 0 <= a -> past a <= a.
Proof. intros Ha. rewrite past_is. apply Rmax_lub; [exact Ha|]. pose proof (depth_range full beta a Hf Hb). pose proof (Rmult_le_pos rho _ Hrho (proj1 H)). lra. Qed.
Lemma pixels_0 n : pixels n 0 = 0.
Proof. induction n as [|n IH]; cbn [past_pixels]; [reflexivity|]. now rewrite past_0. Qed.
Lemma pixels_pos n : forall a, 0 <= a -> 0 <= pixels n a.
Proof. induction n as [|n IH]; intros a Ha; cbn [past_pixels]; [exact Ha|]. apply IH, past_pos. Qed.
Lemma pixels_le n : forall a, 0 <= a -> pixels n a <= a.
Proof. induction n as [|n IH]; intros a Ha; cbn [past_pixels]; [lra|]. eapply Rle_trans; [apply IH, past_pos|now apply past_le]. Qed.
Lemma pixels_last n : forall a, pixels (S n) a = past (pixels n a).
Proof. induction n as [|n IH]; intros a; [reflexivity|]. change (pixels (S (S n)) a) with (pixels (S n) (past a)). rewrite IH. reflexivity. Qed.

(** ** Nothing is left in the end *)
Lemma pixels_bound eps : 0 < eps -> forall n a, 0 <= a -> eps < pixels n a -> pixels n a <= a - INR n * Rmin eps (rho * depth full beta eps).
Proof.
  intros He. induction n as [|n IH]; intros a Ha Hp; [cbn; lra|]. rewrite pixels_last in Hp |- *. pose proof (pixels_pos n a Ha) as Hpos. pose proof (past_le _ Hpos) as Hl.
  assert (B : eps < pixels n a) by lra. specialize (IH a Ha B). rewrite S_INR. set (q := pixels n a) in *. assert (D : Rmin eps (rho * depth full beta eps) <= q - past q); [|lra].
  unfold past_empty. replace (q - (q - Rmin q (rho * depth full beta q))) with (Rmin q (rho * depth full beta q)) by ring.
  apply Rmin_glb; [eapply Rle_trans; [apply Rmin_l|lra]|]. eapply Rle_trans; [apply Rmin_r|]. apply Rmult_le_compat_l; [exact Hrho|]. apply depth_grows; lra.
Qed.
Lemma pixels_vanish a eps : 0 < rho -> 0 <= a -> 0 < eps -> exists N, forall n x, (N <= n)%nat -> 0 <= x <= a -> pixels n x <= eps.
Proof.
  intros Hr Ha He. set (loss := Rmin eps (rho * depth full beta eps)).
  assert (Hloss : 0 < loss). { unfold loss. apply Rmin_glb_lt; [exact He|]. apply Rmult_lt_0_compat; [exact Hr|]. rewrite depth_pos by exact He. apply exp_pos. }
  assert (Hq : 0 <= a / loss) by (apply Rmult_le_pos; [exact Ha|left; now apply Rinv_0_lt_compat]). destruct (nfloor_ex (a / loss) Hq) as [N0 [_ HN]]. rewrite <- S_INR in HN.
  exists (S N0). intros n x Hn Hx. destruct (Rle_dec (pixels n x) eps) as [L|L]; [exact L|exfalso]. apply Rnot_le_lt in L.
  pose proof (pixels_bound eps He n x ltac:(lra) L) as B. fold loss in B. assert (a < INR n * loss); [|lra]. apply Rlt_div_l; [exact Hloss|]. eapply Rlt_le_trans; [exact HN|]. now apply le_INR.
Qed.

(** ** The share that is left *)
Lemma power_order u v e : 0 < u <= v -> e <= 0 -> Rpower v e <= Rpower u e.
Proof.
  intros H He. replace e with (- - e) by ring. rewrite !(Rpower_Ropp _ (- e)). apply Rinv_le_contravar; [apply exp_pos|]. apply Rle_Rpower_l; lra.
Qed.
Lemma depth_share a b : beta <= 1 -> 0 < a <= b -> depth full beta b * a <= depth full beta a * b.
Proof.
  intros H1 Hab. unfold depth. destruct (Rle_dec a 0); [lra|]. destruct (Rle_dec b 0); [lra|].
  set (u := Rmin 1 (a / full)). set (v := Rmin 1 (b / full)).
  assert (A : 0 < a / full) by (apply Rdiv_lt_0_compat; lra). assert (B : a / full <= b / full) by (apply Rmult_le_compat_r; [left; now apply Rinv_0_lt_compat|lra]).
  assert (U : 0 < u) by (apply Rmin_glb_lt; lra). assert (UV : u <= v) by (unfold u, v, Rmin; repeat destruct Rle_dec; lra).
  assert (K : v * a <= u * b).
  { assert (Ea : a = full * (a / full)) by (field; lra). assert (Eb : b = full * (b / full)) by (field; lra). rewrite Ea at 1. rewrite Eb at 1.
    assert (L : v * (a / full) <= u * (b / full)). { unfold u, v, Rmin. repeat destruct Rle_dec; nra. }
    replace (v * (full * (a / full))) with (full * (v * (a / full))) by ring. replace (u * (full * (b / full))) with (full * (u * (b / full))) by ring. apply Rmult_le_compat_l; lra. }
  replace beta with (1 + (beta - 1)) by ring. rewrite !Rpower_plus, !Rpower_1 by lra. pose proof (power_order u v (beta - 1) ltac:(lra) ltac:(lra)) as P. pose proof (exp_pos ((beta - 1) * ln v)) as Q. change (0 < Rpower v (beta - 1)) in Q.
  assert (v * a * Rpower v (beta - 1) <= u * b * Rpower v (beta - 1)) by (apply Rmult_le_compat_r; lra). assert (u * b * Rpower v (beta - 1) <= u * b * Rpower u (beta - 1)) by (apply Rmult_le_compat_l; [apply Rmult_le_pos; lra|exact P]). lra.
Qed.
Lemma past_share a b : beta <= 1 -> 0 < a <= b -> past a * b <= past b * a.
Proof.
  intros H1 Hab. pose proof (depth_share a b H1 Hab) as D. rewrite !past_is. assert (D' : rho * (depth full beta b * a) <= rho * (depth full beta a * b)) by (apply Rmult_le_compat_l; lra).
  destruct (Rle_dec (a - rho * depth full beta a) 0) as [L|L]; [rewrite Rmax_left by lra; rewrite Rmult_0_l; apply Rmult_le_pos; [apply Rmax_l|lra]|].
  rewrite Rmax_right by lra. pose proof (Rmax_r 0 (b - rho * depth full beta b)) as M. assert ((b - rho * depth full beta b) * a <= Rmax 0 (b - rho * depth full beta b) * a) by (apply Rmult_le_compat_r; lra). lra.
Qed.
Lemma pixels_share : beta <= 1 -> forall n a b, 0 <= a <= b -> pixels n a * b <= pixels n b * a.
Proof.
  intros H1. induction n as [|n IH]; intros a b Hab; cbn [past_pixels]; [lra|].
  destruct (Req_dec a 0) as [->|Ha]; [rewrite past_0, pixels_0; lra|]. pose proof (past_share a b H1 ltac:(lra)) as S. pose proof (past_pos a) as Pa. pose proof (past_pos b) as Pb.
  assert (O : past a <= past b). { apply (Rmult_le_reg_r b); [lra|]. eapply Rle_trans; [exact S|]. apply Rmult_le_compat_l; lra. }
  specialize (IH _ _ (conj Pa O)). pose proof (pixels_pos n _ Pa) as Na. pose proof (pixels_pos n _ Pb) as Nb.
  destruct (Req_dec (past b) 0) as [E|E]; [assert (E' : past a = 0) by lra; rewrite E', pixels_0, Rmult_0_l; apply Rmult_le_pos; lra|].
  apply (Rmult_le_reg_r (past b)); [lra|].
  assert (X : pixels n (past a) * past b * b <= pixels n (past b) * past a * b) by (apply Rmult_le_compat_r; lra).
  assert (Y : pixels n (past b) * (past a * b) <= pixels n (past b) * (past b * a)) by (apply Rmult_le_compat_l; lra). lra.
Qed.
Lemma depth_share_steep a b : 1 <= beta -> 0 < a <= b -> b <= full -> depth full beta a * b <= depth full beta b * a.
Proof.
  intros H1 Hab Hbf. unfold depth. destruct (Rle_dec a 0); [lra|]. destruct (Rle_dec b 0); [lra|].
  assert (A : 0 < a / full) by (apply Rdiv_lt_0_compat; lra). assert (B : a / full <= b / full) by (apply Rmult_le_compat_r; [left; now apply Rinv_0_lt_compat|lra]). assert (B1 : b / full <= 1) by (apply Rle_div_l; lra).
  rewrite !Rmin_right by lra. set (u := a / full) in *. set (v := b / full) in *. assert (Ea : a = full * u) by (unfold u; field; lra). assert (Eb : b = full * v) by (unfold v; field; lra). clearbody u v. rewrite Ea, Eb.
  replace beta with (1 + (beta - 1)) by ring. rewrite !Rpower_plus, !Rpower_1 by lra. assert (P : Rpower u (beta - 1) <= Rpower v (beta - 1)) by (apply Rle_Rpower_l; lra).
  assert (u * v * full * Rpower u (beta - 1) <= u * v * full * Rpower v (beta - 1)) by (apply Rmult_le_compat_l; [repeat apply Rmult_le_pos; lra|exact P]). lra.
Qed.
Lemma past_share_steep a b : 1 <= beta -> 0 < a <= b -> b <= full -> past b * a <= past a * b.
Proof.
  intros H1 Hab Hbf. pose proof (depth_share_steep a b H1 Hab Hbf) as D. rewrite !past_is. assert (D' : rho * (depth full beta a * b) <= rho * (depth full beta b * a)) by (apply Rmult_le_compat_l; lra).
  destruct (Rle_dec (b - rho * depth full beta b) 0) as [L|L]; [rewrite (Rmax_left 0 (b - _)) by lra; rewrite Rmult_0_l; apply Rmult_le_pos; [apply Rmax_l|lra]|].
  rewrite (Rmax_right 0 (b - _)) by lra. pose proof (Rmax_r 0 (a - rho * depth full beta a)) as M. assert ((a - rho * depth full beta a) * b <= Rmax 0 (a - rho * depth full beta a) * b) by (apply Rmult_le_compat_r; lra). lra.
Qed.
Lemma pixels_share_steep : 1 <= beta -> rho * beta <= full -> forall n a b, 0 <= a <= b -> b <= full -> pixels n b * a <= pixels n a * b.
Proof.
  intros H1 Hr. induction n as [|n IH]; intros a b Hab Hbf; cbn [past_pixels]; [lra|].
  pose proof (past_pos a) as Pa. pose proof (past_pos b) as Pb. pose proof (pixels_pos n _ Pa) as Na. pose proof (pixels_pos n _ Pb) as Nb.
  destruct (Req_dec a 0) as [->|Ha]; [rewrite Rmult_0_r; apply Rmult_le_pos; lra|]. pose proof (past_share_steep a b H1 ltac:(lra) Hbf) as S.
  assert (O : past a <= past b) by (apply past_empty_grows; lra). pose proof (past_le b ltac:(lra)) as Lb.
  specialize (IH _ _ (conj Pa O) ltac:(lra)).
  destruct (Req_dec (past a) 0) as [E|E].
  - assert (E' : past b = 0). { rewrite E, Rmult_0_l in S. assert (0 <= past b * a) by (apply Rmult_le_pos; lra). assert (Z : past b * a = 0) by lra. apply Rmult_integral in Z. destruct Z; [assumption|lra]. }
    rewrite E, E', pixels_0. lra.
  - apply (Rmult_le_reg_r (past a)); [lra|].
    assert (X : pixels n (past b) * past a * a <= pixels n (past a) * past b * a) by (apply Rmult_le_compat_r; lra).
    assert (Y : pixels n (past a) * (past b * a) <= pixels n (past a) * (past a * b)) by (apply Rmult_le_compat_l; lra). lra.
Qed.
(** ** Full wells *)
Lemma depth_full a : full <= a -> depth full beta a = 1.
Proof.
  intros H. unfold depth. destruct (Rle_dec a 0); [lra|]. rewrite Rmin_left by (apply Rle_div_r; lra). unfold Rpower. rewrite ln_1, Rmult_0_r. apply exp_0.
Qed.
Lemma pixels_full : rho <= full -> forall n a, full + INR n * rho <= a + rho -> pixels n a = a - INR n * rho.
Proof.
  intros Hr. induction n as [|n IH]; intros a Ha; cbn [past_pixels]; [cbn; ring|]. rewrite S_INR in *. pose proof (pos_INR n) as Hn. assert (P0 : 0 <= INR n * rho) by (apply Rmult_le_pos; lra).
  assert (E : past a = a - rho). { unfold past_empty. rewrite depth_full by lra. rewrite Rmin_right by lra. ring. }
  rewrite E. rewrite IH by lra. ring.
Qed.
End Packet.

(** ** Wells that fill evenly *)
Lemma pixels_linear rho full n : 0 <= rho <= full -> 0 < full -> forall a, 0 <= a <= full -> past_pixels rho full 1 n a = a * (1 - rho / full) ^ n.
Proof.
  intros Hr Hf. induction n as [|n IH]; intros a Ha; cbn [past_pixels pow]; [ring|].
  assert (E : past_empty rho full 1 a = a * (1 - rho / full)).
  { rewrite past_empty_gentle by lra. unfold depth. destruct (Rle_dec a 0); [assert (a = 0) by lra; subst a; ring|]. assert (A : 0 < a / full <= 1) by (split; [apply Rdiv_lt_0_compat; lra|apply Rle_div_l; lra]). rewrite Rmin_right, Rpower_1 by lra. field. lra. }
  assert (Q : 0 <= rho / full <= 1) by (split; [apply Rmult_le_pos; [lra|left; now apply Rinv_0_lt_compat]|apply Rle_div_l; lra]).
  rewrite E, IH; [ring|]. split; [apply Rmult_le_pos; lra|]. apply Rle_trans with (a * 1); [apply Rmult_le_compat_l; lra|lra].
Qed.
