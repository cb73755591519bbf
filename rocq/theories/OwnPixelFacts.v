(** * The order in which packets pass the pixels (C117). *)
From Coq Require Import ZArith List Bool Reals Lra Lia.
From Coquelicot Require Import Rcomplements Rbar Hierarchy RInt.
From Verif Require Import Num Py RFacts CCDModel TrapsModel ManagerModel ROEModel ClockModel MainModel Spec SpecImage SpecReadout SpecHistory SpecRecovery SpecFirst SpecOwnPixel
  InstantFacts OrderFacts TameFacts RecoverFacts DepthFacts AboveFacts RecoverImageFacts ReadoutImage FirstFacts.
Import ListNotations.
Open Scope R_scope.

Section Zeros.
Context (traps : list (trap R)) (full beta dwell : R).
Hypothesis Hphys : Forall physical traps.
Hypothesis Hd : 0 <= dwell.
Hypothesis Hf : 0 < full.
Hypothesis Hb : 0 < beta.
Let rho := SpecRecovery.traps_per_pixel traps.
Notation well := (depth full beta).
Notation past := (past_clouds traps well dwell).
Notation through := (through_clouds traps well dwell).

(** Only the traps inside the pixel matter. *)
Definition agree (P Q : profile) : Prop := forall s x, 0 < x < 1 -> P s x = Q s x.
Lemma agree_electrons P Q v : agree P Q -> 0 <= v <= 1 -> electrons traps P 0 v = electrons traps Q 0 v.
Proof. intros H Hv. apply electrons_eq; [lra|]. intros s x _ Hx. apply H. lra. Qed.
Lemma agree_release P Q : agree P Q -> agree (after_release traps dwell P) (after_release traps dwell Q).
Proof. intros H s x Hx. unfold after_release. now rewrite H. Qed.
Lemma agree_past : forall l P Q, agree P Q -> past P l = past Q l.
Proof.
  induction l as [|m l IH]; intros P Q H; cbn [past_clouds]; [reflexivity|].
  pose proof (agree_release P Q H) as HR.
  assert (Ec : cloud traps dwell m P = cloud traps dwell m Q).
  { unfold cloud, released. rewrite (agree_electrons P Q 1 H), (agree_electrons _ _ 1 HR) by lra. reflexivity. }
  pose proof (depth_range full beta (cloud traps dwell m Q) Hf Hb) as Hv.
  assert (Ed : demand traps (well (cloud traps dwell m Q)) (after_release traps dwell P) = demand traps (well (cloud traps dwell m Q)) (after_release traps dwell Q)).
  { unfold demand. apply electrons_eq; [lra|]. intros s x _ Hx. now rewrite HR by lra. }
  f_equal.
  - unfold left_over, captured. now rewrite Ec, Ed.
  - apply IH. intros s x Hx. unfold then_traps, after_capture. rewrite Ec, Ed, HR by exact Hx.
    replace (RInt (after_release traps dwell P s) 0 (well (cloud traps dwell m Q))) with (RInt (after_release traps dwell Q s) 0 (well (cloud traps dwell m Q))); [reflexivity|].
    apply RInt_ext. intros y Hy. rewrite Rmin_left, Rmax_right in Hy by lra. symmetry. apply HR. lra.
Qed.
Lemma void_past P l : void P -> past P l = past empty_profile l.
Proof. intros H. apply agree_past. intros s x Hx. rewrite H by exact Hx. reflexivity. Qed.
(** Empty packets pass empty pixels without effect. *)
Lemma past_zeros i l : past empty_profile (repeat 0 i ++ l) = repeat 0 i ++ past empty_profile l.
Proof.
  induction i as [|i IH]; [reflexivity|]. cbn [repeat app past_clouds].
  rewrite void_left by (auto using void_empty; lra). rewrite past_empty_0 by auto. f_equal.
  rewrite void_past by (apply void_then; auto using void_empty). exact IH.
Qed.
Lemma past_nil : past empty_profile [] = []. Proof. reflexivity. Qed.
Lemma only_zeros i : past empty_profile (repeat 0 i) = repeat 0 i.
Proof. pose proof (past_zeros i []) as H. rewrite past_nil, app_nil_r in H. exact H. Qed.
Lemma through_zeros : forall offset i l, through offset (repeat 0 i ++ l) = repeat 0 i ++ through offset l.
Proof. induction offset as [|o IH]; intros i l; cbn [through_clouds]; [reflexivity|]. now rewrite past_zeros, IH. Qed.
Lemma through_add : forall n m l, through (n + m) l = through m (through n l).
Proof. induction n as [|n IH]; intros m l; cbn [through_clouds Nat.add]; [reflexivity|apply IH]. Qed.
Lemma past_length : forall l P, length (past P l) = length l.
Proof. induction l as [|m l IH]; intros P; cbn; auto. Qed.
Lemma through_length : forall offset l, length (through offset l) = length l.
Proof. induction offset as [|o IH]; intros l; cbn [through_clouds]; [reflexivity|]. now rewrite IH, past_length. Qed.
Lemma left_nonneg a P : tidy (length traps) P -> 0 <= left_over traps well dwell a P.
Proof.
  intros HP. unfold left_over, captured. unfold Rmin. destruct (Rle_dec _ _); [lra|]. lra.
Qed.
Lemma past_nonneg_all : forall l P, Forall (Rle 0) (past P l).
Proof. induction l as [|m l IH]; intros P; cbn [past_clouds]; constructor; [|apply IH]. unfold left_over, captured, Rmin. destruct (Rle_dec _ _); lra. Qed.

(** In the detector. *)
Lemma leave_zeros i : leave_pixels traps well dwell (repeat 0 i) = repeat 0 i.
Proof. induction i as [|i IH]; [reflexivity|]. cbn [repeat leave_pixels]. rewrite IH. exact (only_zeros (S i)). Qed.
Lemma leave_lone i a m : leave_pixels traps well dwell (repeat 0 i ++ a :: repeat 0 m) = repeat 0 i ++ through (S i) (a :: repeat 0 m).
Proof.
  induction i as [|i IH].
  - cbn [repeat app leave_pixels]. rewrite leave_zeros. reflexivity.
  - cbn [repeat app leave_pixels]. rewrite IH. change (0 :: repeat 0 i ++ through (S i) (a :: repeat 0 m)) with (repeat 0 (S i) ++ through (S i) (a :: repeat 0 m)).
    rewrite past_zeros. cbn [repeat app]. do 2 f_equal. replace (S (S i)) with (S i + 1)%nat by lia. rewrite through_add. reflexivity.
Qed.
Lemma detector_lone offset i a m : detector_clouds traps well dwell offset (repeat 0 i ++ a :: repeat 0 m) = repeat 0 i ++ through (S i + offset) (a :: repeat 0 m).
Proof. unfold detector_clouds. now rewrite leave_lone, through_zeros, <- through_add. Qed.
(** In the code. *)
Lemma read_zeros : forall i rows l, (i <= rows)%nat ->
  read_clouds traps well dwell rows (repeat 0 i ++ l) = repeat 0 i ++ read_clouds traps well dwell (rows - i) (through i l).
Proof.
  induction i as [|i IH]; intros rows l Hi; [cbn; now rewrite Nat.sub_0_r|]. destruct rows as [|rows]; [lia|]. cbn [read_clouds]. rewrite past_zeros. cbn [repeat app Nat.sub].
  f_equal. apply IH. lia.
Qed.
Lemma code_behind offset i a m : (0 < m)%nat ->
  nth (S i) (column_clouds traps well dwell offset (repeat 0 i ++ a :: repeat 0 m)) 0
  = past_empty rho full beta (nth 1 (through (S i + offset) (a :: repeat 0 m)) 0).
Proof.
  intros Hm. unfold column_clouds. rewrite through_zeros, app_length, repeat_length. cbn [length]. rewrite repeat_length, read_zeros by lia.
  rewrite app_nth2 by (rewrite repeat_length; lia). rewrite repeat_length. replace (S i - i)%nat with 1%nat by lia. replace (i + S m - i)%nat with (S m) by lia.
  rewrite <- through_add. replace (S i + offset)%nat with ((offset + i) + 1)%nat by lia. rewrite (through_add (offset + i) 1).
  pose proof (through_length (offset + i) (a :: repeat 0 m)) as L. cbn in L. rewrite repeat_length in L.
  destruct (through (offset + i) (a :: repeat 0 m)) as [|y0 [|y1 l]]; cbn in L; [lia|lia|]. cbn [through_clouds read_clouds past_clouds nth].
  destruct m as [|m]; [lia|]. cbn [read_clouds past_clouds nth]. apply void_left; auto using void_empty.
  unfold left_over, captured, Rmin. destruct (Rle_dec _ _); lra.
Qed.
Lemma row_behind offset i a m : (0 < m)%nat ->
  nth (S i) (column_clouds traps well dwell offset (repeat 0 i ++ a :: repeat 0 m)) 0
  = past_empty rho full beta (nth (S i) (detector_clouds traps well dwell offset (repeat 0 i ++ a :: repeat 0 m)) 0).
Proof.
  intros Hm. rewrite (code_behind offset i a m Hm), detector_lone. rewrite app_nth2 by (rewrite repeat_length; lia). rewrite repeat_length. now replace (S i - i)%nat with 1%nat by lia.
Qed.
(** The first packet, in the detector. *)
Lemma through_first : forall n a l, 0 <= a -> nth 0 (through n (a :: l)) 0 = past_pixels rho full beta n a.
Proof.
  induction n as [|n IH]; intros a l Ha; cbn [through_clouds past_pixels past_clouds]; [reflexivity|].
  rewrite void_left by auto using void_empty. apply IH. apply past_nonneg.
Qed.
Lemma leave_lead : forall i a l, 0 <= a -> exists l', leave_pixels traps well dwell (repeat 0 i ++ a :: l) = repeat 0 i ++ past_pixels rho full beta (S i) a :: l'.
Proof.
  induction i as [|i IH]; intros a l Ha.
  - cbn [repeat app leave_pixels past_clouds past_pixels]. rewrite void_left by auto using void_empty. eexists. reflexivity.
  - destruct (IH a l Ha) as [l' E]. cbn [repeat app leave_pixels]. rewrite E.
    change (0 :: repeat 0 i ++ ?x) with (repeat 0 (S i) ++ x). rewrite past_zeros. cbn [past_clouds].
    assert (0 <= past_pixels rho full beta (S i) a) by (destruct (lead_through traps full beta dwell Hf Hb 0 (S i) a [] Ha) as (? & _ & _ & K); exact K).
    assert (Q : past_empty rho full beta (past_pixels rho full beta (S i) a) = past_pixels rho full beta (S (S i)) a).
    { replace (S (S i)) with (S i + 1)%nat by lia. unfold rho. rewrite past_pixels_add. reflexivity. }
    rewrite void_left by auto using void_empty. fold rho. rewrite Q. eexists. reflexivity.
Qed.
Lemma detector_first offset i a l : 0 <= a -> nth i (detector_clouds traps well dwell offset (repeat 0 i ++ a :: l)) 0 = past_pixels rho full beta (i + 1 + offset) a.
Proof.
  intros Ha. unfold detector_clouds. destruct (leave_lead i a l Ha) as [l' E]. rewrite E, through_zeros, app_nth2, repeat_length, Nat.sub_diag by (rewrite repeat_length; lia).
  rewrite through_first; [|destruct (lead_through traps full beta dwell Hf Hb 0 (S i) a [] Ha) as (? & _ & _ & K); exact K].
  unfold rho. rewrite <- past_pixels_add. f_equal. lia.
Qed.
End Zeros.
