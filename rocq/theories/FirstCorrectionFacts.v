(** * What a correction brings back of the first charge seen from the output, in linear wells. *)
From Coq Require Import ZArith List Bool Reals Lra Lia.
From Verif Require Import Num Py RFacts CCDModel TrapsModel ManagerModel ROEModel ClockModel MainModel Spec SpecImage SpecReadout SpecHistory SpecRecovery SpecFirst SpecInTurn
  OrderFacts TameFacts RecoverFacts DepthFacts AboveFacts RecoverImageFacts ReadoutImage RemoveFacts FirstFacts EfficiencyFacts InTurnFacts.
Import ListNotations.
Open Scope R_scope.

Section Corrected.
Context (parallel serial : direction R) (cp cs : ccd R) (fp fs dwp dws fullp fulls : R) (gp gs : list (trap R)) (rows cols i j : nat).
Let rhop := fp * traps_per_pixel gp.
Let rhos := fs * traps_per_pixel gs.
Hypothesis Sp : single_phase parallel rows cp fp gp dwp false.
Hypothesis Gp : instant_group gp.
Hypothesis Pp : phase_params cp 0 0 1 fullp.
Hypothesis Fp : 0 < fullp.
Hypothesis Rp : rhop < fullp.
Hypothesis Ss : single_phase serial cols cs fs gs dws false.
Hypothesis Gs : instant_group gs.
Hypothesis Ps : phase_params cs 0 0 1 fulls.
Hypothesis Fs : 0 < fulls.
Hypothesis Rs : rhos < fulls.
Hypothesis Hi : (i < rows)%nat.
Hypothesis Hj : (j < cols)%nat.
Let e := (1 - rhop / fullp) ^ (i + 1 + d_offset parallel) * (1 - rhos / fulls) ^ (j + 1 + d_offset serial).
Lemma few_p : 0 <= rhop. Proof. apply Rmult_le_pos; [left; exact (sp_share _ _ _ _ _ _ _ Sp)|]. apply density_nonneg. eapply Forall_impl; [|exact (proj2 Gp)]. intros t Ht. apply Ht. Qed.
Lemma few_s : 0 <= rhos. Proof. apply Rmult_le_pos; [left; exact (sp_share _ _ _ _ _ _ _ Ss)|]. apply density_nonneg. eapply Forall_impl; [|exact (proj2 Gs)]. intros t Ht. apply Ht. Qed.
Lemma one_share rho full : 0 <= rho < full -> 0 < 1 - rho / full <= 1.
Proof.
  intros H. assert (0 <= rho / full) by (apply Rmult_le_pos; [lra|left; apply Rinv_0_lt_compat; lra]). assert (rho / full < 1) by (apply (Rmult_lt_reg_r full); [lra|]; unfold Rdiv; rewrite Rmult_assoc, Rinv_l by lra; lra). lra.
Qed.
Lemma pow_share q n : 0 < q <= 1 -> 0 < q ^ n <= 1.
Proof. intros H. induction n as [|n IH]; cbn; [lra|]. split; [apply Rmult_lt_0_compat; lra|]. apply Rle_trans with (1 * 1); [apply Rmult_le_compat; lra|lra]. Qed.
Lemma e_share : 0 < e <= 1.
Proof.
  pose proof (pow_share _ (i + 1 + d_offset parallel) (one_share rhop fullp (conj few_p Rp))) as A. pose proof (pow_share _ (j + 1 + d_offset serial) (one_share rhos fulls (conj few_s Rs))) as B. unfold e.
  split; [apply Rmult_lt_0_compat; lra|]. apply Rle_trans with (1 * 1); [apply Rmult_le_compat; lra|lra].
Qed.
Lemma read_once im : shape rows cols im -> leads_corner im i j -> 0 <= pixel im i j -> pixel im i j <= fullp -> pixel im i j <= fulls ->
  exists im', add_cti im parallel serial None = Ok (im', the_roe parallel, the_roe serial) /\ shape rows cols im' /\ leads_corner im' i j /\ pixel im' i j = pixel im i j * e.
Proof.
  intros Hs Hl Ha Hfp Hfs.
  destruct (first_pixel parallel serial cp cs fp fs dwp dws fullp fulls 1 1 gp gs rows cols Sp Gp Pp Fp Rlt_0_1 Ss Gs Ps Fs Rlt_0_1 im i j Hs Hi Hj Hl Ha) as (im' & E & Sh & K).
  exists im'. split; [exact E|]. split; [exact Sh|]. split.
  - intros k l Hk Hlj N. assert (Z : pixel im k l = 0) by now apply Hl.
    assert (L' : leads_corner im k l). { intros k' l' Hk' Hl' N'. apply Hl; [lia|lia|]. intros Q. injection Q as -> ->. apply N. f_equal; lia. }
    destruct (first_pixel parallel serial cp cs fp fs dwp dws fullp fulls 1 1 gp gs rows cols Sp Gp Pp Fp Rlt_0_1 Ss Gs Ps Fs Rlt_0_1 im k l Hs ltac:(lia) ltac:(lia) L' ltac:(rewrite Z; lra)) as (im2 & E2 & _ & K2).
    rewrite E in E2. injection E2 as <-. rewrite K2, Z, !pixels_0. reflexivity.
  - rewrite K. fold rhop rhos. pose proof (pixels_le rhop fullp 1 few_p Fp Rlt_0_1 (i + 1 + d_offset parallel) (pixel im i j) Ha) as L. pose proof (pixels_pos rhop fullp 1 (i + 1 + d_offset parallel) (pixel im i j) Ha) as L0.
    rewrite (pixels_linear rhos); [|split; [exact few_s|lra]|exact Fs|split; [exact L0|exact (Rle_trans _ _ _ L Hfs)]]. rewrite (pixels_linear rhop); [|split; [exact few_p|lra]|exact Fp|split; assumption]. unfold e. ring.
Qed.
(** [x]: what the first charge was before the readout that [y] is taken to be. *)
Lemma loop_first y x : shape rows cols y -> leads_corner y i j -> 0 <= x -> x <= fullp -> x <= fulls -> pixel y i j = x * e ->
  forall n k est, shape rows cols est -> leads_corner est i j -> pixel est i j = x * (1 - (1 - e) ^ S k) ->
  exists im', remove_cti_loop y n parallel serial None est = Ok (im', parallel, serial) /\ shape rows cols im' /\ pixel im' i j = x * (1 - (1 - e) ^ S (k + n)).
Proof.
  intros Hy Ly Hx Hxp Hxs Ey. pose proof e_share as He. induction n as [|n IH]; intros k est Hs Hl Ha.
  - exists est. rewrite Nat.add_0_r. auto.
  - assert (Q : 0 <= (1 - e) ^ S k <= 1). { split; [apply pow_le; lra|]. pose proof (pow_incr (1 - e) 1 (S k) ltac:(lra)) as H1. rewrite pow1 in H1. exact H1. }
    assert (B : 0 <= pixel est i j <= x). { rewrite Ha. split; [apply Rmult_le_pos; lra|]. apply Rle_trans with (x * 1); [apply Rmult_le_compat_l; lra|lra]. }
    destruct (read_once est Hs Hl (proj1 B) (Rle_trans _ _ _ (proj2 B) Hxp) (Rle_trans _ _ _ (proj2 B) Hxs)) as (added & E & Sa & La & Ka).
    cbn [remove_cti_loop]. rewrite E. cbn [bind]. rewrite !keep_same.
    pose proof (image_zip_shape nsub y added rows cols Hy Sa) as S1. pose proof (image_zip_shape nadd est _ rows cols Hs S1) as S2.
    replace (S (k + S n)) with (S (S k + n)) by lia. apply IH; [exact S2| |].
    + intros k' l' Hk Hl' N. rewrite (image_zip_pixel nadd est _ rows cols), (image_zip_pixel nsub y added rows cols) by (assumption || lia). rewrite (Hl k' l'), (Ly k' l'), (La k' l') by assumption. rnum. lra.
    + rewrite (image_zip_pixel nadd est _ rows cols), (image_zip_pixel nsub y added rows cols) by assumption. rewrite Ka, Ey, Ha. rnum. cbn [pow]. ring.
Qed.
Lemma corrected_first y n : shape rows cols y -> leads_corner y i j -> 0 <= pixel y i j -> pixel y i j <= fullp * e -> pixel y i j <= fulls * e ->
  exists im', remove_cti y n parallel serial None = Ok im' /\ shape rows cols im' /\ pixel im' i j = pixel y i j / e * (1 - (1 - e) ^ S n).
Proof.
  intros Hy Ly Ha Hfp Hfs. pose proof e_share as He. assert (D : forall z, pixel y i j <= z * e -> pixel y i j / e <= z). { intros z Hz. apply (Rmult_le_reg_r e); [lra|]. unfold Rdiv. rewrite Rmult_assoc, Rinv_l by lra. lra. }
  destruct (loop_first y (pixel y i j / e) Hy Ly ltac:(apply Rmult_le_pos; [exact Ha|left; apply Rinv_0_lt_compat; lra]) (D _ Hfp) (D _ Hfs) ltac:(field; lra) n 0 y Hy Ly ltac:(cbn; field; lra)) as (im' & E & Sh & K).
  exists im'. unfold remove_cti. rewrite E. cbn [bind]. auto.
Qed.
End Corrected.
