(** * All groups of a phase together. *)
From Coq Require Import ZArith List Bool Reals Lra Lia.
From Coquelicot Require Import Rcomplements Rbar Hierarchy RInt.
From Verif Require Import Num Py RFacts CCDModel TrapsModel ManagerModel ROEModel ClockModel MainModel Spec SpecROE SpecImage SpecReadout SpecTime SpecSlow SpecHistory SpecHold SpecFlatten SpecBound SpecRecovery SpecMeet
  ReadoutImage MeetKindFacts.
Import ListNotations.
Open Scope R_scope.

Section Groups.
Context (full beta : R).
Hypothesis Hfull : 0 < full.
Hypothesis Hbeta : 0 < beta.
Notation well := (depth full beta).
Fixpoint reps (gs : list (list (trap R))) (u : nat) (ms : list (manager R)) (ss : list group_state) : Prop :=
  match gs, ms, ss with
  | [], [], [] => True
  | g :: gs, m :: ms, s :: ss => g_rep g u m s /\ reps gs u ms ss
  | _, _, _ => False
  end.
Fixpoint oks (gs : list (list (trap R))) (ss : list group_state) : Prop :=
  match gs, ss with [], [] => True | g :: gs, s :: ss => g_ok g s /\ oks gs ss | _, _ => False end.
Fixpoint les (gs : list (list (trap R))) (ss ss' : list group_state) : Prop :=
  match gs, ss, ss' with
  | [], [], [] => True
  | g :: gs, s :: ss, s' :: ss' => g_le g s s' /\ les gs ss ss'
  | _, _, _ => False
  end.
Fixpoint gamounts (gs : list (list (trap R))) (ss : list group_state) : R :=
  match gs, ss with g :: gs, s :: ss => g_amount g s + gamounts gs ss | _, _ => 0 end.
Notation nets gs := (groups_net (mkSite gs well)).
Notation afters gs := (groups_after (mkSite gs well)).
Lemma nets_cons g gs d n s ss : nets (g :: gs) d n (s :: ss) = group_net g well d n s + nets gs d n ss.
Proof. reflexivity. Qed.
Lemma afters_cons g gs d n s ss : afters (g :: gs) d n (s :: ss) = group_after g well d n s :: afters gs d n ss.
Proof. reflexivity. Qed.
Definition roomy (g : list (trap R)) : Prop := kind_group g /\ (kind_for g = KInstant \/ 1 <= beta /\ group_traps g * beta < full).
Lemma reps_init N gs : Forall kind_group gs -> reps gs N (map (fun g => manager_init (kind_for g) g N) gs) (map unfilled gs).
Proof. induction 1 as [|g gs Hg H IH]; cbn; [exact I|]. split; [now apply g_init|exact IH]. Qed.
Lemma reps_step fill x dwell : (forall a, 0 <= a -> fill a = Ok (well a)) -> 0 <= x -> 0 < dwell -> forall gs, Forall roomy gs -> forall u ms ss acc, reps gs (S u) ms ss ->
  exists ms', step_groups ms x fill dwell acc = Ok (acc + nets gs dwell x ss, ms') /\ reps gs u ms' (afters gs dwell x ss).
Proof.
  intros Hf Hx Hd. induction 1 as [|g gs [Hg Hr] H IH]; intros u ms ss acc HR; destruct ms as [|m ms], ss as [|s ss]; cbn in HR; try contradiction.
  - exists []. cbn. split; [rewrite Rplus_0_r; reflexivity|exact I].
  - destruct HR as [HR1 HR2]. destruct (g_step g full beta Hg Hfull Hbeta Hr u m s x dwell fill Hf Hx Hd HR1) as (m' & E1 & R1).
    destruct (IH u ms ss (acc + group_net g well dwell x s) HR2) as (ms' & E2 & R2).
    exists (m' :: ms'). cbn [step_groups]. rewrite E1. cbn [bind]. rnum. rewrite E2. cbn [bind]. rewrite nets_cons, afters_cons. split; [f_equal; f_equal; lra|]. split; assumption.
Qed.
Lemma oks_start gs : Forall kind_group gs -> oks gs (map unfilled gs).
Proof. induction 1 as [|g gs Hg H IH]; cbn; [exact I|]. split; [now apply g_ok_start|exact IH]. Qed.
Lemma les_refl : forall gs ss, oks gs ss -> les gs ss ss.
Proof. induction gs as [|g gs IH]; intros [|s ss] H; cbn in *; try contradiction; [exact I|]. split; [apply g_le_refl|now apply IH]. Qed.
Lemma gamounts_range gs : Forall kind_group gs -> forall ss, oks gs ss -> 0 <= gamounts gs ss <= all_traps gs.
Proof.
  induction 1 as [|g gs Hg H IH]; intros [|s ss] HO; cbn in HO; try contradiction; [cbn; lra|]. destruct HO as [H1 H2].
  pose proof (g_range g Hg s H1). specialize (IH ss H2). cbn [gamounts]. change (all_traps (g :: gs)) with (group_traps g + all_traps gs). lra.
Qed.
Lemma gamounts_more gs : Forall kind_group gs -> forall ss ss', oks gs ss' -> oks gs ss -> les gs ss' ss -> gamounts gs ss' <= gamounts gs ss.
Proof.
  induction 1 as [|g gs Hg H IH]; intros [|s ss] [|s' ss'] HO' HO HL; cbn in HO, HO', HL; try contradiction; [cbn; lra|].
  pose proof (g_more g Hg s s' (proj1 HO') (proj1 HO) (proj1 HL)). specialize (IH ss ss' (proj2 HO') (proj2 HO) (proj2 HL)). cbn [gamounts]. lra.
Qed.
Hypothesis Hbeta1 : 1 <= beta.
Definition mild_group (g : list (trap R)) : Prop := kind_group g /\ group_traps g * beta < full.
Lemma mild_roomy g : mild_group g -> kind_for g = KInstant \/ 1 <= beta /\ group_traps g * beta < full.
Proof. intros [_ H]. right. auto. Qed.
Lemma oks_after d m gs : 0 < d -> 0 <= m -> Forall mild_group gs -> forall ss, oks gs ss -> oks gs (afters gs d m ss) /\ gamounts gs (afters gs d m ss) = gamounts gs ss - nets gs d m ss.
Proof.
  intros Hd Hm. induction 1 as [|g gs Hg H IH]; intros [|s ss] HO; cbn in HO; try contradiction; [split; [exact I|cbn; lra]|].
  destruct (g_meets g full beta (proj1 Hg) Hfull Hbeta (mild_roomy g Hg) Hbeta1 (proj2 Hg) d m s Hd Hm (proj1 HO)) as [K1 K2]. destruct (IH ss (proj2 HO)) as [I1 I2].
  rewrite nets_cons, afters_cons. cbn [oks gamounts]. split; [auto|]. rewrite K2, I2. lra.
Qed.
Lemma nets_order d m m' gs : 0 < d -> 0 <= m' <= m -> Forall mild_group gs -> forall ss ss', oks gs ss' -> oks gs ss -> les gs ss' ss ->
  - (Rsum (map (fun g => grip (kind_for g) (group_traps g * (beta / full))) gs) * (m - m')) <= nets gs d m ss - nets gs d m' ss' /\
  les gs (afters gs d m' ss') (afters gs d m ss).
Proof.
  intros Hd Hm. induction 1 as [|g gs Hg H IH]; intros [|s ss] [|s' ss'] HO' HO HL; cbn in HO, HO', HL; try contradiction; [split; [cbn; lra|exact I]|].
  destruct (g_order g full beta (proj1 Hg) Hfull Hbeta (mild_roomy g Hg) Hbeta1 (proj2 Hg) d m m' s s' Hd Hm (proj1 HO') (proj1 HO) (proj1 HL)) as [K1 K2].
  destruct (IH ss ss' (proj2 HO') (proj2 HO) (proj2 HL)) as [I1 I2]. rewrite !nets_cons, !afters_cons. split; [|split; assumption].
  cbn [map]. change (Rsum (?a :: ?l)) with (a + Rsum l). lra.
Qed.
Lemma nets_alone d gs : 0 < d -> Forall mild_group gs -> forall ss, oks gs ss -> 0 <= nets gs d 0 ss.
Proof.
  intros Hd. induction 1 as [|g gs Hg H IH]; intros [|s ss] HO; cbn in HO; try contradiction; [cbn; lra|].
  rewrite nets_cons. pose proof (g_alone g full beta (proj1 Hg) Hfull Hbeta (mild_roomy g Hg) Hbeta1 (proj2 Hg) d s Hd (proj1 HO)). specialize (IH ss (proj2 HO)). lra.
Qed.
Lemma grips_nonneg gs : Forall mild_group gs -> 0 <= Rsum (map (fun g => grip (kind_for g) (group_traps g * (beta / full))) gs).
Proof.
  induction 1 as [|g gs Hg H IH]; cbn [map]; [cbn; lra|]. change (Rsum (?a :: ?l)) with (a + Rsum l).
  pose proof (grip_range g full beta (proj1 Hg) Hfull Hbeta (mild_roomy g Hg) Hbeta1 (proj2 Hg)). lra.
Qed.
End Groups.
