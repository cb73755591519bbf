(** * Facts about readouts of a window of rows. *)
From Coq Require Import ZArith List Bool Reals Lra Lia.
From Coquelicot Require Import Rcomplements Rbar Hierarchy RInt.
From Verif Require Import Num Py RFacts CCDModel TrapsModel ManagerModel ROEModel ClockModel Spec SpecROE SpecImage SpecReadout SpecColumn
  WmFacts ArrayFacts CutFacts InstantFacts ReadoutSpecFacts ReadoutColumnFacts.
Import ListNotations.
Open Scope R_scope.

(** ** Empty traps and no charge *)
Lemma nothing_happens g well d : well 0 = 0 ->
  transfer_net g well d 0 empty_profile = 0 /\ same_profile (length g) (transfer_after g well d 0 empty_profile) empty_profile.
Proof.
  intros Hw. assert (E : forall s x, after_release g d empty_profile s x = 0) by (intros s x; unfold after_release, empty_profile; ring).
  assert (R0 : released g d empty_profile = 0).
  { unfold released. rewrite (electrons_same g (after_release g d empty_profile) empty_profile); [lra| |lra|lra]. intros s x _ _. apply E. }
  unfold transfer_net, transfer_after. rewrite R0, Rplus_0_r, Hw. split.
  - unfold captured, demand. assert (Z0 : forall P, electrons g P 0 0 = 0).
    { intros P. unfold electrons. generalize 0%nat as s. clear. induction g as [|t g' IH]; intros s; cbn [electrons_from]; [reflexivity|]. rewrite IH, RInt_point. change (zero : R) with 0. ring. }
    rewrite Z0. rewrite Rmin_left by lra. ring.
  - intros s x _ Hx. unfold after_capture. destruct (Rlt_dec x 0); [lra|]. apply E.
Qed.

(** Trap states that agree inside the pixel. *)
Inductive alike : list (list (trap R)) -> list profile -> list profile -> Prop :=
| alike_nil : alike [] [] []
| alike_cons g P Q groups Ps Qs : same_profile (length g) P Q -> alike groups Ps Qs -> alike (g :: groups) (P :: Ps) (Q :: Qs).
Lemma alike_empty groups : alike groups (map (fun _ => empty_profile) groups) (map (fun _ => empty_profile) groups).
Proof. induction groups; constructor; [intros s x _ _; reflexivity|assumption]. Qed.
Lemma alike_sym groups Ps Qs : alike groups Ps Qs -> alike groups Qs Ps.
Proof. induction 1; constructor; auto using same_sym. Qed.
Lemma alike_trans groups Ps Qs : alike groups Ps Qs -> forall Ss, alike groups Qs Ss -> alike groups Ps Ss.
Proof. induction 1; intros Ss H2; inversion H2; subst; constructor; eauto using same_trans. Qed.
Definition depths (s : site) : Prop := site_well s 0 = 0 /\ forall n, 0 <= site_well s n <= 1.
Lemma alike_step s d n Ps Qs : depths s -> alike (site_groups s) Ps Qs ->
  site_net s d n Ps = site_net s d n Qs /\ alike (site_groups s) (site_after s d n Ps) (site_after s d n Qs).
Proof.
  intros [_ Hw]. unfold site_net, site_after. induction 1 as [|g P Q groups Ps Qs H HA IH]; [split; [reflexivity|constructor]|].
  cbn [combine map]. destruct IH as [IH1 IH2]. destruct (transfer_same g (site_well s) d n P Q H (Hw _)) as [T1 T2]. split.
  - cbn [Rsum fold_right] in *. rewrite T1. f_equal. exact IH1.
  - constructor; [exact T2|exact IH2].
Qed.
Lemma alike_nothing s d : depths s -> let E := map (fun _ => empty_profile) (site_groups s) in
  site_net s d 0 E = 0 /\ alike (site_groups s) (site_after s d 0 E) E.
Proof.
  intros [Hw _]. cbn zeta. unfold site_net, site_after. induction (site_groups s) as [|g groups [IH1 IH2]]; [split; [reflexivity|constructor]|].
  cbn [combine map]. destruct (nothing_happens g (site_well s) d Hw) as [T1 T2]. split.
  - change (transfer_net g (site_well s) d 0 empty_profile + Rsum (map (fun '(g, P) => transfer_net g (site_well s) d 0 P) (combine groups (map (fun _ => empty_profile) groups))) = 0). rewrite T1, IH1. ring.
  - constructor; [exact T2|exact IH2].
Qed.

Section Window.
Context (sites : nat -> site) (phases : list nat) (steps : list (R * list (roe_phase R))) (a : Z).
Hypothesis Hfw : forall d es k, In (d, es) steps -> In k phases -> forward (electrode es k).
Hypothesis Hsites : forall k, In k phases -> depths (sites k).

(** Equal from row [a] on. *)
Definition equal_from (f g : column) : Prop := forall z, (a <= z)%Z -> f z = g z.
Definition blank_before (g : column) : Prop := (forall z, 0 <= g z) /\ forall z, (0 <= z < a)%Z -> g z = 0.
Definition states_alike (T1 T2 : traps_state) : Prop := forall k, In k phases -> alike (site_groups (sites k)) (T1 k) (T2 k).
Lemma put_alike T1 T2 k Ps Qs : states_alike T1 T2 -> alike (site_groups (sites k)) Ps Qs -> states_alike (put T1 k Ps) (put T2 k Qs).
Proof. intros H1 H2 k' Hk'. unfold put. destruct (Nat.eqb_spec k' k) as [->|]; auto. Qed.

(** *** The rows before the window, without charge *)
Lemma expose_before row mult d es g T k : (0 <= row < a)%Z -> In k phases -> forward (electrode es k) -> blank_before g -> states_alike T (all_empty sites) ->
  let st := expose sites row mult d es (g, T) k in same_col (fst st) g /\ states_alike (snd st) (all_empty sites).
Proof.
  intros Hr Hk [Hc _] [Hp Hb] HT. unfold expose. cbn zeta.
  assert (E : (if rp_high (electrode es k) then g (row + rp_capture (electrode es k))%Z else 0) = 0).
  { destruct (rp_high (electrode es k)); [|reflexivity]. rewrite Hc by reflexivity. apply Hb. lia. }
  rewrite E. destruct (alike_step (sites k) d 0 (T k) (all_empty sites k) (Hsites k Hk) (HT k Hk)) as [S1 S2].
  destruct (alike_nothing (sites k) d (Hsites k Hk)) as [N1 N2]. cbn [fst snd]. split.
  - rewrite S1. unfold all_empty. rewrite N1, Rmult_0_l. apply deposit_nothing, Hp.
  - intros k' Hk'. unfold put. destruct (Nat.eqb_spec k' k) as [->|]; [|auto]. eapply alike_trans; [exact S2|exact N2].
Qed.
Lemma blank_same g g' : same_col g' g -> blank_before g -> blank_before g'.
Proof. intros H [H1 H2]. split; intros z; [rewrite H; apply H1|intros Hz; rewrite H; auto]. Qed.
Lemma same_col_trans f g h : same_col f g -> same_col g h -> same_col f h.
Proof. intros H1 H2 z. rewrite H1. apply H2. Qed.
Lemma transfer_before row mult g T : (0 <= row < a)%Z -> blank_before g -> states_alike T (all_empty sites) ->
  let st := transfer_pixel sites phases steps row mult (g, T) in same_col (fst st) g /\ states_alike (snd st) (all_empty sites).
Proof.
  intros Hr. unfold transfer_pixel. cbn zeta. assert (Hi : incl steps steps) by (intros x Hx; exact Hx). revert Hi g T. generalize steps at 1 3 4 as l.
  induction l as [|[d es] l IH]; intros Hi g T Hb HT; [split; [intros z; reflexivity|exact HT]|]. cbn [fold_left].
  assert (Hin : In (d, es) steps) by (apply Hi; left; reflexivity).
  assert (G : forall ks, incl ks phases -> forall g T, blank_before g -> states_alike T (all_empty sites) ->
    let st := fold_left (expose sites row mult d es) ks (g, T) in same_col (fst st) g /\ states_alike (snd st) (all_empty sites)).
  { induction ks as [|k ks IHk]; intros Hk g1 T1 Hb1 HT1; [split; [intros z; reflexivity|exact HT1]|]. cbn [fold_left].
    destruct (expose_before row mult d es g1 T1 k Hr (Hk k (or_introl eq_refl)) (Hfw d es k Hin (Hk k (or_introl eq_refl))) Hb1 HT1) as [E1 E2].
    destruct (expose sites row mult d es (g1, T1) k) as [g2 T2]. cbn [fst snd] in E1, E2.
    destruct (IHk (fun x Hx => Hk x (or_intror Hx)) g2 T2 (blank_same _ _ E1 Hb1) E2) as [F1 F2]. split; [|exact F2]. eapply same_col_trans; eassumption. }
  destruct (G phases (fun x Hx => Hx) g T Hb HT) as [E1 E2]. destruct (fold_left _ phases (g, T)) as [g2 T2]. cbn [fst snd] in E1, E2.
  destruct (IH (fun x Hx => Hi x (or_intror Hx)) g2 T2 (blank_same _ _ E1 Hb) E2) as [F1 F2]. split; [|exact F2]. eapply same_col_trans; eassumption.
Qed.
Definition unsaved (cell : Z * R * bool) : Prop := let '(_, _, save) := cell in save = false.
Definition row_of (cell : Z * R * bool) : Z := let '(row, _, _) := cell in row.
Lemma cells_before cells : Forall (fun x => (0 <= row_of x < a)%Z /\ unsaved x) cells -> forall g T saved, blank_before g -> states_alike T (all_empty sites) ->
  let '(g', T', saved') := fold_left (pass_cell sites phases steps) cells (g, T, saved) in
  same_col g' g /\ states_alike T' (all_empty sites) /\ saved' = saved.
Proof.
  induction 1 as [|[[row mult] save] cells [Hr Hs] _ IH]; intros g T saved Hb HT; cbn [fold_left].
  - split; [intros z; reflexivity|split; [exact HT|reflexivity]].
  - cbn in Hr, Hs. subst save. unfold pass_cell at 2. destruct (transfer_before row mult g T Hr Hb HT) as [E1 E2].
    destruct (transfer_pixel sites phases steps row mult (g, T)) as [g2 T2]. cbn [fst snd] in E1, E2. specialize (IH g2 T2 saved (blank_same _ _ E1 Hb) E2).
    destruct (fold_left (pass_cell sites phases steps) cells (g2, T2, saved)) as [[g3 T3] s3]. destruct IH as (F1 & F2 & F3). split; [|split; [exact F2|exact F3]]. eapply same_col_trans; eassumption.
Qed.

(** *** The rows of the window *)
Lemma give_equal f g row q : equal_from f g -> equal_from (give f row q) (give g row q).
Proof. intros H z Hz. unfold give. rewrite (H z Hz). reflexivity. Qed.
Lemma deposit_equal targets row q : forall f g, equal_from f g -> equal_from (deposit targets row q f) (deposit targets row q g).
Proof. induction targets as [|[d x] targets IH]; intros f g H; [exact H|]. unfold deposit. cbn [fold_left]. apply (IH _ _ (give_equal f g (row + d) (q * x) H)). Qed.
Lemma deposit_nonneg' targets row q : forall f, (forall z, 0 <= f z) -> forall z, 0 <= deposit targets row q f z.
Proof.
  induction targets as [|[d x] targets IH]; intros f H; [exact H|]. unfold deposit. cbn [fold_left]. apply IH. intros z. unfold give. destruct (z =? _)%Z; [apply Rmax_l|apply H].
Qed.
Lemma expose_from row mult d es f g T1 T2 k : (a <= row)%Z -> In k phases -> forward (electrode es k) -> equal_from f g -> blank_before g -> states_alike T1 T2 ->
  let st1 := expose sites row mult d es (f, T1) k in let st2 := expose sites row mult d es (g, T2) k in
  equal_from (fst st1) (fst st2) /\ blank_before (fst st2) /\ states_alike (snd st1) (snd st2).
Proof.
  intros Hr Hk [Hc Hd] Hfg [Hp Hb] HT. unfold expose. cbn zeta.
  assert (E : (if rp_high (electrode es k) then f (row + rp_capture (electrode es k))%Z else 0) = (if rp_high (electrode es k) then g (row + rp_capture (electrode es k))%Z else 0)).
  { destruct (rp_high (electrode es k)); [|reflexivity]. rewrite Hc by reflexivity. apply Hfg. lia. }
  rewrite E. set (n := if rp_high (electrode es k) then _ else 0).
  destruct (alike_step (sites k) d n (T1 k) (T2 k) (Hsites k Hk) (HT k Hk)) as [S1 S2]. cbn [fst snd]. rewrite S1. split; [apply deposit_equal, Hfg|]. split.
  - split; [apply deposit_nonneg', Hp|]. intros z Hz. rewrite <- (deposit_beyond (a - 1) (combine (rp_release (electrode es k)) (rp_fraction (electrode es k))) row (site_net (sites k) d n (T2 k) * mult) ltac:(lia)); [apply Hb, Hz| |lia].
    apply Forall_forall. intros [x y] Hin. apply Hd. eapply in_combine_l. exact Hin.
  - apply put_alike; assumption.
Qed.
Lemma transfer_from row mult f g T1 T2 : (a <= row)%Z -> equal_from f g -> blank_before g -> states_alike T1 T2 ->
  let st1 := transfer_pixel sites phases steps row mult (f, T1) in let st2 := transfer_pixel sites phases steps row mult (g, T2) in
  equal_from (fst st1) (fst st2) /\ blank_before (fst st2) /\ states_alike (snd st1) (snd st2).
Proof.
  intros Hr. unfold transfer_pixel. cbn zeta. assert (Hi : incl steps steps) by (intros x Hx; exact Hx). revert Hi f g T1 T2. generalize steps at 1 3 4 5 6 7 as l.
  induction l as [|[d es] l IH]; intros Hi f g T1 T2 Hfg Hb HT; [auto|]. cbn [fold_left].
  assert (Hin : In (d, es) steps) by (apply Hi; left; reflexivity).
  assert (G : forall ks, incl ks phases -> forall f g T1 T2, equal_from f g -> blank_before g -> states_alike T1 T2 ->
    let st1 := fold_left (expose sites row mult d es) ks (f, T1) in let st2 := fold_left (expose sites row mult d es) ks (g, T2) in
    equal_from (fst st1) (fst st2) /\ blank_before (fst st2) /\ states_alike (snd st1) (snd st2)).
  { clear f g T1 T2 Hfg Hb HT. induction ks as [|k ks IHk]; intros Hk f g T1 T2 Hfg Hb HT; [auto|]. cbn [fold_left].
    destruct (expose_from row mult d es f g T1 T2 k Hr (Hk k (or_introl eq_refl)) (Hfw d es k Hin (Hk k (or_introl eq_refl))) Hfg Hb HT) as (E1 & E2 & E3).
    destruct (expose sites row mult d es (f, T1) k) as [f2 S1]. destruct (expose sites row mult d es (g, T2) k) as [g2 S2]. cbn [fst snd] in E1, E2, E3.
    apply (IHk (fun x Hx => Hk x (or_intror Hx))); assumption. }
  destruct (G phases (fun x Hx => Hx) f g T1 T2 Hfg Hb HT) as (E1 & E2 & E3). destruct (fold_left _ phases (f, T1)) as [f2 S1]. destruct (fold_left _ phases (g, T2)) as [g2 S2].
  cbn [fst snd] in E1, E2, E3. apply (IH (fun x Hx => Hi x (or_intror Hx))); assumption.
Qed.
Lemma cells_from_row cells : Forall (fun x => (a <= row_of x)%Z /\ unsaved x) cells -> forall f g T1 T2 s1 s2, equal_from f g -> blank_before g -> states_alike T1 T2 ->
  let '(f', T1', s1') := fold_left (pass_cell sites phases steps) cells (f, T1, s1) in
  let '(g', T2', s2') := fold_left (pass_cell sites phases steps) cells (g, T2, s2) in
  equal_from f' g' /\ blank_before g' /\ s1' = s1 /\ s2' = s2.
Proof.
  induction 1 as [|[[row mult] save] cells [Hr Hs] _ IH]; intros f g T1 T2 s1 s2 Hfg Hb HT; cbn [fold_left]; [auto|].
  cbn in Hr, Hs. subst save. unfold pass_cell at 2 4. destruct (transfer_from row mult f g T1 T2 Hr Hfg Hb HT) as (E1 & E2 & E3).
  destruct (transfer_pixel sites phases steps row mult (f, T1)) as [f2 S1]. destruct (transfer_pixel sites phases steps row mult (g, T2)) as [g2 S2]. cbn [fst snd] in E1, E2, E3.
  apply IH; assumption.
Qed.

(** A readout of the rows from [a] on is the readout of all the rows when those before [a] are blank. *)
Lemma readout_window (pairs : list (list (Z * R * bool) * list (Z * R * bool))) :
  Forall (fun '(before, after) => Forall (fun x => (0 <= row_of x < a)%Z /\ unsaved x) before /\ Forall (fun x => (a <= row_of x)%Z /\ unsaved x) after) pairs ->
  forall f g, equal_from f g -> blank_before g ->
  equal_from (readout sites phases steps (map snd pairs) f) (readout sites phases steps (map (fun '(before, after) => before ++ after) pairs) g) /\
  blank_before (readout sites phases steps (map (fun '(before, after) => before ++ after) pairs) g).
Proof.
  unfold readout. induction 1 as [|[before after] pairs [H1 H2] _ IH]; intros f g Hfg Hb; [split; [exact Hfg|exact Hb]|]. cbn [map fold_left snd].
  unfold transfer_pass at 2 4 6. rewrite fold_left_app.
  pose proof (cells_before before H1 g (all_empty sites) (all_empty sites) Hb (fun k _ => alike_empty _)) as B.
  destruct (fold_left (pass_cell sites phases steps) before (g, all_empty sites, all_empty sites)) as [[g1 T1] s1]. destruct B as (B1 & B2 & ->).
  assert (F1 : equal_from f g1) by (intros z Hz; rewrite B1; apply Hfg, Hz).
  pose proof (cells_from_row after H2 f g1 (all_empty sites) T1 (all_empty sites) (all_empty sites) F1 (blank_same _ _ B1 Hb) (fun k Hk => alike_sym _ _ _ (B2 k Hk))) as C.
  destruct (fold_left (pass_cell sites phases steps) after (f, all_empty sites, all_empty sites)) as [[f2 T2] s2].
  destruct (fold_left (pass_cell sites phases steps) after (g1, T1, all_empty sites)) as [[g2 T3] s3]. destruct C as (C1 & C2 & -> & ->).
  apply IH; assumption.
Qed.
(** The rows before [a] keep their charge. *)
Lemma readout_after_only passes : Forall (Forall (fun x => (a <= row_of x)%Z)) passes -> forall f, agree (a - 1) f (readout sites phases steps passes f).
Proof.
  unfold readout. intros H. generalize (all_empty sites) as T. induction H as [|cells passes Hc _ IH]; intros T f; [intros z _; reflexivity|]. cbn [fold_left].
  unfold transfer_pass at 2. pose proof (pass_beyond sites phases steps (a - 1) Hfw cells) as P.
  specialize (P (Forall_impl _ (fun x (Hx : (a <= row_of x)%Z) => match x return (a <= row_of x)%Z -> at_most (a - 1) x = false with (r, _, _) => fun h => proj2 (Z.leb_gt _ _) (Z.lt_le_trans _ _ _ (Z.lt_pred_l a) h) end Hx) Hc) f T T).
  destruct (fold_left (pass_cell sites phases steps) cells (f, T, T)) as [[f2 T2] s2]. cbn [fst] in P. eapply agree_trans; [exact P|apply IH].
Qed.
End Window.

(** ** Renumbering the rows *)
Section Shift.
Context (sites : nat -> site) (phases : list nat) (steps : list (R * list (roe_phase R))) (k0 : Z).
Definition shifted (f g : column) : Prop := forall z, g (z + k0)%Z = f z.
Definition shift_cell (cell : Z * R * bool) : Z * R * bool := let '(row, mult, save) := cell in ((row + k0)%Z, mult, save).
Lemma give_shift f g row q : shifted f g -> shifted (give f row q) (give g (row + k0) q).
Proof. intros H z. unfold give. rewrite H. destruct (Z.eqb_spec (z + k0) (row + k0)), (Z.eqb_spec z row); try lia; reflexivity. Qed.
Lemma deposit_shift targets row q : forall f g, shifted f g -> shifted (deposit targets row q f) (deposit targets (row + k0) q g).
Proof.
  induction targets as [|[d x] targets IH]; intros f g H; [exact H|]. unfold deposit. cbn [fold_left]. apply IH. replace (row + k0 + d)%Z with (row + d + k0)%Z by lia. apply give_shift, H.
Qed.
Lemma expose_shift row mult d es f g T k : shifted f g ->
  shifted (fst (expose sites row mult d es (f, T) k)) (fst (expose sites (row + k0) mult d es (g, T) k)) /\
  snd (expose sites row mult d es (f, T) k) = snd (expose sites (row + k0) mult d es (g, T) k).
Proof.
  intros H. unfold expose. replace (row + k0 + rp_capture (electrode es k))%Z with (row + rp_capture (electrode es k) + k0)%Z by lia. rewrite H. cbn [fst snd]. split; [apply deposit_shift, H|reflexivity].
Qed.
Lemma transfer_shift row mult : forall f g T, shifted f g ->
  shifted (fst (transfer_pixel sites phases steps row mult (f, T))) (fst (transfer_pixel sites phases steps (row + k0) mult (g, T))) /\
  snd (transfer_pixel sites phases steps row mult (f, T)) = snd (transfer_pixel sites phases steps (row + k0) mult (g, T)).
Proof.
  unfold transfer_pixel. induction steps as [|[d es] l IH]; intros f g T H; [auto|]. cbn [fold_left].
  assert (G : forall ks f g T, shifted f g -> shifted (fst (fold_left (expose sites row mult d es) ks (f, T))) (fst (fold_left (expose sites (row + k0) mult d es) ks (g, T))) /\
    snd (fold_left (expose sites row mult d es) ks (f, T)) = snd (fold_left (expose sites (row + k0) mult d es) ks (g, T))).
  { clear. induction ks as [|k ks IHk]; intros f g T H; [auto|]. cbn [fold_left]. destruct (expose_shift row mult d es f g T k H) as [E1 E2].
    destruct (expose sites row mult d es (f, T) k) as [f2 T2]. destruct (expose sites (row + k0) mult d es (g, T) k) as [g2 T2']. cbn [fst snd] in E1, E2. subst T2'. apply IHk, E1. }
  destruct (G phases f g T H) as [E1 E2]. destruct (fold_left _ phases (f, T)) as [f2 T2]. destruct (fold_left _ phases (g, T)) as [g2 T2']. cbn [fst snd] in E1, E2. subst T2'. apply IH, E1.
Qed.
Lemma cells_shift cells : forall f g T saved, shifted f g ->
  let '(f', T', s') := fold_left (pass_cell sites phases steps) cells (f, T, saved) in
  let '(g', T2', s2') := fold_left (pass_cell sites phases steps) (map shift_cell cells) (g, T, saved) in
  shifted f' g' /\ T' = T2' /\ s' = s2'.
Proof.
  induction cells as [|[[row mult] save] cells IH]; intros f g T saved H; [cbn; auto|]. cbn [map fold_left shift_cell]. unfold pass_cell at 2 4.
  destruct (transfer_shift row mult f g T H) as [E1 E2]. destruct (transfer_pixel sites phases steps row mult (f, T)) as [f2 T2]. destruct (transfer_pixel sites phases steps (row + k0) mult (g, T)) as [g2 T2'].
  cbn [fst snd] in E1, E2. subst T2'. apply IH, E1.
Qed.
Lemma readout_shift passes f g : shifted f g -> shifted (readout sites phases steps passes f) (readout sites phases steps (map (map shift_cell) passes) g).
Proof.
  unfold readout. generalize (all_empty sites) as T. revert f g. induction passes as [|cells passes IH]; intros f g T H; [exact H|]. cbn [map fold_left]. unfold transfer_pass at 2 4.
  pose proof (cells_shift cells f g T T H) as C. destruct (fold_left (pass_cell sites phases steps) cells (f, T, T)) as [[f2 T2] s2].
  destruct (fold_left (pass_cell sites phases steps) (map shift_cell cells) (g, T, T)) as [[g2 T3] s3]. destruct C as (C1 & -> & ->). apply IH, C1.
Qed.
End Shift.
