(** * Readouts in which a fainter image leads to the same, in proportion. *)
From Coq Require Import ZArith List Bool Reals Lra Lia Sorted.
From Coquelicot Require Import Rcomplements Rbar Hierarchy RInt.
From Verif Require Import Num Py RFacts CCDModel TrapsModel ManagerModel ROEModel ClockModel MainModel Spec SpecROE SpecImage SpecReadout SpecTime SpecSlow SpecHistory SpecHold SpecFlatten SpecColumn SpecBound SpecRecovery SpecWork SpecWindowOrder SpecMeet SpecLinear
  CallFacts WmFacts ArrayFacts CutFacts InstantFacts ClockFacts MainFacts ShapeFacts ColumnFacts ReadoutFacts ReadoutImage
  ROEClockFacts ROEMatrixFacts ROEExpressFacts ROEKindFacts WorkFacts ReadoutFull ReadoutForced ReadoutSpecFacts ReadoutColumnFacts OrderFacts TameFacts DepthFacts AboveFacts BoundFacts MainReadoutFacts RecoverImageFacts PhaseOrderFacts LiftFacts GridFacts SteadyFacts ExpressOrderFacts ReadoutInjection ExpressGridFacts InjectionGridFacts WindowFacts WindowMainFacts MaskFacts WindowGridFacts HistoryBoundFacts
  MeetFacts MeetSimFacts MeetKindFacts MeetGroupFacts MeetGridFacts InjectedGridFacts MeetBalanceFacts TopFacts TopGridFacts SqueezeFacts.
Import ListNotations.
Open Scope R_scope.

(** ** Any traps *)
Section Scaled.
Context {St : Type} (net : nat -> R -> R -> St -> R) (after : nat -> R -> R -> St -> St) (phases : list nat) (steps : list (R * list (roe_phase R))) (start : nat -> St).
Context (under : nat -> St -> Prop) (shrink : St -> St) (top most c : R).
Hypothesis Hc : 0 < c <= 1.
Hypothesis Hstart : forall k, In k phases -> under k (start k).
Hypothesis Hafter : forall k d es m s, In k phases -> In (d, es) steps -> 0 <= m <= top -> under k s -> under k (after k d m s).
Hypothesis Hnet : forall k d es m mult s, In k phases -> In (d, es) steps -> 0 <= m <= top -> 0 <= mult <= most -> under k s -> m + net k d m s * mult <= top.
Hypothesis Hown : forall d es k, In (d, es) steps -> In k phases -> let e := electrode es k in
  rp_high e = true /\ rp_capture e = 0%Z /\ combine (rp_release e) (rp_fraction e) = [(0%Z, 1)].
Hypothesis Sstart : forall k, In k phases -> shrink (start k) = start k.
Hypothesis Snet : forall k d es m s, In k phases -> In (d, es) steps -> 0 <= m <= top -> under k s -> net k d (c * m) (shrink s) = c * net k d m s.
Hypothesis Safter : forall k d es m s, In k phases -> In (d, es) steps -> 0 <= m <= top -> under k s -> after k d (c * m) (shrink s) = shrink (after k d m s).
Notation dim := (dim phases under top).
Definition scaled (st st' : column * (nat -> St)) : Prop :=
  (forall z, fst st' z = c * fst st z) /\ forall k, In k phases -> snd st' k = shrink (snd st k).
Lemma max_scaled a : Rmax 0 (c * a) = c * Rmax 0 a.
Proof. unfold Rmax. destruct (Rle_dec 0 a), (Rle_dec 0 (c * a)); try ring; nra. Qed.
Lemma meet_scaled row mult d es st st' k : In (d, es) steps -> In k phases -> dim st -> scaled st st' -> scaled (meet net after row mult d es st k) (meet net after row mult d es st' k).
Proof.
  intros Hin Hk [D1 D2] [H1 H2]. destruct st as [f T], st' as [f' T']. cbn [fst snd] in *. unfold meet. destruct (Hown d es k Hin Hk) as (E1 & E2 & E3). rewrite E1, E2, E3, Z.add_0_r. split; cbn [fst snd].
  - intros z. unfold deposit. cbn [fold_left]. unfold give. rewrite Z.add_0_r, !Rmult_1_r. rewrite !H1, (H2 k Hk). destruct (Z.eqb_spec z row) as [->|]; [|reflexivity].
    rewrite (Snet k d es) by auto. rewrite <- max_scaled. f_equal. ring.
  - intros k' Hk'. unfold set_phase. destruct (Nat.eqb_spec k' k) as [->|]; [|now apply H2]. rewrite H1, (H2 k Hk). apply (Safter k d es); auto.
Qed.
Lemma fold_scaled {A} (F : column * (nat -> St) -> A -> column * (nat -> St)) : forall xs,
  (forall x st st', In x xs -> dim st -> scaled st st' -> dim (F st x) /\ scaled (F st x) (F st' x)) ->
  forall st st', dim st -> scaled st st' -> dim (fold_left F xs st) /\ scaled (fold_left F xs st) (fold_left F xs st').
Proof.
  induction xs as [|x xs IH]; intros H st st' Hd Hs; cbn [fold_left]; [auto|]. destruct (H x st st' (or_introl eq_refl) Hd Hs) as [K1 K2]. apply IH; auto. intros y s s' Hy. apply H. now right.
Qed.
Lemma cells_scaled cells : Forall (fun '(_, mult, _) => 0 <= mult <= most) cells -> forall st st', dim st -> scaled st st' ->
  dim (meet_cells net after phases steps cells st) /\ scaled (meet_cells net after phases steps cells st) (meet_cells net after phases steps cells st').
Proof.
  intros HF. unfold meet_cells. apply (fold_scaled (fun st '(row, mult, _) => meet_pixel net after phases steps row mult st)). intros [[row mult] b] st st' Hin. rewrite Forall_forall in HF. specialize (HF _ Hin). cbn beta iota in HF.
  unfold meet_pixel. apply (fold_scaled (fun st '(dwell, es) => fold_left (meet net after row mult dwell es) phases st)). intros [d es] s s' Hs. apply (fold_scaled (meet net after row mult d es)). intros k t t' Hk Hd Hr.
  split; [eapply meet_dim; eauto|now apply meet_scaled].
Qed.
Lemma all_scaled passes : Forall (Forall (fun '(_, mult, _) => 0 <= mult <= most)) passes -> forall f f' : column, (forall z, 0 <= f z <= top) -> (forall z, f' z = c * f z) ->
  forall z, meet_all net after phases steps start passes f' z = c * meet_all net after phases steps start passes f z.
Proof.
  unfold meet_all. induction 1 as [|cells passes HC HP IH]; intros f f' Hf Hs; cbn [fold_left]; [exact Hs|].
  destruct (cells_scaled cells HC (f, start) (f', start)) as [[K1 _] [K2 _]].
  - split; [exact Hf|exact Hstart].
  - split; [exact Hs|]. intros k Hk. symmetry. now apply Sstart.
  - now apply IH.
Qed.
End Scaled.

Section Direction.
Context (c : ccd R) (groups : list (list (trap R))) (dwell : R).
Hypothesis Hplain : plain_ccd c.
Hypothesis Hphases : (ccd_n_phases c <= 1)%nat.
Let steps := timed_steps (built (Standard true) [dwell] DFloat true true).
Let single d es : In (d, es) steps -> d = dwell /\ 0 < d.
Proof.
  unfold steps, timed_steps. intros H. apply filter_In in H as [H1 H2]. destruct (Rlt_dec 0 d) as [L|L]; [|discriminate]. apply in_combine_l in H1. cbn in H1. destruct H1 as [<-|[]]. auto.
Qed.
Let own_step d es k : In (d, es) steps -> In k (trap_phases c) -> let e := electrode es k in rp_high e = true /\ rp_capture e = 0%Z /\ combine (rp_release e) (rp_fraction e) = [(0%Z, 1)].
Proof.
  intros Hin Hk. apply trap_phases_lt in Hk. destruct (timed_in _ _ _ Hin) as [_ Hes]. destruct k; [|lia]. cbn in Hes. destruct Hes as [<-|[]]. cbn. rnum. auto.
Qed.
Lemma linear_scaled most top x passes : Forall kind_group groups -> 1 <= most -> (forall k, (k < ccd_n_phases c)%nat -> mild_phase c groups most k) -> (forall k, (k < ccd_n_phases c)%nat -> linear_phase c groups top k) ->
  0 <= top -> 0 < x <= 1 -> Forall (Forall (fun '(_, mult, _) => 0 <= mult <= most)) passes -> forall f f' : column, (forall z, 0 <= f z <= top) -> (forall z, f' z = x * f z) ->
  forall z, meeting c groups steps passes f' z = x * meeting c groups steps passes f z.
Proof.
  intros Hkinds Hmost Hmild Hlin Htop Hx. set (gs k := map (map (thinned (share c k))) groups). set (full k := nth k (ccd_full_well c) 1). set (beta k := nth k (ccd_fill_power c) 1).
  set (kap k := Rsum (map (fun g => grip (kind_for g) (group_traps g * (beta k / full k))) (gs k))).
  assert (facts : forall k, In k (trap_phases c) -> 0 < full k /\ 0 < beta k /\ 1 <= beta k /\ Forall (mild_group (full k) (beta k)) (gs k) /\ Forall kind_group (gs k) /\ most * kap k < 1)
    by exact (phase_facts c groups most Hplain Hkinds Hmild).
  assert (linear : forall k, In k (trap_phases c) -> beta k = 1 /\ Forall (fun g => kind_group g /\ top + group_traps g <= full k) (gs k)).
  { intros k Hk. destruct (facts k Hk) as (_ & _ & _ & _ & KG & _). pose proof (trap_phases_lt _ _ Hk) as Hlt. destruct (Hlin k Hlt) as (f0 & Hp & HF). destruct (params_nth _ _ _ _ Hp) as [E1 E2].
    split; [exact E2|]. unfold full. rewrite E1. rewrite Forall_forall in *. intros g Hg. split; [now apply KG|]. unfold gs in Hg. apply in_map_iff in Hg as (g0 & <- & Hg0). rewrite group_traps_thinned. now apply HF. }
  unfold meeting. set (net := fun k => groups_net (site_of c groups k)). set (after := fun k => groups_after (site_of c groups k)). set (start := fun k => map unfilled (site_groups (site_of c groups k))).
  set (ok k s := oks (gs k) s /\ Forall bare_state s).
  assert (site : forall k, In k (trap_phases c) -> site_of c groups k = mkSite (gs k) (depth (full k) 1)).
  { intros k Hk. destruct (linear k Hk) as [B _]. unfold beta in B. unfold site_of, full. rewrite B. reflexivity. }
  assert (Bare : forall k, Forall bare_state (start k)) by (intros k; apply Forall_map, Forall_forall; intros g _; apply (unfilled_squeeze x)).
  assert (Ok0 : forall k, In k (trap_phases c) -> ok k (start k)).
  { intros k Hk. destruct (facts k Hk) as (P1 & P2 & P3 & P4 & P5 & P6). split; [now apply oks_start|apply Bare]. }
  destruct (Rlt_dec 0 dwell) as [Hd|Hd].
  2:{ apply (all_scaled net after (trap_phases c) steps start (fun _ _ => True) (map (squeezed x)) top most x Hx); auto; try (intros k d es m; intros; match goal with H : In _ steps |- _ => destruct (single _ _ H) end; lra).
      intros k Hk. unfold start. rewrite map_map. apply map_ext. intros g. apply unfilled_squeeze. }
  assert (Hok : forall k m s, In k (trap_phases c) -> 0 <= m -> ok k s -> ok k (after k dwell m s)).
  { intros k m s Hk Hm [O1 O2]. destruct (facts k Hk) as (P1 & P2 & P3 & P4 & P5 & P6). split; [now apply (oks_after (full k) (beta k))|]. unfold after. rewrite (site k Hk). now apply (groups_bare x). }
  set (lit := TopFacts.lit after start dwell top).
  assert (lit_ok : forall k j, In k (trap_phases c) -> ok k (lit k j)) by (intros k j Hk; induction j as [|j IH]; [now apply Ok0|apply Hok; auto]).
  assert (Hle : forall k m m' s s', In k (trap_phases c) -> 0 <= m' <= m -> ok k s' -> ok k s -> les (gs k) s' s -> les (gs k) (after k dwell m' s') (after k dwell m s) /\ - (kap k * (m - m')) <= net k dwell m s - net k dwell m' s').
  { intros k m m' s s' Hk Hm H1 H2 H3. destruct (facts k Hk) as (P1 & P2 & P3 & P4 & P5 & P6). destruct H1 as [H1 _], H2 as [H2 _]. split; now apply (nets_order (full k) (beta k)). }
  assert (lit_le : forall k j, In k (trap_phases c) -> les (gs k) (lit k j) (lit k (S j))).
  { intros k j Hk. induction j as [|j IH]; [apply les_min; now apply (lit_ok k 1%nat)|]. apply Hle; [exact Hk|lra|now apply lit_ok|now apply (lit_ok k (S j))|exact IH]. }
  assert (lit_net : forall k j, In k (trap_phases c) -> net k dwell top (lit k j) <= 0).
  { intros k j Hk. destruct (facts k Hk) as (P1 & P2 & P3 & P4 & P5 & P6). pose proof (gamounts_more (gs k) P5 _ _ (proj1 (lit_ok k j Hk)) (proj1 (lit_ok k (S j) Hk)) (lit_le k j Hk)) as H.
    assert (E : gamounts (gs k) (lit k (S j)) = gamounts (gs k) (lit k j) - net k dwell top (lit k j)) by (apply (oks_after (full k) (beta k)); auto; apply lit_ok; exact Hk). lra. }
  apply (all_scaled net after (trap_phases c) steps start (fun k s => ok k s /\ exists j, les (gs k) s (lit k j)) (map (squeezed x)) top most x Hx).
  - intros k Hk. split; [now apply Ok0|]. exists 0%nat. apply les_min. now apply Ok0.
  - intros k d es m s Hk Hin Hm (H1 & j & H2). rewrite (proj1 (single d es Hin)). split; [apply Hok; [exact Hk|lra|exact H1]|]. exists (S j). apply Hle; auto.
  - intros k d es m mult s Hk Hin Hm Hmu (H1 & j & H2). rewrite (proj1 (single d es Hin)). pose proof (proj2 (Hle k top m (lit k j) s Hk Hm H1 (lit_ok k j Hk) H2)) as O. pose proof (lit_net k j Hk) as L.
    destruct (facts k Hk) as (P1 & P2 & P3 & P4 & P5 & P6). assert (K0 : 0 <= kap k) by now apply grips_nonneg.
    assert (B : net k dwell m s <= kap k * (top - m)) by lra. pose proof (Rmult_le_compat_r mult _ _ (proj1 Hmu) B) as B'.
    assert (B2 : mult * kap k <= 1) by (eapply Rle_trans; [apply Rmult_le_compat_r; [exact K0|exact (proj2 Hmu)]|lra]).
    assert (B3 : mult * kap k * (top - m) <= 1 * (top - m)) by (apply Rmult_le_compat_r; lra). lra.
  - exact own_step.
  - intros k Hk. unfold start. rewrite map_map. apply map_ext. intros g. apply unfilled_squeeze.
  - intros k d es m s Hk Hin Hm [[O1 O2] _]. rewrite (proj1 (single d es Hin)). destruct (facts k Hk) as (P1 & _). destruct (linear k Hk) as [_ L]. unfold net. rewrite (site k Hk). now apply (groups_squeeze x Hx (full k) top).
  - intros k d es m s Hk Hin Hm [[O1 O2] _]. rewrite (proj1 (single d es Hin)). destruct (facts k Hk) as (P1 & _). destruct (linear k Hk) as [_ L]. unfold after. rewrite (site k Hk). now apply (groups_squeeze x Hx (full k) top).
Qed.
End Direction.
