(** * Readouts of images past groups of traps of any kind: order, differences and recovery. *)
From Coq Require Import ZArith List Bool Reals Lra Lia Sorted.
From Coquelicot Require Import Rcomplements Rbar Hierarchy RInt.
From Verif Require Import Num Py RFacts CCDModel TrapsModel ManagerModel ROEModel ClockModel MainModel Spec SpecROE SpecImage SpecReadout SpecTime SpecSlow SpecHistory SpecHold SpecFlatten SpecColumn SpecBound SpecRecovery SpecPhases SpecWork SpecExpressOrder SpecInjectionOrder SpecWindowOrder SpecMeet
  CallFacts WmFacts ArrayFacts CutFacts InstantFacts ClockFacts MainFacts ShapeFacts ColumnFacts ReadoutFacts ReadoutImage RemoveFacts
  ROEClockFacts ROEMatrixFacts ROEExpressFacts ROEKindFacts WorkFacts ReadoutFull ReadoutForced ReadoutSpecFacts ReadoutColumnFacts OrderFacts TameFacts DepthFacts BoundFacts MainReadoutFacts RecoverImageFacts PhaseOrderFacts LiftFacts GridFacts SteadyFacts ExpressOrderFacts ReadoutInjection ExpressGridFacts InjectionGridFacts WindowFacts WindowMainFacts MaskFacts WindowGridFacts
  MeetFacts MeetSimFacts MeetKindFacts MeetGroupFacts.
Import ListNotations.
Open Scope R_scope.

Lemma kinds_normalised a : kind_traps a -> normalise_traps a = Ok (groups_in a).
Proof.
  intros [Hne H]. destruct a as [t|l|l]; [reflexivity| |].
  - destruct l as [|t l]; [|reflexivity]. inversion H as [|? ? [G _] _]; subst. congruence.
  - destruct l; [cbn in Hne; congruence|reflexivity].
Qed.
Lemma phase_share c k : In k (trap_phases c) -> 0 < share c k.
Proof. intros H. unfold trap_phases in H. apply filter_In in H as [_ H]. destruct (Rlt_dec 0 (share c k)); [assumption|discriminate]. Qed.
Lemma params_nth c k beta full : phase_params c k 0 beta full -> nth k (ccd_full_well c) 1 = full /\ nth k (ccd_fill_power c) 1 = beta.
Proof. intros [_ H2 H3]. split; apply nth_error_nth; assumption. Qed.
Lemma mild_is_roomy c groups x k : mild_phase c groups x k -> roomy_phase c groups k.
Proof. intros (full & beta & H1 & H2 & H3 & _). eapply Forall_impl; [|exact H3]. intros g Hg. right. exists full, beta. auto. Qed.

(** ** The managers of a phase *)
Section Sites.
Context (c : ccd R) (groups : list (list (trap R))).
Hypothesis Hplain : plain_ccd c.
Hypothesis Hkinds : Forall kind_group groups.
Definition phase_rep (k u : nat) (ms : list (manager R)) (ss : list group_state) : Prop := reps (site_groups (site_of c groups k)) u ms ss.
Lemma phase_init k N : In k (trap_phases c) ->
  phase_rep k N (map (fun g => manager_init (kind_for g) (map (thinned (share c k)) g) N) groups) (map unfilled (site_groups (site_of c groups k))).
Proof.
  intros Hk. unfold phase_rep. cbn [site_groups site_of].
  replace (map (fun g => manager_init (kind_for g) (map (thinned (share c k)) g) N) groups) with (map (fun g => manager_init (kind_for g) g N) (map (map (thinned (share c k))) groups)).
  - apply reps_init. apply Forall_map. eapply Forall_impl; [|exact Hkinds]. intros g Hg. apply kind_group_thinned; [now apply phase_share|exact Hg].
  - rewrite map_map. apply map_ext. intros g. now rewrite kind_thinned.
Qed.
Lemma phase_step : (forall k, (k < ccd_n_phases c)%nat -> roomy_phase c groups k) -> forall k u ms s n dwell, In k (trap_phases c) -> phase_rep k (S u) ms s -> 0 <= n -> 0 < dwell ->
  exists ms', step_groups ms n (fun n => well_fill c k false n) dwell 0 = Ok (groups_net (site_of c groups k) dwell n s, ms') /\ phase_rep k u ms' (groups_after (site_of c groups k) dwell n s).
Proof.
  intros Hroom k u ms s n dwell Hk HR Hn Hd. pose proof (trap_phases_lt _ _ Hk) as Hlt. destruct (pc_phase _ Hplain k Hlt) as (full & beta & Hp & Hf & Hb).
  destruct (params_nth _ _ _ _ Hp) as [E1 E2].
  destruct (reps_step full beta Hf Hb (fun n => well_fill c k false n) n dwell) with (gs := map (map (thinned (share c k))) groups) (u := u) (ms := ms) (ss := s) (acc := 0) as (ms' & S1 & S2); auto.
  - intros a Ha. now apply depth_fill.
  - apply Forall_map. specialize (Hroom k Hlt). unfold roomy_phase in Hroom. rewrite Forall_forall in *. intros g Hg. split; [apply kind_group_thinned; [now apply phase_share|now apply Hkinds]|].
    rewrite kind_thinned, group_traps_thinned. destruct (Hroom g Hg) as [H|(full' & beta' & Hp' & H1 & H2)]; [left; exact H|right].
    destruct (params_nth _ _ _ _ Hp') as [F1 F2]. rewrite <- E1, <- E2, F1, F2. auto.
  - exists ms'. rewrite Rplus_0_l in S1. unfold phase_rep, site_of in *. cbn [site_groups] in *. rewrite E1, E2. split; assumption.
Qed.
End Sites.

(** ** A clocking is a meeting with the traps *)
Section Clocking.
Context (c : ccd R) (traps : traps_arg R) (dwell : list R) (dt : dtype).
Hypothesis Hplain : plain_ccd c.
Hypothesis Hphases : (ccd_n_phases c <= length dwell)%nat.
Hypothesis Hkinds : kind_traps traps.
Hypothesis Hroomy : forall k, (k < ccd_n_phases c)%nat -> roomy_phase c (groups_in traps) k.
Let groups := groups_in traps.
Let Hsome : Forall (fun g => g <> []) groups.
Proof. eapply Forall_impl; [|exact (proj2 Hkinds)]. intros g [H _]. exact H. Qed.
Lemma standard_meeting im express offset window n_pixels columns tw rows cols em mon : let r := built (Standard true) dwell dt true true in
  shape rows cols im -> (0 < rows)%nat -> (forall i j, 0 <= pixel im i j) ->
  window_ok window n_pixels -> (n_pixels <= rows)%nat -> tw_ok tw -> (express = 0%nat \/ S express <> n_pixels) ->
  (forall j, In j columns -> (0 <= j < Z.of_nat cols)%Z) -> NoDup columns ->
  standard_express true dt window express offset (tw_arg tw) = Ok (em, mon) ->
  exists im', clock_charge_in_one_direction im c r traps express offset window columns (tw_arg tw) = Ok (im', r) /\
  shape rows cols im' /\ (forall i j, ~ In (Z.of_nat j) columns -> pixel im' i j = pixel im i j) /\
  forall i j, (i < rows)%nat -> In (Z.of_nat j) columns ->
    pixel im' i j = meeting c groups (timed_steps r) (map (fun '(e, m) => cells_of window e m (map (fun _ => false) e)) (combine em mon)) (col_fun im j) (Z.of_nat i).
Proof.
  intros r Hs Hr Hp Hw Hnp Htw He Hcols Hnd Eex.
  destruct (standard_express_ok true dt window n_pixels express offset Hw tw) as (E & em' & mon' & Eex' & Hem & Hmon & _); auto.
  { intros (_ & H1 & H2). destruct He; contradiction. }
  rewrite Eex in Eex'. injection Eex' as <- <-.
  apply (forced_meeting im c (Standard true) dwell dt traps groups rows cols _ _ _ (phase_rep c groups)) with (E := E) (W := length window); auto.
  - now apply kinds_normalised.
  - apply phase_step; auto. exact (proj2 Hkinds).
  - intros k N Hk. apply phase_init; [exact (proj2 Hkinds)|exact Hk].
  - reflexivity.
  - unfold express_and_monitor. cbn [built make_roe roe_kind_of roe_dtype]. rewrite Eex. reflexivity.
  - intros w Hin. destruct Hw as [Hw _]. rewrite Forall_forall in Hw. specialize (Hw w Hin). lia.
Qed.
Lemma injection_meeting im npt express offset columns tw rows cols : let r := built (Injection npt) dwell DFloat true true in
  let N := injection_transfers npt rows offset in let E := passes_for N express in let x := INR N / INR E in
  shape rows cols im -> (0 < rows)%nat -> (forall i j, 0 <= pixel im i j) -> (0 < N)%nat -> tw_ok tw ->
  (forall j, In j columns -> (0 <= j < Z.of_nat cols)%Z) -> NoDup columns ->
  exists im', clock_charge_in_one_direction im c r traps express offset (py_range 0 (Z.of_nat rows)) columns (tw_arg tw) = Ok (im', built (Injection (Some N)) dwell DFloat true true) /\
  shape rows cols im' /\ (forall i j, ~ In (Z.of_nat j) columns -> pixel im' i j = pixel im i j) /\
  forall i j, (i < rows)%nat -> In (Z.of_nat j) columns ->
    pixel im' i j = meeting c groups (timed_steps r) (injection_passes rows E (fun i => tw_part tw (INR i * x) (INR (S i) * x))) (col_fun im j) (Z.of_nat i).
Proof.
  intros r N E x Hs Hr Hp HN Htw Hcols Hnd. set (r' := built (Injection (Some N)) dwell DFloat true true).
  destruct (injection_at npt (py_range 0 (Z.of_nat rows)) rows express offset (window_ok_range rows Hr) tw HN Htw) as (em & mon & E1 & R1 & R2 & HE & Hent).
  fold N in E1, HE, Hent. change (express_used N express) with E in *. cbn zeta in Hent. fold x in Hent.
  destruct (forced_meeting im c (Injection npt) dwell DFloat traps groups rows cols
    (fun k => groups_net (site_of c groups k)) (fun k => groups_after (site_of c groups k)) (fun k => map unfilled (site_groups (site_of c groups k))) (phase_rep c groups)) with (express := express) (offset := offset)
    (window := py_range 0 (Z.of_nat rows)) (columns := columns) (tw := tw_arg tw) (r' := r') (em := em) (mon := mon) (E := E) (W := rows) as (im' & G1 & G2 & G3 & G4); auto.
  - now apply kinds_normalised.
  - apply phase_step; auto. exact (proj2 Hkinds).
  - intros k M Hk. apply phase_init; [exact (proj2 Hkinds)|exact Hk].
  - exact I.
  - unfold express_and_monitor. cbn [built make_roe roe_kind_of roe_dtype]. rewrite E1. reflexivity.
  - rewrite py_range_length. lia.
  - intros w Hw. apply py_range_in in Hw. exact Hw.
  - exists im'. split; [exact G1|]. split; [exact G2|]. split; [exact G3|]. intros i j Hi Hj. rewrite (G4 i j Hi Hj). unfold meeting. f_equal.
    rewrite py_range_0. unfold injection_passes. destruct R1 as [Le He], R2 as [Lm Hm]. unfold matrix in *. change (length em = E) in Le. change (length mon = E) in Lm.
    apply (combine_nth_eq (fun e m => cells_of (map Z.of_nat (seq 0 rows)) e m (map (fun _ => false) e)) [] []); auto.
    intros e Hlt. cbn [Nat.add]. rewrite Forall_forall in He, Hm.
    assert (L1 : length (nth e em []) = rows) by (apply He, nth_In; lia). assert (L2 : length (nth e mon []) = rows) by (apply Hm, nth_In; lia).
    apply cells_all; auto.
    + rewrite map_length. exact L1.
    + intros k Hk. apply (Hent e k Hlt Hk).
    + intros k Hk. apply (Hent e k Hlt Hk).
    + intros k Hk. clear. revert k. induction (nth e em []) as [|y l IH]; intros [|k]; try reflexivity. apply IH.
Qed.
End Clocking.

(** ** What a meeting does to a column *)
Section Direction.
Context (c : ccd R) (groups : list (list (trap R))) (dwell : list R) (most : R).
Hypothesis Hplain : plain_ccd c.
Hypothesis Hphases : (ccd_n_phases c <= length dwell)%nat.
Hypothesis Hkinds : Forall kind_group groups.
Hypothesis Hmost : 1 <= most.
Hypothesis Hmild : forall k, (k < ccd_n_phases c)%nat -> mild_phase c groups most k.
Let steps := timed_steps (built (Standard true) dwell DFloat true true).
Let gs k := map (map (thinned (share c k))) groups.
Let full k := nth k (ccd_full_well c) 1.
Let beta k := nth k (ccd_fill_power c) 1.
Let kap k := Rsum (map (fun g => grip (kind_for g) (group_traps g * (beta k / full k))) (gs k)).
Definition kinds_map (passes : list (list (Z * R * bool))) (x : list R) : list R :=
  map (fun i => meeting c groups steps passes (col_of (map (Rmax 0) x)) (Z.of_nat i)) (seq 0 (length x)).
Lemma phase_facts k : In k (trap_phases c) -> 0 < full k /\ 0 < beta k /\ 1 <= beta k /\ Forall (mild_group (full k) (beta k)) (gs k) /\ Forall kind_group (gs k) /\ most * kap k < 1.
Proof.
  intros Hk. pose proof (trap_phases_lt _ _ Hk) as Hlt. destruct (pc_phase _ Hplain k Hlt) as (f & b & Hp & Hf & Hb). destruct (params_nth _ _ _ _ Hp) as [E1 E2].
  destruct (Hmild k Hlt) as (f' & b' & Hp' & M1 & M2 & M3). destruct (params_nth _ _ _ _ Hp') as [F1 F2]. rewrite E1 in F1. rewrite E2 in F2. subst f' b'.
  assert (KG : Forall kind_group (gs k)) by (apply Forall_map; eapply Forall_impl; [|exact Hkinds]; intros g Hg; apply kind_group_thinned; [now apply phase_share|exact Hg]).
  unfold kap, full, beta. rewrite E1, E2. split; [exact Hf|]. split; [exact Hb|]. split; [exact M1|]. split; [|split; [exact KG|]].
  - unfold gs in *. apply Forall_map. rewrite Forall_map in KG. rewrite Forall_forall in *. intros g Hg. split; [now apply KG|]. rewrite group_traps_thinned. now apply M2.
  - eapply Rle_lt_trans; [right|exact M3]. f_equal. f_equal. unfold gs. rewrite map_map. apply map_ext. intros g. rewrite kind_thinned, group_traps_thinned. f_equal. unfold Rdiv. ring.
Qed.
Let EL e es k : In (e, es) steps -> In k (trap_phases c) -> forward (electrode es k) /\ lossless 2 0 (electrode es k).
Proof.
  intros Hin Hk. pose proof (trap_phases_lt _ _ Hk) as Hlt.
  destruct (electrode_ok dwell DFloat k e es ltac:(lia) Hin) as [E1 E2]. split; [exact E1|]. apply (E2 1%nat 0%Z). lia.
Qed.
Let Hsteps e es : In (e, es) steps -> 0 < e.
Proof. intros Hin. now apply timed_in in Hin. Qed.
Lemma kinds_steady n passes : Forall (good_cells most n) passes -> exists gain big, 0 < gain <= 1 /\ 0 <= big /\ steady gain big (kinds_map passes).
Proof.
  intros Hpass. destruct (least_of (fun k => 1 - most * kap k) (trap_phases c)) as (gam & Hgam & HG1); [intros k Hk; destruct (phase_facts k Hk) as (_ & _ & _ & _ & _ & H); lra|].
  exists (MeetFacts.gain_on (trap_phases c) steps gam passes), (MeetFacts.big_on (trap_phases c) steps most passes).
  split; [split; [apply MeetFacts.gain_on_pos; lra|apply MeetFacts.gain_on_01; lra]|]. split; [now apply MeetFacts.big_on_pos|].
  unfold kinds_map, meeting.
  apply (meet_steady (fun k => groups_net (site_of c groups k)) (fun k => groups_after (site_of c groups k)) (trap_phases c) steps (fun k => map unfilled (site_groups (site_of c groups k)))
    (fun k => oks (gs k)) (fun k => les (gs k)) (fun k => gamounts (gs k)) kap gam most) with (M := n).
  - apply NoDup_filter, seq_NoDup.
  - intros k Hk. destruct (phase_facts k Hk) as (P1 & P2 & P3 & P4 & P5 & P6). now apply oks_start.
  - intros k s Hk H. now apply les_refl.
  - intros k d m s Hk Hd Hm H. destruct (phase_facts k Hk) as (P1 & P2 & P3 & P4 & P5 & P6). now apply (oks_after (full k) (beta k)).
  - intros k d m m' s s' Hk Hd Hm H1 H2 H3. destruct (phase_facts k Hk) as (P1 & P2 & P3 & P4 & P5 & P6). now apply (nets_order (full k) (beta k)).
  - intros k d m m' s s' Hk Hd Hm H1 H2 H3. destruct (phase_facts k Hk) as (P1 & P2 & P3 & P4 & P5 & P6). now apply (nets_order (full k) (beta k)).
  - intros k d s Hk Hd H. destruct (phase_facts k Hk) as (P1 & P2 & P3 & P4 & P5 & P6). now apply (nets_alone (full k) (beta k)).
  - intros k d m s Hk Hd Hm H. destruct (phase_facts k Hk) as (P1 & P2 & P3 & P4 & P5 & P6). now apply (oks_after (full k) (beta k)).
  - intros k s s' Hk H1 H2 H3. destruct (phase_facts k Hk) as (P1 & P2 & P3 & P4 & P5 & P6). now apply gamounts_more.
  - intros k Hk. destruct (phase_facts k Hk) as (P1 & P2 & P3 & P4 & P5 & P6). now apply grips_nonneg.
  - lra.
  - exact Hmost.
  - intros k Hk. specialize (HG1 k Hk). cbv beta in HG1. lra.
  - exact Hsteps.
  - intros e es k Hin Hk. destruct (EL e es k Hin Hk) as [[F1 F2] (L1 & L2 & L3)]. split; [|split].
    + eapply Forall_impl; [|exact L1]. intros [x f] [Hx Hf]. split; [lia|exact Hf].
    + exact L2.
    + intros H. rewrite (L3 H), (F1 H). auto.
  - intros e es k Hin Hk. now apply EL with e.
  - exact Hpass.
Qed.
Lemma met_nonneg : 0 <= all_shares c * all_traps groups.
Proof.
  apply Rmult_le_pos.
  - unfold all_shares. apply Rsum_nonneg, Forall_map, Forall_forall. intros k _. apply (pc_share _ Hplain).
  - unfold all_traps. apply Rsum_nonneg, Forall_map. eapply Forall_impl; [|exact Hkinds]. intros g Hg. now apply group_traps_pos.
Qed.
Lemma met_phases : Rsum (map (fun k => all_traps (gs k)) (trap_phases c)) = all_shares c * all_traps groups.
Proof.
  assert (C : forall k, all_traps (gs k) = share c k * all_traps groups).
  { intros k. unfold all_traps, gs. clear. induction groups as [|g l IH]; [cbn; ring|]. cbn [map]. change (Rsum (?a :: ?l)) with (a + Rsum l). rewrite IH, group_traps_thinned. ring. }
  unfold trap_phases, all_shares. induction (seq 0 (ccd_n_phases c)) as [|k l IH]; [cbn; ring|].
  cbn [filter map]. destruct (Rlt_dec 0 (share c k)) as [Hk|Hk]; cbn [map]; change (Rsum (?a :: ?l)) with (a + Rsum l); rewrite ?C, IH; [ring|].
  replace (share c k) with 0 by (pose proof (pc_share c Hplain k); lra). ring.
Qed.
Lemma meeting_change B z passes (col : column) :
  (forall d es k row, In (d, es) steps -> In k (trap_phases c) -> let e := electrode es k in
     Forall (fun p => 0 <= snd p) (combine (rp_release e) (rp_fraction e)) /\ reach (combine (rp_release e) (rp_fraction e)) row z <= B row) ->
  (forall z, 0 <= B z) -> Forall (Forall (fun '(_, mult, _) => 0 <= mult)) passes -> (forall z, 0 <= col z) ->
  Rabs (meeting c groups steps passes col z - col z) <= Rsum (map (weight B) passes) * (INR (length dwell) * (all_shares c * all_traps groups)).
Proof.
  intros HB HB0 Hpos Hcol.
  destruct (meet_all_change (fun k => groups_net (site_of c groups k)) (fun k => groups_after (site_of c groups k)) (trap_phases c) steps (fun k => map unfilled (site_groups (site_of c groups k)))
    (fun k => oks (gs k)) (fun k => gamounts (gs k)) (fun k => all_traps (gs k))) with (B := B) (z := z) (passes := passes) (c := col) as [_ H].
  - intros k Hk. destruct (phase_facts k Hk) as (P1 & P2 & P3 & P4 & P5 & P6). now apply oks_start.
  - intros k d m s Hk Hd Hm H. destruct (phase_facts k Hk) as (P1 & P2 & P3 & P4 & P5 & P6). now apply (oks_after (full k) (beta k)).
  - intros k d m s Hk Hd Hm H. destruct (phase_facts k Hk) as (P1 & P2 & P3 & P4 & P5 & P6). now apply (oks_after (full k) (beta k)).
  - intros k s Hk H. destruct (phase_facts k Hk) as (P1 & P2 & P3 & P4 & P5 & P6). now apply gamounts_range.
  - exact Hsteps.
  - exact HB.
  - exact Hpos.
  - exact Hcol.
  - unfold BoundFacts.within in H. rewrite met_phases in H. eapply Rle_trans; [exact H|]. apply Rmult_le_compat_l.
    + apply Rsum_nonneg, Forall_map. eapply Forall_impl; [|exact Hpos]. intros cells Hcells. unfold weight. apply Rsum_nonneg, Forall_map. eapply Forall_impl; [|exact Hcells].
      intros [[row mult] sv] Hm. apply Rmult_le_pos; [exact Hm|apply HB0].
    + apply Rmult_le_compat_r; [apply met_nonneg|]. apply le_INR, steps_le.
Qed.
Let OP z y : 0 <= own z y.
Proof. unfold own. destruct (_ =? _)%Z; lra. Qed.
Lemma meeting_change_next passes (col : column) i : Forall (Forall (fun '(_, mult, _) => 0 <= mult)) passes -> (forall z, 0 <= col z) ->
  Rabs (meeting c groups steps passes col i - col i) <=
    (Rsum (map (weight (own i)) passes) + Rsum (map (weight (own (i - 1))) passes)) * (INR (length dwell) * (all_shares c * all_traps groups)).
Proof.
  intros Hpos Hcol. rewrite <- Rsum_plus. replace (Rsum (map (fun x => weight (own i) x + weight (own (i - 1)) x) passes)) with (Rsum (map (weight (own_or_next i)) passes))
    by (apply Rsum_ext; intros cells _; apply weight_plus).
  apply meeting_change; auto.
  - intros e es k row Hd Hk. apply (electrode_reach dwell DFloat k e es row); [pose proof (trap_phases_lt _ _ Hk); lia|exact Hd].
  - intros y. unfold own_or_next. pose proof (OP i y). pose proof (OP (i - 1)%Z y). lra.
Qed.
Lemma meeting_change_own passes (col : column) i : length dwell = 1%nat -> Forall (Forall (fun '(_, mult, _) => 0 <= mult)) passes -> (forall z, 0 <= col z) ->
  Rabs (meeting c groups steps passes col i - col i) <= Rsum (map (weight (own i)) passes) * (all_shares c * all_traps groups).
Proof.
  intros H1d Hpos Hcol. pose proof (meeting_change (own i) i passes col) as H. rewrite H1d, Rmult_1_l in H. apply H; auto.
  intros e es k row Hd Hk. assert (Hd0 : exists d0, dwell = [d0]) by (destruct dwell as [|d0 [|]]; try discriminate H1d; eauto). destruct Hd0 as [d0 Hd0].
  unfold steps in Hd. rewrite Hd0 in Hd. apply (single_reach d0 DFloat k e es row); [pose proof (trap_phases_lt _ _ Hk); lia|exact Hd].
Qed.
End Direction.

(** ** The passes of a charge injection *)
Section Injected.
Context (n N express : nat) (tw : option (Z * Z)).
Hypothesis Hsome : (0 < N)%nat.
Let E := passes_for N express.
Let x := INR N / INR E.
Let part := fun i => tw_part tw (INR i * x) (INR (S i) * x).
Let passes := injection_passes n E part.
Lemma injected_passes_x : 1 <= x /\ INR E * x = INR N.
Proof.
  assert (HE : (0 < E <= N)%nat) by (unfold E, passes_for; destruct (Nat.eqb_spec express 0); lia).
  destruct HE as [H1 H2]. apply lt_INR in H1. apply le_INR in H2. change (INR 0) with 0 in H1. unfold x. split; [|field; lra].
  apply (Rmult_le_reg_r (INR E)); [exact H1|]. replace (INR N / INR E * INR E) with (INR N) by (field; lra). lra.
Qed.
Lemma injected_part i : 0 <= part i <= x.
Proof.
  destruct injected_passes_x as [Hx _]. unfold part, tw_part. rewrite S_INR. destruct tw as [[a b]|]; [|lra].
  pose proof (overlap_bounds (INR i * x) ((INR i + 1) * x) (IZR a) (IZR b) ltac:(lra)). lra.
Qed.
Lemma injected_good : Forall (good_cells x n) passes.
Proof.
  unfold passes, injection_passes. apply Forall_map, Forall_forall. intros i _. pose proof (injected_part i) as Hb. split.
  - generalize (part i) as y. clear. generalize 0%nat. clear. induction n as [|m IH]; intros s y; cbn [seq map]; [constructor|]. constructor; [apply IH|]. apply Forall_forall. intros q Hq. apply in_map_iff in Hq as (w & <- & Hw). apply in_seq in Hw. cbn. lia.
  - apply Forall_map, Forall_forall. intros w Hw. apply in_seq in Hw. unfold good_cell. cbn. split; [lia|]. split; [exact Hb|reflexivity].
Qed.
Lemma injected_pos : Forall (Forall (fun '(_, mult, _) => 0 <= mult)) passes.
Proof. unfold passes, injection_passes. apply Forall_map, Forall_forall. intros i _. apply Forall_map, Forall_forall. intros w _. apply injected_part. Qed.
Lemma injected_own z : Rsum (map (weight (own z)) passes) <= INR N.
Proof.
  destruct injected_passes_x as [Hx HEx]. rewrite <- HEx, <- (Rmult_1_r (INR E * x)). apply total_weight; [intros e _; apply injected_part| |lra].
  intros m Hm. rewrite own_rows. destruct (_ && _)%bool; lra.
Qed.
Lemma injected_own_none : Rsum (map (weight (own (Z.of_nat 0 - 1))) passes) <= 0.
Proof.
  rewrite <- (Rmult_0_r (INR E * x)). apply total_weight; [intros e _; apply injected_part| |lra]. intros m Hm. rewrite own_rows. cbn. lra.
Qed.
End Injected.

(** ** One direction *)
Lemma kinds_roe d b c traps dwell dt : kinds_setting d b c traps dwell dt -> the_roe d = built (Standard true) dwell dt true true.
Proof. intros [_ _ H _ _ _ _]. unfold the_roe. destruct H as [->|(-> & -> & ->)]; reflexivity. Qed.
Lemma kinds_injection_roe d n c traps dwell npt : kinds_injection d n c traps dwell npt -> the_roe d = built (Injection npt) dwell DFloat true true.
Proof. intros [_ _ H _ _ _ _]. unfold the_roe. rewrite H. reflexivity. Qed.
Lemma kinds_steps_same d b c traps dwell dt : kinds_setting d b c traps dwell dt -> timed_steps (the_roe d) = timed_steps (built (Standard true) dwell DFloat true true).
Proof. intros H. rewrite (kinds_roe _ _ _ _ _ _ H). reflexivity. Qed.
Lemma kinds_same d b c traps dwell dt b' c' traps' dwell' dt' : kinds_setting d b c traps dwell dt -> kinds_setting d b' c' traps' dwell' dt' -> c' = c /\ traps' = traps /\ dwell' = dwell.
Proof.
  intros H H'. pose proof (kinds_roe _ _ _ _ _ _ H) as R1. rewrite (kinds_roe _ _ _ _ _ _ H') in R1. apply (f_equal (@roe_dwell_times R)) in R1. cbn in R1.
  destruct H as [H1 H2 _ _ _ _ _], H' as [H1' H2' _ _ _ _ _]. rewrite H1 in H1'. rewrite H2 in H2'. injection H1' as <-. injection H2' as <-. auto.
Qed.
Lemma kinds_injection_same d n c traps dwell npt c' traps' dwell' npt' : kinds_injection d n c traps dwell npt -> kinds_injection d n c' traps' dwell' npt' -> c' = c /\ traps' = traps /\ dwell' = dwell /\ npt' = npt.
Proof.
  intros H H'. pose proof (kinds_injection_roe _ _ _ _ _ _ H) as R1. rewrite (kinds_injection_roe _ _ _ _ _ _ H') in R1. pose proof (f_equal (@roe_dwell_times R) R1) as R2. pose proof (f_equal (@roe_kind_of R) R1) as R3. cbn in R2, R3. injection R3 as ->.
  destruct H as [H1 H2 _ _ _ _ _], H' as [H1' H2' _ _ _ _ _]. rewrite H1 in H1'. rewrite H2 in H2'. injection H1' as <-. injection H2' as <-. auto.
Qed.
Lemma kinds_apart d b c traps dwell dt n c' traps' dwell' npt : kinds_setting d b c traps dwell dt -> kinds_injection d n c' traps' dwell' npt -> False.
Proof. intros H H'. pose proof (kinds_roe _ _ _ _ _ _ H) as R1. rewrite (kinds_injection_roe _ _ _ _ _ _ H') in R1. apply (f_equal (@roe_kind_of R)) in R1. discriminate. Qed.
Lemma kinds_limit_nonneg d n i x : kinds_limit d n i x -> 0 <= x.
Proof.
  intros [H|H1 H2|b c traps dwell dt _ H|b c traps dwell dt _ H|c traps dwell npt H|c traps dwell npt H]; try lra;
  (pose proof (met_nonneg c (groups_in traps)) as HM; specialize (HM ltac:(destruct H; assumption) ltac:(destruct H as [_ _ _ _ _ [_ Hk] _]; exact Hk))).
  - apply Rmult_le_pos; [apply pos_INR|exact HM].
  - apply Rmult_le_pos; [|apply Rmult_le_pos; [apply pos_INR|exact HM]]. pose proof (pos_INR (i + 1 + d_offset d)). destruct i as [|i]; [lra|]. pose proof (pos_INR (S i + d_offset d)). lra.
  - apply Rmult_le_pos; [apply pos_INR|exact HM].
  - apply Rmult_le_pos; [|apply Rmult_le_pos; [apply pos_INR|exact HM]]. apply Rmult_le_pos; [apply pos_INR|destruct i; lra].
Qed.
Lemma clocked_nonneg im c r traps express offset window columns tw im' r' rows cols : shape rows cols im -> (0 < rows)%nat -> nonneg im ->
  clock_charge_in_one_direction im c r traps express offset window columns tw = Ok (im', r') -> nonneg im'.
Proof.
  intros Hs Hn Hp E. assert (N' : forall i j, 0 <= pixel im' i j); [|exact N']. apply nonneg_iff. destruct (clocking_ok _ _ _ _ _ _ _ _ _ _ _ _ _ Hs Hn E) as [_ _ _ HS].
  intros i0 j0. apply HS; [|apply nonneg_iff, Hp]. rnum. apply Rltb_false. lra.
Qed.
(** From the pixels to the columns. *)
Lemma meeting_columns c groups dwell passes n cols columns im im' : shape n cols im -> shape n cols im' -> nonneg im ->
  (forall i j, ~ In (Z.of_nat j) columns -> pixel im' i j = pixel im i j) ->
  (forall i j, (i < n)%nat -> In (Z.of_nat j) columns -> pixel im' i j = meeting c groups (timed_steps (built (Standard true) dwell DFloat true true)) passes (col_fun im j) (Z.of_nat i)) ->
  forall j, (j < cols)%nat -> column_of im' j = if listed columns j then kinds_map c groups dwell passes (column_of im j) else column_of im j.
Proof.
  intros Sh S' Hp U V j Hj. apply (nth_ext _ _ 0 0).
  - destruct (listed columns j); [unfold kinds_map; rewrite map_length, seq_length|]; rewrite (column_length im' n cols j S'), (column_length im n cols j Sh); reflexivity.
  - intros i Hi. rewrite (column_length im' n cols j S') in Hi. rewrite nth_column. destruct (listed columns j) eqn:El.
    + apply listed_in in El. rewrite (V i j Hi El). unfold kinds_map. rewrite (column_length im n cols j Sh), (column_plus im j Hp), <- column_fun. now rewrite nth_map_seq.
    + rewrite nth_column. apply U. intros Hin. apply listed_in in Hin. congruence.
Qed.
Lemma does_kinds_window d n tw : tw_ok tw -> kinds_in_window d n -> does d n (tw_arg tw) (kinds_limit d n) (the_roe d).
Proof.
  intros Htw (b & Hs & Hw & Hb & [Hno|(c & traps & dwell & dt & Hset & Hm)]).
  - exists 1, 1, (fun x => x). split; [lra|]. split; [lra|]. split; [apply steady_id|]. intros im cols columns Sh Hp Hc. exists im. rewrite Hno. split; [reflexivity|]. split; [exact Sh|]. split; [exact Hp|].
    split; [intros j _; now destruct (listed _ _)|]. intros i j x _ _ Hx. apply kinds_limit_nonneg in Hx. rewrite Rminus_diag_eq, Rabs_R0 by reflexivity. exact Hx.
  - pose proof (window_pos _ _ Hw) as Hb0. set (window := selected (d_window d) n) in *.
    pose proof (ks_plain _ _ _ _ _ _ Hset) as Hplain. pose proof (ks_phases _ _ _ _ _ _ Hset) as Hph. pose proof (ks_kinds _ _ _ _ _ _ Hset) as Hk. pose proof (ks_express _ _ _ _ _ _ Hset) as Hex.
    set (most := @max_multiplier R _ dt (b + d_offset d) (passes_for (b + d_offset d) (d_express d))).
    assert (HE0 : (0 < passes_for (b + d_offset d) (d_express d) <= b + d_offset d)%nat) by (apply express_used_pos; lia).
    assert (Hmost : 1 <= most) by (apply mm_ge_1; exact HE0).
    assert (Hmild : forall k, (k < ccd_n_phases c)%nat -> mild_phase c (groups_in traps) most k) by (intros k Hlt; apply Hm; [exact Hlt|]; apply multiplier_per_pass; exact (proj1 HE0)).
    destruct (standard_express_ok true dt window b (d_express d) (d_offset d) Hw tw (window_express b (d_express d) Hex) Htw) as (E & em & mon & EE & _).
    set (passes := map (fun '(e, m) => cells_of window e m (map (fun _ => false) e)) (combine em mon)).
    destruct (kinds_steady c (groups_in traps) dwell most Hplain Hph (proj2 Hk) Hmost Hmild b passes) as (gain & big & Hg & Hbig & HT).
    { exact (window_passes_good _ b dt (d_express d) (d_offset d) tw em mon Hs Hw Hex Htw EE). }
    exists gain, (Rmax 1 big), (kinds_map c (groups_in traps) dwell passes). split; [exact Hg|]. split; [apply Rmax_l|]. split; [apply (steady_weaken gain big); [exact HT|apply Rmax_r]|].
    intros im cols columns Sh Hp [Hnd Hrange]. rewrite (ks_traps _ _ _ _ _ _ Hset). unfold clock_direction. rewrite (ks_ccd _ _ _ _ _ _ Hset), (kinds_roe _ _ _ _ _ _ Hset).
    destruct (standard_meeting c traps dwell dt Hplain Hph Hk (fun k Hlt => mild_is_roomy _ _ _ _ (Hmild k Hlt)) im (d_express d) (d_offset d) window b columns tw n cols em mon Sh ltac:(lia) Hp Hw Hb Htw Hex Hrange Hnd EE) as (im' & E' & S' & U & V).
    fold passes in V. change (timed_steps (built (Standard true) dwell dt true true)) with (timed_steps (built (Standard true) dwell DFloat true true)) in V.
    exists im'. split; [exact E'|]. split; [exact S'|]. split; [exact (clocked_nonneg _ _ _ _ _ _ _ _ _ _ _ n cols Sh ltac:(lia) Hp E')|]. split; [now apply (meeting_columns c (groups_in traps) dwell passes n cols columns im im')|].
    intros i j x Hi Hj Hx. destruct (listed columns j) eqn:El.
    2: { apply kinds_limit_nonneg in Hx. rewrite U by (intros Hin; apply listed_in in Hin; congruence). rewrite Rminus_diag_eq, Rabs_R0 by reflexivity. exact Hx. }
    apply listed_in in El. rewrite (V i j Hi El). replace (pixel im i j) with (col_fun im j (Z.of_nat i)) by (unfold col_fun; rewrite Nat2Z.id; reflexivity).
    assert (Hcol : forall z, 0 <= col_fun im j z) by (intros z; apply Hp).
    pose proof (window_passes_pos window b dt (d_express d) (d_offset d) tw em mon Hs Hw Hex Htw EE) as HP.
    pose proof (window_weight window b dt (d_express d) (d_offset d) tw em mon Hs Hw Hex Htw EE i) as W1.
    pose proof (window_weight_before window b dt (d_express d) (d_offset d) tw em mon Hs Hw Hex Htw EE i) as W2.
    change (map (fun '(e, m) => cells_of window e m (map (fun _ => false) e)) (combine em mon)) with passes in HP, W1, W2.
    pose proof (met_nonneg c (groups_in traps) Hplain (proj2 Hk)) as HM.
    pose proof (meeting_change_next c (groups_in traps) dwell most Hplain Hph (proj2 Hk) Hmild passes (col_fun im j) (Z.of_nat i) HP Hcol) as C1.
    pose proof (meeting_change_own c (groups_in traps) dwell most Hplain Hph (proj2 Hk) Hmild passes (col_fun im j) (Z.of_nat i)) as C2.
    destruct Hx as [Hn|O1 O2|b' c' traps' dwell' dt' _ H'|b' c' traps' dwell' dt' _ H'|c' traps' dwell' npt H'|c' traps' dwell' npt H'].
    + rewrite (ks_traps _ _ _ _ _ _ Hset) in Hn. discriminate.
    + eapply Rle_trans; [exact C1|].
      assert (Z0 : forall z, ~ In z window -> Rsum (map (weight (own z)) passes) = 0).
      { intros z Hz. apply Rsum_zero. intros y Hy. apply in_map_iff in Hy as (cells & <- & Hcc). unfold passes in Hcc. apply in_map_iff in Hcc as ((e & m) & <- & _). now apply own_cells_out. }
      rewrite !Z0 by assumption. lra.
    + destruct (kinds_same _ _ _ _ _ _ _ _ _ _ _ Hset H') as (-> & -> & Ed). specialize (C2 ltac:(now rewrite <- Ed) HP Hcol). eapply Rle_trans; [exact C2|]. now apply Rmult_le_compat_r.
    + destruct (kinds_same _ _ _ _ _ _ _ _ _ _ _ Hset H') as (-> & -> & ->). eapply Rle_trans; [exact C1|]. apply Rmult_le_compat_r; [apply Rmult_le_pos; [apply pos_INR|exact HM]|lra].
    + destruct (kinds_apart _ _ _ _ _ _ _ _ _ _ _ Hset H').
    + destruct (kinds_apart _ _ _ _ _ _ _ _ _ _ _ Hset H').
Qed.
Lemma does_kinds_injection (d : direction R) n tw : (0 < n)%nat -> tw_ok tw -> kinds_injected d n -> exists r, does d n (tw_arg tw) (kinds_limit d n) r.
Proof.
  intros Hn Htw (HW & c & traps & dwell & npt & Hset & Hmild). cbv zeta in Hmild.
  pose proof (ki_plain _ _ _ _ _ _ Hset) as Hplain. pose proof (ki_phases _ _ _ _ _ _ Hset) as Hph. pose proof (ki_kinds _ _ _ _ _ _ Hset) as Hk. pose proof (ki_some _ _ _ _ _ _ Hset) as HN.
  set (N := injection_transfers npt n (d_offset d)) in *. set (E := passes_for N (d_express d)) in *.
  exists (built (Injection (Some N)) dwell DFloat true true). destruct (injected_passes_x N (d_express d) HN) as [Hx _]. fold E in Hx.
  set (passes := injection_passes n E (fun i => tw_part tw (INR i * (INR N / INR E)) (INR (S i) * (INR N / INR E)))).
  destruct (kinds_steady c (groups_in traps) dwell (INR N / INR E) Hplain Hph (proj2 Hk) Hx Hmild n passes (injected_good n N (d_express d) tw HN)) as (gain & big & Hg & Hb & HT).
  exists gain, (Rmax 1 big), (kinds_map c (groups_in traps) dwell passes). split; [exact Hg|]. split; [apply Rmax_l|]. split; [apply (steady_weaken gain big); [exact HT|apply Rmax_r]|].
  intros im cols columns Sh Hp [Hnd Hrange]. rewrite (ki_traps _ _ _ _ _ _ Hset), (selected_all d n HW). unfold clock_direction. rewrite (ki_ccd _ _ _ _ _ _ Hset), (kinds_injection_roe _ _ _ _ _ _ Hset).
  destruct (injection_meeting c traps dwell Hplain Hph Hk (fun k Hlt => mild_is_roomy _ _ _ _ (Hmild k Hlt)) im npt (d_express d) (d_offset d) columns tw n cols Sh Hn Hp HN Htw Hrange Hnd) as (im' & E' & S' & U & V).
  fold N E in V. fold passes in V. change (timed_steps (built (Injection npt) dwell DFloat true true)) with (timed_steps (built (Standard true) dwell DFloat true true)) in V.
  exists im'. split; [exact E'|]. split; [exact S'|]. split; [exact (clocked_nonneg _ _ _ _ _ _ _ _ _ _ _ n cols Sh Hn Hp E')|]. split; [now apply (meeting_columns c (groups_in traps) dwell passes n cols columns im im')|].
  intros i j x Hi Hj Hxl. destruct (listed columns j) eqn:El.
  2: { apply kinds_limit_nonneg in Hxl. rewrite U by (intros Hin; apply listed_in in Hin; congruence). rewrite Rminus_diag_eq, Rabs_R0 by reflexivity. exact Hxl. }
  apply listed_in in El. rewrite (V i j Hi El). replace (pixel im i j) with (col_fun im j (Z.of_nat i)) by (unfold col_fun; rewrite Nat2Z.id; reflexivity).
  assert (Hcol : forall z, 0 <= col_fun im j z) by (intros z; apply Hp).
  pose proof (injected_pos n N (d_express d) tw HN) as HP. pose proof (injected_own n N (d_express d) tw HN (Z.of_nat i)) as W1.
  assert (W2 : Rsum (map (weight (own (Z.of_nat i))) passes) + Rsum (map (weight (own (Z.of_nat i - 1))) passes) <= INR N * match i with O => 1 | S _ => 2 end).
  { destruct i as [|i]; [pose proof (injected_own_none n N (d_express d) tw HN) as W2|pose proof (injected_own n N (d_express d) tw HN (Z.of_nat (S i) - 1)) as W2]; fold E in W1, W2; fold passes in W1, W2; lra. }
  fold E in W1, HP. fold passes in W1, HP.
  pose proof (met_nonneg c (groups_in traps) Hplain (proj2 Hk)) as HM.
  pose proof (meeting_change_next c (groups_in traps) dwell _ Hplain Hph (proj2 Hk) Hmild passes (col_fun im j) (Z.of_nat i) HP Hcol) as C1.
  pose proof (meeting_change_own c (groups_in traps) dwell _ Hplain Hph (proj2 Hk) Hmild passes (col_fun im j) (Z.of_nat i)) as C2.
  destruct Hxl as [Hno|O1 O2|b' c' traps' dwell' dt' _ H'|b' c' traps' dwell' dt' _ H'|c' traps' dwell' npt' H'|c' traps' dwell' npt' H'].
  - rewrite (ki_traps _ _ _ _ _ _ Hset) in Hno. discriminate.
  - exfalso. apply O1. rewrite (selected_all d n HW). apply py_range_in. lia.
  - destruct (kinds_apart _ _ _ _ _ _ _ _ _ _ _ H' Hset).
  - destruct (kinds_apart _ _ _ _ _ _ _ _ _ _ _ H' Hset).
  - destruct (kinds_injection_same _ _ _ _ _ _ _ _ _ _ Hset H') as (-> & -> & Ed & ->). specialize (C2 ltac:(now rewrite <- Ed) HP Hcol). eapply Rle_trans; [exact C2|]. now apply Rmult_le_compat_r.
  - destruct (kinds_injection_same _ _ _ _ _ _ _ _ _ _ Hset H') as (-> & -> & -> & ->). eapply Rle_trans; [exact C1|]. apply Rmult_le_compat_r; [apply Rmult_le_pos; [apply pos_INR|exact HM]|exact W2].
Qed.
Lemma does_kinds d n tw : (0 < n)%nat -> tw_ok tw -> kinds_call d n -> exists r, does d n (tw_arg tw) (kinds_limit d n) r.
Proof. intros Hn Htw [H|H]; [exists (the_roe d); now apply does_kinds_window|now apply does_kinds_injection]. Qed.
Lemma kinds_window d n : (0 < n)%nat -> kinds_call d n -> exists b, StronglySorted Z.lt (selected (d_window d) n) /\ window_ok (selected (d_window d) n) b /\ (b <= n)%nat.
Proof.
  intros Hn [(b & H1 & H2 & H3 & _)|[HW _]]; [exists b; auto|]. exists n. rewrite (selected_all d n HW). split; [apply range_sorted|]. split; [now apply window_ok_range|lia].
Qed.
Lemma kinds_ready parallel serial rows cols time : (0 < rows)%nat -> (0 < cols)%nat -> time_range time -> kinds_call parallel rows -> kinds_call serial cols ->
  exists rp rs tw lines, resolve_time_window time (selected (d_window parallel) rows) rows (d_offset parallel) = Ok (tw, lines) /\
    columns_ok lines rows /\ columns_ok (selected (d_window serial) cols) cols /\
    does parallel rows (Some tw) (kinds_limit parallel rows) rp /\ does serial cols None (kinds_limit serial cols) rs.
Proof.
  intros Hr Hc Ht Hp Hs. destruct (kinds_window parallel rows Hr Hp) as (b & P1 & P2 & P3). destruct (kinds_window serial cols Hc Hs) as (b' & S1 & S2 & S3).
  destruct (call_times time _ b rows (d_offset parallel) Ht P2 P3 P1 Hr) as (tw & lines & E & Htw & Hl).
  destruct (does_kinds parallel rows (Some tw) Hr Htw Hp) as [rp Dp]. destruct (does_kinds serial cols None Hc I Hs) as [rs Ds].
  exists rp, rs, (py_range (fst tw) (snd tw)), lines. destruct tw as [t0 t1]. split; [exact E|]. split; [exact Hl|]. split; [now apply (window_columns _ b')|]. split; [exact Dp|exact Ds].
Qed.
