(** * Readouts of images: no pixel becomes brighter than the brightest one. *)
From Coq Require Import ZArith List Bool Reals Lra Lia Sorted.
From Coquelicot Require Import Rcomplements Rbar Hierarchy RInt.
From Verif Require Import Num Py RFacts CCDModel TrapsModel ManagerModel ROEModel ClockModel MainModel Spec SpecROE SpecImage SpecReadout SpecTime SpecSlow SpecHistory SpecHold SpecFlatten SpecColumn SpecBound SpecRecovery SpecWork SpecWindowOrder SpecMeet SpecTop
  CallFacts WmFacts ArrayFacts CutFacts InstantFacts ClockFacts MainFacts ShapeFacts ColumnFacts ReadoutFacts ReadoutImage
  ROEClockFacts ROEMatrixFacts ROEExpressFacts ROEKindFacts WorkFacts ReadoutFull ReadoutForced ReadoutSpecFacts ReadoutColumnFacts OrderFacts TameFacts DepthFacts AboveFacts BoundFacts MainReadoutFacts RecoverImageFacts PhaseOrderFacts LiftFacts GridFacts SteadyFacts ExpressOrderFacts ReadoutInjection ExpressGridFacts InjectionGridFacts WindowFacts WindowMainFacts MaskFacts WindowGridFacts HistoryBoundFacts
  MeetFacts MeetSimFacts MeetKindFacts MeetGroupFacts MeetGridFacts InjectedGridFacts MeetBalanceFacts TopFacts.
Import ListNotations.
Open Scope R_scope.

Lemma g_min g s : g_ok g s -> g_le g (unfilled g) s.
Proof.
  unfold unfilled, g_ok, g_le. destruct s as [P|T].
  - intros H. assert (T : tidy (length g) P) by (destruct (kind_for g); [exact (proj1 H)|exact H|destruct H]).
    destruct (kind_for g); try contradiction; intros i x Hi Hx; unfold empty_profile; apply (T i Hi); exact Hx.
  - intros [E _]. rewrite E. intros i x _ _. exact I.
Qed.
Lemma les_min gs : forall ss, oks gs ss -> les gs (map unfilled gs) ss.
Proof. induction gs as [|g gs IH]; intros [|s ss] H; cbn in *; try contradiction; [exact I|]. destruct H as [H1 H2]. split; [now apply g_min|now apply IH]. Qed.

Section Direction.
Context (c : ccd R) (groups : list (list (trap R))) (dwell : R).
Hypothesis Hplain : plain_ccd c.
Hypothesis Hphases : (ccd_n_phases c <= 1)%nat.
Let steps := timed_steps (built (Standard true) [dwell] DFloat true true).
Let single d es : In (d, es) steps -> d = dwell /\ 0 < d.
Proof.
  unfold steps, timed_steps. intros H. apply filter_In in H as [H1 H2]. destruct (Rlt_dec 0 d) as [L|L]; [|discriminate]. apply in_combine_l in H1. cbn in H1. destruct H1 as [<-|[]]. auto.
Qed.
Let own_step d es k : In (d, es) steps -> In k (trap_phases c) -> let e := electrode es k in rp_high e = true /\ rp_capture e = 0%Z /\ combine (rp_release e) (rp_fraction e) = [(0%Z, 1)].
Proof.
  intros Hin Hk. apply trap_phases_lt in Hk. destruct (timed_in _ _ _ Hin) as [_ Hes]. destruct k; [|lia]. cbn in Hes. destruct Hes as [<-|[]]. cbn. rnum. auto.
Qed.
Lemma mild_top most top passes : Forall kind_group groups -> 1 <= most -> (forall k, (k < ccd_n_phases c)%nat -> mild_phase c groups most k) ->
  0 <= top -> Forall (Forall (fun '(_, mult, _) => 0 <= mult <= most)) passes -> forall f : column, (forall z, 0 <= f z <= top) -> forall z, 0 <= meeting c groups steps passes f z <= top.
Proof.
  intros Hkinds Hmost Hmild Htop. set (gs k := map (map (thinned (share c k))) groups). set (full k := nth k (ccd_full_well c) 1). set (beta k := nth k (ccd_fill_power c) 1).
  set (kap k := Rsum (map (fun g => grip (kind_for g) (group_traps g * (beta k / full k))) (gs k))).
  assert (facts : forall k, In k (trap_phases c) -> 0 < full k /\ 0 < beta k /\ 1 <= beta k /\ Forall (mild_group (full k) (beta k)) (gs k) /\ Forall kind_group (gs k) /\ most * kap k < 1)
    by exact (phase_facts c groups most Hplain Hkinds Hmild).
  destruct (Rlt_dec 0 dwell) as [Hd|Hd].
  - unfold meeting.
    apply (ordered_top (fun k => groups_net (site_of c groups k)) (fun k => groups_after (site_of c groups k)) (trap_phases c) steps (fun k => map unfilled (site_groups (site_of c groups k)))
      (fun k => oks (gs k)) (fun k => les (gs k)) (fun k => gamounts (gs k)) kap dwell top most).
    + intros k Hk. destruct (facts k Hk) as (P1 & P2 & P3 & P4 & P5 & P6). now apply oks_start.
    + intros k s Hk H. now apply les_min.
    + intros k m s Hk Hm H. destruct (facts k Hk) as (P1 & P2 & P3 & P4 & P5 & P6). now apply (oks_after (full k) (beta k)).
    + intros k m m' s s' Hk Hm H1 H2 H3. destruct (facts k Hk) as (P1 & P2 & P3 & P4 & P5 & P6). now apply (nets_order (full k) (beta k)).
    + intros k m m' s s' Hk Hm H1 H2 H3. destruct (facts k Hk) as (P1 & P2 & P3 & P4 & P5 & P6). now apply (nets_order (full k) (beta k)).
    + intros k m s Hk Hm H. destruct (facts k Hk) as (P1 & P2 & P3 & P4 & P5 & P6). now apply (oks_after (full k) (beta k)).
    + intros k s s' Hk H1 H2 H3. destruct (facts k Hk) as (P1 & P2 & P3 & P4 & P5 & P6). now apply (gamounts_more (gs k)).
    + intros k Hk. destruct (facts k Hk) as (P1 & P2 & P3 & P4 & P5 & P6). lra.
    + intros k Hk. destruct (facts k Hk) as (P1 & P2 & P3 & P4 & P5 & P6). now apply grips_nonneg.
    + intros d es H. now apply (single d es).
    + exact Htop.
    + exact own_step.
  - unfold meeting. apply (meet_top (fun k => groups_net (site_of c groups k)) (fun k => groups_after (site_of c groups k)) (trap_phases c) steps (fun k => map unfilled (site_groups (site_of c groups k))) (fun _ _ => True) top most); auto.
    intros k d es m mult s _ Hin. destruct (single d es Hin) as [-> H]. lra.
Qed.
Lemma instant_top g top passes : groups = [g] -> instant_group g -> 0 <= top -> Forall (Forall (fun '(_, mult, _) => 0 <= mult <= 1)) passes ->
  forall f : column, (forall z, 0 <= f z <= top) -> forall z, 0 <= meeting c groups steps passes f z <= top.
Proof.
  intros -> [Hne Hg] Htop. destruct (Rlt_dec 0 dwell) as [Hd0|Hd0].
  2:{ unfold meeting. apply (meet_top (fun k => groups_net (site_of c [g] k)) (fun k => groups_after (site_of c [g] k)) (trap_phases c) steps (fun k => map unfilled (site_groups (site_of c [g] k))) (fun _ _ => True) top 1); auto.
      intros k d es m mult s _ Hin. destruct (single d es Hin) as [-> H]. lra. }
  set (h k := map (thinned (share c k)) g).
  assert (Hphys : forall k, Forall physical (h k)).
  { intros k. unfold h. apply GridFacts.thinned_physical; [apply (pc_share _ Hplain)|]. eapply Forall_impl; [|exact Hg]. cbn. tauto. }
  assert (Ek : forall k, kind_for (h k) = KInstant).
  { intros k. unfold h. rewrite kind_thinned. destruct (kind_cases g) as [[E _]|[[E H]|[E H]]]; [split; [exact Hne|now left]|exact E| |].
    - exfalso. destruct g as [|t l]; [congruence|]. inversion Hg as [|? ? [_ C] _]; subst. unfold kind_for in E. cbn in E. rewrite C in E. discriminate.
    - exfalso. destruct g as [|t l]; [congruence|]. inversion Hg as [|? ? [_ C] _]; subst. unfold kind_for in E. cbn in E. rewrite C in E. discriminate. }
  set (well k := depth (nth k (ccd_full_well c) 1) (nth k (ccd_fill_power c) 1)).
  assert (Hw : forall k, In k (trap_phases c) -> (forall a, 0 <= well k a <= 1) /\ forall a b, 0 <= a <= b -> well k a <= well k b).
  { intros k Hk. apply trap_phases_lt in Hk. destruct (pc_phase _ Hplain k Hk) as (full & beta & Hp & Hf & Hb). destruct (params_nth c k beta full Hp) as [E1 E2]. unfold well. rewrite E1, E2.
    split; [intros a; now apply depth_range|intros a b Hab; now apply depth_grows]. }
  unfold meeting. apply (meet_top (fun k => groups_net (site_of c [g] k)) (fun k => groups_after (site_of c [g] k)) (trap_phases c) steps (fun k => map unfilled (site_groups (site_of c [g] k)))
    (fun k s => exists P, s = [Occupied P] /\ limited (h k) dwell (well k) top P) top 1).
  - intros k Hk. exists empty_profile. split.
    + cbn [site_of site_groups map]. fold (h k). unfold unfilled. now rewrite Ek.
    + apply limited_start; auto; [lra|now apply Hw].
  - intros k d es m s Hk Hin Hm (P & -> & HP). destruct (single d es Hin) as [-> Hd]. exists (transfer_after (h k) (well k) dwell m P). split.
    + cbn [site_of groups_after site_groups map combine]. fold (h k). unfold group_after. rewrite Ek. reflexivity.
    + apply limited_after; auto; [lra|now apply Hw|now apply Hw].
  - intros k d es m mult s Hk Hin Hm Hmu (P & -> & HP). destruct (single d es Hin) as [-> Hd].
    assert (E : groups_net (site_of c [g] k) dwell m [Occupied P] = transfer_net (h k) (well k) dwell m P).
    { unfold groups_net. cbn [site_of site_groups map combine Rsum fold_right]. fold (h k). unfold group_net. rewrite Ek. rewrite Rplus_0_r. reflexivity. }
    rewrite E. assert (L : m + transfer_net (h k) (well k) dwell m P <= top) by (apply limited_net; auto; [lra|now apply Hw|now apply Hw]).
    set (q := transfer_net (h k) (well k) dwell m P) in *. destruct (Rle_dec q 0) as [Q|Q].
    + assert (q * mult <= 0) by (rewrite <- (Rmult_0_l mult); apply Rmult_le_compat_r; lra). lra.
    + assert (q * mult <= q * 1) by (apply Rmult_le_compat_l; lra). lra.
  - exact own_step.
Qed.
End Direction.

(** ** One direction *)
Definition dims (d : direction R) (n : nat) (tw : option (list Z)) (top : R) (r' : roe R) : Prop :=
  forall im cols columns, shape n cols im -> (forall i j, 0 <= pixel im i j <= top) -> columns_ok columns cols ->
  exists im', match d_traps d with None => Ok (im, the_roe d)
      | Some traps => clock_direction im d (the_roe d) traps (selected (d_window d) n) columns tw end = Ok (im', r') /\
    shape n cols im' /\ forall i j, 0 <= pixel im' i j <= top.
Lemma pixels_outside (im : image R) n cols (P : R -> Prop) : shape n cols im -> P 0 -> (forall i j, (i < n)%nat -> (j < cols)%nat -> P (pixel im i j)) -> forall i j, P (pixel im i j).
Proof.
  intros [L F] H0 H i j. destruct (Nat.lt_ge_cases i n) as [Hi|Hi].
  - destruct (Nat.lt_ge_cases j cols) as [Hj|Hj]; [now apply H|]. unfold pixel. rewrite (nth_overflow (nth i im [])); [exact H0|]. rewrite Forall_forall in F. rewrite (F (nth i im [])) by (apply nth_In; lia). exact Hj.
  - unfold pixel. rewrite (nth_overflow im) by lia. destruct j; exact H0.
Qed.
Lemma good_mults most M cells : good_cells most M cells -> Forall (fun '(_, mult, _) => 0 <= mult <= most) cells.
Proof. intros [_ H]. eapply Forall_impl; [|exact H]. intros [[row mult] b]. unfold good_cell. cbn. tauto. Qed.
Lemma even_mults most passes : Forall (fun cells => exists y, 0 <= y <= most /\ even_cells y cells) passes -> Forall (Forall (fun '(_, mult, _) => 0 <= mult <= most)) passes.
Proof. intros H. eapply Forall_impl; [|exact H]. intros cells (y & Hy & _ & HF). eapply Forall_impl; [|exact HF]. intros [[row mult] b]. cbn. intros [_ ->]. exact Hy. Qed.
Lemma dims_pixels n cols columns (im im' : image R) (top : R) (G : column -> column) : shape n cols im' -> (0 < n)%nat -> (forall i j, 0 <= pixel im i j <= top) ->
  (forall i j, ~ In (Z.of_nat j) columns -> pixel im' i j = pixel im i j) ->
  (forall i j, (i < n)%nat -> In (Z.of_nat j) columns -> pixel im' i j = G (col_fun im j) (Z.of_nat i)) ->
  (forall f : column, (forall z, 0 <= f z <= top) -> forall z, 0 <= G f z <= top) -> forall i j, 0 <= pixel im' i j <= top.
Proof.
  intros S' Hn Hp U V HG. apply (pixels_outside im' n cols (fun x => 0 <= x <= top) S'); [specialize (Hp 0%nat 0%nat); lra|]. intros i j Hi _.
  destruct (in_dec Z.eq_dec (Z.of_nat j) columns) as [Hin|Hin]; [|rewrite (U i j Hin); apply Hp]. rewrite (V i j Hi Hin). apply HG. intros z. apply Hp.
Qed.
Lemma instant_roomy c groups k : (exists g, groups = [g] /\ instant_group g) -> roomy_phase c groups k.
Proof.
  intros (g & -> & Hne & Hg). constructor; [|constructor]. left. destruct g as [|t l]; [congruence|]. inversion Hg as [|? ? [_ C] _]; subst. unfold kind_for. cbn. rewrite C. reflexivity.
Qed.
Lemma single_dims d n tw top : (0 < n)%nat -> 0 <= top -> tw_ok tw -> single_call d n -> exists r, dims d n (tw_arg tw) top r.
Proof.
  intros Hn Htop Htw [(b & Hs & Hw & Hb & [Hno|(c & traps & dwell & dt & Hset & Hm)])|(HW & c & traps & dwell & npt & Hset & Hm)].
  - exists (the_roe d). intros im cols columns Sh Hp _. exists im. rewrite Hno. auto.
  - exists (the_roe d). pose proof (window_pos _ _ Hw) as Hb0. set (window := selected (d_window d) n) in *.
    pose proof (ks_plain _ _ _ _ _ _ Hset) as Hplain. pose proof (ks_phases _ _ _ _ _ _ Hset) as Hph. pose proof (ks_kinds _ _ _ _ _ _ Hset) as Hk. pose proof (ks_express _ _ _ _ _ _ Hset) as Hex.
    destruct (standard_express_ok true dt window b (d_express d) (d_offset d) Hw tw (window_express b (d_express d) Hex) Htw) as (E & em & mon & EE & _).
    set (E' := passes_for (b + d_offset d) (d_express d)) in *.
    assert (HE : (0 < E' <= b + d_offset d)%nat) by (unfold E', passes_for; destruct (Nat.eqb_spec (d_express d) 0); lia).
    set (passes := map (fun '(e, m) => cells_of window e m (map (fun _ => false) e)) (combine em mon)).
    assert (K : (forall k, (k < ccd_n_phases c)%nat -> roomy_phase c (groups_in traps) k) /\
      forall f : column, (forall z, 0 <= f z <= top) -> forall z, 0 <= meeting c (groups_in traps) (timed_steps (built (Standard true) [dwell] DFloat true true)) passes f z <= top).
    { destruct Hm as [Hmild|[H1 Hall]].
      - set (x := max_multiplier dt (b + d_offset d) E'). assert (Hmild' : forall k, (k < ccd_n_phases c)%nat -> mild_phase c (groups_in traps) x k) by (intros k Hlt; apply Hmild; [exact Hlt|apply multiplier_per_pass; lia]).
        split; [intros k Hlt; exact (mild_is_roomy _ _ _ _ (Hmild' k Hlt))|]. apply (mild_top c (groups_in traps) dwell Hplain Hph x); [apply Hk|now apply mm_ge_1|exact Hmild'|exact Htop|].
        pose proof (window_passes_good window b dt (d_express d) (d_offset d) tw em mon Hs Hw Hex Htw EE) as HG. eapply Forall_impl; [|exact HG]. intros cells Hc. exact (good_mults _ _ _ Hc).
      - split; [intros k _; now apply instant_roomy|]. destruct H1 as (g & Eg & Hg). apply (instant_top c (groups_in traps) dwell Hplain Hph g); auto.
        apply even_mults. exact (window_even window b dt (d_express d) (d_offset d) tw em mon Hs Hw Hall Htw EE). }
    destruct K as [Hroomy Hmeet].
    intros im cols columns Sh Hp [Hnd Hrange]. assert (Hp0 : forall i j, 0 <= pixel im i j) by (intros i j; apply Hp). rewrite (ks_traps _ _ _ _ _ _ Hset). unfold clock_direction. rewrite (ks_ccd _ _ _ _ _ _ Hset), (kinds_roe _ _ _ _ _ _ Hset).
    destruct (standard_meeting c traps [dwell] dt Hplain Hph Hk Hroomy im (d_express d) (d_offset d) window b columns tw n cols em mon Sh ltac:(lia) Hp0 Hw Hb Htw Hex Hrange Hnd EE) as (im' & E1 & S' & U & V).
    exists im'. split; [exact E1|]. split; [exact S'|]. exact (dims_pixels n cols columns im im' top _ S' Hn Hp U V Hmeet).
  - cbv zeta in Hm. pose proof (ki_plain _ _ _ _ _ _ Hset) as Hplain. pose proof (ki_phases _ _ _ _ _ _ Hset) as Hph. pose proof (ki_kinds _ _ _ _ _ _ Hset) as Hk. pose proof (ki_some _ _ _ _ _ _ Hset) as HN.
    set (N := injection_transfers npt n (d_offset d)) in *. exists (built (Injection (Some N)) [dwell] DFloat true true). destruct (injected_passes_x N (d_express d) HN) as [Hx _].
    set (E := passes_for N (d_express d)) in *. set (x := INR N / INR E) in *.
    pose proof (even_mults _ _ (injection_even n N (d_express d) tw HN)) as HP. fold E in HP. fold x in HP.
    assert (K : (forall k, (k < ccd_n_phases c)%nat -> roomy_phase c (groups_in traps) k) /\
      forall f : column, (forall z, 0 <= f z <= top) -> forall z, 0 <= meeting c (groups_in traps) (timed_steps (built (Standard true) [dwell] DFloat true true)) (injection_passes n E (fun i => tw_part tw (INR i * x) (INR (S i) * x))) f z <= top).
    { destruct Hm as [Hmild|[H1 Hall]].
      - split; [intros k Hlt; exact (mild_is_roomy _ _ _ _ (Hmild k Hlt))|]. apply (mild_top c (groups_in traps) dwell Hplain Hph x); [apply Hk|exact Hx|exact Hmild|exact Htop|exact HP].
      - split; [intros k _; now apply instant_roomy|]. destruct H1 as (g & Eg & Hg). apply (instant_top c (groups_in traps) dwell Hplain Hph g); auto.
        assert (EN : x = 1). { unfold x, E, passes_for. replace (if Nat.eqb (d_express d) 0 then N else Nat.min (d_express d) N) with N by (destruct (Nat.eqb_spec (d_express d) 0); lia). apply lt_INR in HN. cbn in HN. field. lra. }
        eapply Forall_impl; [|exact HP]. intros cells HF. eapply Forall_impl; [|exact HF]. intros [[row mult] q] Hq. lra. }
    destruct K as [Hroomy Hmeet].
    intros im cols columns Sh Hp [Hnd Hrange]. assert (Hp0 : forall i j, 0 <= pixel im i j) by (intros i j; apply Hp). rewrite (ki_traps _ _ _ _ _ _ Hset), (selected_all d n HW). unfold clock_direction. rewrite (ki_ccd _ _ _ _ _ _ Hset), (kinds_injection_roe _ _ _ _ _ _ Hset).
    destruct (injection_meeting c traps [dwell] Hplain Hph Hk Hroomy im npt (d_express d) (d_offset d) columns tw n cols Sh Hn Hp0 HN Htw Hrange Hnd) as (im' & E' & S' & U & V). fold N E x in E', V.
    exists im'. split; [exact E'|]. split; [exact S'|]. exact (dims_pixels n cols columns im im' top _ S' Hn Hp U V Hmeet).
Qed.
Lemma single_window d n : (0 < n)%nat -> single_call d n -> exists b, StronglySorted Z.lt (selected (d_window d) n) /\ window_ok (selected (d_window d) n) b /\ (b <= n)%nat.
Proof.
  intros Hn [(b & H1 & H2 & H3 & _)|[HW _]]; [now exists b|]. exists n. rewrite (selected_all d n HW). split; [apply range_sorted|]. split; [now apply window_ok_range|lia].
Qed.

(** ** Both directions *)
Lemma single_dimmer im parallel serial time rows cols top : (0 < rows)%nat -> (0 < cols)%nat -> time_range time -> single_call parallel rows -> single_call serial cols ->
  shape rows cols im -> (forall i j, 0 <= pixel im i j <= top) ->
  exists im' pr sr, add_cti im parallel serial time = Ok (im', pr, sr) /\ shape rows cols im' /\ forall i j, 0 <= pixel im' i j <= top.
Proof.
  intros Hr Hc Ht Hp Hs Si Pi. assert (Htop : 0 <= top) by (specialize (Pi 0%nat 0%nat); lra).
  destruct (single_window parallel rows Hr Hp) as (b & P1 & P2 & P3). destruct (single_window serial cols Hc Hs) as (b' & S1 & S2 & S3).
  destruct (call_times time _ b rows (d_offset parallel) Ht P2 P3 P1 Hr) as (tw & lines & E & Htw & Hlines).
  destruct (single_dims parallel rows (Some tw) top Hr Htop Htw Hp) as [rp A1]. destruct (single_dims serial cols None top Hc Htop I Hs) as [rs A2].
  assert (Hcolumns : columns_ok (selected (d_window serial) cols) cols) by now apply (window_columns _ b').
  destruct tw as [t0 t1]. cbn [tw_arg option_map] in A1, A2. cbn [fst snd] in E.
  pose proof Si as [Lim _]. pose proof (MainReadoutFacts.shape_columns rows cols im Si Hr) as Ncol.
  unfold add_cti. rewrite Lim, Ncol, !resolve_selected. rewrite E. cbn [bind].
  destruct (A1 im cols (selected (d_window serial) cols) Si Pi Hcolumns) as (im1 & E1 & SS1 & PP1). rewrite E1. cbn [bind].
  assert (St : shape cols rows (transpose im1)) by (apply transpose_shape; assumption).
  assert (Pt : forall i j, 0 <= pixel (transpose im1) i j <= top) by (intros i j; rewrite (transpose_pixel_all rows cols) by assumption; apply PP1).
  destruct (A2 (transpose im1) rows lines St Pt Hlines) as (im2 & E2 & SS2 & PP2).
  assert (SS2' : shape rows cols (transpose im2)) by (apply transpose_shape; assumption).
  assert (PP2' : forall i j, 0 <= pixel (transpose im2) i j <= top) by (intros i j; rewrite (transpose_pixel_all cols rows) by assumption; apply PP2).
  destruct (d_traps serial) as [traps|] eqn:Et.
  - rewrite E2. cbn [bind]. exists (transpose im2), rp, rs. auto.
  - cbn [bind]. exists im1, rp, (the_roe serial). auto.
Qed.
