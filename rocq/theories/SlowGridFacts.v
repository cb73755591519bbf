(** * Readouts of images past traps that take time to capture: order, differences and inverse. *)
From Coq Require Import ZArith List Bool Reals Lra Lia Sorted.
From Coquelicot Require Import Rcomplements Rbar Hierarchy RInt.
From Verif Require Import Num Py RFacts CCDModel TrapsModel ManagerModel ROEModel ClockModel MainModel Spec SpecROE SpecImage SpecReadout SpecTime SpecSlow SpecHistory SpecHold SpecRecovery SpecBound SpecWork SpecExpressOrder SpecInjectionOrder SpecWindowOrder SpecAbove SpecFlatten SpecPatient
  CallFacts WmFacts ArrayFacts InstantFacts ClockFacts MainFacts ShapeFacts ColumnFacts ReadoutImage RemoveFacts ROEClockFacts ROEMatrixFacts ROEExpressFacts ROEKindFacts ReadoutFull ReadoutForced ReadoutSpecFacts OrderFacts TameFacts DepthFacts BoundFacts MainReadoutFacts RecoverImageFacts LiftFacts GridFacts SteadyFacts ContractFacts WindowFacts WindowMainFacts MaskFacts WindowGridFacts AboveFacts AboveGridFacts InverseFacts
  TimeFacts TimeInstantFacts SlowFacts SlowSpecFacts HistoryFacts HistorySpecFacts HistoryBoundFacts TimesOrderFacts TimesGridFacts SlowOrderFacts OrderlyFacts.
Import ListNotations.
Open Scope R_scope.

Section Patient.
Context (traps : list (trap R)) (dwell floor full beta : R).
Hypothesis Hfin : Forall capturing traps.
Hypothesis Hdwell : 0 < dwell.
Hypothesis Hfloor : 0 < floor.
Hypothesis Hfull : 0 < full.
Hypothesis Hbeta : 0 < beta.
Let rho := SpecRecovery.traps_per_pixel traps.
Hypothesis Hslow : slow_growth floor 1 rho beta full.
Notation well := (timed_well floor full beta).
Notation slope := (timed_slope floor full beta).
Let Hphys : Forall physical traps.
Proof. eapply Forall_impl; [|exact Hfin]. now intros t [H _]. Qed.
Lemma patient_rho : 0 <= rho. Proof. now apply density_nonneg. Qed.
Definition patient_keep : R := 1 - rho * slope.
Lemma patient_keep_range : 0 < patient_keep <= 1.
Proof.
  pose proof (Rmult_le_pos _ _ patient_rho (timed_slope_pos floor full beta Hfloor Hfull Hbeta)). split; [|unfold patient_keep; lra].
  unfold patient_keep, timed_slope in *. destruct (Rle_dec 1 beta) as [Hb|Hb].
  - destruct Hslow as [[_ S]|[S _]]; [|lra]. assert (rho * (beta / full) < 1); [|lra]. apply (Rmult_lt_reg_r full); [exact Hfull|]. replace (rho * (beta / full) * full) with (1 * rho * beta) by (field; lra). lra.
  - destruct Hslow as [[S _]|[_ S]]; [lra|]. assert (rho * (depth full beta floor / floor) < 1); [|lra]. apply (Rmult_lt_reg_r floor); [exact Hfloor|]. replace (rho * (depth full beta floor / floor) * floor) with (1 * rho * depth full beta floor) by (field; lra). lra.
Qed.
Let Hz := timed_zero floor full beta Hfloor.
Let Hg := timed_grows floor full beta Hfloor Hfull Hbeta.
Let Hr := timed_range floor full beta Hfloor Hfull Hbeta.
Let Hs := timed_slope_pos floor full beta Hfloor Hfull Hbeta.
Let Hk : 0 <= 1 - SpecRecovery.traps_per_pixel traps * slope.
Proof. pose proof patient_keep_range as H. unfold patient_keep, rho in H. lra. Qed.
Let Hd : 0 <= dwell. Proof. lra. Qed.
Definition patient_pass : list R -> list R := s_pass traps dwell well empty_profile.
Lemma patient_tame : tame (patient_keep * patient_keep) 0 0 patient_pass.
Proof. apply (s_pass_tame traps dwell Hfin Hd well slope Hz Hg Hr Hk). Qed.
Lemma patient_less : forall l P i, calm traps P -> Forall (Rle floor) l -> (i < length l)%nat -> nth i l 0 - rho <= nth i (s_pass traps dwell well P l) 0.
Proof.
  induction l as [|m l IH]; intros P i HP Hl Hi; [cbn in Hi; lia|]. inversion Hl; subst. cbn [s_pass]. destruct i as [|i]; cbn [nth].
  - pose proof (s_leaves_range traps dwell Hfin Hd well Hr m P HP) as [L _]. pose proof (s_cloud_pos traps dwell Hfin Hd well Hr m P HP) as C.
    assert (E : s_packet m = m) by (apply Rmax_right; lra). rewrite E in C. pose proof (Hr _ (Rle_trans _ _ _ (Rlt_le _ _ Hfloor) (Rle_trans _ _ _ H1 C))) as W. fold rho in L.
    assert (rho * well (s_cloud traps dwell well m P) <= rho * 1) by (apply Rmult_le_compat_l; [exact patient_rho|lra]). lra.
  - cbn in Hi. apply IH; [now apply s_behind_calm|assumption|lia].
Qed.
Lemma patient_same : forall l P top, calm traps P -> none_above traps top P -> 0 <= top <= 1 -> Forall (Rle floor) l ->
  exists s, past_slow traps (depth full beta) dwell (top, P) l = Ok (s_pass traps dwell well P l, s).
Proof.
  induction l as [|m l IH]; intros P top HP Hn Ht Hl; cbn [past_slow s_pass]; [eexists; reflexivity|]. inversion Hl as [|? ? Hm Hl']; subst.
  assert (E : s_packet m = m) by (apply Rmax_right; lra).
  assert (Em : depth full beta m = well m) by now apply timed_agrees.
  assert (Ec : cloud_then traps (depth full beta) dwell m P = s_cloud traps dwell well m P) by (unfold s_cloud, cloud_then; rewrite E, Em; reflexivity).
  pose proof (s_cloud_pos traps dwell Hfin Hd well Hr m P HP) as C. rewrite E in C.
  assert (Ew : depth full beta (s_cloud traps dwell well m P) = well (s_cloud traps dwell well m P)) by (apply timed_agrees; lra).
  assert (Ex : exchanged traps (depth full beta) dwell m P = s_behind traps dwell well m P) by (unfold exchanged, s_behind, s_released; rewrite Ec, Ew, Em, E; reflexivity).
  assert (Eg : m - gain traps (depth full beta) dwell m P = s_leaves traps dwell well m P).
  { unfold gain, s_leaves. rewrite Ex, s_cloud_value, E. lra. }
  pose proof (s_leaves_pos traps dwell Hfin Hd well slope Hz Hg Hr Hk m P HP) as L0.
  assert (Gc : gain traps (depth full beta) dwell m P <= cloud_then traps (depth full beta) dwell m P) by (rewrite Ec; lra).
  assert (Ea : slow_after traps (depth full beta) dwell m P = s_behind traps dwell well m P) by (unfold slow_after; destruct (Rle_dec _ _); [exact Ex|contradiction]).
  assert (Et : Rmax 0 (m - slow_taken traps (depth full beta) dwell m P) = s_leaves traps dwell well m P) by (unfold slow_taken; rewrite Rmin_left, Eg by exact Gc; apply Rmax_right; exact L0).
  rewrite (told_enough traps (depth full beta) dwell m P Gc). cbn [negb].
  rewrite Ea, Et, Em, Ec, Ew. pose proof (s_inside traps dwell Hfin Hd well slope Hs Hg Hr Hk m P top Ht HP Hn) as I. rewrite E in I.
  pose proof (s_behind_none traps dwell Hfin Hd well slope Hs Hg Hr Hk m P top Ht HP Hn) as N. rewrite E in N.
  pose proof (s_behind_calm traps dwell Hfin Hd well Hr m P HP) as B. pose proof (Hr m ltac:(lra)) as W.
  destruct (Rlt_dec top (well m)) as [T|T].
  - rewrite Rmax_right in N by lra. destruct (IH _ (well m) B N W Hl') as [s ->]. cbn [bind]. eexists. reflexivity.
  - destruct I as [I|[_ I]]; [lra|]. destruct (Rle_dec _ top) as [_|K]; [|contradiction].
    rewrite Rmax_left in N by lra. destruct (IH _ top B N Ht Hl') as [s ->]. cbn [bind]. eexists. reflexivity.
Qed.
End Patient.

(** ** What a direction of readout past slow traps does *)
Lemma full_is_traps g : full_traps g = SpecRecovery.traps_per_pixel g. Proof. reflexivity. Qed.
Lemma patient_limit_nonneg floor d n i x : patient_call floor d n -> patient_limit d n i x -> 0 <= x.
Proof.
  intros (c & f & g & w & full & beta & H1 & _ & H3 & _) [c' f' g' w' H _]. destruct (single_unique _ _ _ _ _ _ _ _ _ _ _ _ H1 H) as (<- & <- & <- & <-).
  apply Rmult_le_pos; [apply pos_INR|]. apply Rmult_le_pos; [left; exact (sp_share _ _ _ _ _ _ _ H1)|]. apply density_nonneg. eapply Forall_impl; [|exact H3]. now intros t [K _].
Qed.
Lemma slow_kind g : g <> [] -> Forall (fun t => t_class t = CTrap) g -> kind_for g = KSlow.
Proof. intros Hg H. destruct g as [|t g]; [contradiction|]. inversion H; subst. unfold kind_for. now rewrite H2. Qed.
Lemma does_patient floor d n tw : 0 < floor -> (0 < n)%nat -> tw = None \/ tw = whole n (d_offset d) -> patient_call floor d n -> does_above floor d n tw (patient_limit d n) (the_roe d).
Proof.
  intros Hfl Hn Htw Hcall. pose proof Hcall as (c & f & g & w & full & beta & H1 & H2 & H3 & H4 & H5 & H6 & H7).
  pose proof (sp_share _ _ _ _ _ _ _ H1) as Hf. pose proof (sp_dwell _ _ _ _ _ _ _ H1) as Hw. pose proof (sp_group _ _ _ _ _ _ _ H1) as Hg.
  set (traps := map (thinned f) g). assert (Ht : Forall capturing traps) by now apply thinned_capturing.
  assert (Er : SpecRecovery.traps_per_pixel traps = f * full_traps g) by apply full_thinned. rewrite <- Er in H7.
  pose proof (patient_keep_range traps floor full beta Ht Hfl H5 H6 H7) as Hkeep. pose proof (patient_tame traps w floor full beta Ht Hw Hfl H5 H6 H7) as HT.
  set (keep := patient_keep traps floor full beta) in *. set (P := patient_pass traps w floor full beta) in *.
  assert (Hgain : 0 < keep * keep <= 1) by nra. set (gn := keep * keep) in *.
  exists (gn ^ (d_offset d + n)), 1, (column_by P n (d_offset d)).
  split; [split; [apply pow_lt; lra|apply (gain_pow gn); lra]|]. split; [lra|]. split; [apply tame_steady, column_by_tame; [exact HT|lra]|].
  intros im cols columns Hs Hp Hcols Hch.
  assert (Hlen : (0 < length traps)%nat) by (unfold traps; rewrite map_length; destruct g; [contradiction|cbn; lia]).
  assert (Hk : empty_manager f g n = manager_init KSlow traps n).
  { unfold empty_manager, manager_init, zero_row, traps. rewrite map_length, (slow_kind g Hg H2). cbn [n_watermarks_per_transfer]. rnum. do 2 f_equal. lia. }
  pose proof (depth_sensitive full beta H5 H6) as Hsens.
  set (m := manager_init KSlow traps n) in *.
  destruct (init_describes traps n KSlow) as [D V]. fold m in D, V. cbn [n_watermarks_per_transfer] in D.
  assert (C0 : calm traps empty_profile) by now apply calm_empty.
  assert (COL : forall j, (j < cols)%nat -> exists s, column_past (past_slow traps (depth full beta) w) (0, empty_profile) (d_offset d) (column_of im j) = Ok (column_by P n (d_offset d) (column_of im j), s)).
  { intros j Hj. assert (L : length (column_of im j) = n) by (rewrite column_length; apply Hs).
    rewrite <- L. apply (column_past_by P gn HT (past_slow traps (depth full beta) w) (0, empty_profile) floor (SpecRecovery.traps_per_pixel traps)).
    - apply density_nonneg. eapply Forall_impl; [|exact Ht]. now intros t [K _].
    - intros l Hl. apply (patient_same traps w floor full beta Ht Hw Hfl H5 H6 H7 l empty_profile 0 C0 (none_empty traps 0)); [lra|exact Hl].
    - intros l i Hl Hi. exact (patient_less traps w floor full beta Ht Hw Hfl H5 H6 l empty_profile i C0 Hl Hi).
    - intros i Hi. rewrite L in Hi. rewrite column_at. destruct (Hch i j Hi Hj) as (x & [c' f' g' w' K _] & Hx). destruct (single_unique _ _ _ _ _ _ _ _ _ _ _ _ H1 K) as (<- & <- & <- & <-). rewrite Er. exact Hx. }
  assert (NN : forall j, Forall (fun x => 0 <= x) (column_of im j)).
  { intros j. apply Forall_forall. intros x Hx. apply (In_nth _ _ 0) in Hx as (i & _ & <-). rewrite column_at. apply Hp. }
  assert (PM : forall j, (j < cols)%nat -> exists s, column_past (past_manager (fun n => well_fill c 0 false n) w) (empty_manager f g n) (d_offset d) (column_of im j) = Ok (column_by P n (d_offset d) (column_of im j), s)).
  { intros j Hj. rewrite Hk. destruct (COL j Hj) as [s Es].
    assert (F : follows false (column_past (past_slow traps (depth full beta) w) (0, empty_profile) (d_offset d) (column_of im j)) (column_past (past_manager (fun n => well_fill c 0 false n) w) m (d_offset d) (column_of im j))).
    { apply (column_follows (past_slow traps (depth full beta) w) (past_manager (fun n => well_fill c 0 false n) w) (0, empty_profile) m false n).
      - intros l Hl Hnn. change m with (mkManager KSlow traps (m_wm m)). rewrite <- V.
        apply (slow_follows traps _ (depth full beta) w Ht Hlen Hsens (fun x Hx => depth_fill c 0 beta full x H4 H5 H6 Hx) Hw l (2 * (n - length l)) (m_wm m) empty_profile Hnn).
        replace (2 * length l + 2 * (n - length l))%nat with (n * 2)%nat by lia. exact D.
      - intros l l' s0 El. split; [eapply past_length; exact El|eapply past_nonneg; exact El].
      - rewrite column_length. rewrite (proj1 Hs). lia.
      - apply NN. }
    rewrite Es in F. exact F. }
  destruct (direction_past d n c f g w (column_by P n (d_offset d)) tw im cols columns Hn H1 Htw Hs Hcols) as (tr & im' & Etr & E & Hs' & C).
  { intros z Hz. apply PM. apply Hcols in Hz. lia. }
  rewrite Etr. exists im'. split; [exact E|]. split; [exact Hs'|].
  assert (BD : forall j, (j < cols)%nat -> forall i, (i < n)%nat -> 0 <= nth i (column_of im' j) 0 /\ Rabs (nth i (column_of im' j) 0 - nth i (column_of im j) 0) <= INR (i + 1 + d_offset d) * SpecRecovery.traps_per_pixel traps).
  { intros j Hj i Hi. rewrite (C j Hj). destruct (listed columns j).
    2: { rewrite column_at. split; [apply Hp|]. rewrite Rminus_eq_0, Rabs_R0. apply Rmult_le_pos; [apply pos_INR|]. apply density_nonneg. eapply Forall_impl; [|exact Ht]. now intros t [K _]. }
    destruct (COL j Hj) as [s Es].
    destruct (column_bounded (past_slow traps (depth full beta) w) (0, empty_profile) (SpecRecovery.traps_per_pixel traps) n) with (offset := d_offset d) (l := column_of im j) (l' := column_by P n (d_offset d) (column_of im j)) (s := s) as (B1 & B2 & B3); auto.
    - intros l l' s0 Hl Hnn El. rewrite <- V in El.
      apply (slow_bounded traps (depth full beta) w Ht Hlen Hsens Hw l l' s0 (2 * (n - length l)) (m_wm m) empty_profile Hnn); [|exact El].
      replace (2 * length l + 2 * (n - length l))%nat with (n * 2)%nat by lia. exact D.
    - rewrite column_length. rewrite (proj1 Hs). lia.
    - assert (Li : (i < length (column_of im j))%nat) by (rewrite column_length; rewrite (proj1 Hs); lia). split; [|now apply B3].
      rewrite Forall_forall in B2. apply B2, nth_In. lia. }
  assert (PX : forall i j, (i < n)%nat -> (j < cols)%nat -> 0 <= pixel im' i j) by (intros i j Hi Hj; pose proof (BD j Hj i Hi) as [B _]; rewrite column_at in B; exact B).
  split; [|split; [exact C|]].
  - destruct cols as [|cols]; [|now apply (shape_nonneg n (S cols) Hn ltac:(lia))]. intros i j. unfold pixel. destruct Hs' as [_ Hs'].
    destruct (Nat.lt_ge_cases i (length im')) as [Hi|Hi].
    + rewrite Forall_forall in Hs'. assert (L : length (nth i im' []) = 0%nat) by (apply Hs', nth_In, Hi). destruct (nth i im' []); [|discriminate]. destruct j; cbn; rnum; lra.
    + rewrite (nth_overflow im') by exact Hi. destruct j; cbn; rnum; lra.
  - intros i j x Hi Hj [c' f' g' w' K _]. destruct (single_unique _ _ _ _ _ _ _ _ _ _ _ _ H1 K) as (<- & <- & <- & <-).
    pose proof (BD j Hj i Hi) as [_ B]. rewrite !column_at, Er in B. exact B.
Qed.

(** ** Traps of any kind *)
Lemma instant_not_slow d n c f g w k traps : single_phase d n c f g w k -> kind_for g = KSlow -> d_traps d = Some traps -> instant_traps traps -> False.
Proof.
  intros H1 H2 H3 [_ H4]. destruct (sp_traps _ _ _ _ _ _ _ H1) as (traps' & E & G). rewrite H3 in E. injection E as <-. rewrite G in H4.
  inversion H4 as [|? ? [H5 H6] _]; subst. destruct g as [|t g]; [contradiction|]. inversion H6 as [|? ? [_ Hc] _]; subst. unfold kind_for in H2. rewrite Hc in H2. discriminate.
Qed.
Lemma patient_kind d n c f g w k : single_phase d n c f g w k -> Forall (fun t => t_class t = CTrap) g -> kind_for g = KSlow.
Proof. intros H. apply slow_kind. exact (sp_group _ _ _ _ _ _ _ H). Qed.
Lemma slow_not_patient floor d n c f g w k : slow_call floor d n -> single_phase d n c f g w k -> kind_for g = KSlow -> False.
Proof.
  intros H H1 H2. assert (X : exists traps, d_traps d = Some traps /\ instant_traps traps).
  { destruct H as [[(b & _ & _ & _ & [E|(c' & traps & dw & dt & gr & S & _)])|(_ & c' & traps & dw & npt & gr & S & _)]|[(b & _ & _ & _ & c' & traps & dw & dt & gr & S & _)|(_ & c' & traps & dw & npt & gr & S & _)]].
    - now apply some_traps in H1.
    - exists traps. split; [apply S|apply S].
    - exists traps. split; [apply S|apply S].
    - exists traps. split; [apply S|apply S].
    - exists traps. split; [apply S|apply S]. }
  destruct X as (traps & E & I). exact (instant_not_slow d n c f g w k traps H1 H2 E I).
Qed.
Lemma limit_not_patient d n i x c f g w k : (i < n)%nat -> call_limit d n i x -> single_phase d n c f g w k -> kind_for g = KSlow -> False.
Proof.
  intros Hi H H1 H2. destruct H as [H _|b x _ H|x H].
  - apply H. rewrite (sp_window _ _ _ _ _ _ _ H1). cbn [selected]. apply in_map, in_seq. lia.
  - destruct H as [E|c' traps dw dt S|c' traps dw dt S].
    + now apply some_traps in H1.
    + apply (instant_not_slow d n c f g w k traps H1 H2); apply S.
    + apply (instant_not_slow d n c f g w k traps H1 H2); apply S.
  - destruct H as [c' traps dw npt S|c' traps dw npt S]; apply (instant_not_slow d n c f g w k traps H1 H2); apply S.
Qed.
Lemma timed_not_patient d n c f g w c' f' g' w' : single_phase d n c f g w false -> kind_for g = KTime -> single_phase d n c' f' g' w' false -> kind_for g' = KSlow -> False.
Proof. intros H1 H2 H3 H4. destruct (single_unique _ _ _ _ _ _ _ _ _ _ _ _ H1 H3) as (_ & _ & <- & _). congruence. Qed.
Lemma orderly_limits floor d n i x : orderly_call floor d n -> any_limit d n i x <-> orderly_limit d n i x.
Proof.
  intros H. split; [|now left]. intros [L|[c f g w H1 H2]]; [exact L|]. exfalso. apply (patient_kind _ _ _ _ _ _ _ H1) in H2.
  destruct H as [H|(c' & f' & g' & w' & _ & _ & K1 & K2 & _)]; [exact (slow_not_patient floor d n c f g w false H H1 H2)|exact (timed_not_patient _ _ _ _ _ _ _ _ _ _ K1 K2 H1 H2)].
Qed.
Lemma patient_limits floor d n i x : (i < n)%nat -> patient_call floor d n -> any_limit d n i x <-> patient_limit d n i x.
Proof.
  intros Hi (c & f & g & w & full & beta & H1 & H2 & _). apply (patient_kind _ _ _ _ _ _ _ H1) in H2. split; [|now right]. intros [[L|[c' f' g' w' K1 K2]]|L]; [exfalso|exfalso|exact L].
  - exact (limit_not_patient d n i x c f g w false Hi L H1 H2).
  - exact (timed_not_patient _ _ _ _ _ _ _ _ _ _ K1 K2 H1 H2).
Qed.
Lemma any_nonneg floor d n i x : any_call floor d n -> any_limit d n i x -> 0 <= x.
Proof.
  intros [H|H] L.
  - apply (orderly_limits floor) in L; [|exact H]. now apply (orderly_nonneg floor d n i).
  - destruct L as [[L|[c' f' g' w' K1 K2]]|L]; [now apply call_limit_nonneg in L|exfalso|now apply (patient_limit_nonneg floor d n i)].
    destruct H as (c & f & g & w & full & beta & H1 & H2 & _). apply (patient_kind _ _ _ _ _ _ _ H1) in H2. exact (timed_not_patient _ _ _ _ _ _ _ _ _ _ K1 K2 H1 H2).
Qed.
Lemma patient_columns floor d n : (0 < n)%nat -> patient_call floor d n -> columns_ok (selected (d_window d) n) n.
Proof.
  intros Hn (c & f & g & w & full & beta & H1 & _). rewrite (sp_window _ _ _ _ _ _ _ H1). cbn [selected]. rewrite <- py_range_0. apply (window_columns _ n); [apply range_sorted_from|now apply window_ok_range|lia].
Qed.

(** The two directions of [orderly_ready] on their own: beside a direction without traps. *)
Lemma bare_call floor n : (0 < n)%nat -> orderly_call floor (no_direction : direction R) n.
Proof.
  intros Hn. left. left. left. exists n. cbn [no_direction d_window selected]. rewrite <- py_range_0. split; [apply range_sorted_from|]. split; [now apply window_ok_range|]. split; [lia|]. left. reflexivity.
Qed.
Lemma orderly_parallel floor parallel rows time : 0 < floor -> (0 < rows)%nat -> times_fit floor parallel rows time -> orderly_call floor parallel rows ->
  exists rp tw lines, resolve_time_window time (selected (d_window parallel) rows) rows (d_offset parallel) = Ok (tw, lines) /\ columns_ok lines rows /\
    does_above floor parallel rows (Some tw) (orderly_limit parallel rows) rp.
Proof.
  intros Hfl Hr Ht Hp. destruct (orderly_ready floor parallel no_direction rows 1 time Hfl Hr Nat.lt_0_1 Ht Hp (bare_call floor 1 Nat.lt_0_1)) as (rp & rs & tw & lines & D1 & D2 & _ & D4 & _). exists rp, tw, lines. auto.
Qed.
Lemma orderly_serial floor serial cols : 0 < floor -> (0 < cols)%nat -> orderly_call floor serial cols ->
  columns_ok (selected (d_window serial) cols) cols /\ exists rs, does_above floor serial cols None (orderly_limit serial cols) rs.
Proof.
  intros Hfl Hc Hs. destruct (orderly_ready floor no_direction serial 1 cols None Hfl Nat.lt_0_1 Hc ltac:(split; [constructor|left; reflexivity]) (bare_call floor 1 Nat.lt_0_1) Hs) as (rp & rs & tw & lines & _ & _ & D3 & _ & D5). split; [exact D3|]. exists rs. exact D5.
Qed.

(** Time windows only with instant traps in the parallel direction. *)
Lemma any_ready floor parallel serial rows cols time : 0 < floor -> (0 < rows)%nat -> (0 < cols)%nat -> times_fit floor parallel rows time -> any_call floor parallel rows -> any_call floor serial cols ->
  exists rp rs tw lines, resolve_time_window time (selected (d_window parallel) rows) rows (d_offset parallel) = Ok (tw, lines) /\
    columns_ok lines rows /\ columns_ok (selected (d_window serial) cols) cols /\
    does_above floor parallel rows (Some tw) (any_limit parallel rows) rp /\ does_above floor serial cols None (any_limit serial cols) rs.
Proof.
  intros Hfl Hr Hc Ht Hp Hs.
  assert (HP : exists rp tw lines, resolve_time_window time (selected (d_window parallel) rows) rows (d_offset parallel) = Ok (tw, lines) /\ columns_ok lines rows /\ does_above floor parallel rows (Some tw) (any_limit parallel rows) rp).
  { assert (OR : orderly_call floor parallel rows -> exists rp tw lines, resolve_time_window time (selected (d_window parallel) rows) rows (d_offset parallel) = Ok (tw, lines) /\ columns_ok lines rows /\ does_above floor parallel rows (Some tw) (any_limit parallel rows) rp).
    { intros Ho. destruct (orderly_parallel floor parallel rows time Hfl Hr Ht Ho) as (rp & tw & lines & E & Hl & D).
      exists rp, tw, lines. split; [exact E|]. split; [exact Hl|]. apply (does_above_ext _ _ _ _ (orderly_limit parallel rows)); [|exact D]. intros i x _. symmetry. now apply (orderly_limits floor). }
    destruct Hp as [Hp|Hp]; [now apply OR|]. destruct Ht as [Ht [->|Hsl]]; [|apply OR; now left].
    exists (the_roe parallel), (py_range 0 (Z.of_nat (rows + d_offset parallel))), (selected (d_window parallel) rows). split; [reflexivity|]. split; [now apply (patient_columns floor)|].
    apply (does_above_ext _ _ _ _ (patient_limit parallel rows)); [|apply does_patient; auto]. intros i x Hi. symmetry. now apply (patient_limits floor). }
  assert (HS : columns_ok (selected (d_window serial) cols) cols /\ exists rs, does_above floor serial cols None (any_limit serial cols) rs).
  { destruct Hs as [Hs|Hs].
    - destruct (orderly_serial floor serial cols Hfl Hc Hs) as (HC & rs & D). split; [exact HC|]. exists rs. apply (does_above_ext _ _ _ _ (orderly_limit serial cols)); [|exact D]. intros i x _. symmetry. now apply (orderly_limits floor).
    - split; [now apply (patient_columns floor)|]. exists (the_roe serial). apply (does_above_ext _ _ _ _ (patient_limit serial cols)); [|apply does_patient; auto]. intros i x Hi. symmetry. now apply (patient_limits floor). }
  destruct HP as (rp & tw & lines & E & Hl & Dp). destruct HS as (HC & rs & Ds). exists rp, rs, tw, lines. auto.
Qed.
(** The description of C65 never ends while every pixel has that much charge. *)
Lemma patient_described floor d n c f g w full beta im cols : 0 < floor -> single_phase d n c f g w false -> Forall (fun t => t_class t = CTrap) g -> Forall capturing g ->
  0 < full -> 0 < beta -> slow_growth floor 1 (f * full_traps g) beta full -> shape n cols im ->
  (forall i j, (i < n)%nat -> (j < cols)%nat -> floor + INR (i + 1 + d_offset d) * (f * full_traps g) <= pixel im i j) ->
  exists outs, columns_past (past_slow (map (thinned f) g) (depth full beta) w) false (0, empty_profile) (0, empty_profile) (d_offset d) (map (column_of im) (seq 0 cols)) = Ok outs.
Proof.
  intros Hfl H1 H2 H3 H5 H6 H7 Hs Hch.
  pose proof (sp_share _ _ _ _ _ _ _ H1) as Hf. pose proof (sp_dwell _ _ _ _ _ _ _ H1) as Hw.
  set (traps := map (thinned f) g). assert (Ht : Forall capturing traps) by now apply thinned_capturing.
  assert (Er : SpecRecovery.traps_per_pixel traps = f * full_traps g) by apply full_thinned. rewrite <- Er in H7.
  pose proof (patient_keep_range traps floor full beta Ht Hfl H5 H6 H7) as Hkeep. pose proof (patient_tame traps w floor full beta Ht Hw Hfl H5 H6 H7) as HT.
  assert (C0 : calm traps empty_profile) by now apply calm_empty.
  assert (COL : forall j, (j < cols)%nat -> exists l s, column_past (past_slow traps (depth full beta) w) (0, empty_profile) (d_offset d) (column_of im j) = Ok (l, s)).
  { intros j Hj. assert (L : length (column_of im j) = n) by (rewrite column_length; apply Hs). eexists.
    apply (column_past_by _ _ HT (past_slow traps (depth full beta) w) (0, empty_profile) floor (SpecRecovery.traps_per_pixel traps)).
    - apply density_nonneg. eapply Forall_impl; [|exact Ht]. now intros t [K _].
    - intros l Hl. apply (patient_same traps w floor full beta Ht Hw Hfl H5 H6 H7 l empty_profile 0 C0 (none_empty traps 0)); [lra|exact Hl].
    - intros l i Hl Hi. exact (patient_less traps w floor full beta Ht Hw Hfl H5 H6 l empty_profile i C0 Hl Hi).
    - intros i Hi. rewrite L in Hi. rewrite column_at, Er. now apply Hch. }
  assert (ALL : forall k a, (a + k <= cols)%nat -> exists outs, columns_past (past_slow traps (depth full beta) w) false (0, empty_profile) (0, empty_profile) (d_offset d) (map (column_of im) (seq a k)) = Ok outs).
  { induction k as [|k IH]; intros a Ha; cbn [seq map columns_past]; [eexists; reflexivity|].
    destruct (COL a ltac:(lia)) as (l & s & ->). cbn [bind]. destruct (IH (S a) ltac:(lia)) as [outs ->]. eexists. reflexivity. }
  exact (ALL cols 0%nat ltac:(lia)).
Qed.
