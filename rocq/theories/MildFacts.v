(** * Readouts of any images past traps of any of the three kinds, in wells that fill evenly or ever
    more slowly: order, differences and recovery. *)
From Coq Require Import ZArith List Bool Reals Lra Lia Sorted.
From Coquelicot Require Import Rcomplements Rbar Hierarchy RInt.
From Verif Require Import Num Py RFacts CCDModel TrapsModel ManagerModel ROEModel ClockModel MainModel Spec SpecROE SpecImage SpecReadout SpecTime SpecSlow SpecHistory SpecHold SpecRecovery SpecBound SpecPhases SpecWork SpecExpressOrder SpecInjectionOrder SpecWindowOrder SpecAbove SpecFlatten SpecPatient SpecMild
  CallFacts WmFacts ArrayFacts InstantFacts ClockFacts MainFacts ShapeFacts ColumnFacts ReadoutImage RemoveFacts ROEClockFacts ROEMatrixFacts ROEExpressFacts ROEKindFacts ReadoutFull ReadoutForced ReadoutSpecFacts OrderFacts TameFacts DepthFacts BoundFacts MainReadoutFacts RecoverImageFacts LiftFacts GridFacts SteadyFacts ContractFacts WindowFacts WindowMainFacts MaskFacts WindowGridFacts AboveFacts AboveGridFacts InverseFacts
  TimeFacts TimeInstantFacts SlowFacts SlowSpecFacts HistoryFacts HistorySpecFacts HistoryBoundFacts TimesOrderFacts TimesGridFacts SlowOrderFacts OrderlyFacts SlowGridFacts.
Import ListNotations.
Open Scope R_scope.

(** ** A column, pass by pass *)
Section Column.
Context (P : list R -> list R) (gain : R).
Hypothesis HP : tame gain 0 0 P.
Context {St : Type} (past : St -> list R -> result (list R * St)) (start : St).
Hypothesis Hsame : forall l, Forall (Rle 0) l -> exists s, past start l = Ok (P l, s).
Hypothesis Hpos : forall l, Forall (Rle 0) l -> Forall (Rle 0) (P l).
Lemma reading_any : forall n last l, (length l <= n)%nat -> Forall (Rle 0) l -> exists s, reading past start n last l = Ok (reads_by P n l, s).
Proof.
  induction n as [|n IH]; intros last l Hl Hf; cbn [reading reads_by].
  - destruct l; [|cbn in Hl; lia]. exists last. reflexivity.
  - destruct (Hsame l Hf) as [s ->]. cbn [bind]. pose proof (tm_length _ _ _ _ HP l) as L. pose proof (Hpos l Hf) as D.
    destruct (P l) as [|h t]; cbn [skip]; [exists s; reflexivity|]. cbn [length] in L. inversion D; subst.
    destruct (IH s t) as [s' ->]; [lia|assumption|exists s'; reflexivity].
Qed.
Lemma before_any : forall n last l, Forall (Rle 0) l ->
  (exists s, before past start n last l = Ok (enters_by P n l, s)) /\ length (enters_by P n l) = length l /\ Forall (Rle 0) (enters_by P n l).
Proof.
  induction n as [|n IH]; intros last l Hf; cbn [before enters_by].
  - split; [exists last; reflexivity|]. split; [reflexivity|exact Hf].
  - destruct (Hsame l Hf) as [s ->]. cbn [bind]. pose proof (tm_length _ _ _ _ HP l) as L.
    destruct (IH s (P l) (Hpos l Hf)) as (I1 & I2 & I3). rewrite L in I2. auto.
Qed.
Lemma column_past_any offset l : Forall (Rle 0) l -> exists s, column_past past start offset l = Ok (column_by P (length l) offset l, s).
Proof.
  intros Hf. unfold column_past, column_by. destruct (before_any offset start l Hf) as ((s & ->) & L & B).
  cbn [bind]. apply reading_any; [lia|exact B].
Qed.
End Column.

Section Timed.
Context (traps : list (trap R)) (dwell full beta : R).
Hypothesis Hflat : Forall flattening traps.
Hypothesis Hdwell : 0 < dwell.
Hypothesis Hfull : 0 < full.
Hypothesis Hbeta : 1 <= beta.
Let rho := filled_traps traps.
Hypothesis Hsmall : rho * beta < full.
Notation well := (timed_well 1 full beta).
Notation slope := (timed_slope 1 full beta).
Let Hb0 : 0 < beta. Proof. lra. Qed.
Let Hslow : slow_growth 1 1 rho beta full. Proof. left. lra. Qed.
Let agrees a : depth full beta a = well a.
Proof. unfold timed_well. destruct (Rle_dec 1 beta); [reflexivity|lra]. Qed.
Let Hz := timed_zero 1 full beta Rlt_0_1.
Let Hg := timed_grows 1 full beta Rlt_0_1 Hfull Hb0.
Let Hr := timed_range 1 full beta Rlt_0_1 Hfull Hb0.
Lemma mild_timed_same : forall l T, neat (length traps) T -> Forall (Rle 0) l -> exists T', past_times traps (depth full beta) dwell T l = Ok (t_pass traps dwell well T l, T').
Proof.
  induction l as [|m l IH]; intros T HT Hl; cbn [past_times t_pass]; [exists T; reflexivity|]. inversion Hl as [|? ? Hm Hl']; subst.
  pose proof (held_wait traps dwell Hflat ltac:(lra) T HT) as G.
  assert (C : 0 <= cloud_after traps dwell m T) by (unfold cloud_after; lra).
  assert (E : t_cloud traps dwell m T = cloud_after traps dwell m T) by (unfold t_cloud; apply Rmax_right; lra).
  assert (Et : times_after traps (depth full beta) dwell m T = t_behind traps dwell well m T) by (unfold times_after, t_behind; rewrite E, agrees; reflexivity).
  assert (Ew : wanted traps (depth full beta) dwell m T = taken traps (well (cloud_after traps dwell m T)) (wait dwell T)) by (unfold wanted, taken; rewrite Et; unfold t_behind; rewrite E; reflexivity).
  destruct (Rle_dec (wanted traps (depth full beta) dwell m T) (cloud_after traps dwell m T)) as [H|H].
  - rewrite Et. destruct (IH (t_behind traps dwell well m T)) as [T' ->]; [now apply t_behind_neat; [lra|]|exact Hl'|]. cbn [bind]. exists T'. rewrite Ew. unfold t_leaves. rewrite E. reflexivity.
  - exfalso. apply H. rewrite Ew. assert (W := Hr (cloud_after traps dwell m T) ltac:(lra)).
    pose proof (taken_range traps Hflat _ (wait dwell T) W (neat_wait _ dwell T ltac:(lra) HT)) as [_ K]. fold rho in K.
    pose proof (Hg 0 (cloud_after traps dwell m T) ltac:(lra)) as S. rewrite Hz in S. pose proof (timed_gain_range traps 1 full beta Hflat Rlt_0_1 Hfull Hb0 Hslow) as GR. unfold timed_gain in GR. fold rho in GR.
    pose proof (Rmult_le_compat_l rho _ _ (timed_rho traps Hflat) (proj2 S)) as K2. assert (rho * slope * cloud_after traps dwell m T <= 1 * cloud_after traps dwell m T) by (apply Rmult_le_compat_r; lra). lra.
Qed.
End Timed.
Section Patient.
Context (traps : list (trap R)) (dwell full beta : R).
Hypothesis Hfin : Forall capturing traps.
Hypothesis Hdwell : 0 < dwell.
Hypothesis Hfull : 0 < full.
Hypothesis Hbeta : 1 <= beta.
Let rho := SpecRecovery.traps_per_pixel traps.
Hypothesis Hsmall : rho * beta < full.
Notation well := (timed_well 1 full beta).
Notation slope := (timed_slope 1 full beta).
Let Hb0 : 0 < beta. Proof. lra. Qed.
Let Hslow : slow_growth 1 1 rho beta full. Proof. left. lra. Qed.
Let agrees a : depth full beta a = well a.
Proof. unfold timed_well. destruct (Rle_dec 1 beta); [reflexivity|lra]. Qed.
Let Hz := timed_zero 1 full beta Rlt_0_1.
Let Hg := timed_grows 1 full beta Rlt_0_1 Hfull Hb0.
Let Hr := timed_range 1 full beta Rlt_0_1 Hfull Hb0.
Let Hs := timed_slope_pos 1 full beta Rlt_0_1 Hfull Hb0.
Let Hk : 0 <= 1 - SpecRecovery.traps_per_pixel traps * slope.
Proof. pose proof (patient_keep_range traps 1 full beta Hfin Rlt_0_1 Hfull Hb0 Hslow) as H. unfold patient_keep in H. lra. Qed.
Let Hd : 0 <= dwell. Proof. lra. Qed.
Lemma mild_patient_same : forall l P top, calm traps P -> none_above traps top P -> 0 <= top <= 1 -> Forall (Rle 0) l ->
  exists s, past_slow traps (depth full beta) dwell (top, P) l = Ok (s_pass traps dwell well P l, s).
Proof.
  induction l as [|m l IH]; intros P top HP Hn Ht Hl; cbn [past_slow s_pass]; [eexists; reflexivity|]. inversion Hl as [|? ? Hm Hl']; subst.
  assert (E : s_packet m = m) by (apply Rmax_right; lra).
  assert (Em : depth full beta m = well m) by apply agrees.
  assert (Ec : cloud_then traps (depth full beta) dwell m P = s_cloud traps dwell well m P) by (unfold s_cloud, cloud_then; rewrite E, Em; reflexivity).
  pose proof (s_cloud_pos traps dwell Hfin Hd well Hr m P HP) as C. rewrite E in C.
  assert (Ew : depth full beta (s_cloud traps dwell well m P) = well (s_cloud traps dwell well m P)) by apply agrees.
  assert (Ex : exchanged traps (depth full beta) dwell m P = s_behind traps dwell well m P) by (unfold exchanged, s_behind, s_released; rewrite Ec, Ew, Em, E; reflexivity).
  assert (Eg : m - gain traps (depth full beta) dwell m P = s_leaves traps dwell well m P).
  { unfold gain, s_leaves. rewrite Ex, s_cloud_value, E. lra. }
  pose proof (s_leaves_pos traps dwell Hfin Hd well slope Hz Hg Hr Hk m P HP) as L0.
  assert (Gc : gain traps (depth full beta) dwell m P <= cloud_then traps (depth full beta) dwell m P) by (rewrite Ec; lra).
  assert (Ea : slow_after traps (depth full beta) dwell m P = s_behind traps dwell well m P) by (unfold slow_after; destruct (Rle_dec _ _); [exact Ex|contradiction]).
  assert (Et : Rmax 0 (m - slow_taken traps (depth full beta) dwell m P) = s_leaves traps dwell well m P) by (unfold slow_taken; rewrite Rmin_left, Eg by exact Gc; apply Rmax_right; exact L0).
  rewrite (told_enough traps (depth full beta) dwell m P Gc). cbn [negb].
  rewrite Ea, Et, Em, Ec, Ew. pose proof (s_inside traps dwell Hfin Hd well slope Hs Hg Hr Hk m P top Ht HP Hn) as I. rewrite E in I.
  pose proof (s_behind_none traps dwell Hfin Hd well slope Hs Hg Hr Hk m P top Ht HP Hn) as N. rewrite E in N.
  pose proof (s_behind_calm traps dwell Hfin Hd well Hr m P HP) as B. pose proof (Hr m ltac:(lra)) as W.
  destruct (Rlt_dec top (well m)) as [T|T].
  - rewrite Rmax_right in N by lra. destruct (IH _ (well m) B N W Hl') as [s ->]. cbn [bind]. eexists. reflexivity.
  - destruct I as [I|[_ I]]; [lra|]. destruct (Rle_dec _ top) as [_|K]; [|contradiction].
    rewrite Rmax_left in N by lra. destruct (IH _ top B N Ht Hl') as [s ->]. cbn [bind]. eexists. reflexivity.
Qed.
End Patient.

(** The packets of a tame map stay positive, by what it makes of no charge at all. *)
Lemma tame_nonneg gain P l : tame gain 0 0 P -> Forall (Rle 0) l -> Forall (Rle 0) (P l).
Proof.
  intros H. induction l as [|a l IH] using rev_ind; intros Hl.
  - pose proof (tm_length _ _ _ _ H []) as L. destruct (P []); [constructor|discriminate].
  - rewrite (tame_snoc H). apply Forall_app in Hl as [Hl Ha]. inversion Ha; subst. apply Forall_app. split; [now apply IH|]. constructor; [|constructor]. now apply (tm_floor _ _ _ _ H).
Qed.

(** ** What a direction does *)
Definition does_by (G : list R -> list R) (d : direction R) (n : nat) (tw : option (list Z)) (B : nat -> R -> Prop) (r' : roe R) : Prop :=
  forall im cols columns, shape n cols im -> nonneg im -> columns_ok columns cols ->
  exists im', match d_traps d with None => Ok (im, the_roe d)
      | Some traps => clock_direction im d (the_roe d) traps (selected (d_window d) n) columns tw end = Ok (im', r') /\
    shape n cols im' /\ nonneg im' /\ (forall j, (j < cols)%nat -> column_of im' j = if listed columns j then G (column_of im j) else column_of im j) /\
    forall i j x, (i < n)%nat -> (j < cols)%nat -> B i x -> Rabs (pixel im' i j - pixel im i j) <= x.
Lemma mild_timed_by d n tw c f g w full beta : (0 < n)%nat -> tw = None \/ tw = whole n (d_offset d) ->
  single_phase d n c f g w false -> kind_for g = KTime -> Forall flattening g ->
  phase_params c 0 0 beta full -> 0 < full -> 1 <= beta -> f * filled_traps g * beta < full ->
  exists gain, 0 < gain <= 1 /\ tame gain 0 0 (timed_pass (map (thinned f) g) w 1 full beta) /\
    does_by (column_by (timed_pass (map (thinned f) g) w 1 full beta) n (d_offset d)) d n tw (timed_limit d n) (the_roe d).
Proof.
  intros Hn Htw H1 H2 H3 H4 H5 H6 H7.
  pose proof (sp_share _ _ _ _ _ _ _ H1) as Hf. pose proof (sp_dwell _ _ _ _ _ _ _ H1) as Hw. pose proof (sp_group _ _ _ _ _ _ _ H1) as Hg.
  set (traps := map (thinned f) g). assert (Ht : Forall flattening traps) by now apply thinned_flattening.
  assert (Er : filled_traps traps = f * filled_traps g) by apply filled_thinned. rewrite <- Er in H7. assert (H6' : 0 < beta) by lra. assert (H8 : slow_growth 1 1 (filled_traps traps) beta full) by (left; lra).
  pose proof (timed_gain_range traps 1 full beta Ht Rlt_0_1 H5 H6' H8) as Hgain. pose proof (timed_tame traps w 1 full beta Ht Hw Rlt_0_1 H5 H6' H8) as HT.
  set (gain := timed_gain traps 1 full beta) in *. set (P := timed_pass traps w 1 full beta) in *.
  exists gain. split; [exact Hgain|]. split; [exact HT|].
  intros im cols columns Hs Hp Hcols.
  assert (Hlen : (0 < length traps)%nat) by (unfold traps; rewrite map_length; destruct g; [contradiction|cbn; lia]).
  assert (Hk : empty_manager f g n = manager_init KTime traps n).
  { unfold empty_manager, manager_init, zero_row, traps. rewrite map_length, H2. cbn [n_watermarks_per_transfer]. rnum. do 2 f_equal. lia. }
  assert (Hhold : Forall holding traps) by (eapply Forall_impl; [|exact Ht]; intros t [K _]; exact K).
  assert (Hfade : Forall fading traps) by (eapply Forall_impl; [|exact Hhold]; intros t [K _]; exact K).
  pose proof (depth_sensitive full beta H5 H6') as Hsens.
  set (m := manager_init KTime traps n) in *.
  assert (D : records (length traps) (m_wm m) n never) by (apply init_records; reflexivity).
  assert (NN : forall j, Forall (fun x => 0 <= x) (column_of im j)).
  { intros j. apply Forall_forall. intros x Hx. apply (In_nth _ _ 0) in Hx as (i & _ & <-). rewrite column_at. apply Hp. }
  assert (COL : forall j, (j < cols)%nat -> exists s, column_past (past_times traps (depth full beta) w) never (d_offset d) (column_of im j) = Ok (column_by P n (d_offset d) (column_of im j), s)).
  { intros j Hj. assert (L : length (column_of im j) = n) by (rewrite column_length; apply Hs).
    rewrite <- L. apply (column_past_any P gain HT (past_times traps (depth full beta) w) never).
    - intros l Hl. exact (mild_timed_same traps w full beta Ht Hw H5 H6 H7 l never (neat_never _) Hl).
    - intros l Hl. exact (tame_nonneg gain P l HT Hl).
    - apply NN. }
  assert (PM : forall j, (j < cols)%nat -> exists s, column_past (past_manager (fun n => well_fill c 0 false n) w) (empty_manager f g n) (d_offset d) (column_of im j) = Ok (column_by P n (d_offset d) (column_of im j), s)).
  { intros j Hj. rewrite Hk. destruct (COL j Hj) as [s Es].
    assert (F : follows true (column_past (past_times traps (depth full beta) w) never (d_offset d) (column_of im j)) (column_past (past_manager (fun n => well_fill c 0 false n) w) m (d_offset d) (column_of im j))).
    { apply (column_follows (past_times traps (depth full beta) w) (past_manager (fun n => well_fill c 0 false n) w) never m true n).
      - intros l Hl Hnn. change m with (mkManager KTime traps (m_wm m)).
        apply (times_follow traps _ (depth full beta) w Hfade Hlen Hsens (fun x Hx => depth_fill c 0 beta full x H4 H5 H6' Hx) Hw l (n - length l) (m_wm m) never Hnn).
        replace (length l + (n - length l))%nat with n by lia. exact D.
      - intros l l' s0 El. split; [eapply past_length; exact El|eapply past_nonneg; exact El].
      - rewrite column_length. rewrite (proj1 Hs). lia.
      - apply NN. }
    rewrite Es in F. exact F. }
  destruct (direction_past d n c f g w (column_by P n (d_offset d)) tw im cols columns Hn H1 Htw Hs Hcols) as (tr & im' & Etr & E & Hs' & C).
  { intros z Hz. apply PM. apply Hcols in Hz. lia. }
  rewrite Etr. exists im'. split; [exact E|]. split; [exact Hs'|].
  assert (BD : forall j, (j < cols)%nat -> forall i, (i < n)%nat -> 0 <= nth i (column_of im' j) 0 /\ Rabs (nth i (column_of im' j) 0 - nth i (column_of im j) 0) <= INR (i + 1 + d_offset d) * filled_traps traps).
  { intros j Hj i Hi. rewrite (C j Hj). destruct (listed columns j).
    2: { rewrite column_at. split; [apply Hp|]. rewrite Rminus_eq_0, Rabs_R0. apply Rmult_le_pos; [apply pos_INR|now apply rho_pos]. }
    destruct (COL j Hj) as [s Es].
    destruct (column_bounded (past_times traps (depth full beta) w) never (filled_traps traps) n) with (offset := d_offset d) (l := column_of im j) (l' := column_by P n (d_offset d) (column_of im j)) (s := s) as (B1 & B2 & B3); auto.
    - intros l l' s0 Hl Hnn El.
      destruct (times_bounded traps (depth full beta) w Hhold Hlen Hsens Hw l l' s0 (n - length l) (m_wm m) never Hnn) as (K1 & K2 & _); [|exact El|auto].
      replace (length l + (n - length l))%nat with n by lia. exact D.
    - rewrite column_length. rewrite (proj1 Hs). lia.
    - assert (Li : (i < length (column_of im j))%nat) by (rewrite column_length; rewrite (proj1 Hs); lia). split; [|now apply B3].
      rewrite Forall_forall in B2. apply B2, nth_In. lia. }
  assert (PX : forall i j, (i < n)%nat -> (j < cols)%nat -> 0 <= pixel im' i j) by (intros i j Hi Hj; pose proof (BD j Hj i Hi) as [B _]; rewrite column_at in B; exact B).
  split; [|split; [exact C|]].
  - destruct cols as [|cols]; [|now apply (shape_nonneg n (S cols) Hn ltac:(lia))]. intros i j. unfold pixel. destruct Hs' as [_ Hs'].
    destruct (Nat.lt_ge_cases i (length im')) as [Hi|Hi].
    + rewrite Forall_forall in Hs'. assert (L : length (nth i im' []) = 0%nat) by (apply Hs', nth_In, Hi). destruct (nth i im' []); [|discriminate]. destruct j; cbn; rnum; lra.
    + rewrite (nth_overflow im') by exact Hi. destruct j; cbn; rnum; lra.
  - intros i j x Hi Hj [c' f' g' w' K _]. destruct (single_unique _ _ _ _ _ _ _ _ _ _ _ _ H1 K) as (<- & <- & <- & <-).
    pose proof (BD j Hj i Hi) as [_ B]. rewrite !column_at, Er in B. exact B.
Qed.
Lemma does_mild_timed d n tw : (0 < n)%nat -> tw = None \/ tw = whole n (d_offset d) -> mild_timed d n -> does d n tw (timed_limit d n) (the_roe d).
Proof.
  intros Hn Htw (c & f & g & w & full & beta & H1 & H2 & H3 & H4 & H5 & H6 & H7).
  destruct (mild_timed_by d n tw c f g w full beta Hn Htw H1 H2 H3 H4 H5 H6 H7) as (gain & Hgain & HT & D). set (P := timed_pass (map (thinned f) g) w 1 full beta) in *.
  exists (gain ^ (d_offset d + n)), 1, (column_by P n (d_offset d)).
  split; [split; [apply pow_lt; lra|apply (gain_pow gain); lra]|]. split; [lra|]. split; [apply tame_steady, column_by_tame; [exact HT|lra]|]. exact D.
Qed.
Lemma mild_patient_by d n tw c f g w full beta : (0 < n)%nat -> tw = None \/ tw = whole n (d_offset d) ->
  single_phase d n c f g w false -> Forall (fun t => t_class t = CTrap) g -> Forall capturing g ->
  phase_params c 0 0 beta full -> 0 < full -> 1 <= beta -> f * full_traps g * beta < full ->
  exists gain, 0 < gain <= 1 /\ tame gain 0 0 (patient_pass (map (thinned f) g) w 1 full beta) /\
    does_by (column_by (patient_pass (map (thinned f) g) w 1 full beta) n (d_offset d)) d n tw (patient_limit d n) (the_roe d).
Proof.
  intros Hn Htw H1 H2 H3 H4 H5 H6 H7.
  pose proof (sp_share _ _ _ _ _ _ _ H1) as Hf. pose proof (sp_dwell _ _ _ _ _ _ _ H1) as Hw. pose proof (sp_group _ _ _ _ _ _ _ H1) as Hg.
  set (traps := map (thinned f) g). assert (Ht : Forall capturing traps) by now apply thinned_capturing.
  assert (Er : SpecRecovery.traps_per_pixel traps = f * full_traps g) by apply full_thinned. rewrite <- Er in H7. assert (H6' : 0 < beta) by lra. assert (H8 : slow_growth 1 1 (SpecRecovery.traps_per_pixel traps) beta full) by (left; lra).
  pose proof (patient_keep_range traps 1 full beta Ht Rlt_0_1 H5 H6' H8) as Hkeep. pose proof (patient_tame traps w 1 full beta Ht Hw Rlt_0_1 H5 H6' H8) as HT.
  set (keep := patient_keep traps 1 full beta) in *. set (P := patient_pass traps w 1 full beta) in *.
  assert (Hgain : 0 < keep * keep <= 1) by nra. set (gn := keep * keep) in *.
  exists gn. split; [exact Hgain|]. split; [exact HT|].
  intros im cols columns Hs Hp Hcols.
  assert (Hlen : (0 < length traps)%nat) by (unfold traps; rewrite map_length; destruct g; [contradiction|cbn; lia]).
  assert (Hk : empty_manager f g n = manager_init KSlow traps n).
  { unfold empty_manager, manager_init, zero_row, traps. rewrite map_length, (slow_kind g Hg H2). cbn [n_watermarks_per_transfer]. rnum. do 2 f_equal. lia. }
  pose proof (depth_sensitive full beta H5 H6') as Hsens.
  set (m := manager_init KSlow traps n) in *.
  destruct (init_describes traps n KSlow) as [D V]. fold m in D, V. cbn [n_watermarks_per_transfer] in D.
  assert (C0 : calm traps empty_profile) by now apply calm_empty.
  assert (NN : forall j, Forall (fun x => 0 <= x) (column_of im j)).
  { intros j. apply Forall_forall. intros x Hx. apply (In_nth _ _ 0) in Hx as (i & _ & <-). rewrite column_at. apply Hp. }
  assert (COL : forall j, (j < cols)%nat -> exists s, column_past (past_slow traps (depth full beta) w) (0, empty_profile) (d_offset d) (column_of im j) = Ok (column_by P n (d_offset d) (column_of im j), s)).
  { intros j Hj. assert (L : length (column_of im j) = n) by (rewrite column_length; apply Hs).
    rewrite <- L. apply (column_past_any P gn HT (past_slow traps (depth full beta) w) (0, empty_profile)).
    - intros l Hl. apply (mild_patient_same traps w full beta Ht Hw H5 H6 H7 l empty_profile 0 C0 (none_empty traps 0)); [lra|exact Hl].
    - intros l Hl. exact (tame_nonneg gn P l HT Hl).
    - apply NN. }
  assert (PM : forall j, (j < cols)%nat -> exists s, column_past (past_manager (fun n => well_fill c 0 false n) w) (empty_manager f g n) (d_offset d) (column_of im j) = Ok (column_by P n (d_offset d) (column_of im j), s)).
  { intros j Hj. rewrite Hk. destruct (COL j Hj) as [s Es].
    assert (F : follows false (column_past (past_slow traps (depth full beta) w) (0, empty_profile) (d_offset d) (column_of im j)) (column_past (past_manager (fun n => well_fill c 0 false n) w) m (d_offset d) (column_of im j))).
    { apply (column_follows (past_slow traps (depth full beta) w) (past_manager (fun n => well_fill c 0 false n) w) (0, empty_profile) m false n).
      - intros l Hl Hnn. change m with (mkManager KSlow traps (m_wm m)). rewrite <- V.
        apply (slow_follows traps _ (depth full beta) w Ht Hlen Hsens (fun x Hx => depth_fill c 0 beta full x H4 H5 H6' Hx) Hw l (2 * (n - length l)) (m_wm m) empty_profile Hnn).
        replace (2 * length l + 2 * (n - length l))%nat with (n * 2)%nat by lia. exact D.
      - intros l l' s0 El. split; [eapply past_length; exact El|eapply past_nonneg; exact El].
      - rewrite column_length. rewrite (proj1 Hs). lia.
      - apply NN. }
    rewrite Es in F. exact F. }
  destruct (direction_past d n c f g w (column_by P n (d_offset d)) tw im cols columns Hn H1 Htw Hs Hcols) as (tr & im' & Etr & E & Hs' & C).
  { intros z Hz. apply PM. apply Hcols in Hz. lia. }
  rewrite Etr. exists im'. split; [exact E|]. split; [exact Hs'|].
  assert (BD : forall j, (j < cols)%nat -> forall i, (i < n)%nat -> 0 <= nth i (column_of im' j) 0 /\ Rabs (nth i (column_of im' j) 0 - nth i (column_of im j) 0) <= INR (i + 1 + d_offset d) * SpecRecovery.traps_per_pixel traps).
  { intros j Hj i Hi. rewrite (C j Hj). destruct (listed columns j).
    2: { rewrite column_at. split; [apply Hp|]. rewrite Rminus_eq_0, Rabs_R0. apply Rmult_le_pos; [apply pos_INR|]. apply density_nonneg. eapply Forall_impl; [|exact Ht]. now intros t [K _]. }
    destruct (COL j Hj) as [s Es].
    destruct (column_bounded (past_slow traps (depth full beta) w) (0, empty_profile) (SpecRecovery.traps_per_pixel traps) n) with (offset := d_offset d) (l := column_of im j) (l' := column_by P n (d_offset d) (column_of im j)) (s := s) as (B1 & B2 & B3); auto.
    - intros l l' s0 Hl Hnn El. rewrite <- V in El.
      apply (slow_bounded traps (depth full beta) w Ht Hlen Hsens Hw l l' s0 (2 * (n - length l)) (m_wm m) empty_profile Hnn); [|exact El].
      replace (2 * length l + 2 * (n - length l))%nat with (n * 2)%nat by lia. exact D.
    - rewrite column_length. rewrite (proj1 Hs). lia.
    - assert (Li : (i < length (column_of im j))%nat) by (rewrite column_length; rewrite (proj1 Hs); lia). split; [|now apply B3].
      rewrite Forall_forall in B2. apply B2, nth_In. lia. }
  assert (PX : forall i j, (i < n)%nat -> (j < cols)%nat -> 0 <= pixel im' i j) by (intros i j Hi Hj; pose proof (BD j Hj i Hi) as [B _]; rewrite column_at in B; exact B).
  split; [|split; [exact C|]].
  - destruct cols as [|cols]; [|now apply (shape_nonneg n (S cols) Hn ltac:(lia))]. intros i j. unfold pixel. destruct Hs' as [_ Hs'].
    destruct (Nat.lt_ge_cases i (length im')) as [Hi|Hi].
    + rewrite Forall_forall in Hs'. assert (L : length (nth i im' []) = 0%nat) by (apply Hs', nth_In, Hi). destruct (nth i im' []); [|discriminate]. destruct j; cbn; rnum; lra.
    + rewrite (nth_overflow im') by exact Hi. destruct j; cbn; rnum; lra.
  - intros i j x Hi Hj [c' f' g' w' K _]. destruct (single_unique _ _ _ _ _ _ _ _ _ _ _ _ H1 K) as (<- & <- & <- & <-).
    pose proof (BD j Hj i Hi) as [_ B]. rewrite !column_at, Er in B. exact B.
Qed.
Lemma does_mild_patient d n tw : (0 < n)%nat -> tw = None \/ tw = whole n (d_offset d) -> mild_patient d n -> does d n tw (patient_limit d n) (the_roe d).
Proof.
  intros Hn Htw (c & f & g & w & full & beta & H1 & H2 & H3 & H4 & H5 & H6 & H7). destruct (mild_patient_by d n tw c f g w full beta Hn Htw H1 H2 H3 H4 H5 H6 H7) as (gn & Hgain & HT & HD).
  exists (gn ^ (d_offset d + n)), 1, (column_by (patient_pass (map (thinned f) g) w 1 full beta) n (d_offset d)).
  split; [split; [apply pow_lt; lra|apply (gain_pow gn); lra]|]. split; [lra|]. split; [apply tame_steady, column_by_tame; [exact HT|lra]|exact HD].
Qed.

(** ** Traps of any kind *)
Lemma mild_timed_call d n : mild_timed d n -> timed_call 1 d n.
Proof. intros (c & f & g & w & full & beta & H1 & H2 & H3 & H4 & H5 & H6 & H7). exists c, f, g, w, full, beta. split; [exact H1|]. split; [exact H2|]. split; [exact H3|]. split; [exact H4|]. split; [exact H5|]. split; [lra|]. left. lra. Qed.
Lemma mild_patient_call d n : mild_patient d n -> patient_call 1 d n.
Proof. intros (c & f & g & w & full & beta & H1 & H2 & H3 & H4 & H5 & H6 & H7). exists c, f, g, w, full, beta. split; [exact H1|]. split; [exact H2|]. split; [exact H3|]. split; [exact H4|]. split; [exact H5|]. split; [lra|]. left. lra. Qed.
Lemma mild_any d n : mild_call d n -> any_call 1 d n.
Proof. intros [H|[H|H]]; [left; left; left; exact H|left; right; now apply mild_timed_call|right; now apply mild_patient_call]. Qed.
Lemma mild_nonneg d n i x : mild_call d n -> any_limit d n i x -> 0 <= x.
Proof. intros H. apply (any_nonneg 1). now apply mild_any. Qed.
Lemma does_ext d n tw (B C : nat -> R -> Prop) r : (forall i x, (i < n)%nat -> C i x -> B i x) -> does d n tw B r -> does d n tw C r.
Proof.
  intros HB (g & b & G & Hg & Hb & HT & HA). exists g, b, G. split; [exact Hg|]. split; [exact Hb|]. split; [exact HT|]. intros im cols columns Hs Hp Hc.
  destruct (HA im cols columns Hs Hp Hc) as (im' & E & S' & P' & C' & D). exists im'. split; [exact E|]. split; [exact S'|]. split; [exact P'|]. split; [exact C'|]. intros i j x Hi Hj HC. apply (D i j x Hi Hj). now apply HB.
Qed.
(** ** Both directions *)
Section Both.
Context (parallel serial : direction R) (rows cols : nat) (Bp Bs : nat -> R -> Prop).
Hypothesis Bp_pos : forall i x, Bp i x -> 0 <= x.
Hypothesis Bs_pos : forall j x, Bs j x -> 0 <= x.
Hypothesis Hr : (0 < rows)%nat.
Hypothesis Hc : (0 < cols)%nat.
Context (rp rs : roe R) (time : option (list Z)) (tw lines : list Z).
Hypothesis Htimes : resolve_time_window time (selected (d_window parallel) rows) rows (d_offset parallel) = Ok (tw, lines).
Hypothesis Hlines : columns_ok lines rows.
Hypothesis Hcolumns : columns_ok (selected (d_window serial) cols) cols.
(** Column by column, then row by row. *)
Lemma mild_stages G1 G2 : does_by G1 parallel rows (Some tw) Bp rp -> does_by G2 serial cols None Bs rs ->
  forall im, shape rows cols im -> nonneg im ->
  exists im1 im', add_cti im parallel serial time = Ok (im', rp, rs) /\ shape rows cols im1 /\ nonneg im1 /\ shape rows cols im' /\ nonneg im' /\
    (forall j, (j < cols)%nat -> column_of im1 j = if listed (selected (d_window serial) cols) j then G1 (column_of im j) else column_of im j) /\
    (forall i, (i < rows)%nat -> nth i im' [] = if listed lines i then G2 (nth i im1 []) else nth i im1 []).
Proof.
  intros A1 A2 im Hs Hp. pose proof Hs as [Lim _]. pose proof (MainReadoutFacts.shape_columns rows cols im Hs Hr) as Ncol.
  unfold add_cti. rewrite Lim, Ncol, !resolve_selected, Htimes. cbn [bind].
  destruct (A1 im cols (selected (d_window serial) cols) Hs Hp Hcolumns) as (im1 & E1 & S1 & P1 & C1 & D1). rewrite E1. cbn [bind].
  assert (St : shape cols rows (transpose im1)) by (apply transpose_shape; assumption).
  assert (Pt : nonneg (transpose im1)) by (intros i j; rewrite (transpose_pixel_all rows cols) by assumption; apply P1).
  destruct (A2 (transpose im1) rows lines St Pt Hlines) as (im2 & E2 & S2 & P2 & C2 & D2).
  assert (S2' : shape rows cols (transpose im2)) by (apply transpose_shape; assumption).
  assert (P2' : nonneg (transpose im2)) by (intros i j; rewrite (transpose_pixel_all cols rows) by assumption; apply P2).
  assert (RW : forall i, (i < rows)%nat -> nth i (transpose im2) [] = if listed lines i then G2 (nth i im1 []) else nth i im1 []).
  { intros i Hi. rewrite <- (transposed_column im1 rows cols i S1 Hr Hi), <- (C2 i Hi).
    rewrite <- (transposed_column (transpose im2) rows cols i S2' Hr Hi). f_equal. apply (RemoveFacts.image_ext _ _ cols rows); [apply transpose_shape; assumption|assumption|].
    intros a b Ha Hb. rewrite (transpose_pixel_all rows cols), (transpose_pixel_all cols rows) by assumption. reflexivity. }
  destruct (d_traps serial) as [traps|] eqn:Et.
  - rewrite E2. cbn [bind]. exists im1, (transpose im2). auto 10.
  - assert (Eim : transpose im2 = im1).
    { injection E2 as E2 _. subst im2. apply (RemoveFacts.image_ext _ _ rows cols); [assumption|assumption|].
      intros a b Ha Hb. rewrite (transpose_pixel_all cols rows), (transpose_pixel_all rows cols) by assumption. reflexivity. }
    injection E2 as _ Ers. cbn [bind]. rewrite Ers. exists im1, im1. rewrite Eim in RW. auto 10.
Qed.
Hypothesis Hpar : does parallel rows (Some tw) Bp rp.
Hypothesis Hser : does serial cols None Bs rs.
Lemma mild_map : exists gain big F, 0 < gain <= 1 /\ 0 <= big /\ steady gain big F /\
  forall im, shape rows cols im -> nonneg im ->
  exists im', add_cti im parallel serial time = Ok (im', rp, rs) /\ shape rows cols im' /\ nonneg im' /\ concat im' = F (concat im) /\
    forall i j p s, (i < rows)%nat -> (j < cols)%nat -> Bp i p -> Bs j s -> Rabs (pixel im' i j - pixel im i j) <= p + s.
Proof.
  destruct Hpar as (g1 & b1 & G1 & Hg1 & Hb1 & T1 & A1). destruct Hser as (g2 & b2 & G2 & Hg2 & Hb2 & T2 & A2).
  exists (g1 * g2), (b1 * b2), (fun x => some_rows cols G2 (listed lines) (some_columns cols G1 (listed (selected (d_window serial) cols)) x)). split; [split; [apply Rmult_lt_0_compat; lra|rewrite <- (Rmult_1_l 1); apply Rmult_le_compat; lra]|].
  split; [apply Rmult_le_pos; lra|].
  split; [apply (steady_compose g1 g2 b1 b2 (some_columns cols G1 (listed (selected (d_window serial) cols))) (some_rows cols G2 (listed lines))); [lra|lra|apply some_columns_steady; (assumption || lra)|apply some_rows_steady; (assumption || lra)]|].
  intros im Hs Hp. pose proof Hs as [Lim _]. pose proof (MainReadoutFacts.shape_columns rows cols im Hs Hr) as Ncol.
  unfold add_cti. rewrite Lim, Ncol, !resolve_selected, Htimes. cbn [bind].
  destruct (A1 im cols (selected (d_window serial) cols) Hs Hp Hcolumns) as (im1 & E1 & S1 & P1 & C1 & D1). rewrite E1. cbn [bind].
  assert (F1 : concat im1 = some_columns cols G1 (listed (selected (d_window serial) cols)) (concat im)) by (eapply (some_columns_flat cols Hc G1 g1 b1 T1); eauto).
  assert (St : shape cols rows (transpose im1)) by (apply transpose_shape; assumption).
  assert (Pt : nonneg (transpose im1)) by (intros i j; rewrite (transpose_pixel_all rows cols) by assumption; apply P1).
  destruct (A2 (transpose im1) rows lines St Pt Hlines) as (im2 & E2 & S2 & P2 & C2 & D2).
  assert (S2' : shape rows cols (transpose im2)) by (apply transpose_shape; assumption).
  assert (P2' : nonneg (transpose im2)) by (intros i j; rewrite (transpose_pixel_all cols rows) by assumption; apply P2).
  assert (F2 : concat (transpose im2) = some_rows cols G2 (listed lines) (concat im1)).
  { eapply (some_rows_flat cols Hc G2 g2 b2 T2); eauto. intros i Hi. rewrite <- (transposed_column im1 rows cols i S1 Hr Hi), <- (C2 i Hi).
    rewrite <- (transposed_column (transpose im2) rows cols i S2' Hr Hi). f_equal. apply (RemoveFacts.image_ext _ _ cols rows); [apply transpose_shape; assumption|assumption|].
    intros a b Ha Hb. rewrite (transpose_pixel_all rows cols), (transpose_pixel_all cols rows) by assumption. reflexivity. }
  assert (D : forall i j p s, (i < rows)%nat -> (j < cols)%nat -> Bp i p -> Bs j s -> Rabs (pixel (transpose im2) i j - pixel im i j) <= p + s).
  { intros i j p s Hi Hj Lp Ls. specialize (D1 i j p Hi Hj Lp). specialize (D2 j i s Hj Hi Ls).
    rewrite (transpose_pixel_all cols rows) by assumption. rewrite (transpose_pixel_all rows cols im1) in D2 by assumption.
    apply Rabs_le_between in D1. apply Rabs_le_between in D2. apply Rabs_le_between. lra. }
  destruct (d_traps serial) as [traps|] eqn:Et.
  - rewrite E2. cbn [bind]. exists (transpose im2). split; [reflexivity|]. split; [exact S2'|]. split; [exact P2'|]. split; [now rewrite F2, F1|exact D].
  - assert (Eim : transpose im2 = im1).
    { injection E2 as E2 _. subst im2. apply (RemoveFacts.image_ext _ _ rows cols); [assumption|assumption|].
      intros a b Ha Hb. rewrite (transpose_pixel_all cols rows), (transpose_pixel_all rows cols) by assumption. reflexivity. }
    injection E2 as _ Ers. cbn [bind]. rewrite Ers. exists im1. split; [reflexivity|]. split; [exact S1|]. split; [exact P1|]. rewrite Eim in F2, D. split; [now rewrite F2, F1|exact D].
Qed.
Lemma mild_pair : exists gain big F, 0 < gain <= 1 /\ 0 <= big /\ steady gain big F /\
  forall a b, shape rows cols a -> shape rows cols b -> nonneg a -> nonneg b ->
  exists a' b', add_cti a parallel serial time = Ok (a', rp, rs) /\ add_cti b parallel serial time = Ok (b', rp, rs) /\
    shape rows cols a' /\ shape rows cols b' /\ concat a' = F (concat a) /\ concat b' = F (concat b).
Proof.
  destruct mild_map as (gain & big & F & Hg & Hb & HT & HF). exists gain, big, F. split; [exact Hg|]. split; [exact Hb|]. split; [exact HT|]. intros a b Sa Sb Pa Pb.
  destruct (HF a Sa Pa) as (a' & Ea & Sa' & Pa' & Fa & _). destruct (HF b Sb Pb) as (b' & Eb & Sb' & Pb' & Fb & _). exists a', b'. auto 10.
Qed.
Lemma mild_order a b : shape rows cols a -> shape rows cols b -> nonneg a -> (forall i j, (i < rows)%nat -> (j < cols)%nat -> pixel a i j <= pixel b i j) ->
  exists a' b', add_cti a parallel serial time = Ok (a', rp, rs) /\
    add_cti b parallel serial time = Ok (b', rp, rs) /\
    forall i j, (i < rows)%nat -> (j < cols)%nat -> pixel a' i j <= pixel b' i j.
Proof.
  intros Sa Sb Pa Hab. destruct mild_pair as (gain & big & F & Hg & _ & HT & HF).
  assert (Pb : nonneg b) by (apply (shape_nonneg rows cols Hr Hc b Sb); intros i j Hi Hj; specialize (Hab i j Hi Hj); specialize (Pa i j); lra).
  destruct (HF a b Sa Sb Pa Pb) as (a' & b' & Ea & Eb & Sa' & Sb' & Fa & Fb). exists a', b'. split; [exact Ea|]. split; [exact Eb|].
  apply (flat_ordered rows cols Hr Hc); [assumption|assumption|]. rewrite Fa, Fb. apply (st_mono _ _ _ HT). now apply (flat_ordered rows cols Hr Hc).
Qed.
Lemma mild_apart : exists K, 0 <= K /\ forall a b, shape rows cols a -> shape rows cols b -> nonneg a -> nonneg b ->
  exists a' b', add_cti a parallel serial time = Ok (a', rp, rs) /\
    add_cti b parallel serial time = Ok (b', rp, rs) /\ image_apart a' b' <= K * image_apart a b.
Proof.
  destruct mild_pair as (gain & big & F & Hg & Hb & HT & HF). exists big. split; [exact Hb|]. intros a b Sa Sb Pa Pb.
  destruct (HF a b Sa Sb Pa Pb) as (a' & b' & Ea & Eb & Sa' & Sb' & Fa & Fb). exists a', b'. split; [exact Ea|]. split; [exact Eb|]. unfold image_apart. rewrite Fa, Fb. apply (steady_apart gain big F); [exact HT|].
  now rewrite (concat_length cols Hc a rows Sa), (concat_length cols Hc b rows Sb).
Qed.
Lemma mild_injective a b out pr sr pr' sr' : shape rows cols a -> shape rows cols b -> nonneg a -> nonneg b ->
  add_cti a parallel serial time = Ok (out, pr, sr) -> add_cti b parallel serial time = Ok (out, pr', sr') -> a = b.
Proof.
  intros Sa Sb Pa Pb Ea' Eb'. destruct mild_pair as (gain & big & F & Hg & _ & HT & HF).
  destruct (HF a b Sa Sb Pa Pb) as (a' & b' & Ea & Eb & Sa' & Sb' & Fa & Fb). rewrite Ea in Ea'. rewrite Eb in Eb'. injection Ea' as -> _ _. injection Eb' as -> _ _.
  apply (flat_equal rows cols Hc a b Sa Sb). apply (steady_injective gain big F HT (proj1 Hg)); [now rewrite (concat_length cols Hc a rows Sa), (concat_length cols Hc b rows Sb)|now apply flat_nonneg|now apply flat_nonneg|congruence].
Qed.

(** ** Recovery *)
Lemma mild_recover x : shape rows cols x -> (forall i j, (i < rows)%nat -> (j < cols)%nat -> exists p s, Bp i p /\ Bs j s /\ 2 * (p + s) < pixel x i j) ->
  exists im, add_cti x parallel serial time = Ok (im, rp, rs) /\
  exists C r, 0 <= C /\ 0 <= r < 1 /\ forall k, exists est, remove_cti im k parallel serial time = Ok est /\ shape rows cols est /\
    image_apart est x <= C * r ^ k.
Proof.
  intros Sx Hx. destruct mild_map as (gain & big & F & Hg & Hbig & HT & HF).
  assert (Px : forall i j, (i < rows)%nat -> (j < cols)%nat -> 0 < pixel x i j).
  { intros i j Hi Hj. destruct (Hx i j Hi Hj) as (p & s & Lp & Ls & H). apply Bp_pos in Lp. apply Bs_pos in Ls. lra. }
  assert (Nx : nonneg x) by (apply (shape_nonneg rows cols Hr Hc); [exact Sx|]; intros i j Hi Hj; left; now apply Px).
  assert (BD : forall a, shape rows cols a -> nonneg a -> exists a', add_cti a parallel serial time = Ok (a', rp, rs) /\ shape rows cols a' /\ concat a' = F (concat a) /\
    forall i j p s, (i < rows)%nat -> (j < cols)%nat -> Bp i p -> Bs j s -> Rabs (pixel a' i j - pixel a i j) <= p + s).
  { intros a Sa Pa. destruct (HF a Sa Pa) as (a' & Ea & Sa' & _ & Fa & Ba). exists a'. auto. }
  destruct (BD x Sx Nx) as (im & E & Si & Fi & Bi). exists im. split; [exact E|].
  destruct (steady_converges gain big F HT Hbig Hg (concat x)) as (C & r & HC & Hr1 & HCr).
  { apply Forall_forall. intros v Hv. apply (In_nth _ _ 0) in Hv. destruct Hv as (l & Hl & <-). rewrite (concat_length cols Hc x rows Sx) in Hl.
    pose proof (Nat.div_mod l cols ltac:(lia)) as El. pose proof (Nat.mod_upper_bound l cols ltac:(lia)) as Hm.
    assert (Hd : (l / cols < rows)%nat) by (apply Nat.div_lt_upper_bound; lia).
    replace l with (l / cols * cols + l mod cols)%nat by lia. rewrite (concat_nth cols Hc x rows) by assumption. now apply Px. }
  exists C, r. split; [exact HC|]. split; [exact Hr1|].
  assert (ST : forall k, exists est, remove_cti im k parallel serial time = Ok est /\ shape rows cols est /\ concat est = corrected F (F (concat x)) k /\
    forall i j p s, (i < rows)%nat -> (j < cols)%nat -> Bp i p -> Bs j s -> Rabs (pixel est i j - pixel x i j) <= 2 * (p + s)).
  { induction k as [|k (est & Ee & Se & Ke & Be)].
    - exists im. split; [reflexivity|]. split; [exact Si|]. split; [exact Fi|]. intros i j p s Hi Hj Lp Ls. specialize (Bi i j p s Hi Hj Lp Ls). apply Bp_pos in Lp. apply Bs_pos in Ls. lra.
    - assert (Ne : nonneg est).
      { apply (shape_nonneg rows cols Hr Hc); [exact Se|]. intros i j Hi Hj. destruct (Hx i j Hi Hj) as (p & s & Lp & Ls & H). specialize (Be i j p s Hi Hj Lp Ls). apply Rabs_le_between in Be. lra. }
      destruct (BD est Se Ne) as (added & Ea & Sa & Fa & Ba).
      set (out := image_zip nadd est (image_zip nsub im added)).
      assert (So : shape rows cols out) by (unfold out; repeat (apply image_zip_shape; try assumption)).
      assert (Po : forall i j, (i < rows)%nat -> (j < cols)%nat -> pixel out i j = pixel est i j + (pixel im i j - pixel added i j)).
      { intros i j Hi Hj. unfold out. rewrite (image_zip_pixel _ _ _ rows cols) by (try apply image_zip_shape; assumption).
        rewrite (image_zip_pixel _ _ _ rows cols) by assumption. reflexivity. }
      exists out. split; [|split; [exact So|split]].
      + apply (remove_S im parallel serial time rows cols Si Hr Hc k out). exists est, added, rp, rs.
        split; [exact Ee|]. split; [exact Ea|]. split; [exact So|exact Po].
      + cbn [corrected]. cbv zeta. rewrite <- Ke, <- Fa, <- Fi.
        apply (flat_ext cols Hc rows); [exact So| |].
        * rewrite plus_list_length; rewrite ?(concat_length cols Hc est rows Se), ?(concat_length cols Hc im rows Si), ?(concat_length cols Hc added rows Sa); reflexivity.
        * intros i j Hi Hj. rewrite plus_list_nth by (rewrite ?(concat_length cols Hc est rows Se), ?(concat_length cols Hc im rows Si), ?(concat_length cols Hc added rows Sa); nia).
          rewrite !(concat_nth cols Hc _ rows) by assumption. symmetry. now apply Po.
      + intros i j p s Hi Hj Lp Ls. rewrite (Po i j Hi Hj). specialize (Ba i j p s Hi Hj Lp Ls). specialize (Bi i j p s Hi Hj Lp Ls).
        replace (pixel est i j + (pixel im i j - pixel added i j) - pixel x i j) with ((pixel im i j - pixel x i j) - (pixel added i j - pixel est i j)) by lra.
        apply Rabs_le_between in Ba. apply Rabs_le_between in Bi. apply Rabs_le_between. lra. }
  intros k. destruct (ST k) as (est & Ee & Se & Ke & _). exists est. split; [exact Ee|]. split; [exact Se|]. unfold image_apart. rewrite Ke. apply HCr.
Qed.
End Both.

(** The limits of each kind are those of the others. *)
Lemma mild_limit d n i x : (i < n)%nat -> mild_call d n -> any_limit d n i x ->
  (gentle_call d n -> call_limit d n i x) /\ (mild_timed d n -> timed_limit d n i x) /\ (mild_patient d n -> patient_limit d n i x).
Proof.
  intros Hi _ L. split; [|split]; intros K.
  - apply (slow_limits 1); [left; exact K|]. apply (orderly_limits 1); [left; left; exact K|exact L].
  - apply mild_timed_call in K. apply (timed_limits 1 d n i x Hi K). apply (orderly_limits 1); [right; exact K|exact L].
  - apply mild_patient_call in K. now apply (patient_limits 1 d n i x Hi K).
Qed.
Lemma mild_whole (d : direction R) n : (0 < n)%nat -> d_window d = WNone -> columns_ok (selected (d_window d) n) n.
Proof. intros Hn E. rewrite E. cbn [selected]. rewrite <- py_range_0. apply (window_columns _ n); [apply range_sorted_from|now apply window_ok_range|lia]. Qed.
Lemma mild_window d n : mild_timed d n \/ mild_patient d n -> d_window d = WNone.
Proof. intros [(c & f & g & w & full & beta & H1 & _)|(c & f & g & w & full & beta & H1 & _)]; exact (sp_window _ _ _ _ _ _ _ H1). Qed.
Lemma does_mild d n tw : (0 < n)%nat -> tw = None \/ tw = whole n (d_offset d) -> mild_timed d n \/ mild_patient d n -> does d n tw (any_limit d n) (the_roe d).
Proof.
  intros Hn Htw [H|H].
  - apply (does_ext d n tw (timed_limit d n)); [|now apply does_mild_timed]. intros i x Hi L. apply (mild_limit d n i x Hi) in L; [now apply L|right; now left].
  - apply (does_ext d n tw (patient_limit d n)); [|now apply does_mild_patient]. intros i x Hi L. apply (mild_limit d n i x Hi) in L; [now apply L|right; now right].
Qed.
Lemma mild_ready parallel serial rows cols time : (0 < rows)%nat -> (0 < cols)%nat -> mild_times parallel rows time -> mild_call parallel rows -> mild_call serial cols ->
  exists rp rs tw lines, resolve_time_window time (selected (d_window parallel) rows) rows (d_offset parallel) = Ok (tw, lines) /\
    columns_ok lines rows /\ columns_ok (selected (d_window serial) cols) cols /\
    does parallel rows (Some tw) (any_limit parallel rows) rp /\ does serial cols None (any_limit serial cols) rs.
Proof.
  intros Hr Hc [Ht Hk] Hp Hs.
  assert (HP : exists rp tw lines, resolve_time_window time (selected (d_window parallel) rows) rows (d_offset parallel) = Ok (tw, lines) /\ columns_ok lines rows /\ does parallel rows (Some tw) (any_limit parallel rows) rp).
  { assert (G : gentle_call parallel rows -> exists rp tw lines, resolve_time_window time (selected (d_window parallel) rows) rows (d_offset parallel) = Ok (tw, lines) /\ columns_ok lines rows /\ does parallel rows (Some tw) (any_limit parallel rows) rp).
    { intros K. destruct (call_window parallel rows Hr K) as (b & P1 & P2 & P3). destruct (call_times time _ b rows (d_offset parallel) Ht P2 P3 P1 Hr) as (tw & lines & E & Htw & Hl).
      destruct (does_call parallel rows (Some tw) Hr Htw K) as [rp Dp]. exists rp, (py_range (fst tw) (snd tw)), lines. destruct tw as [t0 t1]. split; [exact E|]. split; [exact Hl|].
      apply (does_ext parallel rows _ (call_limit parallel rows)); [|exact Dp]. intros i x Hi L. apply (mild_limit parallel rows i x Hi Hp) in L. now apply L. }
    destruct Hp as [Hp|Hp]; [now apply G|]. destruct Hk as [->|Hk]; [|now apply G].
    exists (the_roe parallel), (py_range 0 (Z.of_nat (rows + d_offset parallel))), (selected (d_window parallel) rows). split; [reflexivity|]. split; [apply mild_whole; [exact Hr|now apply mild_window in Hp]|].
    apply does_mild; auto. }
  assert (HS : columns_ok (selected (d_window serial) cols) cols /\ exists rs, does serial cols None (any_limit serial cols) rs).
  { pose proof Hs as Hs'. destruct Hs as [Hs|Hs].
    - destruct (call_window serial cols Hc Hs) as (b & P1 & P2 & P3). split; [now apply (window_columns _ b)|]. destruct (does_call serial cols None Hc I Hs) as [rs Ds]. exists rs.
      apply (does_ext serial cols _ (call_limit serial cols)); [|exact Ds]. intros i x Hi L. apply (mild_limit serial cols i x Hi Hs') in L. now apply L.
    - split; [apply mild_whole; [exact Hc|now apply mild_window in Hs]|]. exists (the_roe serial). apply does_mild; auto. }
  destruct HP as (rp & tw & lines & E & Hl & Dp). destruct HS as (HC & rs & Ds). exists rp, rs, tw, lines. auto.
Qed.
