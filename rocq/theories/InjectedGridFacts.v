(** * Charge injection of images past traps that take time to capture, or that record times: order,
    differences, recovery, and charge. *)
From Coq Require Import ZArith List Bool Reals Lra Lia Sorted FunctionalExtensionality.
From Coquelicot Require Import Rcomplements Rbar Hierarchy RInt.
From Verif Require Import Num Py RFacts CCDModel TrapsModel ManagerModel ROEModel ClockModel MainModel Spec SpecROE SpecImage SpecReadout SpecTime SpecSlow SpecHistory SpecHold SpecRecovery SpecBound SpecPhases SpecWork SpecExpressOrder SpecInjectionOrder SpecWindowOrder SpecAbove SpecFlatten SpecPatient SpecMild SpecInjected
  CallFacts WmFacts ArrayFacts InstantFacts ClockFacts MainFacts ShapeFacts ColumnFacts ReadoutImage RemoveFacts ROEClockFacts ROEMatrixFacts ROEExpressFacts ROEKindFacts ReadoutFull ReadoutForced ReadoutSpecFacts OrderFacts TameFacts DepthFacts BoundFacts MainReadoutFacts RecoverImageFacts LiftFacts GridFacts SteadyFacts ContractFacts WindowFacts WindowMainFacts MaskFacts WindowGridFacts AboveFacts AboveGridFacts InverseFacts
  TimeFacts TimeInstantFacts SlowFacts SlowSpecFacts HistoryFacts HistorySpecFacts HistoryBoundFacts TimesOrderFacts TimesGridFacts SlowOrderFacts OrderlyFacts SlowGridFacts MildFacts InjectedFacts.
Import ListNotations.
Open Scope R_scope.

(** ** One pass of the packets over the traps of one pixel *)
Section Sum.
Context (traps : list (trap R)) (dwell : R).
Hypothesis Hfin : Forall capturing traps.
Hypothesis Hdwell : 0 <= dwell.
Context (well : R -> R).
Hypothesis Hrange : forall a, 0 <= a -> 0 <= well a <= 1.
Lemma calm_pos P : calm traps P -> 0 <= electrons traps P 0 1.
Proof.
  intros HP. replace 0 with (electrons traps empty_profile 0 1) at 1 by apply electrons_empty. apply calm_le; [exact Hfin|exact HP|now apply calm_empty|].
  intros s x Hs Hx. unfold empty_profile. destruct HP as [HP _]. apply (HP s Hs). exact Hx.
Qed.
Lemma s_pass_sum : forall x P, calm traps P -> Forall (Rle 0) x -> Rsum (s_pass traps dwell well P x) <= Rsum x + electrons traps P 0 1.
Proof.
  induction x as [|m x IH]; intros P HP Hx; cbn [s_pass].
  - change (0 <= 0 + electrons traps P 0 1). pose proof (calm_pos P HP). lra.
  - inversion Hx as [|? ? Hm Hx']; subst. change (s_leaves traps dwell well m P + Rsum (s_pass traps dwell well (s_behind traps dwell well m P) x) <= m + Rsum x + electrons traps P 0 1).
    pose proof (IH (s_behind traps dwell well m P) (s_behind_calm traps dwell Hfin Hdwell well Hrange m P HP) Hx') as I.
    unfold s_leaves at 1. rewrite s_cloud_value. unfold s_packet. rewrite Rmax_right by lra. lra.
Qed.
End Sum.

(** What one pass of at most [n] packets over empty traps does: [P]. *)
Record mild_pass (c : ccd R) (f : R) (g : list (trap R)) (w : R) (n : nat) (rho gain : R) (P : list R -> list R) : Prop := {
  mp_gain : 0 < gain <= 1;
  mp_tame : tame gain 0 0 P;
  mp_code : forall l, (length l <= n)%nat -> Forall (Rle 0) l -> exists s, past_manager (fun n => well_fill c 0 false n) w (empty_manager f g n) l = Ok (P l, s);
  mp_near : forall l, (length l <= n)%nat -> Forall (Rle 0) l -> nearby rho l (P l);
  mp_sum : forall l, (length l <= n)%nat -> Forall (Rle 0) l -> Rsum (P l) <= Rsum l
}.
Lemma timed_mild_pass c f g w n full beta : 0 < f -> 0 < w -> g <> [] -> kind_for g = KTime -> Forall flattening g ->
  phase_params c 0 0 beta full -> 0 < full -> 1 <= beta -> f * filled_traps g * beta < full ->
  exists gain P, mild_pass c f g w n (f * filled_traps g) gain P.
Proof.
  intros Hf Hw Hg H2 H3 H4 H5 H6 H7.
  set (traps := map (thinned f) g). assert (Ht : Forall flattening traps) by now apply thinned_flattening.
  assert (Er : filled_traps traps = f * filled_traps g) by apply filled_thinned. rewrite <- Er in H7 |- *. assert (H6' : 0 < beta) by lra. assert (H8 : slow_growth 1 1 (filled_traps traps) beta full) by (left; lra).
  pose proof (timed_gain_range traps 1 full beta Ht Rlt_0_1 H5 H6' H8) as Hgain. pose proof (timed_tame traps w 1 full beta Ht Hw Rlt_0_1 H5 H6' H8) as HT.
  set (gain := timed_gain traps 1 full beta) in *. set (P := timed_pass traps w 1 full beta) in *.
  assert (Hlen : (0 < length traps)%nat) by (unfold traps; rewrite map_length; destruct g; [contradiction|cbn; lia]).
  assert (Hk : empty_manager f g n = manager_init KTime traps n).
  { unfold empty_manager, manager_init, zero_row, traps. rewrite map_length, H2. cbn [n_watermarks_per_transfer]. rnum. do 2 f_equal. lia. }
  assert (Hhold : Forall holding traps) by (eapply Forall_impl; [|exact Ht]; intros t [K _]; exact K).
  assert (Hfade : Forall fading traps) by (eapply Forall_impl; [|exact Hhold]; intros t [K _]; exact K).
  pose proof (depth_sensitive full beta H5 H6') as Hsens.
  set (m := manager_init KTime traps n) in *.
  assert (D : records (length traps) (m_wm m) n never) by (apply init_records; reflexivity).
  assert (SM : forall l, Forall (Rle 0) l -> exists T', past_times traps (depth full beta) w never l = Ok (P l, T')) by (intros l Hl; exact (mild_timed_same traps w full beta Ht Hw H5 H6 H7 l never (neat_never _) Hl)).
  assert (BD : forall l, (length l <= n)%nat -> Forall (Rle 0) l -> nearby (filled_traps traps) l (P l) /\ Rsum (P l) <= Rsum l).
  { intros l Hl Hp. destruct (SM l Hp) as [T' E].
    destruct (times_bounded traps (depth full beta) w Hhold Hlen Hsens Hw l (P l) T' (n - length l) (m_wm m) never Hp) as (K1 & _ & K3 & (w' & K4)); [|exact E|].
    { replace (length l + (n - length l))%nat with n by lia. exact D. }
    split; [exact K1|]. pose proof (held_range traps _ _ _ Hhold K4) as HR. rewrite K3. pose proof (held_never traps) as Z. rewrite Z. lra. }
  exists gain, P. constructor.
  - exact Hgain.
  - exact HT.
  - intros l Hl Hp. rewrite Hk. destruct (SM l Hp) as [T' E].
    assert (F : follows true (past_times traps (depth full beta) w never l) (past_manager (fun n => well_fill c 0 false n) w m l)).
    { change m with (mkManager KTime traps (m_wm m)).
      apply (times_follow traps _ (depth full beta) w Hfade Hlen Hsens (fun x Hx => depth_fill c 0 beta full x H4 H5 H6' Hx) Hw l (n - length l) (m_wm m) never Hp).
      replace (length l + (n - length l))%nat with n by lia. exact D. }
    rewrite E in F. exact F.
  - intros l Hl Hp. now apply BD.
  - intros l Hl Hp. now apply BD.
Qed.
Lemma patient_mild_pass c f g w n full beta : 0 < f -> 0 < w -> g <> [] -> Forall (fun t => t_class t = CTrap) g -> Forall capturing g ->
  phase_params c 0 0 beta full -> 0 < full -> 1 <= beta -> f * full_traps g * beta < full ->
  exists gain P, mild_pass c f g w n (f * full_traps g) gain P.
Proof.
  intros Hf Hw Hg H2 H3 H4 H5 H6 H7.
  set (traps := map (thinned f) g). assert (Ht : Forall capturing traps) by now apply thinned_capturing.
  assert (Er : SpecRecovery.traps_per_pixel traps = f * full_traps g) by apply full_thinned. rewrite <- Er in H7 |- *. assert (H6' : 0 < beta) by lra. assert (H8 : slow_growth 1 1 (SpecRecovery.traps_per_pixel traps) beta full) by (left; lra).
  pose proof (patient_keep_range traps 1 full beta Ht Rlt_0_1 H5 H6' H8) as Hkeep. pose proof (patient_tame traps w 1 full beta Ht Hw Rlt_0_1 H5 H6' H8) as HT.
  set (keep := patient_keep traps 1 full beta) in *. set (P := patient_pass traps w 1 full beta) in *.
  assert (Hgain : 0 < keep * keep <= 1) by nra.
  assert (Hlen : (0 < length traps)%nat) by (unfold traps; rewrite map_length; destruct g; [contradiction|cbn; lia]).
  assert (Hk : empty_manager f g n = manager_init KSlow traps n).
  { unfold empty_manager, manager_init, zero_row, traps. rewrite map_length, (slow_kind g Hg H2). cbn [n_watermarks_per_transfer]. rnum. do 2 f_equal. lia. }
  pose proof (depth_sensitive full beta H5 H6') as Hsens.
  set (m := manager_init KSlow traps n) in *.
  destruct (init_describes traps n KSlow) as [D V]. fold m in D, V. cbn [n_watermarks_per_transfer] in D.
  assert (C0 : calm traps empty_profile) by now apply calm_empty.
  assert (SM : forall l, Forall (Rle 0) l -> exists s, past_slow traps (depth full beta) w (0, empty_profile) l = Ok (P l, s)).
  { intros l Hl. apply (mild_patient_same traps w full beta Ht Hw H5 H6 H7 l empty_profile 0 C0 (none_empty traps 0)); [lra|exact Hl]. }
  exists (keep * keep), P. constructor.
  - exact Hgain.
  - exact HT.
  - intros l Hl Hp. rewrite Hk. destruct (SM l Hp) as [s E].
    assert (F : follows false (past_slow traps (depth full beta) w (0, empty_profile) l) (past_manager (fun n => well_fill c 0 false n) w m l)).
    { change m with (mkManager KSlow traps (m_wm m)). rewrite <- V.
      apply (slow_follows traps _ (depth full beta) w Ht Hlen Hsens (fun x Hx => depth_fill c 0 beta full x H4 H5 H6' Hx) Hw l (2 * (n - length l)) (m_wm m) empty_profile Hp).
      replace (2 * length l + 2 * (n - length l))%nat with (n * 2)%nat by lia. exact D. }
    rewrite E in F. exact F.
  - intros l Hl Hp. destruct (SM l Hp) as [s E]. rewrite <- V in E.
    apply (slow_bounded traps (depth full beta) w Ht Hlen Hsens Hw l (P l) s (2 * (n - length l)) (m_wm m) empty_profile Hp); [|exact E].
    replace (2 * length l + 2 * (n - length l))%nat with (n * 2)%nat by lia. exact D.
  - intros l Hl Hp. unfold P, patient_pass.
    pose proof (s_pass_sum traps w Ht ltac:(lra) (timed_well 1 full beta) (timed_range 1 full beta Rlt_0_1 H5 H6') l empty_profile C0 Hp) as K. rewrite electrons_empty in K. lra.
Qed.

(** ** All the passes *)
Section Passes.
Context (c : ccd R) (f : R) (g : list (trap R)) (w : R) (n : nat) (rho gain : R) (P : list R -> list R).
Hypothesis HP : mild_pass c f g w n rho gain P.
Let HT := mp_tame _ _ _ _ _ _ _ _ HP.
Let past := past_manager (fun n => well_fill c 0 false n) w.
Let m0 := empty_manager f g n.
Lemma mild_pos l : Forall (Rle 0) l -> Forall (Rle 0) (P l).
Proof. exact (tame_nonneg gain P l HT). Qed.
Lemma mild_length l : length (P l) = length l.
Proof. apply (tm_length _ _ _ _ HT). Qed.
Lemma mild_before : forall N last l, (length l <= n)%nat -> Forall (Rle 0) l -> exists s, before past m0 N last l = Ok (enters_by P N l, s).
Proof.
  induction N as [|N IH]; intros last l Hl Hp; cbn [before enters_by]; [exists last; reflexivity|].
  destruct (mp_code _ _ _ _ _ _ _ _ HP l Hl Hp) as [s E]. fold past m0 in E. rewrite E. cbn [bind]. apply IH; [now rewrite mild_length|now apply mild_pos].
Qed.
Lemma mild_reading : forall k last l, (length l <= n)%nat -> (length l <= k)%nat -> Forall (Rle 0) l -> exists s, reading past m0 k last l = Ok (reads_by P k l, s).
Proof.
  induction k as [|k IH]; intros last l Hl Hk Hp; cbn [reading reads_by].
  - destruct l; [|cbn in Hk; lia]. exists last. reflexivity.
  - destruct (mp_code _ _ _ _ _ _ _ _ HP l Hl Hp) as [s E]. fold past m0 in E. rewrite E. cbn [bind]. pose proof (mild_length l) as L. pose proof (mild_pos l Hp) as D.
    destruct (P l) as [|h t]; cbn [skip]; [exists s; reflexivity|]. cbn [length] in L. inversion D; subst.
    destruct (IH s t) as [s' ->]; [lia|lia|assumption|exists s'; reflexivity].
Qed.
Lemma enters_keep : forall N l, Forall (Rle 0) l -> length (enters_by P N l) = length l /\ Forall (Rle 0) (enters_by P N l).
Proof.
  induction N as [|N IH]; intros l Hp; cbn [enters_by]; [auto|]. destruct (IH (P l) (mild_pos l Hp)) as [L Q]. rewrite mild_length in L. auto.
Qed.
Lemma mild_column offset l : (length l <= n)%nat -> Forall (Rle 0) l -> exists s, column_past past m0 offset l = Ok (column_by P (length l) offset l, s).
Proof.
  intros Hl Hp. unfold column_past, column_by. destruct (mild_before offset m0 l Hl Hp) as [s ->]. cbn [bind].
  destruct (enters_keep offset l Hp) as [L Q]. apply mild_reading; [lia|lia|exact Q].
Qed.
Lemma enters_near : forall N l, (length l <= n)%nat -> Forall (Rle 0) l -> nearby (INR N * rho) l (enters_by P N l).
Proof.
  intros N l Hl Hp. destruct (mild_before N m0 l Hl Hp) as [s E].
  apply (before_bounded past m0 rho n) with (n := N) (a := m0) (s := s); auto.
  intros l1 l2 s1 Hl1 Hp1 E1. destruct (mp_code _ _ _ _ _ _ _ _ HP l1 Hl1 Hp1) as [s' E']. fold past m0 in E'. rewrite E' in E1. injection E1 as <- _. split; [now apply (mp_near _ _ _ _ _ _ _ _ HP)|now apply mild_pos].
Qed.
Lemma enters_sum : forall N l, (length l <= n)%nat -> Forall (Rle 0) l -> Rsum (enters_by P N l) <= Rsum l.
Proof.
  induction N as [|N IH]; intros l Hl Hp; cbn [enters_by]; [lra|]. eapply Rle_trans; [apply IH; [now rewrite mild_length|now apply mild_pos]|now apply (mp_sum _ _ _ _ _ _ _ _ HP)].
Qed.
Lemma reads_sum : forall k l, (length l <= n)%nat -> Forall (Rle 0) l -> Rsum (reads_by P k l) <= Rsum l.
Proof.
  induction k as [|k IH]; intros l Hl Hp; cbn [reads_by]; [lra|]. pose proof (mp_sum _ _ _ _ _ _ _ _ HP l Hl Hp) as S. pose proof (mild_length l) as L. pose proof (mild_pos l Hp) as D.
  destruct (P l) as [|h t]; cbn [skip]; [exact S|]. cbn [length] in L. inversion D; subst. specialize (IH t ltac:(lia) ltac:(assumption)).
  change (h + Rsum (reads_by P k t) <= Rsum l). change (h + Rsum t <= Rsum l) in S. lra.
Qed.
Lemma firstn_pos i (l : list R) : Forall (Rle 0) l -> Forall (Rle 0) (firstn i l).
Proof. intros H. rewrite <- (firstn_skipn i l) in H. now apply Forall_app in H. Qed.
(** The charge of the first rows. *)
Lemma enters_prefix N l i : (length l <= n)%nat -> Forall (Rle 0) l -> Rsum (firstn i (enters_by P N l)) <= Rsum (firstn i l).
Proof.
  intros Hl Hp. pose proof (mp_gain _ _ _ _ _ _ _ _ HP) as G. rewrite <- (tm_prefix _ _ _ _ (enters_by_tame P gain HT ltac:(lra) N)). apply enters_sum; [rewrite firstn_length; lia|now apply firstn_pos].
Qed.
Lemma column_prefix k offset l i : (length l <= n)%nat -> Forall (Rle 0) l -> Rsum (firstn i (column_by P k offset l)) <= Rsum (firstn i l).
Proof.
  intros Hl Hp. pose proof (mp_gain _ _ _ _ _ _ _ _ HP) as G. rewrite <- (tm_prefix _ _ _ _ (column_by_tame P gain HT ltac:(lra) k offset)). unfold column_by.
  assert (F : Forall (Rle 0) (firstn i l)) by now apply firstn_pos. destruct (enters_keep offset (firstn i l) F) as [L Q].
  assert (Hi : (length (firstn i l) <= n)%nat) by (rewrite firstn_length; lia).
  eapply Rle_trans; [apply reads_sum; [lia|exact Q]|]. now apply enters_sum.
Qed.
End Passes.

Lemma pixels_nonneg n cols im : (0 < n)%nat -> shape n cols im -> (forall i j, (i < n)%nat -> (j < cols)%nat -> 0 <= pixel im i j) -> nonneg im.
Proof.
  intros Hn Hs H. destruct cols as [|cols]; [|now apply (shape_nonneg n (S cols) Hn ltac:(lia))]. intros i j. unfold pixel. destruct Hs as [_ Hs].
  destruct (Nat.lt_ge_cases i (length im)) as [Hi|Hi].
  + rewrite Forall_forall in Hs. assert (L : length (nth i im []) = 0%nat) by (apply Hs, nth_In, Hi). destruct (nth i im []); [|discriminate]. destruct j; cbn; rnum; lra.
  + rewrite (nth_overflow im) by exact Hi. destruct j; cbn; rnum; lra.
Qed.
Lemma column_pos im j : nonneg im -> Forall (Rle 0) (column_of im j).
Proof. intros Hp. apply Forall_forall. intros x Hx. apply (In_nth _ _ 0) in Hx as (i & _ & <-). rewrite column_at. apply Hp. Qed.
Lemma nearby_at rho l l' i : nearby rho l l' -> (i < length l)%nat -> Rabs (nth i l' 0 - nth i l 0) <= rho.
Proof.
  intros H. revert i. induction H as [|a b l l' Hab H IH]; intros i Hi; cbn in Hi; [lia|]. destruct i as [|i]; cbn [nth]; [exact Hab|apply IH; lia].
Qed.
(** ** A direction that takes time and creates no charge *)
Definition sheds (d : direction R) (n : nat) (tw : option (list Z)) (r' : roe R) : Prop :=
  forall im cols columns, shape n cols im -> nonneg im -> columns_ok columns cols ->
  exists im', match d_traps d with None => Ok (im, the_roe d)
      | Some traps => clock_direction im d (the_roe d) traps (selected (d_window d) n) columns tw end = Ok (im', r') /\
    shape n cols im' /\ nonneg im' /\ forall i j, (j < cols)%nat -> Rsum (firstn i (column_of im' j)) <= Rsum (firstn i (column_of im j)).
Section Directions.
Context (d : direction R) (n : nat) (c : ccd R) (f : R) (g : list (trap R)) (w : R) (rho gain : R) (P : list R -> list R) (tw : option (list Z)).
Hypothesis Hn : (0 < n)%nat.
Hypothesis Hrho : 0 <= rho.
Hypothesis Htw : tw = None \/ tw = whole n (d_offset d).
Hypothesis HP : mild_pass c f g w n rho gain P.
Lemma does_injection npt : single_injection d n c f g w npt false ->
  let N := injection_transfers npt n (d_offset d) in does d n tw (fun _ x => x = INR N * rho) (counted (the_roe d) N) /\ sheds d n tw (counted (the_roe d) N).
Proof.
  intros H N. pose proof (mp_gain _ _ _ _ _ _ _ _ HP) as Hgain. pose proof (mp_tame _ _ _ _ _ _ _ _ HP) as HT.
  assert (A : forall im cols columns, shape n cols im -> nonneg im -> columns_ok columns cols ->
    exists im', match d_traps d with None => Ok (im, the_roe d)
      | Some traps => clock_direction im d (the_roe d) traps (selected (d_window d) n) columns tw end = Ok (im', counted (the_roe d) N) /\
    shape n cols im' /\ nonneg im' /\ forall j, (j < cols)%nat -> column_of im' j = if listed columns j then enters_by P N (column_of im j) else column_of im j).
  { intros im cols columns Hs Hp Hcols. assert (L : forall j, length (column_of im j) = n) by (intros j; rewrite column_length; apply Hs).
    destruct (injected_past d n c f g w npt (enters_by P N) tw im cols columns Hn H Htw Hs Hcols) as (tr & im' & Etr & E & Hs' & C).
    { intros z Hz. apply (mild_before c f g w n rho gain P HP); [now rewrite L|now apply column_pos]. }
    rewrite Etr. exists im'. split; [exact E|]. split; [exact Hs'|]. split; [|exact C].
    apply (pixels_nonneg n cols); [exact Hn|exact Hs'|]. intros i j Hi Hj. rewrite <- column_at, (C j Hj). destruct (listed columns j); [|rewrite column_at; apply Hp].
    destruct (enters_keep c f g w n rho gain P HP N (column_of im j) (column_pos im j Hp)) as [Le Q]. rewrite Forall_forall in Q. apply Q, nth_In. rewrite Le, L. exact Hi. }
  split.
  - exists (gain ^ N), 1, (enters_by P N). split; [split; [apply pow_lt; lra|apply (gain_pow gain); lra]|]. split; [lra|]. split; [apply tame_steady, enters_by_tame; [exact HT|lra]|].
    intros im cols columns Hs Hp Hcols. destruct (A im cols columns Hs Hp Hcols) as (im' & E & Hs' & Hp' & C). exists im'. split; [exact E|]. split; [exact Hs'|]. split; [exact Hp'|]. split; [exact C|].
    intros i j x Hi Hj ->. rewrite <- !column_at, (C j Hj). assert (L : length (column_of im j) = n) by (rewrite column_length; apply Hs).
    destruct (listed columns j); [|rewrite Rminus_eq_0, Rabs_R0; apply Rmult_le_pos; [apply pos_INR|exact Hrho]].
    apply nearby_at; [|now rewrite L]. apply (enters_near c f g w n rho gain P HP); [now rewrite L|now apply column_pos].
  - intros im cols columns Hs Hp Hcols. destruct (A im cols columns Hs Hp Hcols) as (im' & E & Hs' & Hp' & C). exists im'. split; [exact E|]. split; [exact Hs'|]. split; [exact Hp'|].
    intros i j Hj. rewrite (C j Hj). destruct (listed columns j); [|lra]. apply (enters_prefix c f g w n rho gain P HP); [rewrite column_length, (proj1 Hs); lia|now apply column_pos].
Qed.
Lemma sheds_readout : single_phase d n c f g w false -> sheds d n tw (the_roe d).
Proof.
  intros H im cols columns Hs Hp Hcols. assert (L : forall j, length (column_of im j) = n) by (intros j; rewrite column_length; apply Hs).
  destruct (direction_past d n c f g w (column_by P n (d_offset d)) tw im cols columns Hn H Htw Hs Hcols) as (tr & im' & Etr & E & Hs' & C).
  { intros z Hz. destruct (mild_column c f g w n rho gain P HP (d_offset d) (column_of im (Z.to_nat z))) as [s K]; [now rewrite L|now apply column_pos|]. rewrite L in K. exists s. exact K. }
  rewrite Etr. exists im'. split; [exact E|]. split; [exact Hs'|]. split.
  - apply (pixels_nonneg n cols); [exact Hn|exact Hs'|]. intros i j Hi Hj. rewrite <- column_at, (C j Hj). destruct (listed columns j); [|rewrite column_at; apply Hp].
    pose proof (mp_gain _ _ _ _ _ _ _ _ HP) as Hgain. pose proof (mp_tame _ _ _ _ _ _ _ _ HP) as HT.
    pose proof (column_by_tame P gain HT ltac:(lra) n (d_offset d)) as T.
    pose proof (tame_nonneg _ _ (column_of im j) T (column_pos im j Hp)) as Q. rewrite Forall_forall in Q. apply Q, nth_In. rewrite (tm_length _ _ _ _ T), L. exact Hi.
  - intros i j Hj. rewrite (C j Hj). destruct (listed columns j); [|lra]. apply (column_prefix c f g w n rho gain P HP); [rewrite L; lia|now apply column_pos].
Qed.
End Directions.
Lemma flat_rho f g : 0 < f -> Forall flattening g -> 0 <= f * filled_traps g.
Proof. intros Hf H. apply Rmult_le_pos; [lra|]. now apply rho_pos. Qed.
Lemma finite_rho f g : 0 < f -> Forall capturing g -> 0 <= f * full_traps g.
Proof. intros Hf H. apply Rmult_le_pos; [lra|]. rewrite <- (Rmult_1_l (full_traps g)), <- full_thinned. apply density_nonneg. eapply Forall_impl; [|apply thinned_capturing; [exact Rlt_0_1|exact H]]. now intros t [K _]. Qed.
Lemma injection_does d n tw x : (0 < n)%nat -> tw = None \/ tw = whole n (d_offset d) -> mild_injection d n x ->
  0 <= x /\ exists r, does d n tw (fun _ y => y = x) r /\ sheds d n tw r.
Proof.
  intros Hn Htw [c f g w npt full beta H1 H2 H3 H4 H5 H6 H7|c f g w npt full beta H1 H2 H3 H4 H5 H6 H7];
  pose proof (si_share _ _ _ _ _ _ _ _ H1) as Hf; pose proof (si_dwell _ _ _ _ _ _ _ _ H1) as Hw; pose proof (si_group _ _ _ _ _ _ _ _ H1) as Hg.
  - pose proof (flat_rho f g Hf H3) as Hrho. split; [apply Rmult_le_pos; [apply pos_INR|exact Hrho]|].
    destruct (timed_mild_pass c f g w n full beta Hf Hw Hg H2 H3 H4 H5 H6 H7) as (gain & P & HP).
    exists (counted (the_roe d) (injection_transfers npt n (d_offset d))). apply (does_injection d n c f g w _ gain P tw Hn Hrho Htw HP npt H1).
  - pose proof (finite_rho f g Hf H3) as Hrho. split; [apply Rmult_le_pos; [apply pos_INR|exact Hrho]|].
    destruct (patient_mild_pass c f g w n full beta Hf Hw Hg H2 H3 H4 H5 H6 H7) as (gain & P & HP).
    exists (counted (the_roe d) (injection_transfers npt n (d_offset d))). apply (does_injection d n c f g w _ gain P tw Hn Hrho Htw HP npt H1).
Qed.
Lemma injection_window d n x : mild_injection d n x -> d_window d = WNone.
Proof. intros [c f g w npt full beta H1|c f g w npt full beta H1]; exact (si_window _ _ _ _ _ _ _ _ H1). Qed.
Lemma mild_slow_window d n : mild_slow d n -> d_window d = WNone.
Proof. intros [[_ H]|[H|[H|[x H]]]]; [exact H|apply (mild_window d n); now left|apply (mild_window d n); now right|now apply injection_window in H]. Qed.
Lemma mild_slow_sheds d n tw : (0 < n)%nat -> tw = None \/ tw = whole n (d_offset d) -> mild_slow d n -> exists r, sheds d n tw r.
Proof.
  intros Hn Htw [[H W]|[H|[H|[x H]]]].
  - exists (the_roe d). intros im cols columns Hs Hp Hcols. rewrite H. exists im. split; [reflexivity|]. split; [exact Hs|]. split; [exact Hp|]. intros; lra.
  - destruct H as (c & f & g & w & full & beta & H1 & H2 & H3 & H4 & H5 & H6 & H7). pose proof (sp_share _ _ _ _ _ _ _ H1) as Hf. pose proof (sp_dwell _ _ _ _ _ _ _ H1) as Hw. pose proof (sp_group _ _ _ _ _ _ _ H1) as Hg.
    destruct (timed_mild_pass c f g w n full beta Hf Hw Hg H2 H3 H4 H5 H6 H7) as (gain & P & HP). exists (the_roe d). exact (sheds_readout d n c f g w _ gain P tw Hn Htw HP H1).
  - destruct H as (c & f & g & w & full & beta & H1 & H2 & H3 & H4 & H5 & H6 & H7). pose proof (sp_share _ _ _ _ _ _ _ H1) as Hf. pose proof (sp_dwell _ _ _ _ _ _ _ H1) as Hw. pose proof (sp_group _ _ _ _ _ _ _ H1) as Hg.
    destruct (patient_mild_pass c f g w n full beta Hf Hw Hg H2 H3 H4 H5 H6 H7) as (gain & P & HP). exists (the_roe d). exact (sheds_readout d n c f g w _ gain P tw Hn Htw HP H1).
  - destruct (injection_does d n tw x Hn Htw H) as (_ & r & _ & S). exists r. exact S.
Qed.
(** Instant traps are of another kind. *)
Lemma instant_kind traps g : instant_traps traps -> groups_in traps = [g] -> g <> [] -> kind_for g = KInstant.
Proof.
  intros H E Hg. unfold instant_traps in H. rewrite E in H. destruct H as [_ H]. inversion H as [|? ? H1 _]; subst. destruct g as [|t g]; [contradiction|]. destruct H1 as [_ H1]. inversion H1 as [|? ? [_ H2] _]; subst. unfold kind_for. now rewrite H2.
Qed.
Lemma gentle_not_injection d n x : gentle_call d n -> mild_injection d n x -> False.
Proof.
  intros G H. assert (K : exists traps g, d_traps d = Some traps /\ groups_in traps = [g] /\ g <> [] /\ kind_for g <> KInstant).
  { destruct H as [c f g w npt full beta H1 H2|c f g w npt full beta H1 H2]; destruct (si_traps _ _ _ _ _ _ _ _ H1) as (tr & E1 & E2); pose proof (si_group _ _ _ _ _ _ _ _ H1) as Hg; exists tr, g; (split; [exact E1|]; split; [exact E2|]; split; [exact Hg|]).
    - rewrite H2. discriminate.
    - rewrite (slow_kind g Hg H2). discriminate. }
  destruct K as (tr & g & E1 & E2 & Hg & Hk). apply Hk. apply (instant_kind tr g); [|exact E2|exact Hg].
  destruct G as [(b & _ & _ & _ & [K|(c & tr' & w & dt & g' & K & _)])|(_ & c & tr' & w & npt & g' & K & _)].
  - congruence.
  - pose proof (ps_traps _ _ _ _ _ _ K) as E. rewrite E1 in E. injection E as ->. exact (ps_instant _ _ _ _ _ _ K).
  - pose proof (is_traps _ _ _ _ _ _ K) as E. rewrite E1 in E. injection E as ->. exact (is_instant _ _ _ _ _ _ K).
Qed.
(** ** Both directions *)
Lemma any_ready parallel serial rows cols time Bp Bs : (0 < rows)%nat -> (0 < cols)%nat -> mild_times parallel rows time -> mild_direction parallel rows Bp -> mild_direction serial cols Bs ->
  exists rp rs tw lines, resolve_time_window time (selected (d_window parallel) rows) rows (d_offset parallel) = Ok (tw, lines) /\
    columns_ok lines rows /\ columns_ok (selected (d_window serial) cols) cols /\
    does parallel rows (Some tw) Bp rp /\ does serial cols None Bs rs.
Proof.
  intros Hr Hc Ht Hp Hs.
  assert (HS : columns_ok (selected (d_window serial) cols) cols /\ exists rs, does serial cols None Bs rs).
  { destruct Hs as [Hs|x Hs].
    - destruct (mild_ready serial serial cols cols None Hc Hc) as (_ & rs & _ & _ & _ & _ & K & _ & K'); [split; [constructor|now left]|exact Hs|exact Hs|]. split; [exact K|]. exists rs. exact K'.
    - split; [apply mild_whole; [exact Hc|now apply injection_window in Hs]|]. destruct (injection_does serial cols None x Hc (or_introl eq_refl) Hs) as (_ & r & K & _). exists r. exact K. }
  destruct HS as (HC & rs & Ds).
  assert (G : forall b, mild_call parallel b -> b = rows -> exists rp tw lines, resolve_time_window time (selected (d_window parallel) rows) rows (d_offset parallel) = Ok (tw, lines) /\ columns_ok lines rows /\ does parallel rows (Some tw) (any_limit parallel rows) rp).
  { intros b K ->. destruct (mild_ready parallel parallel rows rows time Hr Hr Ht K K) as (rp & _ & tw & lines & K1 & K2 & _ & K3 & _). exists rp, tw, lines. auto. }
  destruct Hp as [Hp|x Hp].
  - destruct (G rows Hp eq_refl) as (rp & tw & lines & K1 & K2 & K3). exists rp, rs, tw, lines. auto.
  - destruct Ht as [Ht [->|Hg]].
    + destruct (injection_does parallel rows (whole rows (d_offset parallel)) x Hr (or_intror eq_refl) Hp) as (_ & r & K & _).
      exists r, rs, (py_range 0 (Z.of_nat (rows + d_offset parallel))), (selected (d_window parallel) rows). split; [reflexivity|]. split; [apply mild_whole; [exact Hr|now apply injection_window in Hp]|]. auto.
    + destruct (gentle_not_injection parallel rows x Hg Hp).
Qed.
Lemma mild_direction_nonneg d n B i x : (0 < n)%nat -> mild_direction d n B -> B i x -> 0 <= x.
Proof. intros Hn [H|y H] K; [now apply (mild_nonneg d n i x H)|]. subst y. apply (injection_does d n None x Hn (or_introl eq_refl) H). Qed.

(** ** Charge near the corner *)
Lemma Rsum_firstn : forall i l, Rsum (firstn i l) = Rsum (map (fun p => nth p l 0) (seq 0 i)).
Proof.
  induction i as [|i IH]; intros l; [reflexivity|]. cbn [seq map]. rewrite <- seq_shift, map_map. destruct l as [|a l].
  - change (0 = 0 + Rsum (map (fun p => nth (S p) (@nil R) 0) (seq 0 i))). specialize (IH []). rewrite firstn_nil in IH. rewrite (map_ext _ (fun p => nth p (@nil R) 0)) by (intros [|p]; reflexivity). rewrite <- IH. change (0 = 0 + 0). lra.
  - cbn [firstn nth]. change (a + Rsum (firstn i l) = a + Rsum (map (fun p => nth p l 0) (seq 0 i))). now rewrite IH.
Qed.
Lemma Rsum_le {A} (f g : A -> R) l : (forall x, In x l -> f x <= g x) -> Rsum (map f l) <= Rsum (map g l).
Proof.
  induction l as [|a l IH]; intros H; cbn [map]; [apply Rle_refl|]. change (f a + Rsum (map f l) <= g a + Rsum (map g l)). apply Rplus_le_compat; [apply H; now left|apply IH; intros x Hx; apply H; now right].
Qed.
Lemma Rsum_swap {A B} (f : A -> B -> R) l m : Rsum (map (fun a => Rsum (map (fun b => f a b) m)) l) = Rsum (map (fun b => Rsum (map (fun a => f a b) l)) m).
Proof.
  assert (Z : forall (m : list B), Rsum (map (fun _ => 0) m) = 0) by (intros k; induction k as [|b k IH]; [reflexivity|change (0 + Rsum (map (fun _ => 0) k) = 0); rewrite IH; lra]).
  assert (P : forall (u v : B -> R) m, Rsum (map (fun b => u b + v b) m) = Rsum (map u m) + Rsum (map v m)).
  { intros u v k. induction k as [|b k IH]; [change (0 = 0 + 0); lra|]. change (u b + v b + Rsum (map (fun b => u b + v b) k) = (u b + Rsum (map u k)) + (v b + Rsum (map v k))). rewrite IH. lra. }
  induction l as [|a l IH]; [symmetry; apply Z|].
  change (Rsum (map (fun b => f a b) m) + Rsum (map (fun a => Rsum (map (fun b => f a b) m)) l) = Rsum (map (fun b => f a b + Rsum (map (fun a => f a b) l)) m)). now rewrite P, IH.
Qed.
Lemma corner_swap im i j : corner im i j = Rsum (map (fun p => Rsum (map (fun q => pixel im p q) (seq 0 j))) (seq 0 i)).
Proof. unfold corner. apply (Rsum_swap (fun q p => pixel im p q)). Qed.
Lemma corner_columns im i j : corner im i j = Rsum (map (fun q => Rsum (firstn i (column_of im q))) (seq 0 j)).
Proof. unfold corner. f_equal. apply map_ext. intros q. rewrite Rsum_firstn. f_equal. apply map_ext. intros p. now rewrite column_at. Qed.
Lemma corner_le a b cols i j : (j <= cols)%nat -> (forall i q, (q < cols)%nat -> Rsum (firstn i (column_of a q)) <= Rsum (firstn i (column_of b q))) -> corner a i j <= corner b i j.
Proof. intros Hj H. rewrite !corner_columns. apply Rsum_le. intros q Hq. apply in_seq in Hq. apply H. lia. Qed.
Lemma corner_transpose im rows cols i j : shape rows cols im -> (0 < rows)%nat -> (0 < cols)%nat -> corner (transpose im) j i = corner im i j.
Proof.
  intros Hs Hr Hc. rewrite corner_swap. unfold corner. f_equal. apply map_ext. intros q. f_equal. apply map_ext. intros p. now rewrite (transpose_pixel_all rows cols).
Qed.
Lemma corner_never_grows im parallel serial rows cols : (0 < rows)%nat -> (0 < cols)%nat -> mild_slow parallel rows -> mild_slow serial cols -> shape rows cols im -> nonneg im ->
  exists im' pr sr, add_cti im parallel serial None = Ok (im', pr, sr) /\ shape rows cols im' /\ nonneg im' /\
    forall i j, (i <= rows)%nat -> (j <= cols)%nat -> corner im' i j <= corner im i j.
Proof.
  intros Hr Hc Hp Hs Si Pi. pose proof (mild_slow_window parallel rows Hp) as Wp. pose proof (mild_slow_window serial cols Hs) as Ws.
  destruct (mild_slow_sheds parallel rows (whole rows (d_offset parallel)) Hr (or_intror eq_refl) Hp) as (rp & A1). destruct (mild_slow_sheds serial cols None Hc (or_introl eq_refl) Hs) as (rs & A2).
  pose proof (mild_whole parallel rows Hr Wp) as Hlines. pose proof (mild_whole serial cols Hc Ws) as Hcolumns.
  pose proof Si as [Lim _]. pose proof (MainReadoutFacts.shape_columns rows cols im Si Hr) as Ncol.
  unfold add_cti. rewrite Lim, Ncol, !resolve_selected. unfold resolve_time_window. cbn [bind].
  destruct (A1 im cols (selected (d_window serial) cols) Si Pi Hcolumns) as (im1 & E1 & S1 & P1 & C1). change (Some (py_range 0 (Z.of_nat (rows + d_offset parallel)))) with (whole rows (d_offset parallel)). rewrite E1. cbn [bind].
  assert (St : shape cols rows (transpose im1)) by (apply transpose_shape; assumption).
  assert (Pt : nonneg (transpose im1)) by (intros i j; rewrite (transpose_pixel_all rows cols) by assumption; apply P1).
  destruct (A2 (transpose im1) rows (selected (d_window parallel) rows) St Pt Hlines) as (im2 & E2 & S2 & P2 & C2).
  assert (S2' : shape rows cols (transpose im2)) by (apply transpose_shape; assumption).
  assert (P2' : nonneg (transpose im2)) by (intros i j; rewrite (transpose_pixel_all cols rows) by assumption; apply P2).
  assert (K1 : forall i j, (j <= cols)%nat -> corner im1 i j <= corner im i j) by (intros i j Hj; apply (corner_le _ _ cols); [exact Hj|exact C1]).
  destruct (d_traps serial) as [traps|] eqn:Et.
  - rewrite E2. cbn [bind]. exists (transpose im2), rp, rs. split; [reflexivity|]. split; [exact S2'|]. split; [exact P2'|]. intros i j Hi Hj.
    rewrite (corner_transpose im2 cols rows) by assumption. eapply Rle_trans; [|apply K1; exact Hj]. rewrite <- (corner_transpose im1 rows cols i j) by assumption. now apply (corner_le _ _ rows).
  - cbn [bind]. exists im1, rp, (the_roe serial). split; [reflexivity|]. split; [exact S1|]. split; [exact P1|]. intros i j _ Hj. now apply K1.
Qed.
Lemma column_never_grows im parallel serial rows cols : (0 < rows)%nat -> (0 < cols)%nat -> mild_slow parallel rows -> d_traps serial = None -> d_window serial = WNone -> shape rows cols im -> nonneg im ->
  exists im' pr sr, add_cti im parallel serial None = Ok (im', pr, sr) /\ shape rows cols im' /\
    forall i j, (j < cols)%nat -> Rsum (firstn i (column_of im' j)) <= Rsum (firstn i (column_of im j)).
Proof.
  intros Hr Hc Hp Et Ws Si Pi. destruct (mild_slow_sheds parallel rows (whole rows (d_offset parallel)) Hr (or_intror eq_refl) Hp) as (rp & A1).
  pose proof (mild_whole serial cols Hc Ws) as Hcolumns. pose proof Si as [Lim _]. pose proof (MainReadoutFacts.shape_columns rows cols im Si Hr) as Ncol.
  unfold add_cti. rewrite Lim, Ncol, !resolve_selected. unfold resolve_time_window. cbn [bind].
  destruct (A1 im cols (selected (d_window serial) cols) Si Pi Hcolumns) as (im1 & E1 & S1 & P1 & C1). change (Some (py_range 0 (Z.of_nat (rows + d_offset parallel)))) with (whole rows (d_offset parallel)). rewrite E1, Et. cbn [bind].
  exists im1, rp, (the_roe serial). auto.
Qed.
