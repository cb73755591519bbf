(** * Properties C112 and C113: how far slow traps and traps that record times change an image,
    and that traps that record times create no charge (arcticpy/main.py, main_utils.pyx and
    trap_managers.py). *)
From Coq Require Import ZArith List Bool Reals Lra Lia.
From Verif Require Import Num Py RFacts CCDModel TrapsModel ManagerModel ROEModel ClockModel MainModel Spec SpecImage SpecReadout SpecTime SpecSlow SpecHistory SpecHold
  ContinuumModel ShapeFacts NotchFacts ReadoutImage ContinuumFacts ReadoutExamples SlowExamples OverfullExample LogNormalFacts HistoryFacts HistorySpecFacts HistoryBoundFacts
  Properties_Continuum Properties_Histories.
Import ListNotations.
Open Scope R_scope.

(** C112: past slow traps, as long as they follow the rate equation (C65), no pixel gains or
    loses more than the traps of the pixels it passes can hold. *)
Theorem C112_slow_change_is_limited im parallel serial c fraction group dwell well rows cols outs :
  shape rows cols im -> (0 < rows)%nat -> (forall i j, 0 <= pixel im i j) ->
  single_phase parallel rows c fraction group dwell false -> Forall (fun t => t_class t = CTrap) group -> Forall capturing group ->
  sensitive well -> (forall n, 0 <= n -> well_fill c 0 false n = Ok (well n)) ->
  d_traps serial = None -> d_window serial = WNone ->
  columns_past (past_slow (map (thinned fraction) group) well dwell) false (0, empty_profile) (0, empty_profile)
    (d_offset parallel) (map (column_of im) (seq 0 cols)) = Ok outs ->
  exists im', add_cti im parallel serial None = Ok (im', the_roe parallel, the_roe serial) /\ shape rows cols im' /\
    forall i j, (i < rows)%nat -> (j < cols)%nat ->
      0 <= pixel im' i j /\
      Rabs (pixel im' i j - pixel im i j) <= INR (i + 1 + d_offset parallel) * (fraction * full_traps group).
Proof. exact (slow_change im parallel serial c fraction group dwell well rows cols outs). Qed.
Print Assumptions C112_slow_change_is_limited.

Example C112_slow_example : exists im', add_cti two_tens brief_direction no_direction None
    = Ok (im', the_roe brief_direction, the_roe no_direction) /\
  Rabs (pixel im' 0 0 - 10) <= 32 /\ Rabs (pixel im' 1 0 - 10) <= 64 /\ pixel im' 1 0 = 3.
Proof.
  destruct (C112_slow_change_is_limited two_tens brief_direction no_direction small_ccd 1 [slow_trap 32] brief small_well 2 1 [[6; 3]])
    as (im' & E & _ & H); auto using brief_setting, brief_columns.
  - split; [reflexivity|repeat constructor].
  - intros i j. unfold pixel, two_tens. destruct i as [|[|[|i]]], j as [|[|j]]; cbn; rnum; lra.
  - apply slow_trap_capturing. lra.
  - apply depth_sensitive; lra.
  - intros n Hn. rewrite (depth_fill small_ccd 0 1 1 n small_params) by lra. reflexivity.
  - exists im'. split; [exact E|]. destruct (H 0%nat 0%nat) as [_ H0]; try lia. destruct (H 1%nat 0%nat) as [_ H1]; try lia.
    unfold full_traps in *. cbn in H0, H1. split; [eapply Rle_trans; [exact H0|lra]|]. split; [eapply Rle_trans; [exact H1|lra]|].
    rewrite C65_example in E. injection E as <-. reflexivity.
Qed.

(** Past traps that record times, whenever [add_cti] returns, the same with the electrons of
    newly filled traps. *)
Theorem C112_change_past_recorded_times_is_limited im parallel serial c fraction group dwell well rows cols im' roe1 roe2 :
  shape rows cols im -> (0 < rows)%nat -> (forall i j, 0 <= pixel im i j) ->
  single_phase parallel rows c fraction group dwell false -> kind_for group = KTime -> Forall holding group ->
  sensitive well -> (forall n, 0 <= n -> well_fill c 0 false n = Ok (well n)) ->
  d_traps serial = None -> d_window serial = WNone ->
  add_cti im parallel serial None = Ok (im', roe1, roe2) ->
  shape rows cols im' /\
  forall i j, (i < rows)%nat -> (j < cols)%nat ->
    0 <= pixel im' i j /\
    Rabs (pixel im' i j - pixel im i j) <= INR (i + 1 + d_offset parallel) * (fraction * filled_traps group).
Proof.
  intros H1 H2 H3 H4 H5 H6 H7 H8 H9 H10 H11.
  destruct (times_change im parallel serial c fraction group dwell well rows cols im' roe1 roe2 H1 H2 H3 H4 H5 H6 H7 H8 H9 H10 H11) as [Hs H].
  split; [exact Hs|]. intros i j Hi Hj. now apply (H j Hj).
Qed.
Print Assumptions C112_change_past_recorded_times_is_limited.

(** C113: past traps that record times, no column of the returned image has more charge than
    the same column of the image before. *)
Theorem C113_recorded_times_create_no_charge im parallel serial c fraction group dwell well rows cols im' roe1 roe2 :
  shape rows cols im -> (0 < rows)%nat -> (forall i j, 0 <= pixel im i j) ->
  single_phase parallel rows c fraction group dwell false -> kind_for group = KTime -> Forall holding group ->
  sensitive well -> (forall n, 0 <= n -> well_fill c 0 false n = Ok (well n)) ->
  d_traps serial = None -> d_window serial = WNone ->
  add_cti im parallel serial None = Ok (im', roe1, roe2) ->
  forall j, (j < cols)%nat -> fold_right Rplus 0 (column_of im' j) <= fold_right Rplus 0 (column_of im j).
Proof.
  intros H1 H2 H3 H4 H5 H6 H7 H8 H9 H10 H11 j Hj.
  destruct (times_change im parallel serial c fraction group dwell well rows cols im' roe1 roe2 H1 H2 H3 H4 H5 H6 H7 H8 H9 H10 H11) as [_ H].
  now apply (H j Hj).
Qed.
Print Assumptions C113_recorded_times_create_no_charge.

(** The limit is attained: a log-normal continuum with ten traps per pixel takes ten electrons. *)
Example C113_example : exists t im', log_normal_trap (fun _ x => x) 10 1 (1/2) = Ok t /\ holding t /\ kind_for [t] = KTime /\
  single_phase (faded_direction t) 1 small_ccd 1 [t] (ln 2) false /\
  add_cti [[20; 30]] (faded_direction t) no_direction None = Ok (im', the_roe (faded_direction t), the_roe no_direction) /\
  Rabs (pixel im' 0 0 - 20) = INR (0 + 1 + 0) * (1 * filled_traps [t]) /\
  fold_right Rplus 0 (column_of im' 0) <= 20.
Proof.
  destruct C66_example as (t & E & _ & Hk & (im' & Eadd & C0 & _) & _). exists t, im'.
  assert (Hh : holding t) by (apply (log_normal_holds (fun _ x => x) 10 1 (1/2)); [lra|lra|lra|exact E]).
  split; [exact E|]. split; [exact Hh|]. split; [exact Hk|]. split; [apply faded_setting|]. split; [exact Eadd|]. split.
  - destruct C56_example as (t' & E' & _ & F0 & _). rewrite E in E'. injection E' as <-.
    destruct (continuum_built log_normal_distribution (fun _ x => x) 10 1 (1/2) ltac:(lra)) as (t' & E' & Ed & _).
    unfold log_normal_trap in E. rewrite E in E'. injection E' as <-.
    rewrite <- column_at, C0. unfold filled_traps. cbn [nth map fold_right Nat.add INR]. rewrite F0, Ed. rewrite Rabs_left1; lra.
  - pose proof (C113_recorded_times_create_no_charge [[20; 30]] (faded_direction t) no_direction small_ccd 1 [t] (ln 2) small_well 1 2 im' (the_roe (faded_direction t)) (the_roe no_direction)) as H.
    assert (K : fold_right Rplus 0 (column_of im' 0) <= fold_right Rplus 0 (column_of [[20; 30]] 0)); [|eapply Rle_trans; [exact K|cbn; lra]].
    apply H; auto using faded_setting.
    + split; [reflexivity|repeat constructor].
    + intros i j. unfold pixel. destruct i as [|[|i]], j as [|[|[|j]]]; cbn; rnum; lra.
    + apply depth_sensitive; lra.
    + intros n Hn. rewrite (depth_fill small_ccd 0 1 1 n small_params) by lra. reflexivity.
Qed.
