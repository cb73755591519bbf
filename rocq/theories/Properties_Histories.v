(** * Properties C23 and C64-C66: readout past traps of any kind, as the histories of the trap
    managers (arcticpy/main.py, main_utils.pyx and trap_managers.py). *)
From Coq Require Import ZArith List Bool Reals Lra Lia.
From Verif Require Import Num Py RFacts CCDModel TrapsModel ManagerModel ROEModel ClockModel MainModel Spec SpecImage SpecReadout SpecTime SpecSlow SpecHistory
  ContinuumModel ShapeFacts NotchFacts ReadoutImage ContinuumFacts ReadoutExamples SlowExamples OverfullExample LogNormalFacts HistoryFacts HistorySpecFacts Properties_Continuum.
Import ListNotations.
Open Scope R_scope.

(** C64: with one phase, one group of traps of any kind (instant, slow, recording times) and
    every transfer computed, [add_cti] is the readout in which every packet of a column meets
    the traps of each pixel below it in turn, the managers are used one call per packet and
    start again for each transfer, and the traps passed last are those kept for the next
    column.  Any error is that of the first failing call. *)
Theorem C64_readout_by_manager_histories im parallel serial c fraction group dwell keep rows cols :
  shape rows cols im -> (0 < rows)%nat -> single_phase parallel rows c fraction group dwell keep ->
  d_traps serial = None -> d_window serial = WNone ->
  let empty := empty_manager fraction group rows in
  match columns_past (past_manager (well_fill c 0 false) dwell) keep empty empty (d_offset parallel)
          (map (column_of im) (seq 0 cols)) with
  | Ok outs => exists im', add_cti im parallel serial None = Ok (im', the_roe parallel, the_roe serial) /\ shape rows cols im' /\
                 length outs = cols /\ forall j, (j < cols)%nat -> column_of im' j = nth j outs []
  | Err e => add_cti im parallel serial None = Err e
  end.
Proof. exact (history_readout im parallel serial c fraction group dwell keep rows cols). Qed.
Print Assumptions C64_readout_by_manager_histories.

(** A row of three pixels read out past the traps of one pixel, kept between the columns. *)
Definition keeping_roe : roe R := roe_init [ln 2] true false true DFloat.
Definition keeping : direction R := small_direction keeping_roe (TOne half_trap).
Definition three_pixels : image R := [[1; 0; 1]].
Lemma keeping_setting : single_phase keeping 1 small_ccd 1 [half_trap] (ln 2) true.
Proof.
  constructor; try reflexivity; try lra.
  - exists (TOne half_trap). auto.
  - discriminate.
  - exists true, DFloat. reflexivity.
  - apply ln_pos. lra.
  - left. reflexivity.
Qed.
Lemma thinned_half : thinned 1 half_trap = half_trap.
Proof. unfold thinned, half_trap, small_trap, with_density. cbn. f_equal. lra. Qed.
Lemma keeping_columns :
  let empty := empty_manager 1 [half_trap] 1 in
  columns_past (past_manager (well_fill small_ccd 0 false) (ln 2)) true empty empty 0 [[1]; [0]; [1]] = Ok [[1 / 2]; [3 / 16]; [5 / 16]].
Proof.
  intros empty. assert (E : empty = manager_init KInstant [half_trap] 1).
  { unfold empty, empty_manager, manager_init. cbn [map]. rewrite thinned_half. reflexivity. }
  rewrite E. cbn [columns_past column_past before reading bind length past_manager]. unfold column_past. cbn [before reading bind length past_manager].
  change (well_fill small_ccd 0 false) with small_fill.
  rewrite overfull_1. cbn [bind before reading length past_manager]. rewrite overfull_2. cbn [bind before reading length past_manager]. rewrite overfull_3.
  cbn [bind]. replace (1 + - (1 / 2)) with (1 / 2) by lra. replace (0 + 3 / 16) with (3 / 16) by lra. replace (1 + - (11 / 16)) with (5 / 16) by lra.
  rewrite !Rmax_right by lra. reflexivity.
Qed.
Lemma keeping_readout : add_cti three_pixels keeping no_direction None
  = Ok ([[1 / 2; 3 / 16; 5 / 16]], the_roe keeping, the_roe no_direction).
Proof.
  assert (Hs : shape 1 3 three_pixels) by (split; [reflexivity|repeat constructor]).
  pose proof (C64_readout_by_manager_histories three_pixels keeping no_direction small_ccd 1 [half_trap] (ln 2) true 1 3 Hs
    ltac:(lia) keeping_setting eq_refl eq_refl) as H. cbv zeta in H.
  change (map (column_of three_pixels) (seq 0 3)) with [[1]; [0]; [1]] in H. change (d_offset keeping) with 0%nat in H.
  rewrite keeping_columns in H. destruct H as (im' & E & [L F] & _ & H). rewrite E. do 3 f_equal.
  destruct im' as [|row [|? ?]]; try discriminate L. inversion F as [|? ? Fr _]; subst.
  destruct row as [|a [|b [|c' [|? ?]]]]; try discriminate Fr.
  pose proof (H 0%nat ltac:(lia)) as H0. pose proof (H 1%nat ltac:(lia)) as H1. pose proof (H 2%nat ltac:(lia)) as H2.
  cbn in H0, H1, H2. congruence.
Qed.
Example C64_example : shape 1 3 three_pixels /\ single_phase keeping 1 small_ccd 1 [half_trap] (ln 2) true /\
  columns_past (past_manager (well_fill small_ccd 0 false) (ln 2)) true (empty_manager 1 [half_trap] 1) (empty_manager 1 [half_trap] 1) 0 [[1]; [0]; [1]]
  = Ok [[1 / 2]; [3 / 16]; [5 / 16]].
Proof. split; [split; [reflexivity|repeat constructor]|]. split; [exact keeping_setting|exact keeping_columns]. Qed.

(** C23, refuted for whole images: with traps kept between the columns, the charge missing
    from an image can exceed what all the traps of a column can hold. *)
Theorem C23_missing_charge_fits_in_the_traps_refuted :
  ~ (forall im parallel c fraction group dwell rows cols im' r r',
       shape rows cols im -> (0 < rows)%nat -> (forall i j, 0 <= pixel im i j) ->
       single_phase parallel rows c fraction group dwell true -> Forall physical group ->
       add_cti im parallel no_direction None = Ok (im', r, r') ->
       Rsum (map Rsum im) - Rsum (map Rsum im') <= INR rows * Rsum (map (fun t => t_density t) group)).
Proof.
  intros H.
  assert (K : Rsum (map Rsum three_pixels) - Rsum (map Rsum [[1 / 2; 3 / 16; 5 / 16]]) <= INR 1 * Rsum (map (fun t => t_density t) [half_trap])).
  { eapply (H three_pixels keeping small_ccd 1 [half_trap] (ln 2) 1%nat 3%nat _ _ _); [split; [reflexivity|repeat constructor]|lia| |exact keeping_setting| |exact keeping_readout].
    - intros i j. unfold pixel, three_pixels. destruct i as [|[|i]], j as [|[|[|[|j]]]]; cbn; rnum; lra.
    - constructor; [|constructor]. apply small_physical. lra. }
  unfold Rsum in K. cbn in K. lra.
Qed.
Print Assumptions C23_missing_charge_fits_in_the_traps_refuted.

(** C65: traps of the class [Trap], capture timescale 0 (its default) included.  As long as the recomputed clouds stay inside the
    levels, [add_cti] returns the readout of the rate equation: the traps above a cloud release,
    those below it exchange charge with it, and the packet loses the gain of the traps, or the
    whole recomputed cloud if that is less (with capture timescale 0, [past_slow] does not
    describe that last case). *)
Theorem C65_readout_past_slow_traps im parallel serial c fraction group dwell well rows cols outs :
  shape rows cols im -> (0 < rows)%nat -> (forall i j, 0 <= pixel im i j) ->
  single_phase parallel rows c fraction group dwell false ->
  Forall (fun t => t_class t = CTrap) group -> Forall capturing group ->
  sensitive well -> (forall n, 0 <= n -> well_fill c 0 false n = Ok (well n)) ->
  d_traps serial = None -> d_window serial = WNone ->
  columns_past (past_slow (map (thinned fraction) group) well dwell) false (0, empty_profile) (0, empty_profile)
    (d_offset parallel) (map (column_of im) (seq 0 cols)) = Ok outs ->
  exists im', add_cti im parallel serial None = Ok (im', the_roe parallel, the_roe serial) /\ shape rows cols im' /\
    length outs = cols /\ forall j, (j < cols)%nat -> column_of im' j = nth j outs [].
Proof. exact (slow_image im parallel serial c fraction group dwell well rows cols outs). Qed.
Print Assumptions C65_readout_past_slow_traps.

(** Two pixels of ten electrons, 32 slow traps per pixel, and a dwell time in which an empty trap
    captures with probability 1/8. *)
Definition two_tens : image R := [[10]; [10]].
Definition brief_direction : direction R := small_direction (roe_init [brief] true true true DFloat) (TOne (slow_trap 32)).
Lemma brief_setting : single_phase brief_direction 2 small_ccd 1 [slow_trap 32] brief false.
Proof.
  constructor; try reflexivity; try lra.
  - exists (TOne (slow_trap 32)). auto.
  - discriminate.
  - exists true, DFloat. reflexivity.
  - exact brief_pos.
  - left. reflexivity.
Qed.
Lemma small_well_full n : 1 <= n -> small_well n = 1.
Proof.
  intros H. unfold small_well, depth. destruct (Rle_dec n 0); [lra|]. rewrite Rmin_left by (unfold Rdiv; lra). apply Rpower_1. lra.
Qed.
Lemma thinned_one t : thinned 1 t = t.
Proof. destruct t. unfold thinned. cbn. f_equal. lra. Qed.
Lemma brief_call n a b P : 1 <= n -> steps [(1, a)] P -> b = 1 / 8 + 3 / 4 * a -> 0 <= a <= 1 -> 32 * (b - a) <= n ->
  let t := slow_trap 32 in
  cloud_then [t] small_well brief n P = n /\ slow_taken [t] small_well brief n P = 32 * (b - a) /\
  steps [(1, b)] (slow_after [t] small_well brief n P).
Proof.
  intros Hn HP Hb Ha Hle t. pose proof HP as (_ & _ & HP').
  assert (HR : steps [(1, a)] (release_above [t] brief 1 P)).
  { split; [constructor; [split; lra|constructor]|split; [cbn; lra|]]. intros x Hx. unfold t. rewrite release_value, HP' by exact Hx. steps_tac. }
  destruct (slow_call 32 small_well brief n P [(1, a)] [(1, a)] [(1, b)] 1 n 1 HP (small_well_full n Hn) HR) as (E1 & E2 & E3).
  - lra.
  - apply small_well_full, Hn.
  - split; [constructor; [split; lra|constructor]|split; [cbn; lra|]]. intros x Hx. fold t. unfold t. rewrite exchange_value, exp_brief, release_value, HP' by exact Hx. steps_tac.
  - fold t in E1, E2, E3. assert (E2' : gain [t] small_well brief n P = 32 * (b - a)) by (rewrite E2; unfold area; cbn; lra).
    split; [exact E1|]. unfold slow_taken, slow_after. rewrite E1, E2'. split; [apply Rmin_left; exact Hle|].
    destruct (Rle_dec (32 * (b - a)) n); [exact E3|contradiction].
Qed.
Lemma brief_first n : 1 <= n -> 4 <= n -> let t := slow_trap 32 in
  cloud_then [t] small_well brief n empty_profile = n /\ slow_taken [t] small_well brief n empty_profile = 4 /\
  steps [(1, 1 / 8)] (slow_after [t] small_well brief n empty_profile).
Proof.
  intros Hn H4 t. destruct (slow_call_1 32 small_well n 1 (small_well_full n Hn) ltac:(lra)) as (A1 & A2 & A3).
  split; [exact A1|]. fold t in A1, A2, A3. unfold slow_taken, slow_after. rewrite A1, A2. split; [rewrite Rmin_left; lra|].
  destruct (Rle_dec _ n); [exact A3|lra].
Qed.
Lemma brief_columns : columns_past (past_slow (map (thinned 1) [slow_trap 32]) small_well brief) false (0, empty_profile) (0, empty_profile) 0 [[10; 10]]
  = Ok [[6; 3]].
Proof.
  cbn [map]. rewrite thinned_one. cbn [columns_past]. unfold column_past. cbn [before reading bind length past_slow].
  destruct (brief_first 10 ltac:(lra) ltac:(lra)) as (A1 & A2 & A3).
  destruct (brief_call 10 (1 / 8) (7 / 32) _ ltac:(lra) A3 ltac:(lra) ltac:(lra) ltac:(lra)) as (B1 & B2 & B3).
  destruct (brief_first 7 ltac:(lra) ltac:(lra)) as (C1 & C2 & C3).
  assert (Htold : forall n P, told [slow_trap 32] small_well brief n P = true) by (intros; apply told_finite, slow_trap_finite; lra).
  rewrite !Htold. cbn [negb].
  rewrite (small_well_full 10) by lra. destruct (Rlt_dec 0 1) as [_|]; [|lra]. destruct (Rlt_dec 1 1) as [|_]; [lra|].
  rewrite B1, A2, B2, (small_well_full 10) by lra. destruct (Rle_dec 1 1) as [_|]; [|lra]. cbn [bind].
  replace (Rmax 0 (10 - 4)) with 6 by (rewrite Rmax_right; lra).
  replace (Rmax 0 (10 - 32 * (7 / 32 - 1 / 8))) with 7 by (rewrite Rmax_right; lra).
  cbn [past_slow]. rewrite Htold. cbn [negb]. rewrite (small_well_full 7) by lra. destruct (Rlt_dec 0 1) as [_|]; [|lra]. cbn [bind]. rewrite C2.
  replace (Rmax 0 (7 - 4)) with 3 by (rewrite Rmax_right; lra). reflexivity.
Qed.
Example C65_example : add_cti two_tens brief_direction no_direction None
  = Ok ([[6]; [3]], the_roe brief_direction, the_roe no_direction).
Proof.
  assert (Hs : shape 2 1 two_tens) by (split; [reflexivity|repeat constructor]).
  destruct (C65_readout_past_slow_traps two_tens brief_direction no_direction small_ccd 1 [slow_trap 32] brief small_well 2 1 [[6; 3]])
    as (im' & E & Hs' & _ & H); auto using brief_setting, brief_columns.
  - intros i j. unfold pixel, two_tens. destruct i as [|[|[|i]]], j as [|[|j]]; cbn; rnum; lra.
  - apply slow_trap_capturing. lra.
  - apply depth_sensitive; lra.
  - intros n Hn. rewrite (depth_fill small_ccd 0 1 1 n small_params) by lra. reflexivity.
  - rewrite E. do 3 f_equal. pose proof (H 0%nat ltac:(lia)) as H0. destruct Hs' as [L F].
    destruct im' as [|[|a [|? ?]] [|[|b [|? ?]] [|? ?]]]; try discriminate;
      repeat match goal with H : Forall _ (_ :: _) |- _ => inversion H; clear H; subst end; try discriminate.
    cbn in H0. congruence.
Qed.

(** C66: traps that record the time since they were filled (the continuum of lifetimes).  While
    the charge suffices, [add_cti] returns the readout in which the released and the captured
    electrons follow the recorded times and the filling curve; the first transfer at which it
    does not suffice raises TypeError. *)
Theorem C66_readout_past_traps_recording_times im parallel serial c fraction group dwell well rows cols :
  shape rows cols im -> (0 < rows)%nat -> (forall i j, 0 <= pixel im i j) ->
  single_phase parallel rows c fraction group dwell false -> kind_for group = KTime -> Forall fading group ->
  sensitive well -> (forall n, 0 <= n -> well_fill c 0 false n = Ok (well n)) ->
  d_traps serial = None -> d_window serial = WNone ->
  match columns_past (past_times (map (thinned fraction) group) well dwell) false never never
          (d_offset parallel) (map (column_of im) (seq 0 cols)) with
  | Ok outs => exists im', add_cti im parallel serial None = Ok (im', the_roe parallel, the_roe serial) /\ shape rows cols im' /\
                 length outs = cols /\ forall j, (j < cols)%nat -> column_of im' j = nth j outs []
  | Err e => add_cti im parallel serial None = Err e
  end.
Proof. exact (times_image im parallel serial c fraction group dwell well rows cols). Qed.
Print Assumptions C66_readout_past_traps_recording_times.

(** A log-normal continuum with ten traps per pixel: twenty electrons are enough, half an
    electron is not. *)
Definition faded_direction (t : trap R) : direction R := small_direction small_roe (TOne t).
Lemma faded_setting t rows : single_phase (faded_direction t) rows small_ccd 1 [t] (ln 2) false.
Proof.
  constructor; try reflexivity; try lra.
  - exists (TOne t). auto.
  - discriminate.
  - exists true, DFloat. reflexivity.
  - apply ln_pos. lra.
  - left. reflexivity.
Qed.
Lemma fresh_fill t v T : fill_fraction_from_time_elapsed t 0 = 1 -> (forall x, 0 <= x < 1 -> T 0%nat x = None) -> 0 < v <= 1 ->
  held [t] (fill_now v T) = t_density t * v /\ held [t] T = 0.
Proof.
  intros F HT Hv. split.
  - unfold held. rewrite (steps_electrons t [(v, 1)]); [unfold area; cbn; lra|]. split; [constructor; [split; lra|constructor]|split; [cbn; lra|]]. intros x Hx. unfold filled_by, fill_now.
    destruct (Rlt_dec x v) as [Hlt|Hge]; [cbn [nth_error]; rewrite F|rewrite HT by exact Hx]; steps_tac.
  - unfold held. rewrite (steps_electrons t []); [unfold area; cbn; lra|]. split; [constructor|]. split; [cbn; lra|]. intros x Hx.
    unfold filled_by. rewrite HT by exact Hx. reflexivity.
Qed.
Lemma first_fill t n v : fill_fraction_from_time_elapsed t 0 = 1 -> small_well n = v -> 0 < v <= 1 ->
  cloud_after [t] (ln 2) n never = n /\ wanted [t] small_well (ln 2) n never = t_density t * v.
Proof.
  intros F Hw Hv. assert (C : cloud_after [t] (ln 2) n never = n).
  { unfold cloud_after. change (wait (ln 2) never) with never. lra. }
  split; [exact C|]. unfold wanted, times_after. rewrite C, Hw. change (wait (ln 2) never) with never.
  destruct (fresh_fill t v never F ltac:(reflexivity) Hv) as [E1 E2]. rewrite E1, E2. lra.
Qed.
Example C66_example : exists t, log_normal_trap (fun _ x => x) 10 1 (1/2) = Ok t /\ fading t /\ kind_for [t] = KTime /\
  (exists im', add_cti [[20; 30]] (faded_direction t) no_direction None = Ok (im', the_roe (faded_direction t), the_roe no_direction) /\
     column_of im' 0 = [10] /\ column_of im' 1 = [20]) /\
  add_cti [[1 / 2]] (faded_direction t) no_direction None = Err TypeError.
Proof.
  destruct C56_example as (t & E & Hfade & F0 & _). exists t. split; [exact E|]. split; [exact Hfade|].
  destruct (continuum_built log_normal_distribution (fun _ x => x) 10 1 (1/2) ltac:(lra)) as (t' & E' & Ed & Ec).
  unfold log_normal_trap in E. rewrite E in E'. injection E' as <-.
  assert (Hk : kind_for [t] = KTime) by (unfold kind_for; rewrite Ec; reflexivity). split; [exact Hk|].
  assert (Hsen : sensitive small_well) by (apply depth_sensitive; lra).
  assert (Hfill : forall n, 0 <= n -> well_fill small_ccd 0 false n = Ok (small_well n)).
  { intros n Hn. rewrite (depth_fill small_ccd 0 1 1 n small_params) by lra. reflexivity. }
  assert (Hcol : forall n v, small_well n = v -> 0 < v <= 1 ->
    column_past (past_times (map (thinned 1) [t]) small_well (ln 2)) never 0 [n]
    = if Rle_dec (10 * v) n then Ok ([n - 10 * v], times_after [t] small_well (ln 2) n never) else Err TypeError).
  { intros n v Hw Hv. cbn [map]. rewrite thinned_one. unfold column_past. cbn [before reading bind length past_times].
    destruct (first_fill t n v F0 Hw Hv) as [-> ->]. rewrite Ed. destruct (Rle_dec (10 * v) n); reflexivity. }
  split.
  - pose proof (C66_readout_past_traps_recording_times [[20; 30]] (faded_direction t) no_direction small_ccd 1 [t] (ln 2) small_well 1 2) as H.
    change (d_offset (faded_direction t)) with 0%nat in H. change (map (column_of [[20; 30]]) (seq 0 2)) with [[20]; [30]] in H.
    cbn [columns_past] in H. rewrite (Hcol 20 1), (Hcol 30 1) in H by (try apply small_well_full; lra).
    destruct (Rle_dec (10 * 1) 20) as [_|]; [|lra]. destruct (Rle_dec (10 * 1) 30) as [_|]; [|lra]. cbn [bind] in H.
    destruct H as (im' & E1 & _ & _ & H); auto using faded_setting.
    + split; [reflexivity|repeat constructor].
    + intros i j. unfold pixel. destruct i as [|[|i]], j as [|[|[|j]]]; cbn; rnum; lra.
    + exists im'. split; [exact E1|]. rewrite (H 0%nat ltac:(lia)), (H 1%nat ltac:(lia)). cbn [nth]. split; f_equal; lra.
  - pose proof (C66_readout_past_traps_recording_times [[1 / 2]] (faded_direction t) no_direction small_ccd 1 [t] (ln 2) small_well 1 1) as H.
    change (d_offset (faded_direction t)) with 0%nat in H. change (map (column_of [[1 / 2]]) (seq 0 1)) with [[1 / 2]] in H.
    cbn [columns_past] in H. rewrite (Hcol (1 / 2) (1 / 2)) in H by (try apply small_well_at; lra).
    destruct (Rle_dec (10 * (1 / 2)) (1 / 2)) as [|_]; [lra|]. cbn [bind] in H.
    apply H; auto using faded_setting.
    + split; [reflexivity|repeat constructor].
    + intros i j. unfold pixel. destruct i as [|[|i]], j as [|[|j]]; cbn; rnum; lra.
Qed.
