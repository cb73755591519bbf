(** * C122-C123: settings that are a little wrong change the readout, and the correction, only
    a little. *)
From Coq Require Import ZArith List Bool Reals Lra Lia.
From Verif Require Import Num Py RFacts CCDModel TrapsModel ManagerModel ROEModel ClockModel MainModel Spec SpecImage SpecReadout SpecHistory SpecRecovery SpecCalibration
  InstantFacts ReadoutImage ReadoutExamples OverfullExample RemoveFacts OrderFacts TameFacts RecoverFacts DepthFacts RecoverImageFacts DivergeExample ContractFacts FirstFacts CalibrationFacts CalibrationImageFacts Properties_Recovery.
Import ListNotations.
Open Scope R_scope.

(** ** C122: the same image, read out with two settings.  In each column, and in the rows up to
    any row, the readouts differ in total by at most six times the error of the settings for
    each of these rows and each pixel of traps passed. *)
Theorem C122_readout_changes_little_with_the_settings parallel serial c fraction dwell full beta group
    parallel' serial' c' fraction' dwell' full' beta' group' floor eps rows cols im :
  simple_readout parallel serial c fraction dwell full beta group rows cols ->
  simple_readout parallel' serial' c' fraction' dwell' full' beta' group' rows cols ->
  mild (per_pixel fraction group) full beta floor -> mild (per_pixel fraction' group') full' beta' floor ->
  d_offset parallel' = d_offset parallel -> length group' = length group -> depth_error floor full beta full' beta' eps ->
  shape rows cols im ->
  (forall i j, (i < rows)%nat -> (j < cols)%nat -> stays_above (per_pixel fraction group) floor (n_passes parallel rows) (pixel im i j) /\
     stays_above (per_pixel fraction' group') floor (n_passes parallel rows) (pixel im i j)) ->
  exists out out', add_cti im parallel serial None = Ok (out, the_roe parallel, the_roe serial) /\
    add_cti im parallel' serial' None = Ok (out', the_roe parallel', the_roe serial') /\
    forall i j, (i <= rows)%nat -> (j < cols)%nat ->
      apart (firstn i (column_of out j)) (firstn i (column_of out' j))
      <= 6 * INR i * INR (d_offset parallel + i) * setting_error dwell dwell' eps (map (thinned fraction) group) (map (thinned fraction') group').
Proof.
  intros (H1 & H2 & H3 & H4 & H5 & H6 & H7 & H8 & H9) (_ & _ & K3 & K4 & K5 & K6 & K7 & K8 & K9) M M' Ho Hl He Hs Hp.
  apply (readouts_near parallel serial parallel' serial' c c' fraction dwell full beta fraction' dwell' full' beta' floor eps group group' rows cols); assumption.
Qed.
Print Assumptions C122_readout_changes_little_with_the_settings.

(** ** C123: an image read out with one setting, and corrected with another.  The estimates come
    as near to the image as the settings are to each other, up to a factor that does not depend
    on the image or on the true settings; the number of iterations does not matter beyond that. *)
Theorem C123_correction_with_settings_a_little_wrong parallel serial c fraction dwell full beta group floor rows cols :
  simple_readout parallel serial c fraction dwell full beta group rows cols -> mild (per_pixel fraction group) full beta floor ->
  exists K r, 0 <= K /\ 0 <= r < 1 /\
  forall parallel' serial' c' fraction' dwell' full' beta' group' eps x,
  simple_readout parallel' serial' c' fraction' dwell' full' beta' group' rows cols -> mild (per_pixel fraction' group') full' beta' floor ->
  d_offset parallel' = d_offset parallel -> length group' = length group -> depth_error floor full beta full' beta' eps ->
  shape rows cols x ->
  (forall i j, (i < rows)%nat -> (j < cols)%nat -> floor + INR (n_passes parallel rows) * (2 * per_pixel fraction group + per_pixel fraction' group') <= pixel x i j) ->
  exists im, add_cti x parallel' serial' None = Ok (im, the_roe parallel', the_roe serial') /\
  forall n, exists est, remove_cti im n parallel serial None = Ok est /\ shape rows cols est /\
    forall j, (j < cols)%nat -> apart (column_of est j) (column_of x j) <=
      K * (r ^ n * apart (column_of im j) (column_of x j) + setting_error dwell dwell' eps (map (thinned fraction) group) (map (thinned fraction') group')).
Proof.
  intros (H1 & H2 & H3 & H4 & H5 & H6 & H7 & H8 & H9) M.
  set (gain := (1 - per_pixel fraction group * slope_of full beta floor) ^ (d_offset parallel + rows)).
  assert (Hg : 0 < gain <= 1) by exact (im_gain parallel c fraction dwell full beta floor group rows H3 H4 H6 H7 M).
  set (S := scale_of gain 1 rows). assert (HS : 0 < S) by (apply scale_pos; [lra|exact Hg]).
  set (L := 2 / gain * (6 * INR rows * INR (d_offset parallel + rows))).
  assert (HL : 0 <= L).
  { unfold L. apply Rmult_le_pos; [left; apply Rdiv_lt_0_compat; lra|]. apply Rmult_le_pos; [|apply pos_INR]. pose proof (pos_INR rows). lra. }
  exists (S * (1 + L)), (1 - gain / 2). split; [apply Rmult_le_pos; lra|]. split; [lra|].
  intros parallel' serial' c' fraction' dwell' full' beta' group' eps x (_ & _ & K3 & K4 & K5 & K6 & K7 & K8 & K9) M' Ho Hl He Hs Hp.
  destruct (correction_near parallel serial parallel' serial' c c' fraction dwell full beta fraction' dwell' full' beta' floor eps group group' rows cols H1 H2 H3 K3 H4 K4 H5 K5 H6 K6 H7 K7 H8 K8 H9 K9 M M' Ho Hl He x Hs Hp) as (im & E & _ & R).
  exists im. split; [exact E|]. intros n. destruct (R n) as (est & Ee & Se & B). exists est. split; [exact Ee|]. split; [exact Se|]. intros j Hj. specialize (B j Hj).
  change ((1 - traps_per_pixel (map (thinned fraction) group) * slope_of full beta floor) ^ (d_offset parallel + rows)) with gain in B. change (scale_of gain 1 rows) with S in B.
  set (err := setting_error dwell dwell' eps (map (thinned fraction) group) (map (thinned fraction') group')) in *.
  assert (He0 : 0 <= err).
  { exact (err_pos (map (thinned fraction) group) (map (thinned fraction') group') dwell dwell' (im_phys parallel c fraction dwell group rows H3 H4)
      (depth full beta) (depth full' beta') floor eps He). }
  set (A := (1 - gain / 2) ^ n * apart (column_of im j) (column_of x j)) in *.
  assert (HA : 0 <= A) by (apply Rmult_le_pos; [apply pow_le; lra|apply apart_nonneg]).
  eapply Rle_trans; [exact B|]. rewrite (Rmult_assoc S (1 + L)). apply Rmult_le_compat_l; [lra|].
  replace (2 / gain * (6 * INR rows * INR (d_offset parallel + rows) * err)) with (L * err) by (unfold L; ring). pose proof (Rmult_le_pos _ _ HL HA). lra.
Qed.
Print Assumptions C123_correction_with_settings_a_little_wrong.

(** No number of iterations makes up for wrong settings: three electrons, read out past 2/5 of a
    trap and corrected for half a trap, are always estimated as 31/10. *)
Definition off_by (density : R) : direction R := small_direction small_roe (TOne (small_trap density)).
Lemma off_by_setting density rows : single_phase (off_by density) rows small_ccd 1 [small_trap density] (ln 2) false.
Proof.
  constructor; try reflexivity; try lra.
  - exists (TOne (small_trap density)). auto.
  - discriminate.
  - exists true, DFloat. reflexivity.
  - apply ln_pos. lra.
  - left. reflexivity.
Qed.
Lemma off_by_readout density rows : 0 <= density -> (0 < rows)%nat -> simple_readout (off_by density) no_direction small_ccd 1 (ln 2) 1 1 [small_trap density] rows 1.
Proof. intros Hd Hr. split; [exact Hr|]. split; [lia|]. split; [apply off_by_setting|]. split; [now apply small_group|]. split; [exact small_params|]. repeat split; lra. Qed.
Lemma thin_small density : map (thinned 1) [small_trap density] = [small_trap density].
Proof. cbn [map]. do 1 f_equal. unfold thinned, small_trap. cbn. f_equal. lra. Qed.
Lemma small_per_pixel density : per_pixel 1 [small_trap density] = density.
Proof. unfold per_pixel. rewrite thin_small. unfold traps_per_pixel, Rsum. cbn. lra. Qed.
Lemma small_mild density : 0 <= density < 1 -> mild (per_pixel 1 [small_trap density]) 1 1 0.
Proof. intros H. rewrite small_per_pixel. left. lra. Qed.
Lemma full_pixel density a : 0 <= density <= 1 -> 1 <= a -> add_cti [[a]] (off_by density) no_direction None = Ok ([[a - density]], the_roe (off_by density), the_roe no_direction).
Proof.
  intros Hd Ha. assert (Hs : shape 1 1 [[a]]) by (split; [reflexivity|repeat constructor]).
  destruct (any_image [[a]] (off_by density) no_direction small_ccd 1 [small_trap density] (ln 2) 1 1 1 1 Hs ltac:(lia) (off_by_setting density 1) (small_group density ltac:(lra)) small_params ltac:(lra) ltac:(lra) eq_refl eq_refl) as (im' & E & S & K).
  specialize (K 0%nat ltac:(lia)). change (column_of [[a]] 0) with [a] in K. change (d_offset (off_by density)) with 0%nat in K.
  unfold column_clouds in K. cbn [length through_clouds read_clouds past_clouds] in K. rewrite thin_small in K.
  rewrite empty_left in K; [|constructor; [apply small_physical; lra|constructor]|apply ln2_nonneg|lra|rewrite depth_one, Rmin_left by lra; lra].
  rewrite depth_one in K by lra. rewrite (Rmin_left 1 a) in K by lra. assert (P : traps_per_pixel [small_trap density] = density) by (unfold traps_per_pixel, Rsum; cbn; lra). rewrite P, Rmult_1_r, Rmin_right in K by lra.
  rewrite E. do 3 f_equal. apply (columns_determine im' [[a - density]] 1 1 S); [split; [reflexivity|repeat constructor]|]. intros j Hj. assert (j = 0)%nat as -> by lia. rewrite K. reflexivity.
Qed.
Theorem C123_iterations_make_up_for_wrong_settings_refuted :
  add_cti [[3]] (off_by (2 / 5)) no_direction None = Ok ([[3 - 2 / 5]], the_roe (off_by (2 / 5)), the_roe no_direction) /\
  forall n, exists est, remove_cti [[3 - 2 / 5]] (S n) (off_by (1 / 2)) no_direction None = Ok est /\ pixel est 0 0 = 31 / 10.
Proof.
  split; [apply full_pixel; lra|]. assert (Hs : forall a : R, shape 1 1 [[a]]) by (intros; split; [reflexivity|repeat constructor]).
  assert (St : forall n, remove_cti [[3 - 2 / 5]] (S n) (off_by (1 / 2)) no_direction None = Ok [[31 / 10]]); [|intros n; exists [[31 / 10]]; split; [apply St|reflexivity]].
  assert (One : forall n a out, 1 <= a -> out = a + (3 - 2 / 5 - (a - 1 / 2)) -> remove_cti [[3 - 2 / 5]] n (off_by (1 / 2)) no_direction None = Ok [[a]] -> remove_cti [[3 - 2 / 5]] (S n) (off_by (1 / 2)) no_direction None = Ok [[out]]).
  { intros n a out Ha -> R. apply (remove_S [[3 - 2 / 5]] (off_by (1 / 2)) no_direction None 1 1 (Hs _) ltac:(lia) ltac:(lia) n [[a + (3 - 2 / 5 - (a - 1 / 2))]]).
    exists [[a]], [[a - 1 / 2]], (the_roe (off_by (1 / 2))), (the_roe no_direction). split; [exact R|]. split; [apply full_pixel; lra|]. split; [apply Hs|].
    intros i j Hi Hj. assert (i = 0)%nat as -> by lia. assert (j = 0)%nat as -> by lia. reflexivity. }
  induction n as [|n IH]; [apply (One 0%nat (3 - 2 / 5)); [lra|lra|reflexivity]|]. apply (One (S n) (31 / 10)); [lra|lra|exact IH].
Qed.
Print Assumptions C123_iterations_make_up_for_wrong_settings_refuted.

(** ** Settings that meet the conditions *)
(** Half a trap per pixel and 2/5 of one, in the same well. *)
Lemma same_well floor full beta : depth_error floor full beta full beta 0.
Proof. intros a _. rewrite Rminus_eq_0, Rabs_R0. lra. Qed.
Lemma off_by_error d d' : 0 <= d -> setting_error (ln 2) (ln 2) 0 (map (thinned 1) [small_trap d]) (map (thinned 1) [small_trap d']) = Rabs (d - d').
Proof.
  intros Hd. rewrite !thin_small. unfold setting_error. cbn [density_error release_error]. unfold share_kept. cbn [small_trap t_density t_release_timescale]. rewrite Rminus_eq_0, Rabs_R0. lra.
Qed.
Example C122_example : exists out out', add_cti [[1]; [2]] (off_by (1 / 2)) no_direction None = Ok (out, the_roe (off_by (1 / 2)), the_roe no_direction) /\
  add_cti [[1]; [2]] (off_by (2 / 5)) no_direction None = Ok (out', the_roe (off_by (2 / 5)), the_roe no_direction) /\
  apart (column_of out 0) (column_of out' 0) <= 6 * 2 * 2 * (1 / 10).
Proof.
  assert (Hs : shape 2 1 [[1]; [2]]) by (split; [reflexivity|repeat constructor]).
  destruct (C122_readout_changes_little_with_the_settings (off_by (1 / 2)) no_direction small_ccd 1 (ln 2) 1 1 [small_trap (1 / 2)] (off_by (2 / 5)) no_direction small_ccd 1 (ln 2) 1 1 [small_trap (2 / 5)] 0 0 2 1 [[1]; [2]])
    as (out & out' & E & E' & B); try (apply off_by_readout; lra || lia); try (apply small_mild; lra); try reflexivity; try apply same_well; try exact Hs.
  - intros; split; left; reflexivity.
  - exists out, out'. split; [exact E|]. split; [exact E'|]. specialize (B 2%nat 0%nat ltac:(lia) ltac:(lia)). rewrite off_by_error in B by lra.
    change (d_offset (off_by (1 / 2)) + 2)%nat with 2%nat in B. change (INR 2) with 2 in B. replace (1 / 2 - 2 / 5) with (1 / 10) in B by lra. rewrite (Rabs_pos_eq (1 / 10)) in B by lra.
    eapply Rle_trans; [|exact B].
    destruct (C67_readout_of_any_image [[1]; [2]] (off_by (1 / 2)) no_direction small_ccd 1 [small_trap (1 / 2)] (ln 2) 1 1 2 1 Hs ltac:(lia) (off_by_setting _ 2) (small_group (1 / 2) ltac:(lra)) small_params ltac:(lra) ltac:(lra) eq_refl eq_refl) as (o & Eo & So & _).
    destruct (C67_readout_of_any_image [[1]; [2]] (off_by (2 / 5)) no_direction small_ccd 1 [small_trap (2 / 5)] (ln 2) 1 1 2 1 Hs ltac:(lia) (off_by_setting _ 2) (small_group (2 / 5) ltac:(lra)) small_params ltac:(lra) ltac:(lra) eq_refl eq_refl) as (o' & Eo' & So' & _).
    rewrite E in Eo. injection Eo as <-. rewrite E' in Eo'. injection Eo' as <-.
    rewrite !firstn_all2 by (rewrite ?(column_length out 2 1 0 So), ?(column_length out' 2 1 0 So'); lia). lra.
Qed.
Example C123_example : exists K r, 0 <= K /\ 0 <= r < 1 /\ forall d', 0 <= d' < 1 ->
  exists im, add_cti [[5]; [6]] (off_by d') no_direction None = Ok (im, the_roe (off_by d'), the_roe no_direction) /\
  forall n, exists est, remove_cti im n (off_by (1 / 2)) no_direction None = Ok est /\ shape 2 1 est /\
    apart (column_of est 0) [5; 6] <= K * (r ^ n * apart (column_of im 0) [5; 6] + Rabs (1 / 2 - d')).
Proof.
  destruct (C123_correction_with_settings_a_little_wrong (off_by (1 / 2)) no_direction small_ccd 1 (ln 2) 1 1 [small_trap (1 / 2)] 0 2 1) as (K & r & HK & Hr & H); [apply off_by_readout; lra || lia|apply small_mild; lra|].
  exists K, r. split; [exact HK|]. split; [exact Hr|]. intros d' Hd.
  destruct (H (off_by d') no_direction small_ccd 1 (ln 2) 1 1 [small_trap d'] 0 [[5]; [6]]) as (im & E & B); try (apply off_by_readout; lra || lia); try (apply small_mild; lra); try reflexivity; try apply same_well.
  - split; [reflexivity|repeat constructor].
  - intros i j Hi Hj. rewrite !small_per_pixel. change (n_passes (off_by (1 / 2)) 2) with 2%nat. change (INR 2) with 2. destruct i as [|[|i]]; [| |lia]; (destruct j; [|lia]); cbn; lra.
  - exists im. split; [exact E|]. intros n. destruct (B n) as (est & Ee & Se & Bj). exists est. split; [exact Ee|]. split; [exact Se|]. specialize (Bj 0%nat ltac:(lia)). rewrite off_by_error in Bj by lra. exact Bj.
Qed.
