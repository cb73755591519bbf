(** * C138-C140: traps of any class with settings that differ a little, read out in both
    directions: readout, the limit of capture in no time, and correction. *)
From Coq Require Import ZArith List Bool Reals Lra Lia.
From Verif Require Import Num Py RFacts CCDModel TrapsModel ManagerModel ROEModel ClockModel MainModel ContinuumModel Spec SpecROE SpecImage SpecReadout SpecTime SpecSlow SpecHistory SpecHold SpecRecovery SpecPhases SpecWindowOrder SpecAbove SpecFlatten SpecContinuum SpecPatient SpecMild SpecCalibration SpecZeroCapture SpecSlowCalibration
  ReadoutExamples ContinuumFacts LogNormalFacts GridFacts SlowExamples ContractFacts MildFacts SlowNearbyImageFacts Properties_TimesOrder Properties_Mild Properties_Calibration.
Import ListNotations.
Open Scope R_scope.

(** ** C138: the images read out with two settings differ, in all pixels together, by at most what
    the settings differ by, times a factor that depends on the sizes only. *)
Theorem C138_readout_changes_little_with_the_settings im parallel serial parallel' serial' rows cols ep es : (0 < rows)%nat -> (0 < cols)%nat ->
  settings_near parallel parallel' rows ep -> settings_near serial serial' cols es -> shape rows cols im -> (forall i j, 0 <= pixel im i j) ->
  exists out out', add_cti im parallel serial None = Ok (out, the_roe parallel, the_roe serial) /\
    add_cti im parallel' serial' None = Ok (out', the_roe parallel', the_roe serial') /\ shape rows cols out /\ shape rows cols out' /\
    image_apart out out' <= INR cols * ep + INR rows * es.
Proof.
  intros Hr Hc Hp Hs Si Pi. apply (slow_readouts_near parallel serial parallel' serial' rows cols ep es Hr Hc Hp Hs im Si). exact Pi.
Qed.
Print Assumptions C138_readout_changes_little_with_the_settings.

(** ** C139: with a capture timescale [tau], the image is as that of a capture timescale of 0, up to an error
    proportional to [tau], whatever the image. *)
Theorem C139_short_capture_timescales_are_almost_none im tau parallel serial parallel' serial' rows cols p s : (0 < rows)%nat -> (0 < cols)%nat -> 0 < tau ->
  slowed tau parallel parallel' rows p -> slowed tau serial serial' cols s -> shape rows cols im -> (forall i j, 0 <= pixel im i j) ->
  exists out out', add_cti im parallel serial None = Ok (out, the_roe parallel, the_roe serial) /\
    add_cti im parallel' serial' None = Ok (out', the_roe parallel', the_roe serial') /\ shape rows cols out /\ shape rows cols out' /\
    image_apart out out' <= tau * (INR cols * p + INR rows * s).
Proof.
  intros Hr Hc Ht Hp Hs Si Pi. destruct (slowed_near tau _ _ _ _ Ht Hp) as (ep & Np & Bp). destruct (slowed_near tau _ _ _ _ Ht Hs) as (es & Ns & Bs).
  destruct (C138_readout_changes_little_with_the_settings im parallel serial parallel' serial' rows cols ep es Hr Hc (or_introl Np) (or_introl Ns) Si Pi) as (out & out' & E & E' & S & S' & B).
  exists out, out'. split; [exact E|]. split; [exact E'|]. split; [exact S|]. split; [exact S'|]. eapply Rle_trans; [exact B|].
  pose proof (Rmult_le_compat_l _ _ _ (pos_INR cols) Bp). pose proof (Rmult_le_compat_l _ _ _ (pos_INR rows) Bs). lra.
Qed.
Print Assumptions C139_short_capture_timescales_are_almost_none.

(** ** C140: what remains after a correction is at most proportional to how far the image is from what the assumed
    settings would have given, for example because of noise ... *)
Theorem C140_errors_of_the_image_stay_small parallel serial time rows cols : (0 < rows)%nat -> (0 < cols)%nat ->
  mild_times parallel rows time -> mild_call parallel rows -> mild_call serial cols ->
  exists K r, 0 <= K /\ 0 <= r < 1 /\ forall x im, shape rows cols x -> shape rows cols im ->
  (forall i j, (i < rows)%nat -> (j < cols)%nat -> exists p s, any_limit parallel rows i p /\ any_limit serial cols j s /\
     p + s + Rabs (pixel im i j - pixel x i j) <= pixel x i j) ->
  exists right pr sr, add_cti x parallel serial time = Ok (right, pr, sr) /\
  forall n, exists est, remove_cti im n parallel serial time = Ok est /\ shape rows cols est /\
    image_apart est x <= K * (r ^ n * image_apart im x + image_apart im right).
Proof.
  intros Hr Hc Ht Hp Hs. destruct (mild_ready _ _ _ _ _ Hr Hc Ht Hp Hs) as (rp & rs & tw & lines & D1 & D2 & D3 & D4 & D5).
  destruct (correct_wrong parallel serial rows cols _ _ (fun i x => mild_nonneg parallel rows i x Hp) (fun i x => mild_nonneg serial cols i x Hs) Hr Hc rp rs time tw lines D1 D2 D3 D4 D5) as (K & r & HK & Hr1 & H).
  exists K, r. split; [exact HK|]. split; [exact Hr1|]. intros x im Sx Si Hx.
  destruct (H x im (fun i j => Rabs (pixel im i j - pixel x i j)) Sx Si (fun i j _ _ => Rle_refl _) Hx) as (right & E & H'). exists right, rp, rs. split; [exact E|exact H'].
Qed.
Print Assumptions C140_errors_of_the_image_stay_small.
(** ... or because it was read out with other settings. *)
Theorem C140_correction_with_almost_the_right_settings parallel serial rows cols : (0 < rows)%nat -> (0 < cols)%nat ->
  mild_call parallel rows -> mild_call serial cols ->
  exists K r, 0 <= K /\ 0 <= r < 1 /\ forall x parallel' serial' ep es, shape rows cols x ->
  settings_near parallel parallel' rows ep -> settings_near serial serial' cols es ->
  (forall i j, (i < rows)%nat -> (j < cols)%nat -> exists p s p' s', any_limit parallel rows i p /\ any_limit serial cols j s /\
     any_limit parallel' rows i p' /\ any_limit serial' cols j s' /\ (p + s) + (p' + s') <= pixel x i j) ->
  exists im pr sr, add_cti x parallel' serial' None = Ok (im, pr, sr) /\
  forall n, exists est, remove_cti im n parallel serial None = Ok est /\ shape rows cols est /\
    image_apart est x <= K * (r ^ n * image_apart im x + (INR cols * ep + INR rows * es)).
Proof.
  intros Hr Hc Hp Hs. assert (T : forall d, mild_times d rows None) by (intros d; split; [constructor|now left]).
  destruct (C140_errors_of_the_image_stay_small parallel serial None rows cols Hr Hc (T _) Hp Hs) as (K & r & HK & Hr1 & H). exists K, r. split; [exact HK|]. split; [exact Hr1|].
  intros x parallel' serial' ep es Sx Np Ns Hx. destruct (settings_mild _ _ _ _ Hr Np) as [_ Mp]. destruct (settings_mild _ _ _ _ Hc Ns) as [_ Ms].
  assert (Pos : forall i j, (i < rows)%nat -> (j < cols)%nat -> 0 <= pixel x i j).
  { intros i j Hi Hj. destruct (Hx i j Hi Hj) as (p & s & p' & s' & L1 & L2 & L3 & L4 & B).
    pose proof (mild_nonneg parallel rows i p Hp L1). pose proof (mild_nonneg serial cols j s Hs L2). pose proof (mild_nonneg parallel' rows i p' Mp L3). pose proof (mild_nonneg serial' cols j s' Ms L4). lra. }
  pose proof (shape_nonneg rows cols Hr Hc x Sx Pos) as Px.
  destruct (C138_readout_changes_little_with_the_settings x parallel serial parallel' serial' rows cols ep es Hr Hc Np Ns Sx Px) as (out & im & E & E' & So & Si & B).
  exists im, (the_roe parallel'), (the_roe serial'). split; [exact E'|].
  destruct (C120_no_pixel_changes_by_more_than_the_traps_it_passes x parallel' serial' None rows cols Hr Hc (T _) Mp Ms Sx Px) as (im0 & pr & sr & E0 & _ & _ & L).
  rewrite E' in E0. injection E0 as <- _ _.
  destruct (H x im Sx Si) as (right & pr' & sr' & Er & HR).
  { intros i j Hi Hj. destruct (Hx i j Hi Hj) as (p & s & p' & s' & L1 & L2 & L3 & L4 & Bx). exists p, s. split; [exact L1|]. split; [exact L2|]. specialize (L i j p' s' Hi Hj L3 L4). lra. }
  rewrite E in Er. injection Er as <- _ _. intros n. destruct (HR n) as (est & Ee & Se & Be). exists est. split; [exact Ee|]. split; [exact Se|]. eapply Rle_trans; [exact Be|].
  apply Rmult_le_compat_l; [exact HK|]. unfold image_apart in *. rewrite (apart_sym (concat im) (concat out)). lra.
Qed.
Print Assumptions C140_correction_with_almost_the_right_settings.

(** ** Settings that meet the conditions: a capture timescale of 0 or 1, and ten or nine traps per pixel. *)
Lemma even_rows_patient t : Forall capturing [t] -> t_class t = CTrap -> t_density t < 100 -> patient_setting (even_rows t) 4 even_ccd 1 [t] 1 100 1.
Proof. intros H1 H2 H3. constructor; [apply even_rows_setting|constructor; [exact H2|constructor]|exact H1|constructor; reflexivity|lra|lra|unfold full_traps; cbn; lra]. Qed.
Lemma even_columns_patient t : Forall capturing [t] -> t_class t = CTrap -> t_density t < 100 -> patient_setting (even_columns t) 3 even_ccd 1 [t] 2 100 1.
Proof. intros H1 H2 H3. constructor; [apply even_columns_setting|constructor; [exact H2|constructor]|exact H1|constructor; reflexivity|lra|lra|unfold full_traps; cbn; lra]. Qed.
Lemma near_example : exists ep es, settings_near (even_rows (prompt_trap 10)) (even_rows (slow_trap 9)) 4 ep /\ settings_near (even_columns (slow_trap 9)) (even_columns (prompt_trap 10)) 3 es.
Proof.
  eexists. eexists. split; [left|right].
  - apply (apart_slow _ _ 4 even_ccd 1 [prompt_trap 10] 1 100 1 even_ccd 1 [slow_trap 9] 1 100 1 0); [apply even_rows_patient; [apply prompt_trap_capturing; lra|reflexivity|cbn; lra]|apply even_rows_patient; [apply slow_trap_capturing; lra|reflexivity|cbn; lra]|reflexivity|repeat constructor|apply same_well].
  - apply (apart_slow _ _ 3 even_ccd 1 [prompt_trap 10] 2 100 1 even_ccd 1 [slow_trap 9] 2 100 1 0); [apply even_columns_patient; [apply prompt_trap_capturing; lra|reflexivity|cbn; lra]|apply even_columns_patient; [apply slow_trap_capturing; lra|reflexivity|cbn; lra]|reflexivity|repeat constructor|apply same_well].
Qed.
Example C138_example : trap_init 10 1 0 false = Ok (prompt_trap 10) /\ trap_init 9 1 1 false = Ok (slow_trap 9) /\
  (exists ep es, settings_near (even_rows (prompt_trap 10)) (even_rows (slow_trap 9)) 4 ep /\ settings_near (even_columns (slow_trap 9)) (even_columns (prompt_trap 10)) 3 es) /\
  shape 4 3 spots /\ (forall i j, 0 <= pixel spots i j).
Proof.
  split; [apply prompt_trap_init|]. split; [apply slow_trap_init|]. split; [exact near_example|]. split; [split; [reflexivity|repeat constructor]|].
  intros i j; unfold pixel; destruct i as [|[|[|[|i]]]]; [| | | |destruct i; destruct j; cbn; lra]; (destruct j as [|[|[|j]]]; [| | |destruct j]; cbn; lra).
Qed.
(** Instant traps in the rows, traps of the class [Trap] in the columns. *)
Lemma even_rows_instant rho : 0 <= rho < 100 -> instant_setting (even_rows (small_trap rho)) 4 even_ccd 1 [small_trap rho] 1 100 1.
Proof.
  intros Hr. assert (I : instant_group [small_trap rho]) by (apply small_group; lra).
  assert (P : plain_ccd even_ccd).
  { constructor; [reflexivity|intros [|[|k]]; unfold share; cbn; lra|]. intros [|k] Hk; [|cbn in Hk; lia]. exists 100, 1. split; [constructor; reflexivity|lra]. }
  constructor; [apply even_rows_setting|exact I|constructor; reflexivity|lra|lra|unfold full_traps; cbn; lra|left].
  exists 4%nat. split; [repeat constructor|]. split; [split; [repeat constructor; cbn; lia|cbn; auto]|]. split; [lia|right].
  exists even_ccd, (TNested [[small_trap rho]]), [1], DFloat, [small_trap rho].
  split; [constructor; try reflexivity; [left; reflexivity|exact P|split; [discriminate|constructor; [exact I|constructor]]|right; cbn; lia]|]. split; [reflexivity|].
  intros k x Hk Hx. cbn in Hk. assert (E : x = 1) by (rewrite Hx; cbn; lra). rewrite E. destruct k; [|lia]. exists 100, 1. split; [repeat split|]. cbn. lra.
Qed.
Example C138_instant_example : settings_near (even_rows (small_trap 10)) (even_rows (small_trap 9)) 4 96.
Proof.
  left. replace 96 with (6 * INR 4 * INR (d_offset (even_rows (small_trap 10)) + 4) * setting_error 1 1 0 (map (thinned 1) [small_trap 10]) (map (thinned 1) [small_trap 9])).
  - apply (apart_instant _ _ 4 even_ccd 1 [small_trap 10] 1 100 1 even_ccd 1 [small_trap 9] 1 100 1 0); [apply even_rows_instant; lra|apply even_rows_instant; lra|reflexivity|reflexivity|apply same_well].
  - unfold setting_error. cbn. unfold share_kept. cbn. rewrite (Rminus_eq_0 (exp _)), Rabs_R0, Rabs_right by lra. lra.
Qed.
(** Log-normal continua that differ in the density. *)
Lemma log_normal_facts rho t : 0 <= rho -> log_normal_trap (fun _ x => x) rho 3 (1 / 2) = Ok t ->
  flattening t /\ kind_for [t] = KTime /\ t_density t = rho /\ fill_fraction_from_time_elapsed t 0 = 1 /\
  forall time, fill_fraction_from_time_elapsed t time = continuum_fill log_normal_distribution 3 (1 / 2) time.
Proof.
  intros Hr E. destruct (continuum_built log_normal_distribution (fun _ x => x) rho 3 (1 / 2) ltac:(lra)) as (t' & E' & Ed & Ec). pose proof E as E0. unfold log_normal_trap in E0. rewrite E0 in E'. injection E' as <-.
  split; [apply (C114_continua_flatten (fun _ x => x) rho 3 (1 / 2)); try lra; exact E|]. split; [unfold kind_for; rewrite Ec; reflexivity|]. split; [exact Ed|].
  unfold fill_fraction_from_time_elapsed. rewrite Ec. split; [|reflexivity]. rewrite fill_survival. apply survival_at_0, log_normal_lifetimes; lra.
Qed.
Example C138_timed_example : exists t t', log_normal_trap (fun _ x => x) (1 / 8) 3 (1 / 2) = Ok t /\ log_normal_trap (fun _ x => x) (1 / 9) 3 (1 / 2) = Ok t' /\
  settings_near (even_rows t) (even_rows t') 4 (16 / 9).
Proof.
  destruct (continuum_built log_normal_distribution (fun _ x => x) (1 / 8) 3 (1 / 2) ltac:(lra)) as (t & E & _). destruct (continuum_built log_normal_distribution (fun _ x => x) (1 / 9) 3 (1 / 2) ltac:(lra)) as (t' & E' & _).
  exists t, t'. split; [exact E|]. split; [exact E'|].
  destruct (log_normal_facts (1 / 8) t ltac:(lra) E) as (F1 & F2 & F3 & F4 & F5). destruct (log_normal_facts (1 / 9) t' ltac:(lra) E') as (G1 & G2 & G3 & G4 & G5).
  left. replace (16 / 9) with (8 * INR 4 * INR (d_offset (even_rows t) + 4) * ((1 / 72 + 0) + filled_traps (map (thinned 1) [t]) * 0)) by (cbn; lra).
  apply (apart_timed _ _ 4 even_ccd 1 [t] 1 100 1 even_ccd 1 [t'] 1 100 1 0); [| |reflexivity| |apply same_well].
  - constructor; [apply even_rows_setting|exact F2|constructor; [exact F1|constructor]|constructor; reflexivity|lra|lra|unfold filled_traps; cbn [map fold_right]; rewrite F3, F4; lra].
  - constructor; [apply even_rows_setting|exact G2|constructor; [exact G1|constructor]|constructor; reflexivity|lra|lra|unfold filled_traps; cbn [map fold_right]; rewrite G3, G4; lra].
  - cbn [map]. constructor; [|constructor]. intros time Ht. rewrite !Rmult_1_r.
    assert (A : forall u, fill_fraction_from_time_elapsed (thinned 1 u) time = fill_fraction_from_time_elapsed u time) by reflexivity.
    assert (D : forall u, t_density (thinned 1 u) = 1 * t_density u) by (intros u; cbn; rnum; lra). rewrite !A, !D, F3, G3, G5, <- F5.
    destruct F1 as [[Fd Fp] _]. specialize (Fp time Ht). pose proof (fd_falls t Fd 0 time ltac:(lra)) as B. rewrite F4 in B. apply Rabs_le. lra.
Qed.
(** And the same continuum read out twice as slowly. *)
Definition slower_rows (t : trap R) : direction R := mkDir (Some even_ccd) (Some (roe_init [2] true true true DFloat)) (Some (TNested [[t]])) 9 0 WNone.
Example C138_dwell_example : exists t, log_normal_trap (fun _ x => x) (1 / 8) 3 (1 / 2) = Ok t /\ settings_near (even_rows t) (slower_rows t) 4 16.
Proof.
  destruct (continuum_built log_normal_distribution (fun _ x => x) (1 / 8) 3 (1 / 2) ltac:(lra)) as (t & E & _). exists t. split; [exact E|].
  destruct (log_normal_facts (1 / 8) t ltac:(lra) E) as (F1 & F2 & F3 & F4 & F5).
  left. replace 16 with (8 * INR 4 * INR (d_offset (even_rows t) + 4) * ((1 / 8 + 0) + filled_traps (map (thinned 1) [t]) * 0)) by (cbn; lra).
  apply (apart_timed _ _ 4 even_ccd 1 [t] 1 100 1 even_ccd 1 [t] 2 100 1 0); [| |reflexivity| |apply same_well].
  - constructor; [apply even_rows_setting|exact F2|constructor; [exact F1|constructor]|constructor; reflexivity|lra|lra|unfold filled_traps; cbn [map fold_right]; rewrite F3, F4; lra].
  - constructor; [|exact F2|constructor; [exact F1|constructor]|constructor; reflexivity|lra|lra|unfold filled_traps; cbn [map fold_right]; rewrite F3, F4; lra].
    constructor; try reflexivity; try lra; [exists (TNested [[t]]); split; reflexivity|discriminate|exists true, DFloat; reflexivity|right; cbn; lia].
  - cbn [map]. constructor; [|constructor]. intros k Hk.
    assert (A : forall u time, fill_fraction_from_time_elapsed (thinned 1 u) time = fill_fraction_from_time_elapsed u time) by reflexivity.
    assert (D : forall u, t_density (thinned 1 u) = 1 * t_density u) by (intros u; cbn; rnum; lra). rewrite !A, !D, F3.
    destruct F1 as [[Fd Fp] _]. pose proof (Fp (k * 1) ltac:(lra)) as P1. pose proof (Fp (k * 2) ltac:(lra)) as P2. pose proof (fd_falls t Fd 0 (k * 1) ltac:(lra)) as B1. pose proof (fd_falls t Fd 0 (k * 2) ltac:(lra)) as B2.
    rewrite F4 in B1, B2. apply Rabs_le. lra.
Qed.
(** Ten traps per pixel, four rows and three columns. *)
Example C139_example tau : 0 < tau -> trap_init 10 1 tau false = Ok (with_capture tau (prompt_trap 10)) /\
  slowed tau (even_rows (prompt_trap 10)) (even_rows (with_capture tau (prompt_trap 10))) 4 4320 /\
  slowed tau (even_columns (prompt_trap 10)) (even_columns (with_capture tau (prompt_trap 10))) 3 2700.
Proof.
  intros Ht.
  assert (Z : Forall zero_capture [prompt_trap 10]).
  { constructor; [|constructor]. split; [constructor; cbn; lra|]. split; reflexivity. }
  split; [|split].
  - unfold trap_init, trap_init_class, with_capture, prompt_trap. rnum. replace (Reqb 1 0) with false by (symmetry; apply Reqb_false; lra). replace (Reqb tau 0) with false by (symmetry; apply Reqb_false; lra). reflexivity.
  - replace 4320 with (9 * INR 4 * INR (d_offset (even_rows (prompt_trap 10)) + 4) * (1 * fold_right Rplus 0 (map (haste 1) [prompt_trap 10]))) by (unfold haste; cbn; lra).
    apply (slowed_traps tau _ _ 4 even_ccd 1 [prompt_trap 10] 1 100 1); [apply even_rows_patient; [apply prompt_trap_capturing; lra|reflexivity|cbn; lra]|exact Z|apply even_rows_setting|reflexivity].
  - replace 2700 with (9 * INR 3 * INR (d_offset (even_columns (prompt_trap 10)) + 3) * (1 * fold_right Rplus 0 (map (haste 2) [prompt_trap 10]))) by (unfold haste; cbn; lra).
    apply (slowed_traps tau _ _ 3 even_ccd 1 [prompt_trap 10] 2 100 1); [apply even_columns_patient; [apply prompt_trap_capturing; lra|reflexivity|cbn; lra]|exact Z|apply even_columns_setting|reflexivity].
Qed.
Example C140_example : mild_call (even_rows (prompt_trap 10)) 4 /\ mild_call (even_columns (slow_trap 9)) 3 /\ shape 4 3 lit /\
  (exists ep es, settings_near (even_rows (prompt_trap 10)) (even_rows (slow_trap 9)) 4 ep /\ settings_near (even_columns (slow_trap 9)) (even_columns (prompt_trap 10)) 3 es) /\
  (forall i j, (i < 4)%nat -> (j < 3)%nat -> exists p s p' s', any_limit (even_rows (prompt_trap 10)) 4 i p /\ any_limit (even_columns (slow_trap 9)) 3 j s /\
     any_limit (even_rows (slow_trap 9)) 4 i p' /\ any_limit (even_columns (prompt_trap 10)) 3 j s' /\ (p + s) + (p' + s') <= pixel lit i j).
Proof.
  destruct near_example as (ep & es & N1 & N2). split; [apply (settings_mild _ _ 4 ep ltac:(lia) N1)|]. split; [apply (settings_mild _ _ 3 es ltac:(lia) N2)|].
  split; [split; [reflexivity|repeat constructor]|]. split; [exists ep, es; split; assumption|].
  assert (LR : forall t i, t_class t = CTrap -> any_limit (even_rows t) 4 i (INR (i + 1 + 0) * (1 * full_traps [t]))).
  { intros t i Ht. right. apply (limit_patient (even_rows t) 4 i even_ccd 1 [t] 1); [apply even_rows_setting|constructor; [exact Ht|constructor]]. }
  assert (LC : forall t i, t_class t = CTrap -> any_limit (even_columns t) 3 i (INR (i + 1 + 1) * (1 * full_traps [t]))).
  { intros t i Ht. right. apply (limit_patient (even_columns t) 3 i even_ccd 1 [t] 2); [apply even_columns_setting|constructor; [exact Ht|constructor]]. }
  intros i j Hi Hj. do 4 eexists. split; [now apply LR|]. split; [now apply LC|]. split; [now apply LR|]. split; [now apply LC|].
  unfold full_traps. destruct i as [|[|[|[|i]]]]; [| | | |lia]; (destruct j as [|[|[|j]]]; [| | |lia]); unfold pixel; cbn; lra.
Qed.
