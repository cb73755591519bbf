(** * Property C141: narrow continua of lifetimes. *)
From Coquelicot Require Import Coquelicot.
From Coq Require Import ZArith List Bool Reals Lra Lia.
From Verif Require Import Num Py RFacts CCDModel TrapsModel ContinuumModel ManagerModel ROEModel ClockModel MainModel Spec SpecImage SpecReadout SpecTime SpecHold SpecRecovery SpecPhases SpecWindowOrder SpecFlatten SpecPatient SpecMild SpecCalibration SpecSlowCalibration
  NarrowFacts ContinuumFacts SolverFacts LogNormalFacts GridFacts ContractFacts SlowNearbyImageFacts ReadoutExamples Properties_Mild Properties_SlowCalibration.
Import ListNotations.
Open Scope R_scope.

(** ** C141: the fraction of the traps of a log-normal continuum that are still full differs from that of traps
    with the median lifetime by at most the width of the continuum, at any time. *)
Theorem C141_a_narrow_continuum_releases_like_one_lifetime root density m sigma surface t t' time : 0 < m -> 0 < sigma -> 0 <= time ->
  trap_instant_init density m surface = Ok t -> log_normal_trap root density m sigma = Ok t' ->
  Rabs (fill_fraction_from_time_elapsed t' time - fill_fraction_from_time_elapsed t time) <= sigma.
Proof.
  intros Hm Hs Ht E E'. unfold trap_instant_init, trap_init_class in E. rnum. destruct (Reqb m 0); [discriminate|]. injection E as <-.
  unfold log_normal_trap in E'. destruct (continuum_built log_normal_distribution root density m sigma ltac:(lra)) as (u & E0 & _ & Ec). rewrite E0 in E'. injection E' as <-.
  unfold fill_fraction_from_time_elapsed at 1. rewrite Ec. exact (narrow_survival m sigma Hm Hs time Ht).
Qed.
Print Assumptions C141_a_narrow_continuum_releases_like_one_lifetime.

(** ** C141: it releases about as many electrons ... *)
Theorem C141_a_narrow_continuum_gives_back_like_one_lifetime root density m sigma surface t t' time dwell : 0 < m -> 0 < sigma -> 0 <= time -> 0 <= dwell ->
  trap_instant_init density m surface = Ok t -> log_normal_trap root density m sigma = Ok t' ->
  Rabs (electrons_released_from_time_elapsed_and_dwell_time t' time dwell - electrons_released_from_time_elapsed_and_dwell_time t time dwell) <= 2 * sigma.
Proof.
  intros Hm Hs Ht Hd E E'. unfold trap_instant_init, trap_init_class in E. rnum. destruct (Reqb m 0); [discriminate|]. injection E as <-.
  unfold log_normal_trap in E'. destruct (continuum_built log_normal_distribution root density m sigma ltac:(lra)) as (u & E0 & _ & Ec). rewrite E0 in E'. injection E' as <-.
  unfold electrons_released_from_time_elapsed_and_dwell_time at 1. rewrite Ec. rewrite (released_drop _ _ _ (log_normal_lifetimes m sigma Hs)) by assumption.
  pose proof (narrow_survival m sigma Hm Hs time Ht) as A. pose proof (narrow_survival m sigma Hm Hs (time + dwell) ltac:(lra)) as B.
  unfold electrons_released_from_time_elapsed_and_dwell_time. cbn [t_class t_release_timescale]. rnum.
  replace (exp (- time / m) * (1 - exp (- dwell / m))) with (exp (- time / m) - exp (- (time + dwell) / m)).
  - apply Rabs_le_between in A. apply Rabs_le_between in B. apply Rabs_le_between. lra.
  - replace (- (time + dwell) / m) with (- time / m + - dwell / m) by (field; lra). rewrite exp_plus. ring.
Qed.
Print Assumptions C141_a_narrow_continuum_gives_back_like_one_lifetime.

(** ** C141: ... and whatever time since capture the numerical solver returns, and the assertion of traps.py:325 lets
    pass, it is close to that of a single lifetime. *)
Theorem C141_times_of_a_narrow_continuum root density m sigma surface t t' fraction time' : 0 < m -> 0 < sigma -> sigma + 1 / 10000000 < fraction ->
  trap_instant_init density m surface = Ok t -> log_normal_trap root density m sigma = Ok t' ->
  time_elapsed_from_fill_fraction t' fraction = Ok time' -> 0 <= time' ->
  exists time, time_elapsed_from_fill_fraction t fraction = Ok time /\
    m * ln (fraction / (fraction + (sigma + 1 / 10000000))) <= time' - time <= m * ln (fraction / (fraction - (sigma + 1 / 10000000))).
Proof.
  intros Hm Hs Hf E E' Et Ht. unfold trap_instant_init, trap_init_class in E. rnum. destruct (Reqb m 0); [discriminate|]. injection E as <-.
  unfold log_normal_trap in E'. destruct (continuum_built log_normal_distribution root density m sigma ltac:(lra)) as (u & E0 & _ & Ec). rewrite E0 in E'. injection E' as <-.
  eexists. split; [reflexivity|]. cbn [t_release_timescale]. rnum.
  unfold time_elapsed_from_fill_fraction in Et. rewrite Ec in Et. cbv zeta in Et. rnum. unfold nq in Et. rnum.
  set (q := fraction) in *. set (eps := sigma + 1 / 10000000) in *.
  assert (A : Rabs (continuum_fill log_normal_distribution m sigma time' - q) <= 1 / 10000000).
  { destruct (Rltb (if Rltb (continuum_fill log_normal_distribution m sigma (continuum_solve log_normal_distribution m sigma root q) - q) 0 then _ else _) _) eqn:L; [|discriminate].
    injection Et as Et. rewrite Et in L. apply Rltb_true in L. unfold Rabs. destruct (Rcase_abs _) as [N|N].
    - assert (X : Rltb (continuum_fill log_normal_distribution m sigma time' - q) 0 = true) by now apply Rltb_true. rewrite X in L. lra.
    - assert (X : Rltb (continuum_fill log_normal_distribution m sigma time' - q) 0 = false) by (apply Rltb_false; lra). rewrite X in L. lra. }
  pose proof (narrow_survival m sigma Hm Hs time' Ht) as B. apply Rabs_le_between in A. apply Rabs_le_between in B.
  assert (Q : q - eps <= exp (- time' / m) <= q + eps) by (unfold eps; lra). assert (Q0 : 0 < q - eps) by lra. assert (E0' : 0 < eps) by (unfold eps; lra).
  assert (L1 : ln (q - eps) <= - time' / m) by (rewrite <- (ln_exp (- time' / m)); apply ln_le; lra).
  assert (L2 : - time' / m <= ln (q + eps)) by (rewrite <- (ln_exp (- time' / m)); apply ln_le; [apply exp_pos|lra]).
  assert (T : time' = - m * (- time' / m)) by (field; lra).
  unfold Rdiv at 1 2. rewrite !ln_mult, !ln_Rinv by (try apply Rinv_0_lt_compat; lra).
  split; nra.
Qed.
Print Assumptions C141_times_of_a_narrow_continuum.

(** ** C141: the image read out past narrow continua, for which arcticpy records times, is close to that read out past traps
    with one lifetime for each species, for which it records occupancies. *)
Theorem C141_narrow_continua_act_like_single_lifetimes im sigma parallel serial parallel' serial' rows cols p s : (0 < rows)%nat -> (0 < cols)%nat -> 0 < sigma ->
  spread_out sigma parallel parallel' rows p -> spread_out sigma serial serial' cols s -> shape rows cols im -> (forall i j, 0 <= pixel im i j) ->
  exists out out', add_cti im parallel serial None = Ok (out, the_roe parallel, the_roe serial) /\
    add_cti im parallel' serial' None = Ok (out', the_roe parallel', the_roe serial') /\ shape rows cols out /\ shape rows cols out' /\
    image_apart out out' <= sigma * (INR cols * p + INR rows * s).
Proof.
  intros Hr Hc Ht Hp Hs Si Pi. destruct (spread_near sigma _ _ _ _ Ht Hp) as (ep & Np & Bp). destruct (spread_near sigma _ _ _ _ Ht Hs) as (es & Ns & Bs).
  destruct (C138_readout_changes_little_with_the_settings im parallel serial parallel' serial' rows cols ep es Hr Hc (or_intror Np) (or_intror Ns) Si Pi) as (out & out' & E & E' & S & S' & B).
  exists out, out'. split; [exact E|]. split; [exact E'|]. split; [exact S|]. split; [exact S'|]. eapply Rle_trans; [exact B|].
  pose proof (Rmult_le_compat_l _ _ _ (pos_INR cols) Bp). pose proof (Rmult_le_compat_l _ _ _ (pos_INR rows) Bs). lra.
Qed.
Print Assumptions C141_narrow_continua_act_like_single_lifetimes.

(** Ten traps per pixel, four rows. *)
Example C141_example sigma : 0 < sigma -> exists t', log_normal_trap (fun _ x => x) 10 (t_release_timescale (small_trap 10)) sigma = Ok t' /\
  spread_out sigma (even_rows (small_trap 10)) (even_rows t') 4 1280 /\ shape 4 3 spots /\ (forall i j, 0 <= pixel spots i j).
Proof.
  intros Hs. destruct (continuum_built log_normal_distribution (fun _ x => x) 10 (t_release_timescale (small_trap 10)) sigma ltac:(cbn; lra)) as (t' & E & _). exists t'. split; [exact E|]. split.
  - replace 1280 with (8 * INR 4 * INR (d_offset (even_rows (small_trap 10)) + 4) * (1 * full_traps [small_trap 10])) by (unfold full_traps; cbn; lra).
    apply (spread_traps sigma _ _ 4 even_ccd 1 [small_trap 10] [t'] 1 100 1); [apply even_rows_instant; lra| |apply even_rows_setting|reflexivity].
    constructor; [|constructor]. exists (fun _ x => x). exact E.
  - split; [split; [reflexivity|repeat constructor]|]. intros i j. unfold pixel, spots. destruct i as [|[|[|[|[|i]]]]]; destruct j as [|[|[|[|j]]]]; cbn; lra.
Qed.
(** A width of a tenth, and half of the traps full. *)
Example C141_times_example : exists t t' time', trap_instant_init 10 1 false = Ok t /\ log_normal_trap best_root 10 1 (1 / 10) = Ok t' /\ 1 / 10 + 1 / 10000000 < 1 / 2 /\
  time_elapsed_from_fill_fraction t' (1 / 2) = Ok time' /\ 0 <= time'.
Proof.
  destruct (continuum_built log_normal_distribution best_root 10 1 (1 / 10) ltac:(lra)) as (t' & E & _).
  destruct (solver_fraction log_normal_distribution best_root 10 1 (1 / 10) t' ltac:(lra) (log_normal_lifetimes 1 (1 / 10) ltac:(lra)) E best_root_finds (1 / 2) ltac:(lra)) as (time' & P & Q & _).
  exists (small_trap 10), t', time'. split; [apply small_trap_init|]. split; [exact E|]. split; [lra|]. split; [exact Q|exact P].
Qed.
