(** * Properties C55 and C56: the effect of a species on ellipticities, and traps with a
    continuum of release lifetimes (arcticpy/traps.py:132-157 and 229-415). *)
From Coq Require Import List Bool Reals Lra Lia.
From Coquelicot Require Import Rbar Hierarchy RInt_gen.
From Verif Require Import Num Py RFacts CCDModel TrapsModel ManagerModel Spec SpecTime ContinuumModel SpecContinuum EllipticityModel
  EllipticityFacts GaussFacts ContinuumFacts LogNormalFacts SolverFacts.
Import ListNotations.
Open Scope R_scope.

(** ** C55: every species adds to the ellipticity, in proportion to its density, whatever its
    release timescale; none adds more than 0.2051 per trap and pixel. *)
Theorem C55_ellipticity_bounds (t : trap R) : 0 < t_density t ->
  t_density t * (5 / 10000) < delta_ellipticity t < t_density t * (2051 / 10000).
Proof. exact (ellipticity_bounds t). Qed.
Print Assumptions C55_ellipticity_bounds.
Theorem C55_proportional_to_density (k : R) (t u : trap R) :
  t_density u = k * t_density t -> t_release_timescale u = t_release_timescale t ->
  delta_ellipticity u = k * delta_ellipticity t.
Proof. intros Hd Ht. unfold delta_ellipticity. rewrite Hd, Ht. ring. Qed.
Print Assumptions C55_proportional_to_density.
(** Traps slower than exp(1.628) are above the middle of the sigmoid. *)
Theorem C55_slow_species (t : trap R) : 0 < t_density t -> exp (1628 / 1000) <= t_release_timescale t ->
  t_density t * (5333 / 100000) < delta_ellipticity t.
Proof. exact (ellipticity_slow t). Qed.
Print Assumptions C55_slow_species.
(** Traps that release in about 1.58 transfers do the most harm: more than all faster than 1
    and all slower than 7.4. *)
Theorem C55_most_harmful_lifetime (t u : trap R) : 0 < t_density t -> t_density u = t_density t ->
  t_release_timescale t = exp (4553 / 10000) -> (0 < t_release_timescale u <= 1 \/ exp 2 <= t_release_timescale u) ->
  delta_ellipticity u < delta_ellipticity t.
Proof. exact (ellipticity_worst t u). Qed.
Print Assumptions C55_most_harmful_lifetime.
Example C55_most_harmful_example :
  delta_ellipticity (mkTrap 10 (1/2) RInf (1/8) false CTrap) < delta_ellipticity (mkTrap 10 (exp (4553 / 10000)) RInf (1/8) false CTrap).
Proof. apply C55_most_harmful_lifetime; cbn; [lra|reflexivity..|left; lra]. Qed.
Example C55_example : let t := mkTrap 10 8 RInf (1/8) false CTrap in
  0 < t_density t /\ exp (1628 / 1000) <= t_release_timescale t.
Proof.
  cbn. split; [lra|]. replace 8 with (exp (ln 8)) by (apply exp_ln; lra). apply exp_le.
  replace 8 with (2 * 2 * 2) by lra. rewrite !ln_mult by lra.
  assert (H : 163 / 300 <= ln 2); [|lra]. rewrite <- (ln_exp (163 / 300)). apply Rlt_le, ln_increasing; [apply exp_pos|].
  replace (163 / 300) with (163 / 600 + 163 / 600) by lra. rewrite exp_plus.
  assert (B : exp (163 / 600) < 14 / 10).
  { rewrite <- (Ropp_involutive (163 / 600)), exp_Ropp. replace (14 / 10) with (/ (10 / 14)) by lra.
    assert (L : 1 + - (163 / 600) < exp (- (163 / 600))) by (apply exp_ineq1; lra).
    apply Rinv_lt_contravar; [apply Rmult_lt_0_compat; [lra|apply exp_pos]|]. lra. }
  pose proof (exp_pos (163 / 600)). nra.
Qed.

(** ** C56: the log-normal density integrates to 1 over all lifetimes, half of it below the
    median. *)
Theorem C56_log_normal_is_a_distribution median sigma : 0 < median -> 0 < sigma ->
  lifetimes (fun x => log_normal_distribution x median sigma) /\
  is_RInt_gen (fun x => log_normal_distribution x median sigma) (at_right 0) (at_point median) (1 / 2).
Proof. intros Hm Hs. split; [exact (log_normal_lifetimes median sigma Hs)|exact (log_normal_median median sigma Hm Hs)]. Qed.
Print Assumptions C56_log_normal_is_a_distribution.
(** For every distribution of lifetimes: the traps are full at first, and empty gradually and
    completely. *)
Theorem C56_fill_fraction distribution root density mu sigma : mu <> 0 -> lifetimes (fun x => distribution x mu sigma) ->
  exists t, continuum_trap distribution root density mu sigma = Ok t /\ t_density t = density /\
    let fill := fill_fraction_from_time_elapsed t in
    fill 0 = 1 /\ (forall s, 0 <= s -> 0 < fill s <= 1) /\ (forall s u, 0 <= s < u -> fill u < fill s) /\
    (forall eps, 0 < eps -> exists T, forall s, 0 <= s -> T <= s -> fill s < eps).
Proof.
  intros Hmu Hl. destruct (continuum_built distribution root density mu sigma Hmu) as (t & E & Ed & Ec). exists t. split; [exact E|]. split; [exact Ed|].
  intros fill. assert (F : forall s, fill s = survival (fun x => distribution x mu sigma) s).
  { intros s. unfold fill, fill_fraction_from_time_elapsed. now rewrite Ec. }
  repeat apply conj.
  - rewrite F. apply (survival_at_0 _ Hl).
  - intros s Hs. rewrite F. split; [now apply (survival_positive _ Hl)|]. rewrite <- (survival_at_0 _ Hl). apply (survival_falls _ Hl). lra.
  - intros s u H. rewrite !F. now apply (survival_falls_strictly _ Hl).
  - intros eps He. destruct (survival_vanishes _ Hl eps He) as (T & HT). exists T. intros s Hs HTs. rewrite F. now apply HT.
Qed.
Print Assumptions C56_fill_fraction.
(** What is released while waiting is what was filled before less what is filled after. *)
Theorem C56_released_is_the_drop distribution root density mu sigma t s dwell :
  mu <> 0 -> lifetimes (fun x => distribution x mu sigma) -> continuum_trap distribution root density mu sigma = Ok t ->
  0 <= s -> 0 <= dwell ->
  electrons_released_from_time_elapsed_and_dwell_time t s dwell =
    fill_fraction_from_time_elapsed t s - fill_fraction_from_time_elapsed t (s + dwell) /\
  0 <= electrons_released_from_time_elapsed_and_dwell_time t s dwell.
Proof.
  intros Hmu Hl E Hs Hd. destruct (continuum_built distribution root density mu sigma Hmu) as (t' & E' & _ & Ec). rewrite E in E'. injection E' as <-.
  unfold electrons_released_from_time_elapsed_and_dwell_time, fill_fraction_from_time_elapsed. rewrite Ec. split.
  - exact (released_drop distribution mu sigma Hl s dwell Hs Hd).
  - exact (proj1 (released_range distribution mu sigma Hl s dwell Hs Hd)).
Qed.
Print Assumptions C56_released_is_the_drop.
(** A continuum ages: the traps that are still full after a time release no faster than new
    ones. *)
Theorem C56_old_traps_release_no_faster distribution root density mu sigma t s dwell :
  mu <> 0 -> lifetimes (fun x => distribution x mu sigma) -> continuum_trap distribution root density mu sigma = Ok t ->
  0 <= s -> 0 <= dwell ->
  fill_fraction_from_time_elapsed t s * fill_fraction_from_time_elapsed t dwell <= fill_fraction_from_time_elapsed t (s + dwell).
Proof.
  intros Hmu Hl E Hs Hd. destruct (continuum_built distribution root density mu sigma Hmu) as (t' & E' & _ & Ec). rewrite E in E'. injection E' as <-.
  unfold fill_fraction_from_time_elapsed. rewrite Ec. exact (survival_ages _ Hl s dwell Hs Hd).
Qed.
Print Assumptions C56_old_traps_release_no_faster.
(** Violated: the number of electrons released by a given number of trapped electrons
    (traps.py:92-108) agrees with the number released since a given time (329-365).  For every
    log-normal continuum it is too large, at all times and for all waiting times. *)
Theorem C56_released_from_electrons_refuted root density median sigma t s dwell :
  0 < median -> 0 < sigma -> log_normal_trap root density median sigma = Ok t -> 0 < s -> 0 < dwell ->
  electrons_released_from_time_elapsed_and_dwell_time t s dwell <
  electrons_released_from_electrons_and_dwell_time t (fill_fraction_from_time_elapsed t s) dwell.
Proof.
  intros Hm Hs E Hs0 Hd. pose proof (log_normal_lifetimes median sigma Hs) as Hl.
  destruct (continuum_built log_normal_distribution root density median sigma ltac:(lra)) as (t' & E' & _ & Ec).
  unfold log_normal_trap in E. rewrite E in E'. injection E' as <-.
  unfold electrons_released_from_time_elapsed_and_dwell_time, electrons_released_from_electrons_and_dwell_time, fill_fraction_from_time_elapsed.
  rewrite Ec. rewrite (released_drop _ _ _ Hl s dwell) by lra. rewrite !fill_survival.
  pose proof (survival_ages_strictly _ Hl s dwell (log_normal_positive median sigma Hs) Hs0 Hd). rnum. lra.
Qed.
Print Assumptions C56_released_from_electrons_refuted.
(** The manager that records times can therefore be used with them (C22). *)
Theorem C56_log_normal_traps_fade root density median sigma t : 0 <= density -> 0 < median -> 0 < sigma ->
  log_normal_trap root density median sigma = Ok t -> fading t.
Proof. exact (log_normal_fades root density median sigma t). Qed.
Print Assumptions C56_log_normal_traps_fade.
Example C56_example : exists t, log_normal_trap (fun _ x => x) 10 1 (1/2) = Ok t /\ fading t /\
  fill_fraction_from_time_elapsed t 0 = 1 /\ fill_fraction_from_time_elapsed t 2 < fill_fraction_from_time_elapsed t 1.
Proof.
  destruct (C56_fill_fraction log_normal_distribution (fun _ x => x) 10 1 (1/2)) as (t & E & _ & F0 & _ & F & _).
  - lra.
  - apply log_normal_lifetimes. lra.
  - exists t. split; [exact E|]. split; [apply (log_normal_fades (fun _ x => x) 10 1 (1/2)); [lra..|exact E]|]. split; [exact F0|]. apply F. lra.
Qed.
(** The times computed from fill fractions (traps.py:285-327): with a solver that finds the
    solution of equations with one solution, every fraction above 0 and up to 1 belongs to a
    time, and the time returned for the fraction filled at a time is that time.  So the
    trapped electrons recorded as times are recovered. *)
Theorem C56_times_are_recovered distribution root density mu sigma t :
  mu <> 0 -> lifetimes (fun x => distribution x mu sigma) -> continuum_trap distribution root density mu sigma = Ok t -> finds_only_root root ->
  (forall s, 0 <= s -> time_elapsed_from_fill_fraction t (fill_fraction_from_time_elapsed t s) = Ok s) /\
  (forall f, 0 < f <= 1 -> exists s, 0 <= s /\ time_elapsed_from_fill_fraction t f = Ok s /\ fill_fraction_from_time_elapsed t s = f).
Proof.
  intros Hmu Hl E Hr. split.
  - intros s. exact (solver_time distribution root density mu sigma t Hmu Hl E Hr s).
  - intros f. exact (solver_fraction distribution root density mu sigma t Hmu Hl E Hr f).
Qed.
Print Assumptions C56_times_are_recovered.
Example C56_times_example : exists t s, log_normal_trap best_root 10 1 (1/2) = Ok t /\ finds_only_root best_root /\
  time_elapsed_from_fill_fraction t (1/3) = Ok s /\ 0 < s.
Proof.
  destruct (continuum_built log_normal_distribution best_root 10 1 (1/2) ltac:(lra)) as (t & E & _).
  pose proof (log_normal_lifetimes 1 (1/2) ltac:(lra)) as Hl.
  destruct (C56_times_are_recovered log_normal_distribution best_root 10 1 (1/2) t ltac:(lra) Hl E best_root_finds) as [_ H].
  destruct (H (1/3) ltac:(lra)) as (s & Hs & Es & F). exists t, s. split; [exact E|]. split; [exact best_root_finds|]. split; [exact Es|].
  destruct (Rle_lt_or_eq_dec 0 s Hs) as [L|L]; [exact L|exfalso]. subst s.
  destruct (C56_fill_fraction log_normal_distribution best_root 10 1 (1/2) ltac:(lra) Hl) as (t' & E' & _ & F0 & _).
  rewrite E in E'. injection E' as <-. cbv zeta in F0. rewrite F in F0. lra.
Qed.

(** The constructor accepts every median but 0; the traps capture instantly. *)
Theorem C56_constructor distribution root density mu sigma :
  (mu = 0 <-> continuum_trap distribution root density mu sigma = Err ZeroDivisionError) /\
  forall t, continuum_trap distribution root density mu sigma = Ok t ->
    mu <> 0 /\ t_density t = density /\ t_release_timescale t = mu /\ t_emission_rate t * mu = 1 /\ t_capture_rate t = RInf /\ t_surface t = false.
Proof.
  unfold continuum_trap, trap_continuum_init, trap_init_class. rnum. rewrite (proj2 (Reqb_true 0 0) eq_refl).
  destruct (Reqb mu 0) eqn:E; [apply Reqb_true in E|apply Reqb_false in E]; (split; [split; [try tauto; congruence|intros H; try discriminate; tauto]|]).
  - intros t H. discriminate.
  - intros t H. injection H as <-. cbn. repeat split; auto. field. exact E.
Qed.
Print Assumptions C56_constructor.
Example C56_constructor_example : exists t, log_normal_trap (fun _ x => x) 10 4 (1/2) = Ok t /\ t_emission_rate t = 1/4.
Proof.
  unfold log_normal_trap, continuum_trap, trap_continuum_init, trap_init_class. rnum. replace (Reqb 4 0) with false by (symmetry; apply Reqb_false; lra).
  eexists. split; reflexivity.
Qed.
