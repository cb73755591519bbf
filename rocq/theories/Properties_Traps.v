(** * Properties C06 to C08: trap species (arcticpy/traps.py). *)
From Coq Require Import ZArith List Bool Reals Lra Lia.
From Verif Require Import Num Py RFacts CCDModel TrapsModel ManagerModel Spec TrapsFacts.
Import ListNotations.
Open Scope R_scope.

(** C06. *)
Theorem C06_full_at_time_zero t : exponential t -> fill_fraction_from_time_elapsed t 0 = 1.
Proof. exact (fill_fraction_0 t). Qed.
Print Assumptions C06_full_at_time_zero.

Theorem C06_fill_fraction_range t x : exponential t -> 0 < t_release_timescale t -> 0 <= x ->
  0 < fill_fraction_from_time_elapsed t x <= 1.
Proof. exact (fill_fraction_range t x). Qed.
Print Assumptions C06_fill_fraction_range.

Theorem C06_fill_fraction_decreases t x y : exponential t -> 0 < t_release_timescale t -> x < y ->
  fill_fraction_from_time_elapsed t y < fill_fraction_from_time_elapsed t x.
Proof. exact (fill_fraction_decr t x y). Qed.
Print Assumptions C06_fill_fraction_decreases.

Theorem C06_fill_of_time t f : exponential t -> 0 < t_release_timescale t -> 0 < f ->
  exists time, time_elapsed_from_fill_fraction t f = Ok time /\
    fill_fraction_from_time_elapsed t time = f.
Proof. exact (fill_of_time t f). Qed.
Print Assumptions C06_fill_of_time.

Theorem C06_time_of_fill t x : exponential t -> 0 < t_release_timescale t ->
  time_elapsed_from_fill_fraction t (fill_fraction_from_time_elapsed t x) = Ok x.
Proof. exact (time_of_fill t x). Qed.
Print Assumptions C06_time_of_fill.

(** C07. *)
Theorem C07_release_bounds t n dt : exponential t -> 0 < t_release_timescale t -> 0 <= n -> 0 <= dt ->
  0 <= electrons_released_from_electrons_and_dwell_time t n dt <= n.
Proof. exact (release_bounds t n dt). Qed.
Print Assumptions C07_release_bounds.

Theorem C07_release_composes t n t1 t2 : exponential t -> 0 < t_release_timescale t ->
  let r := electrons_released_from_electrons_and_dwell_time t in
  r n t1 + r (n - r n t1) t2 = r n (t1 + t2).
Proof. exact (release_compose t n t1 t2). Qed.
Print Assumptions C07_release_composes.

Theorem C07_release_is_drop_of_fill t x dt : exponential t -> 0 < t_release_timescale t ->
  electrons_released_from_time_elapsed_and_dwell_time t x dt
  = fill_fraction_from_time_elapsed t x - fill_fraction_from_time_elapsed t (x + dt).
Proof. exact (release_drop t x dt). Qed.
Print Assumptions C07_release_is_drop_of_fill.

(** Traps built by the two constructors meet the hypotheses of C06 and C07. *)
Example C06_example : exists t u,
  trap_init 10 2 (1/10) false = Ok t /\ exponential t /\ 0 < t_release_timescale t /\
  trap_instant_init 10 2 false = Ok u /\ exponential u /\ 0 < t_release_timescale u.
Proof.
  unfold trap_instant_init, trap_init, trap_init_class. rnum.
  rewrite (proj2 (Reqb_false 2 0)) by lra. rewrite (proj2 (Reqb_false (1/10) 0)) by lra.
  rewrite (proj2 (Reqb_true 0 0)) by lra.
  do 2 eexists. split; [reflexivity|]. split; [exact I|]. split; [cbn; lra|].
  split; [reflexivity|]. split; [exact I|]. cbn; lra.
Qed.

(** C08. The probabilities of a species are returned, ... *)
Theorem C08_fill_probabilities t dt c : t_capture_rate t = RFin c -> 0 < c -> 0 < t_emission_rate t -> 0 <= dt ->
  exists p_e p_f p_r, fill_probabilities1 dt t = Ok (p_e, p_f, p_r) /\
    0 <= p_e <= 1 /\ 0 <= p_f <= 1 /\ 0 <= p_r <= 1 /\ p_e <= p_f /\ p_r <= p_f.
Proof. exact (fill_probabilities_range t dt c). Qed.
Print Assumptions C08_fill_probabilities.

(** ... the evolution they describe solves the rate equation, ... *)
Theorem C08_rate_equation t c f : t_capture_rate t = RFin c -> 0 < c -> 0 < t_emission_rate t ->
  exists fill : R -> R,
    (forall dt, exists p_e p_f p_r, fill_probabilities1 dt t = Ok (p_e, p_f, p_r) /\
       fill dt = f * p_f + (1 - f) * p_e) /\
    fill 0 = f /\
    forall dt, derivable_pt_lim fill dt (c * (1 - fill dt) - t_emission_rate t * fill dt).
Proof. exact (rate_equation t c f). Qed.
Print Assumptions C08_rate_equation.

(** ... and two dwell times compose. *)
Theorem C08_two_dwell_times t c f t1 t2 : t_capture_rate t = RFin c -> 0 < c -> 0 < t_emission_rate t ->
  exists e1 f1 r1 e2 f2 r2 e3 f3 r3,
    fill_probabilities1 t1 t = Ok (e1, f1, r1) /\
    fill_probabilities1 t2 t = Ok (e2, f2, r2) /\
    fill_probabilities1 (t1 + t2) t = Ok (e3, f3, r3) /\
    (let g := f * f1 + (1 - f) * e1 in g * f2 + (1 - g) * e2) = f * f3 + (1 - f) * e3 /\
    f * r1 * r2 = f * r3.
Proof. exact (two_dwell_times t c f t1 t2). Qed.
Print Assumptions C08_two_dwell_times.

(** Instant capture: an infinite capture rate gives certain filling. *)
Theorem C08_instant_capture t dt : t_capture_rate t = RInf -> 0 < dt -> 0 < t_emission_rate t ->
  exists p_r, fill_probabilities1 dt t = Ok (1, 1, p_r) /\ 0 < p_r < 1.
Proof. exact (fill_probabilities_instant t dt). Qed.
Print Assumptions C08_instant_capture.

Example C08_example : exists t, trap_init 10 2 (1/10) false = Ok t /\
  t_capture_rate t = RFin (1 / (1/10)) /\ 0 < 1 / (1/10) /\ 0 < t_emission_rate t.
Proof.
  unfold trap_init, trap_init_class. rnum.
  rewrite (proj2 (Reqb_false 2 0)) by lra. rewrite (proj2 (Reqb_false (1/10) 0)) by lra.
  eexists. split; [reflexivity|]. cbn. split; [reflexivity|]. lra.
Qed.
