(** * Model of the continuum of release lifetimes (/repo/arcticpy/traps.py:229-415).
    Over the real numbers only: [scipy.integrate.quad(f, 0, inf)[0]] is the exact improper
    integral, and [scipy.optimize.fsolve] an arbitrary function [root] of the equation and the
    starting value.  The parameters mu and sigma are given (their defaults are None, with
    which numpy raises TypeError). *)
From Coq Require Import Reals.
From Coquelicot Require Import Rbar Hierarchy RInt_gen.
From Verif Require Import Num Py RFacts TrapsModel.
Open Scope R_scope.

(** [integrate.quad(f, 0, np.inf)[0]]. *)
Definition quad (f : R -> R) : R := RInt_gen f (at_right 0) (Rbar_locally p_infty).

Section Continuum.
(** [distribution_of_traps_with_lifetime(release_timescale, mu, sigma)]. *)
Context (distribution : R -> R -> R -> R) (mu sigma : R).

(** traps.py:272-303. *)
Definition continuum_fill (time_elapsed : R) : R :=
  quad (fun release_timescale => distribution release_timescale mu sigma * exp (- time_elapsed / release_timescale)).
(** traps.py:329-365. *)
Definition continuum_released (time_elapsed dwell_time : R) : R :=
  quad (fun release_timescale => distribution release_timescale mu sigma * exp (- time_elapsed / release_timescale)
                                 * (1 - exp (- dwell_time / release_timescale))).
(** traps.py:317-322: the equation, solved from 0.1 mu; the check that follows is in
    TrapsModel.time_elapsed_from_fill_fraction. *)
Definition continuum_solve (root : (R -> R) -> R -> R) (fill_fraction : R) : R :=
  root (fun time_elapsed => continuum_fill time_elapsed - fill_fraction) (1 / 10 * mu).
End Continuum.

(** traps.py:238-270. *)
Definition continuum_trap (distribution : R -> R -> R -> R) (root : (R -> R) -> R -> R) (density mu sigma : R) : result (trap R) :=
  trap_continuum_init (continuum_fill distribution mu sigma) (continuum_released distribution mu sigma)
    (continuum_solve distribution mu sigma root) density mu.

(** traps.py:371-389. *)
Definition log_normal_distribution (x median sigma : R) : R :=
  exp (- (ln x - ln median) ^ 2 / (2 * sigma ^ 2)) / (x * sigma * sqrt (2 * PI)).

(** traps.py:391-415, TrapLogNormalLifetimeContinuum. *)
Definition log_normal_trap : ((R -> R) -> R -> R) -> R -> R -> R -> result (trap R) :=
  continuum_trap log_normal_distribution.
