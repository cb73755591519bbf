(** * Model of /repo/arcticpy/traps.py. *)
From Coq Require Import ZArith List Bool.
From Verif Require Import Num Py.
Import ListNotations.
Open Scope num_scope.

Section Traps.
Context {F : Type} {num : Num F}.

(** Where the program would go on with a NaN: so does the model, if its numbers have one. *)
Definition zero_over_zero : result F := match nnan with Some x => Ok x | None => Err NotANumber end.

(** A capture rate: [np.inf] for instant capture, else a float (traps.py:48-51). *)
Inductive rate := RInf | RFin (r : F).

(** The class of a trap object.  A lifetime continuum (traps.py:229-415) computes
    its fill fraction by numerical quadrature (scipy.integrate.quad) and inverts it
    with scipy.optimize.fsolve: those external calls are oracle functions here,
    [fill t], [released t dt] and [solve f] (the last before the accuracy assertion of
    traps.py:325). *)
Inductive trap_class :=
| CTrap
| CInstant
| CContinuum (fill : F -> F) (released : F -> F -> F) (solve : F -> F).

(** A Trap object (traps.py:40-51). *)
Record trap := mkTrap {
  t_density : F;
  t_release_timescale : F;
  t_capture_rate : rate;
  t_emission_rate : F;
  t_surface : bool;
  t_class : trap_class
}.

(** traps.py:8-51, Trap.__init__: [1 / release_timescale] and [1 / capture_timescale]
    (ZeroDivisionError for a zero release timescale); capture_timescale = 0 means an
    infinite capture rate. *)
Definition trap_init_class (cls : trap_class) (density release_timescale capture_timescale : F)
    (surface : bool) : result trap :=
  if release_timescale =? n0 then Err ZeroDivisionError
  else
    let capture_rate :=
      if capture_timescale =? n0 then RInf else RFin (n1 / capture_timescale) in
    Ok (mkTrap density release_timescale capture_rate (n1 / release_timescale) surface cls).
Definition trap_init := trap_init_class CTrap.

(** traps.py:204-226, TrapInstantCapture.__init__: capture_timescale = 0. *)
Definition trap_instant_init (density release_timescale : F) (surface : bool) : result trap :=
  trap_init_class CInstant density release_timescale n0 surface.

(** traps.py:238-270, TrapLifetimeContinuumAbstract.__init__. *)
Definition trap_continuum_init (fill : F -> F) (released : F -> F -> F) (solve : F -> F)
    (density release_timescale_mu : F) : result trap :=
  trap_init_class (CContinuum fill released solve) density release_timescale_mu n0 false.

(** traps.py:61-75, and 272-303 for a continuum. *)
Definition fill_fraction_from_time_elapsed (t : trap) (time_elapsed : F) : F :=
  match t_class t with
  | CContinuum fill _ _ => fill time_elapsed
  | _ => nexp (- time_elapsed / t_release_timescale t)
  end.

(** traps.py:77-90, and 305-327 for a continuum: fsolve, then
    [assert abs(find_time(time_elapsed)) < 1e-7]. *)
Definition time_elapsed_from_fill_fraction (t : trap) (fill_fraction : F) : result F :=
  match t_class t with
  | CContinuum fill _ solve =>
      let time := solve fill_fraction in
      let err := fill time - fill_fraction in
      let abs_err := if err <? n0 then - err else err in
      if abs_err <? nq 1 10000000 then Ok time else Err AssertionError
  | _ => Ok (- t_release_timescale t * nln fill_fraction)
  end.

(** traps.py:92-108. *)
Definition electrons_released_from_electrons_and_dwell_time
    (t : trap) (electrons dwell_time : F) : F :=
  electrons * (n1 - fill_fraction_from_time_elapsed t dwell_time).

(** traps.py:110-130, and 329-365 for a continuum. *)
Definition electrons_released_from_time_elapsed_and_dwell_time
    (t : trap) (time_elapsed dwell_time : F) : F :=
  match t_class t with
  | CContinuum _ released _ => released time_elapsed dwell_time
  | _ => nexp (- time_elapsed / t_release_timescale t)
         * (n1 - nexp (- dwell_time / t_release_timescale t))
  end.

(** traps.py:159-198, Trap.poisson_trap(trap, shape, seed).  The seeded generator
    np.random.poisson is an oracle [draw column species_index mean] (a negative mean, for
    which numpy raises ValueError, is not distinguished); the result is one new [Trap]
    (class Trap, whatever the class of the input) per column and species.  An image with
    no row gives densities 0 / 0. *)
Definition poisson_trap (draw : nat -> nat -> F -> F) (traps : list trap)
    (rows columns : nat) : result (list trap) :=
  let nrows := nofZ (Z.of_nat rows) in
  mapM (fun '(col, (i, t)) =>
          do _ <- (if Nat.eqb rows 0 then zero_over_zero else Ok n0);
          trap_init (draw col i (t_density t * nrows) / nrows) (t_release_timescale t) n0 false)
       (list_prod (seq 0 columns) (combine (seq 0 (length traps)) traps)).

End Traps.
Arguments rate : clear implicits.
Arguments trap_class : clear implicits.
Arguments trap : clear implicits.
