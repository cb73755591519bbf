(** * Specification: the HST ACS model, in the terms of the comments of main.py:316-396. *)
From Coq Require Import List Reals.
From Verif Require Import Num CCDModel TrapsModel ManagerModel ROEModel MainModel Spec.
Import ListNotations.
Open Scope R_scope.

(** Traps per pixel on a Julian date: they accumulate at a constant rate, with a different
    fit since the repair in Servicing Mission 4. *)
Definition launch : R := 2452334.5.
Definition repair : R := 2454968.
Definition cooling : R := 2453920.
Definition traps_on (date : R) : R :=
  if Rlt_dec date repair then 0.017845 + 0.00035488 * (date - launch)
  else 1.011 * (-0.246591 + 0.000558980 * (date - launch)).
(** The measured release times, in transfers, at the present temperature of -81 C. *)
Definition release_times_now : list R := [0.74; 7.7; 37].
