(** * Specification: how many electrons the traps of a pixel can hold. *)
From Coq Require Import List Reals.
From Verif Require Import Num TrapsModel Spec SpecTime.
Import ListNotations.
Open Scope R_scope.

(** A species whose filling curve never rises and never falls below zero. *)
Definition holding (t : trap R) : Prop :=
  fading t /\ forall time, 0 <= time -> 0 <= fill_fraction_from_time_elapsed t time.

(** Slow and instant traps can all be full; traps that record times are as full as their
    filling curve says just after they were filled. *)
Definition full_traps (group : list (trap R)) : R := fold_right Rplus 0 (map (@t_density R) group).
Definition filled_traps (group : list (trap R)) : R :=
  fold_right Rplus 0 (map (fun t => t_density t * fill_fraction_from_time_elapsed t 0) group).
