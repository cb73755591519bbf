(** * Specification: capture in no time, by the two classes of traps. *)
From Coq Require Import List Reals.
From Verif Require Import Num TrapsModel Spec.
Import ListNotations.
Open Scope R_scope.

(** [Trap(density, release_timescale)], with the default capture timescale of 0. *)
Definition zero_capture (t : trap R) : Prop := physical t /\ t_class t = CTrap /\ t_capture_rate t = RInf.
(** [TrapInstantCapture] with the same density and release timescale. *)
Definition instant_version (t : trap R) : trap R :=
  mkTrap (t_density t) (t_release_timescale t) RInf (t_emission_rate t) (t_surface t) CInstant.
