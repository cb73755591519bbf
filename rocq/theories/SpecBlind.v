(** * Specification: traps that cannot capture, or of which there are none. *)
From Coq Require Import List Reals.
From Verif Require Import Num CCDModel TrapsModel ManagerModel ROEModel ClockModel MainModel Spec SpecReadout SpecHistory.
Import ListNotations.
Open Scope R_scope.

(** A [Trap] with an infinite capture timescale (the rate is 0), that can release. *)
Definition blind (t : trap R) : Prop := physical t /\ t_class t = CTrap /\ t_capture_rate t = RFin 0.
(** Every group of a direction is made of such traps, or has no trap at all. *)
Definition harmless (d : direction R) : Prop :=
  forall traps group, d_traps d = Some traps -> In group (groups_in traps) ->
    Forall blind group \/ Forall (fun t => t_density t = 0) group.
