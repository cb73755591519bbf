(** * Specification: readout past traps of any of the three kinds, in wells that grow slowly enough. *)
From Coq Require Import ZArith List Bool Reals.
From Verif Require Import Num Py CCDModel TrapsModel ManagerModel ROEModel ClockModel MainModel Spec SpecImage SpecReadout SpecTime SpecSlow SpecHistory SpecHold SpecWindowOrder SpecAbove SpecFlatten.
Import ListNotations.
Open Scope R_scope.

(** One direction of readout past traps of the class [Trap], whatever their capture timescale, every transfer computed: an
    electron more in a cloud of at least [floor] electrons reaches less than one trap more. *)
Definition patient_call (floor : R) (d : direction R) (n : nat) : Prop :=
  exists c fraction group dwell full beta, single_phase d n c fraction group dwell false /\
    Forall (fun t => t_class t = CTrap) group /\ Forall capturing group /\
    phase_params c 0 0 beta full /\ 0 < full /\ 0 < beta /\ slow_growth floor 1 (fraction * full_traps group) beta full.
(** What its traps can take from pixel [i], or give to it. *)
Inductive patient_limit (d : direction R) (n i : nat) : R -> Prop :=
| limit_patient c fraction group dwell : single_phase d n c fraction group dwell false -> Forall (fun t => t_class t = CTrap) group ->
    patient_limit d n i (INR (i + 1 + d_offset d) * (fraction * full_traps group)).

(** A direction of readout past instant traps, traps that record times, or slow traps. *)
Definition any_call (floor : R) (d : direction R) (n : nat) : Prop := orderly_call floor d n \/ patient_call floor d n.
Definition any_limit (d : direction R) (n i : nat) (x : R) : Prop := orderly_limit d n i x \/ patient_limit d n i x.
(** Every pixel has [floor] electrons and [times] what the traps it passes can take or give. *)
Definition any_above (floor times : R) (parallel serial : direction R) (rows cols : nat) (im : image R) : Prop :=
  forall i j, (i < rows)%nat -> (j < cols)%nat -> exists p s,
    any_limit parallel rows i p /\ any_limit serial cols j s /\ floor + times * (p + s) <= pixel im i j.
