(** * Specification: readout past traps of any of the three kinds, in wells that fill evenly or ever
    more slowly, of images that may have empty pixels. *)
From Coq Require Import ZArith List Bool Reals.
From Verif Require Import Num Py CCDModel TrapsModel ManagerModel ROEModel ClockModel MainModel Spec SpecImage SpecReadout SpecTime SpecSlow SpecHistory SpecHold SpecWindowOrder SpecFlatten SpecPatient.
Import ListNotations.
Open Scope R_scope.

(** Traps that record times, or slow traps: an electron more, in any cloud, reaches less than one
    trap more. *)
Definition mild_timed (d : direction R) (n : nat) : Prop :=
  exists c fraction group dwell full beta, single_phase d n c fraction group dwell false /\ kind_for group = KTime /\ Forall flattening group /\
    phase_params c 0 0 beta full /\ 0 < full /\ 1 <= beta /\ fraction * filled_traps group * beta < full.
Definition mild_patient (d : direction R) (n : nat) : Prop :=
  exists c fraction group dwell full beta, single_phase d n c fraction group dwell false /\ Forall (fun t => t_class t = CTrap) group /\ Forall capturing group /\
    phase_params c 0 0 beta full /\ 0 < full /\ 1 <= beta /\ fraction * full_traps group * beta < full.
(** Or instant traps, as in C106. *)
Definition mild_call (d : direction R) (n : nat) : Prop := gentle_call d n \/ mild_timed d n \/ mild_patient d n.
(** Time windows only with instant traps in the parallel direction. *)
Definition mild_times (parallel : direction R) (rows : nat) (time : option (list Z)) : Prop :=
  time_range time /\ (time = None \/ gentle_call parallel rows).
(** Every pixel has more than twice what the traps it passes can take or give. *)
Definition mild_enough (parallel serial : direction R) (rows cols : nat) (im : image R) : Prop :=
  forall i j, (i < rows)%nat -> (j < cols)%nat -> exists p s,
    any_limit parallel rows i p /\ any_limit serial cols j s /\ 2 * (p + s) < pixel im i j.
