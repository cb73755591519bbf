(** * Specification: traps that record times and release ever more slowly, and limits on what the
    traps of a direction of readout can do. *)
From Coq Require Import ZArith List Bool Reals.
From Verif Require Import Num Py CCDModel TrapsModel ManagerModel ROEModel ClockModel MainModel Spec SpecImage SpecReadout SpecTime SpecHistory SpecHold SpecWindowOrder SpecAbove.
Import ListNotations.
Open Scope R_scope.

(** A filling curve that flattens: within any time, less is released the longer ago the traps
    were filled.  So it is for exponentials and their averages. *)
Definition flattening (t : trap R) : Prop :=
  holding t /\ forall a b d, 0 <= a <= b -> 0 <= d ->
    fill_fraction_from_time_elapsed t b - fill_fraction_from_time_elapsed t (b + d)
    <= fill_fraction_from_time_elapsed t a - fill_fraction_from_time_elapsed t (a + d).

(** One direction of readout past traps that record times, every transfer computed: an electron
    more in a cloud of at least [floor] electrons leads to less than one more being captured. *)
Definition timed_call (floor : R) (d : direction R) (n : nat) : Prop :=
  exists c fraction group dwell full beta, single_phase d n c fraction group dwell false /\ kind_for group = KTime /\ Forall flattening group /\
    phase_params c 0 0 beta full /\ 0 < full /\ 0 < beta /\ slow_growth floor 1 (fraction * filled_traps group) beta full.
(** What its traps can take from pixel [i], or give to it. *)
Inductive timed_limit (d : direction R) (n i : nat) : R -> Prop :=
| limit_timed c fraction group dwell : single_phase d n c fraction group dwell false -> kind_for group = KTime ->
    timed_limit d n i (INR (i + 1 + d_offset d) * (fraction * filled_traps group)).

(** A direction of readout past traps of either kind. *)
Definition orderly_call (floor : R) (d : direction R) (n : nat) : Prop := slow_call floor d n \/ timed_call floor d n.
Definition orderly_limit (d : direction R) (n i : nat) (x : R) : Prop := call_limit d n i x \/ timed_limit d n i x.
(** Every pixel has [floor] electrons and [times] what the traps it passes can take or give. *)
Definition keeps_above (floor times : R) (parallel serial : direction R) (rows cols : nat) (im : image R) : Prop :=
  forall i j, (i < rows)%nat -> (j < cols)%nat -> exists p s,
    orderly_limit parallel rows i p /\ orderly_limit serial cols j s /\ floor + times * (p + s) <= pixel im i j.
(** Time windows only with other traps in the parallel direction. *)
Definition times_fit (floor : R) (parallel : direction R) (rows : nat) (time : option (list Z)) : Prop :=
  time_range time /\ (time = None \/ slow_call floor parallel rows).
