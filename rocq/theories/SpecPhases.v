(** * Specification: readouts with any number of phases in which more charge leaves more charge. *)
From Coq Require Import ZArith List Bool Reals.
From Verif Require Import Num CCDModel TrapsModel ClockModel MainModel Spec SpecImage SpecReadout SpecColumn SpecBound SpecRecovery.
Import ListNotations.
Open Scope R_scope.

(** One direction with a single group of traps, every transfer computed, in which every phase is
    such that an electron more in a cloud leads to less than one more being captured: the
    wells fill at least in proportion (power one or more), and are large for the traps in
    them. *)
Definition gentle_direction (d : direction R) (n : nat) : Prop :=
  d_window d = WNone /\
  (d_traps d = None \/ exists c traps dwell dt group, plain_setting d n c traps dwell dt /\
     computes_all d n /\ groups_in traps = [group] /\
     forall k, (k < ccd_n_phases c)%nat -> exists full beta, phase_params c k 0 beta full /\
       1 <= beta /\ traps_per_pixel (map (thinned (share c k)) group) * beta < full).

(** The total absolute difference of two images. *)
Definition image_apart (a b : image R) : R := apart (concat a) (concat b).

(** Every pixel has more than twice the electrons that the traps it passes can take or give. *)
Definition enough_charge (parallel serial : direction R) (rows cols : nat) (im : image R) : Prop :=
  forall i j, (i < rows)%nat -> (j < cols)%nat -> exists p s,
    change_limit parallel rows i p /\ change_limit serial cols j s /\ 2 * (p + s) < pixel im i j.
