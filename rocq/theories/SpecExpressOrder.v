(** * Specification: readouts with any express value in which more charge leaves more charge. *)
From Coq Require Import ZArith List Bool Reals.
From Verif Require Import Num CCDModel TrapsModel ROEModel ClockModel MainModel Spec SpecImage SpecReadout SpecRecovery SpecWork.
Import ListNotations.
Open Scope R_scope.

(** One direction with a single group of traps, in which every phase is such that an electron
    more in a cloud leads to less than one more being captured in all the transfers that one
    computed transfer stands for. *)
Definition gentle_express (d : direction R) (n : nat) : Prop :=
  d_window d = WNone /\
  (d_traps d = None \/ exists c traps dwell dt group, plain_setting d n c traps dwell dt /\
     groups_in traps = [group] /\
     forall k x, (k < ccd_n_phases c)%nat ->
       per_pass dt (n + d_offset d) (passes_for (n + d_offset d) (d_express d)) x ->
       exists full beta, phase_params c k 0 beta full /\
       1 <= beta /\ x * traps_per_pixel (map (thinned (share c k)) group) * beta < full).
