(** * Specification: readouts whose packets stay between two numbers of electrons. *)
From Coq Require Import ZArith List Bool Reals Sorted.
From Verif Require Import Num Py CCDModel TrapsModel ManagerModel ROEModel ClockModel MainModel Spec SpecROE SpecImage SpecReadout SpecBound SpecRecovery SpecWork.
Import ListNotations.
Open Scope R_scope.

(** What full traps release while a packet is over them. *)
Definition traps_emptied (dwell : R) (traps : list (trap R)) : R :=
  Rsum (map (fun t : trap R => t_density t * (1 - exp (- dwell / t_release_timescale t))) traps).

(** A readout in one step past one group of instant traps, under a well of power below one.
    Packets of at least [floor] electrons lose, to all the transfers of a pass, fewer electrons
    than they have.  Packets of at most [top] electrons reach the depth [v], with what the traps
    release.  The traps up to [v] are at most [lose] per transfer; they release at most [back]. *)
Record narrow (d : direction R) (n : nat) (floor top lose back : R) : Prop := {
  na_window : d_window d = WNone;
  na_floor : 0 < floor;
  na_setting : exists c traps dwell dt group full beta, plain_setting d n c traps [dwell] dt /\
    0 <= dwell /\ ccd_n_phases c = 1%nat /\ groups_in traps = [group] /\ phase_params c 0 0 beta full /\ beta < 1 /\
    (forall x, per_pass dt (n + d_offset d) (passes_for (n + d_offset d) (d_express d)) x ->
       x * SpecRecovery.traps_per_pixel (map (thinned (share c 0)) group) * depth full beta floor < floor) /\
    let rho := SpecRecovery.traps_per_pixel (map (thinned (share c 0)) group) in
    let v := depth full beta (top + rho) in
    rho * v <= lose /\ traps_emptied dwell (map (thinned (share c 0)) group) * v <= back }.

(** Every pixel stays above [floor] when each of its transfers takes [lose] electrons, and below
    [top] when each gives it [back]. *)
Definition kept_between (floor top lose back : R) (offset rows cols : nat) (im : image R) : Prop :=
  forall i j, (i < rows)%nat -> (j < cols)%nat ->
    floor + INR (i + 1 + offset) * lose <= pixel im i j <= top - INR (i + 1 + offset) * back.
