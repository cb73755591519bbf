(** * Specification: wells of any power, for images in which every pixel keeps some charge. *)
From Coq Require Import ZArith List Bool Reals Sorted.
From Verif Require Import Num Py CCDModel TrapsModel ManagerModel ROEModel ClockModel MainModel Spec SpecROE SpecImage SpecReadout SpecBound SpecRecovery SpecWork SpecInjectionOrder SpecWindowOrder.
Import ListNotations.
Open Scope R_scope.

(** [x] transfers past [rho] traps per pixel: an electron more in a cloud of at least [floor]
    electrons leads to less than one more being captured in all of them.  A well of power below
    one fills fastest with the first electrons; here the traps that [floor] electrons reach, for
    all the transfers, are fewer than [floor]. *)
Definition slow_growth (floor x rho beta full : R) : Prop :=
  (1 <= beta /\ x * rho * beta < full) \/ (beta < 1 /\ x * rho * depth full beta floor < floor).

(** Readouts with a single clocking step: of any window ... *)
Definition slow_in_window (floor : R) (d : direction R) (n : nat) : Prop :=
  exists b, StronglySorted Z.lt (selected (d_window d) n) /\ window_ok (selected (d_window d) n) b /\ (b <= n)%nat /\
  exists c traps dwell dt group, plain_setting d b c traps [dwell] dt /\ groups_in traps = [group] /\
     forall k x, (k < ccd_n_phases c)%nat ->
       per_pass dt (b + d_offset d) (passes_for (b + d_offset d) (d_express d)) x ->
       exists full beta, phase_params c k 0 beta full /\
       slow_growth floor x (SpecRecovery.traps_per_pixel (map (thinned (share c k)) group)) beta full.
(** ... or as a charge injection. *)
Definition slow_injection (floor : R) (d : direction R) (n : nat) : Prop :=
  d_window d = WNone /\
  exists c traps dwell npt group, injection_setting d n c traps [dwell] npt /\ groups_in traps = [group] /\
    let N := injection_transfers npt n (d_offset d) in
    forall k, (k < ccd_n_phases c)%nat -> exists full beta, phase_params c k 0 beta full /\
      slow_growth floor (INR N / INR (passes_for N (d_express d))) (SpecRecovery.traps_per_pixel (map (thinned (share c k)) group)) beta full.
(** Or any readout that needs no such floor. *)
Definition slow_call (floor : R) (d : direction R) (n : nat) : Prop :=
  gentle_call d n \/ slow_in_window floor d n \/ slow_injection floor d n.

(** Every pixel has [floor] electrons and [times] what the traps it passes can take or give. *)
Definition charged_above (floor times : R) (parallel serial : direction R) (rows cols : nat) (im : image R) : Prop :=
  forall i j, (i < rows)%nat -> (j < cols)%nat -> exists p s,
    call_limit parallel rows i p /\ call_limit serial cols j s /\ floor + times * (p + s) <= pixel im i j.
