(** * Calls in which the depth of every cloud is proportional to its charge. *)
From Coq Require Import ZArith List Reals Sorted.
From Verif Require Import Num CCDModel TrapsModel ManagerModel ROEModel ClockModel MainModel Spec SpecROE SpecImage SpecReadout SpecColumn SpecWork SpecWindowOrder SpecMeet.
Import ListNotations.
Open Scope R_scope.

(** The fill power is 1, there is no notch, and the charge of a pixel of [top] electrons together with
    that of the traps of any one group does not fill the well. *)
Definition linear_phase (c : ccd R) (groups : list (list (trap R))) (top : R) (k : nat) : Prop :=
  exists full, phase_params c k 0 1 full /\ Forall (fun g => top + share c k * group_traps g <= full) groups.
(** One direction, clocked in a single step: the traps are none, or such that an electron more in
    a cloud leads to less than one more being taken in all the transfers that a computed transfer stands for. *)
Definition linear_in_window (d : direction R) (n : nat) (top : R) : Prop :=
  exists b, StronglySorted Z.lt (selected (d_window d) n) /\ window_ok (selected (d_window d) n) b /\ (b <= n)%nat /\
  (d_traps d = None \/ exists c traps dwell dt, kinds_setting d b c traps [dwell] dt /\
     (forall k, (k < ccd_n_phases c)%nat -> linear_phase c (groups_in traps) top k) /\
     forall k x, (k < ccd_n_phases c)%nat -> per_pass dt (b + d_offset d) (passes_for (b + d_offset d) (d_express d)) x ->
         mild_phase c (groups_in traps) x k).
Definition linear_injected (d : direction R) (n : nat) (top : R) : Prop :=
  d_window d = WNone /\
  exists c traps dwell npt, kinds_injection d n c traps [dwell] npt /\
    (forall k, (k < ccd_n_phases c)%nat -> linear_phase c (groups_in traps) top k) /\
    let N := injection_transfers npt n (d_offset d) in
    forall k, (k < ccd_n_phases c)%nat -> mild_phase c (groups_in traps) (INR N / INR (passes_for N (d_express d))) k.
Definition linear_call (d : direction R) (n : nat) (top : R) : Prop := linear_in_window d n top \/ linear_injected d n top.

(** The image [im'] is [c] times the image [im]. *)
Definition times_image (c : R) (im im' : image R) : Prop := forall i j, pixel im' i j = c * pixel im i j.
