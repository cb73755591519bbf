(** * Calls in which no pixel can become brighter than the brightest one. *)
From Coq Require Import ZArith List Reals Sorted.
From Verif Require Import Num CCDModel TrapsModel ManagerModel ROEModel ClockModel MainModel Spec SpecROE SpecImage SpecReadout SpecColumn SpecWork SpecWindowOrder SpecMeet.
Import ListNotations.
Open Scope R_scope.

(** One group of instant-capture traps, however many. *)
Definition one_instant_group (traps : traps_arg R) : Prop := exists g, groups_in traps = [g] /\ instant_group g.
(** One direction, clocked in a single step: the traps are none, or such that an electron more in
    a cloud leads to less than one more being taken in all the transfers that a computed transfer stands for, or
    one group of instant-capture traps when every transfer is computed. *)
Definition single_in_window (d : direction R) (n : nat) : Prop :=
  exists b, StronglySorted Z.lt (selected (d_window d) n) /\ window_ok (selected (d_window d) n) b /\ (b <= n)%nat /\
  (d_traps d = None \/ exists c traps dwell dt, kinds_setting d b c traps [dwell] dt /\
     ((forall k x, (k < ccd_n_phases c)%nat -> per_pass dt (b + d_offset d) (passes_for (b + d_offset d) (d_express d)) x ->
         mild_phase c (groups_in traps) x k)
      \/ one_instant_group traps /\ computes_all d b)).
Definition single_injected (d : direction R) (n : nat) : Prop :=
  d_window d = WNone /\
  exists c traps dwell npt, kinds_injection d n c traps [dwell] npt /\
    let N := injection_transfers npt n (d_offset d) in
    ((forall k, (k < ccd_n_phases c)%nat -> mild_phase c (groups_in traps) (INR N / INR (passes_for N (d_express d))) k)
     \/ one_instant_group traps /\ (d_express d = 0%nat \/ (N <= d_express d)%nat)).
Definition single_call (d : direction R) (n : nat) : Prop := single_in_window d n \/ single_injected d n.
