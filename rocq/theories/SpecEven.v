(** * Calls in which every pass moves the charge of all its rows by the same number of transfers. *)
From Coq Require Import ZArith List Reals.
From Verif Require Import Num CCDModel TrapsModel ROEModel MainModel Spec SpecROE SpecImage SpecColumn SpecWindowOrder SpecMeet.
Open Scope R_scope.

(** One direction with traps of any kinds: every transfer computed, within a window of any rows in
    order, or charge injection with any express. *)
Definition even_call (d : direction R) (n : nat) : Prop :=
  kinds_in_window d n /\ (forall b, window_ok (selected (d_window d) n) b -> computes_all d b)
  \/ kinds_injected d n.
