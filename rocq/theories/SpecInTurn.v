(** * Specification: clocking in one direction and then in the other. *)
From Coq Require Import List Reals.
From Verif Require Import Num Py TrapsModel ManagerModel CCDModel ROEModel ClockModel MainModel SpecImage.
Open Scope R_scope.

(** The same arguments without traps: nothing is clocked in this direction. *)
Definition without_traps {F} (d : direction F) : direction F :=
  mkDir (d_ccd d) (d_roe d) None (d_express d) (d_offset d) (d_window d).
(** This pixel has no charge between it and the corner that is read out first. *)
Definition leads_corner (im : image R) (i j : nat) : Prop :=
  forall k l, (k <= i)%nat -> (l <= j)%nat -> (k, l) <> (i, j) -> pixel im k l = 0.
