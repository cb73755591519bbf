(** * Specification: the first packet of a column, which only meets empty traps. *)
From Coq Require Import List Reals.
From Verif Require Import Num ClockModel MainModel SpecImage SpecReadout.
Open Scope R_scope.

(** A packet of [a] electrons that passes a pixel with [rho] empty traps fills those that it reaches. *)
Definition past_empty (rho full beta a : R) : R := a - Rmin a (rho * depth full beta a).
Fixpoint past_pixels (rho full beta : R) (pixels : nat) (a : R) : R :=
  match pixels with
  | O => a
  | S k => past_pixels rho full beta k (past_empty rho full beta a)
  end.
(** There is no charge in the column before this row. *)
Definition leads (im : image R) (i j : nat) : Prop := forall k, (k < i)%nat -> pixel im k j = 0.
