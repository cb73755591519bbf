(** * Specification: images corrected with the HST ACS model. *)
From Coq Require Import ZArith List Reals.
From Verif Require Import Num CCDModel TrapsModel ManagerModel ROEModel ClockModel MainModel Spec SpecImage SpecHST.
Import ListNotations.
Open Scope R_scope.

(** What examples/correct_HST_ACS_image.py does (lines 43-56): rows that are [offset] rows away
    from the readout register, as one direction of remove_cti. *)
Definition hst_direction (traps : list (trap R)) (c : ccd R) (r : roe R) (express offset : nat) : direction R :=
  mkDir (Some c) (Some r) (Some (TFlat traps)) express offset WNone.
(** Every pixel has an electron, and [times] as many as there are traps on the way from the last
    row to the readout register. *)
Definition bright (date : R) (times rows cols offset : nat) (im : image R) : Prop :=
  forall i j, (i < rows)%nat -> (j < cols)%nat -> 1 + INR (times * (rows + offset)) * traps_on date <= pixel im i j.
