(** * Specification: the frame that examples/correct_HST_ACS_image.py corrects. *)
From Coq Require Import ZArith List Reals.
From Verif Require Import Num ClockModel Spec SpecImage.
Import ListNotations.
Open Scope R_scope.

(** Every pixel is between two values: 2300 and 2800 electrons in the images that the example
    saves before and after the correction (lines 35 and 62). *)
Definition pixels_between (a b : R) (rows cols : nat) (im : image R) : Prop :=
  forall i j, (i < rows)%nat -> (j < cols)%nat -> a <= pixel im i j <= b.
(** The start of the year 2018, and the rows of a quadrant of the detector. *)
Definition start_of_2018 : R := 2458119.5.
Definition acs_rows : R := 2048.
