(** * Specification: time windows between two times. *)
From Coq Require Import ZArith List Reals.
From Verif Require Import Num Py CCDModel TrapsModel ROEModel MainModel.
Import ListNotations.
Open Scope R_scope.

(** Of a list of times only the first and the last matter. *)
Definition from_to (times : list R) (first final : R) : Prop := exists l, times = first :: l /\ List.last times first = final.

(** Successive windows: from [a] to the first end, from there to the next, ...; each is given
    by its start and by one transfer before its end, as for a range. *)
Fixpoint spans_from (a : R) (stops : list R) : list (list R) :=
  match stops with [] => [] | b :: l => [a; b - 1] :: spans_from b l end.
Fixpoint rising_from (a : R) (stops : list R) : Prop :=
  match stops with [] => True | b :: l => a <= b /\ rising_from b l end.
(** The rows from [top] to [bottom] that the serial register reads out between two times, the parallel
    transfers [offset] before the first row left out. *)
Definition row_read (top bottom : Z) (offset first final : R) (i : Z) : Prop :=
  (top <= i <= bottom)%Z /\ first - offset < IZR i + 1 /\ IZR i <= final - offset.
(** The same direction with a window of rows. *)
Definition with_rows (rows : list Z) (d : direction R) : direction R :=
  mkDir (d_ccd d) (d_roe d) (d_traps d) (d_express d) (d_offset d) (WRange rows).
