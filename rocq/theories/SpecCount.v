(** * Specification: the number of pumps or of pixel transfers of a readout object. *)
From Coq Require Import ZArith List.
From Verif Require Import Num Py CCDModel TrapsModel ManagerModel ROEModel ClockModel MainModel.
Import ListNotations.
Section Counts.
Context {F : Type} {num : Num F}.
Definition counts (r : roe F) (count : Z) : Prop :=
  match roe_kind_of r with
  | Standard _ => True
  | Injection (Some n) | Pumping n _ => count = Z.of_nat n
  | Injection None => False
  end.
End Counts.
