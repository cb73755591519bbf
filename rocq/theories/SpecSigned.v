(** * Specification: calls with integers that may be negative. *)
From Coq Require Import ZArith List.
From Verif Require Import Num Py CCDModel TrapsModel ManagerModel ROEModel ClockModel MainModel SignedModel.
Import ListNotations.

Section Spec.
Context {F : Type} {num : Num F}.
(** A call without negative express and offset. *)
Definition signed (d : direction F) : signed_direction F := mkSigned d (Z.of_nat (d_express d)) (Z.of_nat (d_offset d)).
(** A window that is empty, or does not lie before the image altogether. *)
Definition window_forward (w : window_arg) : Prop :=
  match w with
  | WNone => True
  | WInt i => (0 <= i)%Z
  | WRange l => l = [] \/ exists i, In i l /\ (0 <= i)%Z
  end.
Definition not_pumping (d : direction F) : Prop := match roe_kind_of (the_roe d) with Pumping _ _ => False | _ => True end.
Definition standard_readout (d : direction F) : Prop := match roe_kind_of (the_roe d) with Standard _ => True | _ => False end.
(** The image returned, if any. *)
Definition image_of (out : result (image F * roe F * roe F)) : result (image F) :=
  match out with Ok (im, _, _) => Ok im | Err e => Err e end.
(** The same arguments with another object for the readout. *)
Definition with_roe (d : direction F) (r : roe F) : direction F := mkDir (d_ccd d) (Some r) (d_traps d) (d_express d) (d_offset d) (d_window d).
End Spec.
