(** * Specification vocabulary for images.  Uses no function of the model. *)
From Coq Require Import ZArith List Bool.
From Verif Require Import Num ROEModel ClockModel MainModel.
Import ListNotations.

Section Image.
Context {F : Type} {num : Num F}.

(** [rows] rows of [cols] pixels each. *)
Definition shape (rows cols : nat) (im : image F) : Prop :=
  length im = rows /\ Forall (fun r => length r = cols) im.
Definition pixel (im : image F) (i j : nat) : F := nth j (nth i im []) n0.
(** Column [j], and the image that consists of it alone. *)
Definition column_of (im : image F) (j : nat) : list F := map (fun row => nth j row n0) im.
Definition one_column (col : list F) : image F := map (fun x => [x]) col.

(** No pixel compares less than zero. *)
Definition not_negative (im : image F) : Prop :=
  forall i j, (pixel im i j <? n0)%num = false.

(** The clock sequence of [r] ever releases electrons [d] pixels away. *)
Definition releases_to (r : roe F) (d : Z) : Prop :=
  exists step phases rp, nth_error (roe_clock_sequence r) step = Some phases /\ In rp phases /\
    In d (rp_release rp).
(** Row [i] receives electrons when the rows of [window] are clocked. *)
Definition receives (r : roe F) (window : list Z) (i : nat) : Prop :=
  exists row d, In row window /\ releases_to r d /\ Z.of_nat i = (row + d)%Z.

(** The pixels a window argument selects out of [n]. *)
Definition selected (w : window_arg) (n : nat) : list Z :=
  match w with
  | WNone => map Z.of_nat (seq 0 n)
  | WInt i => [i]
  | WRange l => l
  end.
End Image.
