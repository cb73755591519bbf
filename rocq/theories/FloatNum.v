(** * IEEE doubles as a [Num] instance (see Num.v), used by Tests.v only. *)
From Coq Require Import ZArith List Bool PrimFloat Uint63.
From Verif Require Import Num.
Import ListNotations.

(** ** IEEE doubles (for running the model only; never used in a theorem). *)
Definition float_of_Z (z : Z) : float :=
  match z with
  | Z0 => 0%float
  | Zpos _ => PrimFloat.of_uint63 (Uint63.of_Z z)
  | Zneg p => PrimFloat.opp (PrimFloat.of_uint63 (Uint63.of_Z (Zpos p)))
  end.

(** exp by argument halving and a Taylor polynomial: accurate to a few ulp, which
    is ample for comparing with the 1e-3 .. 1e-6 tolerances of the unit tests. *)
Fixpoint ftaylor (n : nat) (k : Z) (x term acc : float) : float :=
  match n with
  | O => acc
  | S n' =>
      let term' := PrimFloat.div (PrimFloat.mul term x) (float_of_Z k) in
      ftaylor n' (k + 1)%Z x term' (PrimFloat.add acc term')
  end.
Fixpoint fsquare (n : nat) (x : float) : float :=
  match n with O => x | S n' => fsquare n' (PrimFloat.mul x x) end.
Definition fexp (x : float) : float :=
  if PrimFloat.ltb x (-740)%float then 0%float
  else fsquare 12 (ftaylor 14 1 (PrimFloat.div x 4096%float) 1%float 1%float).
Fixpoint fnewton (n : nat) (x y : float) : float :=
  match n with
  | O => y
  | S n' =>
      let e := fexp y in
      fnewton n' x (PrimFloat.add y
        (PrimFloat.mul 2%float (PrimFloat.div (PrimFloat.sub x e) (PrimFloat.add x e))))
  end.
Definition fln (x : float) : float := fnewton 40 x 0%float.
Definition fpow (x y : float) : float :=
  if PrimFloat.eqb x 0%float then (if PrimFloat.eqb y 0%float then 1%float else 0%float)
  else if PrimFloat.eqb y 1%float then x
  else fexp (PrimFloat.mul y (fln x)).

#[global] Instance FNum : Num float := {|
  n0 := 0%float; n1 := 1%float;
  nadd := PrimFloat.add; nsub := PrimFloat.sub; nmul := PrimFloat.mul;
  ndiv := PrimFloat.div; nopp := PrimFloat.opp;
  nltb := PrimFloat.ltb; nleb := PrimFloat.leb; neqb := PrimFloat.eqb;
  nofZ := float_of_Z; nexp := fexp; nln := fln; npow := fpow; nnan := Some PrimFloat.nan |}.

