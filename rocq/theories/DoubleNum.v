(** * IEEE double arithmetic as a [Num] instance.

    The numbers of /repo/arcticpy are Python floats, numpy float64 and Cython np.float64_t: all
    IEEE binary64, rounded to nearest (even).  The operations are those of Coq's SpecFloat
    (which computes with integers: no primitive floats, no axioms), with precision 53 and
    largest exponent 1024; infinities, signed zeros, subnormal numbers and NaN are included.
    [exp], [log] and [**] are whatever the C library provides. *)
From Coq Require Import ZArith QArith List Bool SpecFloat.
From Verif Require Import Num.
Import ListNotations.

Notation double := spec_float (only parsing).
Definition dzero : double := S754_zero false.
Definition double_of_Z (z : Z) : double := binary_normalize 53 1024 z 0 false.

Section Double.
Variable exp_c log_c : double -> double.
Variable pow_c : double -> double -> double.
Definition DoubleNum : Num double := {|
  n0 := dzero; n1 := double_of_Z 1;
  nadd := SFadd 53 1024; nsub := SFsub 53 1024; nmul := SFmul 53 1024; ndiv := SFdiv 53 1024; nopp := SFopp;
  nltb := SFltb; nleb := SFleb; neqb := SFeqb;
  nofZ := double_of_Z; nexp := exp_c; nln := log_c; npow := pow_c; nnan := Some S754_nan |}.
End Double.
