(** * Number types.

    The arithmetic of /repo/arcticpy is IEEE double arithmetic (Python floats,
    numpy float64, Cython np.float64_t).  The model is written once, over an
    abstract bundle of operations [Num F] (operations only, no laws), and used at

    - [F := R], the exact real numbers, for most theorems: rounding is NOT modelled there
      (see DESIGN.md, trusted base);
    - IEEE doubles computed with integers (DoubleNum.v), for C87 to C89;
    - [F := float] (Coq's primitive IEEE doubles), only to run the model on the
      inputs of the repository's own unit tests (files FloatNum.v and Tests.v). *)
From Coq Require Import ZArith List Bool Reals Lra.
Import ListNotations.

Class Num (F : Type) := {
  n0 : F;                       (* 0.0 *)
  n1 : F;                       (* 1.0 *)
  nadd : F -> F -> F;           (* a + b *)
  nsub : F -> F -> F;           (* a - b *)
  nmul : F -> F -> F;           (* a * b *)
  ndiv : F -> F -> F;           (* a / b *)
  nopp : F -> F;                (* -a *)
  nltb : F -> F -> bool;        (* a < b *)
  nleb : F -> F -> bool;        (* a <= b *)
  neqb : F -> F -> bool;        (* a == b *)
  nofZ : Z -> F;                (* float(i) *)
  nexp : F -> F;                (* np.exp / libc exp *)
  nln : F -> F;                 (* np.log *)
  npow : F -> F -> F;           (* a ** b, for a >= 0 *)
  nnan : option F               (* NaN, in arithmetic that has one *)
}.

Declare Scope num_scope.
Delimit Scope num_scope with num.
Infix "+" := nadd : num_scope.
Infix "-" := nsub : num_scope.
Infix "*" := nmul : num_scope.
Infix "/" := ndiv : num_scope.
Notation "- x" := (nopp x) : num_scope.
Infix "<?" := nltb (at level 70, no associativity) : num_scope.
Infix "<=?" := nleb (at level 70, no associativity) : num_scope.
Infix "=?" := neqb (at level 70, no associativity) : num_scope.

(** A decimal literal [p/q]. *)
Definition nq {F} `{Num F} (p q : Z) : F := ndiv (nofZ p) (nofZ q).

(** ** The real numbers. *)
Definition Rltb (a b : R) : bool := if Rlt_dec a b then true else false.
Definition Rleb (a b : R) : bool := if Rle_dec a b then true else false.
Definition Reqb (a b : R) : bool := if Req_EM_T a b then true else false.

(** Python's [x ** y] for a float [x >= 0] and [y >= 0]: [0.0 ** 0 = 1] and
    [0.0 ** y = 0] for positive [y]. *)
Definition Rpow_py (x y : R) : R :=
  if Req_EM_T x 0 then (if Req_EM_T y 0 then 1%R else 0%R) else Rpower x y.

#[global] Instance RNum : Num R := {|
  n0 := 0%R; n1 := 1%R;
  nadd := Rplus; nsub := Rminus; nmul := Rmult; ndiv := Rdiv; nopp := Ropp;
  nltb := Rltb; nleb := Rleb; neqb := Reqb;
  nofZ := IZR; nexp := exp; nln := ln; npow := Rpow_py; nnan := None |}.

(** ** Reflection of the real comparisons. *)
Lemma Rltb_true a b : Rltb a b = true <-> (a < b)%R.
Proof. unfold Rltb; destruct (Rlt_dec a b); split; intros; auto; try discriminate; contradiction. Qed.
Lemma Rltb_false a b : Rltb a b = false <-> (b <= a)%R.
Proof. unfold Rltb; destruct (Rlt_dec a b); split; intros; auto; try discriminate; lra. Qed.
Lemma Rleb_true a b : Rleb a b = true <-> (a <= b)%R.
Proof. unfold Rleb; destruct (Rle_dec a b); split; intros; auto; try discriminate; contradiction. Qed.
Lemma Rleb_false a b : Rleb a b = false <-> (b < a)%R.
Proof. unfold Rleb; destruct (Rle_dec a b); split; intros; auto; try discriminate; lra. Qed.
Lemma Reqb_true a b : Reqb a b = true <-> a = b.
Proof. unfold Reqb; destruct (Req_EM_T a b); split; intros; auto; try discriminate; contradiction. Qed.
Lemma Reqb_false a b : Reqb a b = false <-> a <> b.
Proof. unfold Reqb; destruct (Req_EM_T a b); split; intros; auto; try discriminate; contradiction. Qed.
Lemma Rltb_spec a b : BoolSpec (a < b)%R (b <= a)%R (Rltb a b).
Proof. unfold Rltb; destruct (Rlt_dec a b); constructor; lra. Qed.
Lemma Rleb_spec a b : BoolSpec (a <= b)%R (b < a)%R (Rleb a b).
Proof. unfold Rleb; destruct (Rle_dec a b); constructor; lra. Qed.
Lemma Reqb_spec a b : BoolSpec (a = b) (a <> b) (Reqb a b).
Proof. unfold Reqb; destruct (Req_EM_T a b); constructor; auto. Qed.
