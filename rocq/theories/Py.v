(** * Python-level plumbing shared by every model file.

    Exceptions are values.  [OutOfBounds] is not a Python exception: it stands for
    an unchecked out-of-range access in code compiled with
    [@cython.boundscheck(False)] / [@cython.wraparound(False)]
    (/repo/arcticpy/main_utils.pyx:11-13, trap_managers_utils.pyx:11-13 ...), i.e.
    undefined behaviour (a read or write of foreign memory).
    [NotANumber] marks the places where the real code silently goes on with a NaN, when the
    arithmetic of the model has none (see [zero_over_zero] in TrapsModel.v). *)
From Coq Require Import ZArith List Bool Lia.
Import ListNotations.

Inductive exn :=
| ValueError | IndexError | TypeError | AttributeError | NameError
| UnboundLocalError | ZeroDivisionError | AssertionError | OtherException
| OutOfBounds | NotANumber.

Inductive result (A : Type) := Ok (a : A) | Err (e : exn).
Arguments Ok {A} a.
Arguments Err {A} e.

Definition bind {A B} (m : result A) (k : A -> result B) : result B :=
  match m with Ok a => k a | Err e => Err e end.
Notation "'do' x <- m ; k" := (bind m (fun x => k))
  (at level 200, x binder, m at level 100, k at level 200, right associativity).
Notation "'do' ' p <- m ; k" := (bind m (fun p => k))
  (at level 200, p strict pattern, m at level 100, k at level 200, right associativity).

(** A Python [for] loop over a sequence, with loop-carried state [s]. *)
Fixpoint foldM {A S} (f : S -> A -> result S) (l : list A) (s : S) : result S :=
  match l with
  | [] => Ok s
  | a :: l' => do s' <- f s a; foldM f l' s'
  end.

Fixpoint mapM {A B} (f : A -> result B) (l : list A) : result (list B) :=
  match l with
  | [] => Ok []
  | a :: l' => do b <- f a; do bs <- mapM f l'; Ok (b :: bs)
  end.

Definition of_option {A} (e : exn) (o : option A) : result A :=
  match o with Some a => Ok a | None => Err e end.

(** [l[i] = x] where [i] is known to be in range (no-op otherwise; every use is
    guarded by an explicit range check or cites why it is in range). *)
Fixpoint upd {A} (l : list A) (i : nat) (x : A) : list A :=
  match l, i with
  | [], _ => []
  | _ :: l', O => x :: l'
  | a :: l', S i' => a :: upd l' i' x
  end.

(** Python/numpy checked indexing with negative wrap-around. *)
Definition py_index {A} (l : list A) (i : Z) : result A :=
  let n := Z.of_nat (length l) in
  let j := if (i <? 0)%Z then (i + n)%Z else i in
  if ((0 <=? j) && (j <? n))%Z then of_option IndexError (nth_error l (Z.to_nat j))
  else Err IndexError.

(** Unchecked Cython indexing: no wrap-around, out of range = undefined behaviour. *)
Definition cy_index {A} (l : list A) (i : Z) : result A :=
  if ((0 <=? i) && (i <? Z.of_nat (length l)))%Z
  then of_option OutOfBounds (nth_error l (Z.to_nat i)) else Err OutOfBounds.

Definition cy_upd {A} (l : list A) (i : Z) (x : A) : result (list A) :=
  if ((0 <=? i) && (i <? Z.of_nat (length l)))%Z
  then Ok (upd l (Z.to_nat i) x) else Err OutOfBounds.

(** [np.argmax(mask)]: the index of the first True, or 0 if there is none. *)
Fixpoint find_true (l : list bool) : option nat :=
  match l with
  | [] => None
  | true :: _ => Some O
  | false :: l' => option_map S (find_true l')
  end.
Definition np_argmax (l : list bool) : nat :=
  match find_true l with Some i => i | None => O end.

(** [range(a, b)] as the sequence of its elements. *)
Definition py_range (a b : Z) : list Z :=
  map (fun k => (a + Z.of_nat k)%Z) (seq 0 (Z.to_nat (b - a))).

Fixpoint list_max_Z (d : Z) (l : list Z) : Z :=
  match l with [] => d | a :: l' => list_max_Z (Z.max d a) l' end.
Fixpoint list_min_Z (d : Z) (l : list Z) : Z :=
  match l with [] => d | a :: l' => list_min_Z (Z.min d a) l' end.
(** [max(seq)], [min(seq)]: ValueError on an empty sequence. *)
Definition py_max (l : list Z) : result Z :=
  match l with [] => Err ValueError | a :: l' => Ok (list_max_Z a l') end.
Definition py_min (l : list Z) : result Z :=
  match l with [] => Err ValueError | a :: l' => Ok (list_min_Z a l') end.
