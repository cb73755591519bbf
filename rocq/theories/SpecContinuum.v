(** * Specification: distributions of release lifetimes. *)
From Coq Require Import Reals.
From Coquelicot Require Import Rbar Hierarchy Continuity RInt_gen.
Open Scope R_scope.

(** A probability density on the positive numbers ("such that its integral from 0 to
    infinity = 1", traps.py:250-253). *)
Record lifetimes (p : R -> R) : Prop := {
  lt_continuous : forall x, 0 < x -> continuous p x;
  lt_nonneg : forall x, 0 < x -> 0 <= p x;
  lt_total : is_RInt_gen p (at_right 0) (Rbar_locally p_infty) 1
}.

(** A solver of equations (scipy.optimize.fsolve is called with a starting value) that finds
    the solution of every equation with just one solution among the times. *)
Definition finds_only_root (root : (R -> R) -> R -> R) : Prop := forall f start s,
  0 <= s -> f s = 0 -> (forall u, 0 <= u -> f u = 0 -> u = s) -> root f start = s.
