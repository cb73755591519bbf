(** * Specification: wells in which a brighter first charge leaves more. *)
From Coq Require Import Reals.
Open Scope R_scope.

(** A fill power of at most 1, or few traps. *)
Definition orderly (rho full beta : R) : Prop := beta <= 1 \/ (1 <= beta /\ rho * beta < full).
