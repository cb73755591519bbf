(** * Specification vocabulary: ROE objects as the constructors build them. *)
From Coq Require Import List Reals.
From Verif Require Import Num Py ROEModel.
Open Scope R_scope.

(** An object fresh from one of the three constructors, with [steps] clocking steps and
    electrodes for [phases] phases. *)
Inductive constructed : roe R -> nat -> nat -> Prop :=
| new_roe dwell ef eb force dt :
    constructed (roe_init dwell ef eb force dt) (length dwell) (length dwell)
| new_injection dwell npt eb force dt :
    constructed (roe_injection_init dwell npt eb force dt) (length dwell) (length dwell)
| new_pumping dwell n_pumps ef dt r :
    roe_pumping_init dwell n_pumps ef dt = Ok r -> constructed r (length dwell) (Nat.div2 (length dwell)).
