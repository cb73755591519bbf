(** * Groups of traps that should be the same to an image. *)
From Coq Require Import ZArith List Bool Reals Permutation.
From Verif Require Import Num Py CCDModel TrapsModel ManagerModel ROEModel ClockModel MainModel SpecReadout.
Import ListNotations.
Open Scope R_scope.

(** The class of manager that a trap asks for (trap_managers.py:90-106). *)
Inductive sort := Plain | Instant | Continuum.
Definition sort_of (t : trap R) : sort := match t_class t with CTrap => Plain | CInstant => Instant | CContinuum _ _ _ => Continuum end.
Definition of_sort (k : sort) (g : list (trap R)) : Prop := Forall (fun t => sort_of t = k) g.

(** Two groups, all of one class, with the same traps in another order, or with one species
    listed twice with parts of its density. *)
Inductive same_group : list (trap R) -> list (trap R) -> Prop :=
| reordered k g h : of_sort k g -> Permutation g h -> same_group g h
| split_species t a b g : same_group (with_density t (a + b) :: g) (with_density t a :: with_density t b :: g)
| same_sym g h : same_group g h -> same_group h g
| same_trans g h i : same_group g h -> same_group h i -> same_group g i.

(** Two arguments [traps] (a trap, a list of traps or a list of lists) with such groups, in
    the same order. *)
Definition same_traps (a b : traps_arg R) : Prop :=
  Forall2 same_group (groups_in a) (groups_in b) /\ Forall (fun g => g <> []) (groups_in a).
Definition same_but_traps (d e : direction R) : Prop :=
  d_ccd d = d_ccd e /\ d_roe d = d_roe e /\ d_express d = d_express e /\ d_offset d = d_offset e /\ d_window d = d_window e.
Definition same_direction (d e : direction R) : Prop := d = e \/
  same_but_traps d e /\ exists a b, d_traps d = Some a /\ d_traps e = Some b /\ same_traps a b.

(** The same groups in another order. *)
Definition reordered_groups (d e : direction R) : Prop := d = e \/
  same_but_traps d e /\ exists l m, d_traps d = Some (TNested l) /\ d_traps e = Some (TNested m) /\ Permutation l m.
(** Both return the same, or both raise. *)
Definition same_outcome {A} (x y : result A) : Prop :=
  match x, y with Ok a, Ok b => a = b | Err _, Err _ => True | _, _ => False end.
