(** * Specification vocabulary: what is in a header. *)
From Coq Require Import List Bool String DecimalString.
From Verif Require Import Py MainModel HeaderModel.
Import ListNotations.
Open Scope string_scope.

Section Header.
Context {V : Type}.
(** The value under a keyword. *)
Definition value_of (h : header V) (key : string) : option V :=
  match find (fun c => String.eqb (fst c) key) h with Some (_, (v, _)) => Some v | None => None end.
(** A list of numbered objects, such as [enumerate(traps)]. *)
Definition numbered (l : list (nat * object V)) : list (element V) := map (fun '(i, o) => ESequence [INumber i; IObject o]) l.
(** The attribute of the last object with this number. *)
Definition numbered_attribute (l : list (nat * object V)) (i : nat) (attribute : string) : option V :=
  match find (fun c => Nat.eqb (fst c) i) (rev l) with Some (_, o) => o attribute | None => None end.
(** Objects with these attributes. *)
Definition has (o : object V) (attributes : list string) : Prop := Forall (fun a => o a <> None) attributes.
Definition described (l : list (nat * object V)) : Prop := Forall (fun c => has (snd c) ["trap_density"; "trap_lifetime"]) l.

(** The package's own objects: a trap (traps.py:40-51: density, release_timescale, ...; it is not
    a sequence) and a CCD (ccd.py:80-164). *)
Definition is_trap (o : object V) : Prop := o "trap_density" = None /\ o "trap_lifetime" = None.
Definition is_ccd (o : object V) (notch : V) : Prop := o "well_notch_depth" = Some notch /\ o "well_fill_beta" = None.
(** Lists of traps, or of lists of traps. *)
Definition package_item (i : item V) : Prop := match i with INumber _ => False | IObject o => is_trap o end.
Definition package_element (e : element V) : Prop := match e with EObject o => is_trap o | ESequence l => Forall package_item l end.
(** The same in the terms of MainModel.v, which has only the numbers of the keywords. *)
Definition shape_of (e : element V) : fits_trap_elt := match e with EObject _ => FTrap | ESequence l => FList (List.length l) end.
Definition given {A} (a : option A) : bool := match a with Some _ => true | None => false end.
Definition agrees (o : outcome V) (r : result (list nat)) : Prop := snd o = match r with Ok _ => None | Err e => Some e end.
End Header.
Definition or_else {A} (a b : option A) : option A := match a with Some _ => a | None => b end.
(** The keywords of numbered traps, for example cte_pt12d. *)
Definition density_key (i : nat) : string := "cte_pt" ++ NilZero.string_of_uint (Nat.to_uint i) ++ "d".
Definition lifetime_key (i : nat) : string := "cte_pt" ++ NilZero.string_of_uint (Nat.to_uint i) ++ "t".
