(** * The electrons stored in a watermark array, level by level. *)
From Coq Require Import List Reals.
From Verif Require Import Num CCDModel TrapsModel ManagerModel Spec.
Import ListNotations.
Open Scope R_scope.

(** What a stored number means: a fill fraction, or (TrapManagerTrackTime) a time. *)
Definition fraction (k : mkind) (t : trap R) (x : R) : R :=
  match k with KTime => fill_fraction_from_time_elapsed t x | _ => x end.
Definition level_electrons (k : mkind) (traps : list (trap R)) (r : wrow R) : R :=
  fst r * Rsum (map (fun '(t, x) => t_density t * fraction k t x) (combine traps (snd r))).
Definition stored (k : mkind) (traps : list (trap R)) (w : wmarks R) : R :=
  Rsum (map (level_electrons k traps) w).

(** One number per species in every level; the levels in use have non-zero volumes
    and come before at least one unused level. *)
Definition one_value_each (n : nat) (w : wmarks R) : Prop := Forall (fun r => length (snd r) = n) w.
Definition has_free_level (w : wmarks R) : Prop := exists used free, w = used ++ free /\
  Forall (fun r => fst r <> 0) used /\ free <> [] /\ Forall (fun r => fst r = 0) free.
