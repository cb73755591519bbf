(** * Specification: settings in which no trap has time to act. *)
From Coq Require Import List.
From Verif Require Import Num CCDModel ROEModel MainModel.
Import ListNotations.
Open Scope num_scope.

Section Idle.
Context {F : Type} {num : Num F}.
(** No dwell time is positive, or no phase has a positive share of the traps. *)
Definition never_positive (l : list F) : Prop := Forall (fun x => (n0 <? x) = false) l.
Definition idle (d : direction F) : Prop :=
  (forall c, d_ccd d = Some c -> never_positive (ccd_fractions c)) \/ never_positive (roe_dwell_times (the_roe d)).
End Idle.
