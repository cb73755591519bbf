(** * Specification: how many transfers of a readout are computed. *)
From Coq Require Import List Bool Reals.
From Verif Require Import Num ROEModel.
Import ListNotations.
Open Scope R_scope.

(** A pass monitors a pixel when the traps meet its charge in that pass.  The passes that monitor
    the [k]th pixel, and the transfers computed in all. *)
Definition visits (monitor : list (list bool)) (k : nat) : nat := length (filter (fun pass => nth k pass false) monitor).
Definition work (monitor : list (list bool)) : nat := length (filter (fun b => b) (concat monitor)).

(** [v] is the least integer not below [x]. *)
Definition rounded_up (x : R) (v : nat) : Prop := INR v - 1 < x <= INR v.

(** The transfers that one of [passes] passes stands for, out of [transfers]: shared evenly, or
    rounded up when the multipliers are integers. *)
Definition per_pass (dt : dtype) (transfers passes : nat) (x : R) : Prop :=
  match dt with
  | DFloat => x = INR transfers / INR passes
  | DInt => exists m, x = INR m /\ rounded_up (INR transfers / INR passes) m
  end.
