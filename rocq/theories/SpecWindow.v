(** * Specification: reading out a window of rows. *)
From Coq Require Import List Reals.
From Verif Require Import Num ManagerModel CCDModel ROEModel ClockModel MainModel.
Import ListNotations.
Open Scope R_scope.

(** An image without the charge of its first [a] rows. *)
Definition blank (a : nat) (im : image R) : image R := map (map (fun _ => 0)) (firstn a im) ++ skipn a im.
(** The same arguments with another window. *)
Definition with_window (d : direction R) (w : window_arg) : direction R :=
  mkDir (d_ccd d) (d_roe d) (d_traps d) (d_express d) (d_offset d) w.
(** The same arguments with another offset. *)
Definition with_offset (d : direction R) (offset : nat) : direction R :=
  mkDir (d_ccd d) (d_roe d) (d_traps d) (d_express d) offset (d_window d).
(** An image with [k] blank rows before it. *)
Definition rows_before (k cols : nat) (im : image R) : image R := repeat (repeat 0 cols) k ++ im.
