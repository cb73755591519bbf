(** * Specification: columns that move in turn through the same traps. *)
From Coq Require Import List Reals.
From Verif Require Import Num TrapsModel ROEModel MainModel Spec SpecColumn.
Import ListNotations.

(** The same readout electronics, with the traps emptied between columns or not. *)
Definition emptying {F} (b : bool) (r : roe F) : roe F :=
  mkROE (roe_kind_of r) (roe_dwell_times r) (roe_dtype r) b (roe_force r) (roe_clock_sequence r) (roe_pixels r).
Definition with_roe {F} (d : direction F) (r : roe F) : direction F :=
  mkDir (d_ccd d) (Some r) (d_traps d) (d_express d) (d_offset d) (d_window d).
Open Scope R_scope.

Section Shared.
Context (traps : list (trap R)) (well : R -> R) (dwell : R).
(** The traps of one pixel after some packets have passed (their charge is [past_traps]). *)
Fixpoint traps_then (P : profile) (packets : list R) : profile :=
  match packets with
  | [] => P
  | n :: l => traps_then (transfer_after traps well dwell n P) l
  end.
(** The packets of a column pass the traps of each pixel in turn, in the states [sites] in
    which they are; the first packet leaves after every transfer. *)
Fixpoint past_sites (sites : list profile) (packets : list R) : list R * list profile :=
  match sites with
  | [] => ([], [])
  | P :: others =>
      match past_traps traps well dwell P packets with
      | [] => ([], sites)
      | first :: rest =>
          let '(out, others') := past_sites others rest in (first :: out, traps_then P packets :: others')
      end
  end.
(** The columns in turn: the traps of every pixel stay as the last column left them. *)
Fixpoint past_shared (sites : list profile) (columns : list (list R)) : list (list R) :=
  match columns with
  | [] => []
  | packets :: l => let '(out, sites') := past_sites sites packets in out :: past_shared sites' l
  end.
Definition shared_readout (rows : nat) (columns : list (list R)) : list (list R) :=
  past_shared (repeat empty_profile rows) columns.
End Shared.
