(** * Specification: the readout of a single column, and its balance of charge. *)
From Coq Require Import ZArith List Bool Reals.
From Verif Require Import Num TrapsModel ROEModel ClockModel MainModel Spec SpecReadout.
Import ListNotations.
Open Scope R_scope.

(** Electrons held by the traps of one phase, and of all the phases listed. *)
Definition site_electrons (s : site) (Ps : list profile) : R :=
  Rsum (map (fun '(g, P) => electrons g P 0 1) (combine (site_groups s) Ps)).
Definition trapped_electrons (sites : nat -> site) (phases : list nat) (T : traps_state) : R :=
  Rsum (map (fun k => site_electrons (sites k) (T k)) phases).
(** The charge in rows 0 .. n - 1 of a column. *)
Definition total (n : nat) (c : column) : R := Rsum (map (fun i => c (Z.of_nat i)) (seq 0 n)).

(** ** The textbook model: one phase per pixel, and one group of trap species.

    Packets of charge pass the traps of one pixel, one after the other; packet [n] leaves with
    what the transfer model of Spec.v gives back or takes. *)
Section Textbook.
Context (traps : list (trap R)) (well : R -> R) (dwell : R).
Fixpoint past_traps (P : profile) (packets : list R) : list R :=
  match packets with
  | [] => []
  | n :: l => n + transfer_net traps well dwell n P
              :: past_traps (transfer_after traps well dwell n P) l
  end.
(** The packets of a column pass through [offset] pixels of traps before the first one
    reaches the readout register; from then on, the first packet leaves after every transfer. *)
Fixpoint read_out (rows : nat) (packets : list R) : list R :=
  match rows with
  | O => []
  | S k => match past_traps empty_profile packets with
           | [] => []
           | first :: rest => first :: read_out k rest
           end
  end.
Fixpoint through_pixels (offset : nat) (packets : list R) : list R :=
  match offset with
  | O => packets
  | S k => through_pixels k (past_traps empty_profile packets)
  end.
Definition textbook (offset : nat) (packets : list R) : list R :=
  read_out (length packets) (through_pixels offset packets).
End Textbook.

(** ** Where the charge goes *)

(** The electrons that stay behind in the traps, over all passes. *)
Section LeftBehind.
Context (sites : nat -> site) (phases : list nat) (steps : list (R * list (roe_phase R))).
Fixpoint left_behind (passes : list (list (Z * R * bool))) (c : column) : R :=
  match passes with
  | [] => 0
  | cells :: rest =>
      let '(c', T', _) := fold_left (pass_cell sites phases steps) cells (c, all_empty sites, all_empty sites) in
      trapped_electrons sites phases T' + left_behind rest c'
  end.
End LeftBehind.
(** The total charge of an image. *)
Definition charge (im : image R) : R := Rsum (map Rsum im).
(** Every transfer is computed on its own. *)
Definition computes_all (d : direction R) (n : nat) : Prop :=
  d_express d = 0%nat \/ (n + d_offset d <= d_express d)%nat.
(** One direction with a single group of traps, every transfer computed. *)
Definition one_group_direction (d : direction R) (n : nat) : Prop :=
  d_window d = WNone /\
  (d_traps d = None \/ exists c traps dwell dt, plain_setting d n c traps dwell dt /\
     computes_all d n /\ length (groups_in traps) = 1%nat).
