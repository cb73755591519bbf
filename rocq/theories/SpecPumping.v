(** * Specification of trap pumping: the charge around one pixel goes back and forth over the
    same traps, which keep what they have caught from one pump to the next. *)
From Coq Require Import ZArith List Bool Reals.
From Verif Require Import Num Py CCDModel TrapsModel ManagerModel ROEModel ClockModel MainModel Spec SpecImage SpecReadout.
Import ListNotations.
Open Scope R_scope.

Section Pumped.
Context (sites : nat -> site) (phases : list nat) (steps : list (R * list (roe_phase R))).
(** The pumps of pixel [row] in turn, each standing for a number of identical ones. *)
Definition pumps (row : Z) (mults : list R) (c : column) : column * traps_state :=
  fold_left (fun st m => transfer_pixel sites phases steps row m st) mults (c, all_empty sites).
Definition pumped (row : Z) (mults : list R) (c : column) : column := fst (pumps row mults c).
(** ... and the electrons left in the traps at the end. *)
Definition still_trapped (row : Z) (mults : list R) (c : column) : traps_state := snd (pumps row mults c).
End Pumped.

(** How many pumps each computed one stands for: equally many; where the first one has to
    be computed on its own, because it starts with empty traps, one and then equally many. *)
Definition pump_counts (n_pumps express : nat) (first_alone : bool) : list R :=
  let computed := passes_for n_pumps express in
  if (first_alone && Nat.ltb 1 n_pumps && Nat.ltb computed n_pumps)%bool
  then 1 :: repeat (INR (n_pumps - 1) / INR computed) computed
  else repeat (INR n_pumps / INR computed) computed.

(** The settings of one direction of clocking in which pixel [p] is pumped past
    instant-capture traps.  The first row has no neighbour on the side of the readout: it can
    only be pumped if no clocking step needs one, as in a single-phase device (C39). *)
Record pumping_setting (d : direction R) (rows : nat) (p : nat) (c : ccd R) (traps : traps_arg R)
    (dwell : list R) (n_pumps : nat) (ef : bool) : Prop := {
  pu_ccd : d_ccd d = Some c;
  pu_traps : d_traps d = Some traps;
  pu_roe : exists r, roe_pumping_init dwell n_pumps ef DFloat = Ok r /\ d_roe d = Some r;
  pu_window : d_window d = WInt (Z.of_nat p);
  pu_row : (p < rows)%nat;
  pu_neighbour : (1 <= p)%nat \/ length dwell = 2%nat;
  pu_pumps : (0 < n_pumps)%nat;
  pu_plain : plain_ccd c;
  pu_phases : (ccd_n_phases c <= length dwell / 2)%nat;
  pu_instant : instant_traps traps
}.
(** Every pump is computed. *)
Definition every_pump (d : direction R) (n_pumps : nat) : Prop :=
  d_express d = 0%nat \/ (n_pumps <= d_express d)%nat.

(** ** One phase per pixel: the traps see two pixels in turn. *)
Section TwoPixels.
Context (traps : list (trap R)) (well : R -> R) (dwell dwell' : R).
Fixpoint back_and_forth (pumps : nat) (a b : R) (P : profile) : R * R :=
  match pumps with
  | O => (a, b)
  | S n =>
      let P1 := transfer_after traps well dwell a P in
      back_and_forth n (a + transfer_net traps well dwell a P) (b + transfer_net traps well dwell' b P1)
                     (transfer_after traps well dwell' b P1)
  end.
End TwoPixels.
