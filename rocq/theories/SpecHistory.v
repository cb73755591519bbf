(** * Specification: the readout of columns past the traps of a single phase, for traps of any
    kind.  Only the order in which the packets of charge meet the traps is said here; how
    the traps respond to a sequence of packets is given as [past]. *)
From Coq Require Import List Reals.
From Verif Require Import Num Py CCDModel TrapsModel ManagerModel ROEModel ClockModel MainModel Spec SpecReadout SpecTime SpecSlow.
Import ListNotations.
Open Scope R_scope.

Section History.
(** [past s packets]: the packets as they leave the traps, and the state they leave behind. *)
Context {St : Type} (past : St -> list R -> result (list R * St)).
(** Every pixel of traps is in state [start] when the first packet arrives; [last] is the
    state of the traps that were passed last. *)
Context (start : St).
Fixpoint reading (rows : nat) (last : St) (packets : list R) : result (list R * St) :=
  match rows with
  | O => Ok ([], last)
  | S k =>
      do '(l, s) <- past start packets;
      match l with
      | [] => Ok ([], s)
      | first :: rest => do '(l', s') <- reading k s rest; Ok (first :: l', s')
      end
  end.
Fixpoint before (offset : nat) (last : St) (packets : list R) : result (list R * St) :=
  match offset with
  | O => Ok (packets, last)
  | S k => do '(l, s) <- past start packets; before k s l
  end.
Definition column_past (offset : nat) (packets : list R) : result (list R * St) :=
  do '(l, s) <- before offset start packets;
  reading (length packets) s l.
End History.

(** The columns in turn: the traps are emptied, or kept as they are, between columns. *)
Fixpoint columns_past {St} (past : St -> list R -> result (list R * St)) (keep : bool) (empty start : St)
    (offset : nat) (columns : list (list R)) : result (list (list R)) :=
  match columns with
  | [] => Ok []
  | packets :: l =>
      do '(out, s) <- column_past past start offset packets;
      do outs <- columns_past past keep empty (if keep then s else empty) offset l;
      Ok (out :: outs)
  end.

(** The response of a trap manager: one call for each packet, which keeps what is not taken,
    or gets what is released. *)
Fixpoint past_manager (fill : filling R) (dwell : R) (m : manager R) (packets : list R)
    : result (list R * manager R) :=
  match packets with
  | [] => Ok ([], m)
  | n :: l =>
      do '(net, m1) <- manager_step m n fill dwell;
      do '(l', m2) <- past_manager fill dwell m1 l;
      Ok (Rmax 0 (n + net) :: l', m2)
  end.

(** The manager of a group of species, with empty traps and room for [n] calls. *)
Definition kind_for (group : list (trap R)) : mkind :=
  match group with
  | [] => KSlow
  | t :: _ => match t_class t with CTrap => KSlow | CInstant => KInstant | CContinuum _ _ _ => KTime end
  end.
Definition empty_manager (fraction : R) (group : list (trap R)) (n : nat) : manager R :=
  mkManager (kind_for group) (map (thinned fraction) group)
    (repeat (0, repeat 0 (length group)) (S (match kind_for group with KSlow => 2 * n | _ => n end))).

(** One direction of readout with a single phase, one group of traps of any kind, and every
    transfer computed. *)
Record single_phase (d : direction R) (n : nat) (c : ccd R) (fraction : R) (group : list (trap R)) (dwell : R) (keep : bool) : Prop := {
  sp_ccd : d_ccd d = Some c;
  sp_fractions : ccd_fractions c = [fraction];
  sp_phases : ccd_n_phases c = 1%nat;
  sp_share : 0 < fraction;
  sp_traps : exists traps, d_traps d = Some traps /\ groups_in traps = [group];
  sp_group : group <> [];
  sp_roe : exists force dt, d_roe d = Some (roe_init [dwell] true (negb keep) force dt);
  sp_dwell : 0 < dwell;
  sp_window : d_window d = WNone;
  sp_express : d_express d = 0%nat \/ (n + d_offset d <= d_express d)%nat
}.

(** Traps that record the time since they were filled: every packet, together with what is
    released before it is there, must have enough electrons to fill the traps it reaches. *)
Fixpoint past_times (traps : list (trap R)) (well : R -> R) (dwell : R) (T : times) (packets : list R)
    : result (list R * times) :=
  match packets with
  | [] => Ok ([], T)
  | n :: l =>
      if Rle_dec (wanted traps well dwell n T) (cloud_after traps dwell n T) then
        do '(l', T') <- past_times traps well dwell (times_after traps well dwell n T) l;
        Ok (cloud_after traps dwell n T - wanted traps well dwell n T :: l', T')
      else Err TypeError
  end.

(** Slow capture, by the rate equation, as long as the recomputed clouds stay inside the levels
    and, beside traps that capture in no time, find enough electrons; an error here only says
    that this description ends.  The state is the depth of the highest level and the
    occupancies. *)
Definition takes_time (t : trap R) : bool := match t_capture_rate t with RInf => false | RFin _ => true end.
Definition told (traps : list (trap R)) (well : R -> R) (dwell n : R) (P : profile) : bool :=
  forallb takes_time traps || (if Rle_dec (gain traps well dwell n P) (cloud_then traps well dwell n P) then true else false).
Fixpoint past_slow (traps : list (trap R)) (well : R -> R) (dwell : R) (s : R * profile) (packets : list R)
    : result (list R * (R * profile)) :=
  match packets with
  | [] => Ok ([], s)
  | n :: l =>
      let '(top, P) := s in
      if negb (told traps well dwell n P) then Err OutOfBounds
      else if Rlt_dec top (well n) then
        do '(l', s') <- past_slow traps well dwell (well n, slow_after traps well dwell n P) l;
        Ok (Rmax 0 (n - slow_taken traps well dwell n P) :: l', s')
      else if Rle_dec (well (cloud_then traps well dwell n P)) top then
        do '(l', s') <- past_slow traps well dwell (top, slow_after traps well dwell n P) l;
        Ok (Rmax 0 (n - slow_taken traps well dwell n P) :: l', s')
      else Err OutOfBounds
  end.
