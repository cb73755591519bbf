(** * Specification: charge injection past the traps of a single phase, for traps of any kind. *)
From Coq Require Import ZArith List Bool Reals.
From Verif Require Import Num Py CCDModel TrapsModel ManagerModel ROEModel ClockModel MainModel Spec SpecROE SpecImage SpecReadout SpecTime SpecSlow SpecHistory SpecHold SpecFlatten SpecPatient SpecMild.
Import ListNotations.
Open Scope R_scope.

(** Every packet passes [transfers] pixels of traps, each of them in state [start] when the first
    packet arrives.  The traps are emptied, or kept as they are, between columns. *)
Fixpoint columns_injected {St} (past : St -> list R -> result (list R * St)) (keep : bool) (empty start : St)
    (transfers : nat) (columns : list (list R)) : result (list (list R)) :=
  match columns with
  | [] => Ok []
  | packets :: l =>
      do '(out, s) <- before past start transfers start packets;
      do outs <- columns_injected past keep empty (if keep then s else empty) transfers l;
      Ok (out :: outs)
  end.

(** One direction read by charge injection, with a single phase, one group of traps of any kind
    and every transfer computed; not more transfers than there are pixels and offset (further
    ones are left out by the time window of a parallel readout, C31). *)
Record single_injection (d : direction R) (n : nat) (c : ccd R) (fraction : R) (group : list (trap R)) (dwell : R) (npt : option nat) (keep : bool) : Prop := {
  si_ccd : d_ccd d = Some c;
  si_fractions : ccd_fractions c = [fraction];
  si_phases : ccd_n_phases c = 1%nat;
  si_share : 0 < fraction;
  si_traps : exists traps, d_traps d = Some traps /\ groups_in traps = [group];
  si_group : group <> [];
  si_roe : exists force, d_roe d = Some (roe_injection_init [dwell] npt (negb keep) force DFloat);
  si_dwell : 0 < dwell;
  si_window : d_window d = WNone;
  si_some : (0 < injection_transfers npt n (d_offset d) <= n + d_offset d)%nat;
  si_express : d_express d = 0%nat \/ (injection_transfers npt n (d_offset d) <= d_express d)%nat
}.
(** The clock remembers the number of transfers. *)
Definition counted (r : roe R) (n : nat) : roe R :=
  match roe_kind_of r with
  | Injection _ => mkROE (Injection (Some n)) (roe_dwell_times r) (roe_dtype r) (roe_empty_between r) (roe_force r) (roe_clock_sequence r) (roe_pixels r)
  | _ => r
  end.

(** Charge injection past traps that record times, or slow traps, where an electron more, in any
    cloud, reaches less than one trap more; and what the traps can take from a pixel, or give to it. *)
Inductive mild_injection (d : direction R) (n : nat) : R -> Prop :=
| mild_timed_injection c fraction group dwell npt full beta :
    single_injection d n c fraction group dwell npt false -> kind_for group = KTime -> Forall flattening group ->
    phase_params c 0 0 beta full -> 0 < full -> 1 <= beta -> fraction * filled_traps group * beta < full ->
    mild_injection d n (INR (injection_transfers npt n (d_offset d)) * (fraction * filled_traps group))
| mild_patient_injection c fraction group dwell npt full beta :
    single_injection d n c fraction group dwell npt false -> Forall (fun t => t_class t = CTrap) group -> Forall capturing group ->
    phase_params c 0 0 beta full -> 0 < full -> 1 <= beta -> fraction * full_traps group * beta < full ->
    mild_injection d n (INR (injection_transfers npt n (d_offset d)) * (fraction * full_traps group)).
(** That, or readout as in C120; and what the traps can take from pixel [i], or give to it. *)
Inductive mild_direction (d : direction R) (n : nat) : (nat -> R -> Prop) -> Prop :=
| mild_readout : mild_call d n -> mild_direction d n (any_limit d n)
| mild_injected x : mild_injection d n x -> mild_direction d n (fun _ y => y = x).
Definition mild_any_call (d : direction R) (n : nat) : Prop := exists limit, mild_direction d n limit.
Definition mild_any_enough (parallel serial : direction R) (rows cols : nat) (im : image R) : Prop :=
  exists P S, mild_direction parallel rows P /\ mild_direction serial cols S /\
  forall i j, (i < rows)%nat -> (j < cols)%nat -> exists p s, P i p /\ S j s /\ 2 * (p + s) < pixel im i j.

(** The charge of the [i] rows and [j] columns next to the corner that is read out first. *)
Definition corner (im : image R) (i j : nat) : R :=
  Rsum (map (fun q => Rsum (map (fun p => pixel im p q) (seq 0 i))) (seq 0 j)).
(** A direction that is not read out, or one of those above with traps of the class [Trap] or that record times. *)
Definition mild_slow (d : direction R) (n : nat) : Prop :=
  (d_traps d = None /\ d_window d = WNone) \/ mild_timed d n \/ mild_patient d n \/ exists x, mild_injection d n x.
