(** * Specification: readouts that may be charge injections in which more charge leaves more charge. *)
From Coq Require Import ZArith List Bool Reals.
From Verif Require Import Num CCDModel TrapsModel ManagerModel ROEModel ClockModel MainModel Spec SpecROE SpecImage SpecReadout SpecBound SpecRecovery SpecExpressOrder.
Import ListNotations.
Open Scope R_scope.

(** One direction read by charge injection: every pixel is moved through the same number of
    pixels, [npt] of them or as many as there are (roe.py 627-720). *)
Record injection_setting (d : direction R) (n : nat) (c : ccd R) (traps : traps_arg R) (dwell : list R) (npt : option nat) : Prop := {
  is_ccd : d_ccd d = Some c;
  is_traps : d_traps d = Some traps;
  is_roe : d_roe d = Some (roe_injection_init dwell npt true true DFloat);
  is_plain : plain_ccd c;
  is_phases : (ccd_n_phases c <= length dwell)%nat;
  is_instant : instant_traps traps;
  is_some : (0 < injection_transfers npt n (d_offset d))%nat
}.

(** In every phase, an electron more in a cloud leads to less than one more being captured in
    all the transfers that one computed transfer stands for. *)
Definition gentle_injection (d : direction R) (n : nat) : Prop :=
  d_window d = WNone /\
  exists c traps dwell npt group, injection_setting d n c traps dwell npt /\ groups_in traps = [group] /\
    let N := injection_transfers npt n (d_offset d) in
    forall k, (k < ccd_n_phases c)%nat -> exists full beta, phase_params c k 0 beta full /\ 1 <= beta /\
      INR N / INR (passes_for N (d_express d)) * SpecRecovery.traps_per_pixel (map (thinned (share c k)) group) * beta < full.
Definition gentle_readout (d : direction R) (n : nat) : Prop := gentle_express d n \/ gentle_injection d n.

(** What the traps can do to a pixel: those of as many pixels as it is moved through, and with
    several steps those passed by the pixel in front of it, if there is one. *)
Inductive injection_limit (d : direction R) (n i : nat) : R -> Prop :=
| injection_one_step c traps dwell npt : injection_setting d n c traps [dwell] npt ->
    injection_limit d n i (INR (injection_transfers npt n (d_offset d)) * (all_shares c * SpecBound.traps_per_pixel (groups_in traps)))
| injection_steps c traps dwell npt : injection_setting d n c traps dwell npt ->
    injection_limit d n i (INR (injection_transfers npt n (d_offset d)) * match i with O => 1 | S _ => 2 end
                           * (INR (length dwell) * (all_shares c * SpecBound.traps_per_pixel (groups_in traps)))).
Definition readout_limit (d : direction R) (n i : nat) (x : R) : Prop := change_limit d n i x \/ injection_limit d n i x.
Definition charged_enough (parallel serial : direction R) (rows cols : nat) (im : image R) : Prop :=
  forall i j, (i < rows)%nat -> (j < cols)%nat -> exists p s,
    readout_limit parallel rows i p /\ readout_limit serial cols j s /\ 2 * (p + s) < pixel im i j.
