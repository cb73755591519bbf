(** * Property C94: capture in no time, by [Trap] and by [TrapInstantCapture]
    (traps.py:17-120, trap_managers.py:547-870 and 1001-1150). *)
From Coq Require Import ZArith List Bool Reals Lra Lia.
From Verif Require Import Num Py RFacts CCDModel TrapsModel ManagerModel ROEModel ClockModel MainModel Spec SpecImage SpecReadout SpecHistory SpecZeroCapture
  MainReadoutFacts ReadoutExamples ZeroCaptureFacts ZeroCaptureExample.
Import ListNotations.
Open Scope R_scope.

(** The classes agree on the first pixel of every column, which only ever meets empty traps. *)
Theorem C94_first_row_agrees im d d' serial c fraction group dwell rows cols im1 r1 s1 im2 r2 s2 notch beta full :
  shape rows cols im -> (0 < rows)%nat ->
  single_phase d rows c fraction group dwell false -> single_phase d' rows c fraction (map instant_version group) dwell false ->
  d_offset d = d_offset d' -> Forall zero_capture group -> phase_params c 0 notch beta full -> 0 < beta -> 0 <= notch < full ->
  d_traps serial = None -> d_window serial = WNone ->
  add_cti im d serial None = Ok (im1, r1, s1) -> add_cti im d' serial None = Ok (im2, r2, s2) ->
  forall j, (j < cols)%nat -> pixel im1 0 j = pixel im2 0 j.
Proof. exact (first_row_agrees im d d' serial c fraction group dwell rows cols im1 r1 s1 im2 r2 s2 notch beta full). Qed.
Print Assumptions C94_first_row_agrees.

Lemma eager_zero : Forall zero_capture [eager_trap].
Proof. constructor; [|constructor]. split; [|split; reflexivity]. constructor; cbn; try lra. Qed.
(** Both readouts of [[1]; [1/2]] give 7/8 in the first row. *)
Example C94_example : shape 2 1 two_packets /\ single_phase eager 2 small_ccd 1 [eager_trap] (ln 2) false /\
  single_phase instantly 2 small_ccd 1 (map instant_version [eager_trap]) (ln 2) false /\ Forall zero_capture [eager_trap] /\
  phase_params small_ccd 0 0 1 1 /\ d_offset eager = d_offset instantly /\
  exists im1 r1 s1 im2 r2 s2, add_cti two_packets eager no_direction None = Ok (im1, r1, s1) /\ add_cti two_packets instantly no_direction None = Ok (im2, r2, s2) /\
    pixel im1 0 0 = 7 / 8 /\ pixel im2 0 0 = 7 / 8.
Proof.
  split; [exact two_shape|]. split; [apply group_setting|]. split; [apply group_setting|]. split; [exact eager_zero|]. split; [constructor; reflexivity|]. split; [reflexivity|].
  exists [[7 / 8]; [1897 / 4096]], (the_roe eager), (the_roe no_direction), [[7 / 8]; [1890 / 4096]], (the_roe instantly), (the_roe no_direction).
  split; [exact eager_readout|]. split; [exact instantly_readout|]. split; reflexivity.
Qed.

(** The documentation of the capture timescale says "Default 0 for instant capture": a trap with
    capture timescale 0 would then act as the [TrapInstantCapture] with the same density and
    release timescale does.  It does not from the second packet on: [TrapManager] releases and
    captures in one step, so that traps below the cloud end it full, while
    [TrapManagerInstantCapture] releases first, and only then places the cloud, which has
    grown by what was released. *)
Theorem C94_zero_capture_is_instant_capture_refuted : ~ (forall im d d' serial c fraction group dwell rows cols im1 r1 s1 im2 r2 s2 notch beta full,
  shape rows cols im -> (0 < rows)%nat -> (forall i j, 0 <= pixel im i j) ->
  single_phase d rows c fraction group dwell false -> single_phase d' rows c fraction (map instant_version group) dwell false ->
  d_offset d = d_offset d' -> Forall zero_capture group -> phase_params c 0 notch beta full -> 0 < beta -> 0 <= notch < full ->
  d_traps serial = None -> d_window serial = WNone ->
  add_cti im d serial None = Ok (im1, r1, s1) -> add_cti im d' serial None = Ok (im2, r2, s2) -> im1 = im2).
Proof.
  intros H. pose proof (H two_packets eager instantly no_direction small_ccd 1 [eager_trap] (ln 2) 2%nat 1%nat _ _ _ _ _ _ 0 1 1 two_shape ltac:(lia) two_nonneg
    (group_setting _) (group_setting _) eq_refl eager_zero ltac:(constructor; reflexivity) ltac:(lra) ltac:(lra) eq_refl eq_refl eager_readout instantly_readout) as E.
  apply (f_equal (fun im => pixel im 1 0)) in E. cbn in E. lra.
Qed.
Print Assumptions C94_zero_capture_is_instant_capture_refuted.
