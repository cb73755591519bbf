(** * Properties C97 and C98: windows of rows, and offsets (main.py:109-122, README.md:237-246). *)
From Coq Require Import ZArith List Bool Reals Lra Lia.
From Coquelicot Require Import Rcomplements Rbar Hierarchy RInt.
From Verif Require Import Num Py RFacts CCDModel TrapsModel ManagerModel ROEModel ClockModel MainModel Spec SpecROE SpecImage SpecReadout SpecColumn SpecWindow
  MainReadoutFacts ReadoutExamples WindowFacts WindowMainFacts OffsetFacts OffsetExample.
Import ListNotations.
Open Scope R_scope.

(** ** C97: "calculate only the effect on this subset of pixels" *)

(** Reading out the rows [a] to [b - 1] is reading out all the rows up to [b - 1] of the image
    without the charge of the rows before [a], for every value of express; the rows before [a] are
    left alone.  This is what the documentation calls edge effects. *)
Theorem C97_rows_before_a_window_count_as_empty im parallel serial c traps dwell dt rows cols a b :
  shape rows cols im -> (forall i j, 0 <= pixel im i j) -> (a < b)%nat -> (b <= rows)%nat ->
  plain_setting parallel b c traps dwell dt -> d_traps serial = None -> columns_ok (selected (d_window serial) cols) cols ->
  forall w, selected w rows = py_range (Z.of_nat a) (Z.of_nat b) -> exists im1 im0,
  add_cti im (with_window parallel w) serial None = Ok (im1, the_roe parallel, the_roe serial) /\
  add_cti (blank a im) (with_window parallel (WRange (py_range 0 (Z.of_nat b)))) serial None = Ok (im0, the_roe parallel, the_roe serial) /\
  shape rows cols im1 /\ shape rows cols im0 /\
  forall i j, (i < rows)%nat -> pixel im1 i j = if Nat.ltb i a then pixel im i j else pixel im0 i j.
Proof.
  intros H1 H2 H3 H4 H5 H6 H7 w Hw. eapply window_result; eauto.
Qed.
Print Assumptions C97_rows_before_a_window_count_as_empty.

(** When every transfer is computed, the window gives what the readout of the whole image would
    give there, had there been no charge before the window. *)
Theorem C97_window_of_the_whole_readout im parallel serial c traps dwell dt rows cols a b :
  shape rows cols im -> (forall i j, 0 <= pixel im i j) -> (a < b)%nat -> (b <= rows)%nat ->
  plain_setting parallel b c traps dwell dt -> computes_all parallel rows -> d_traps serial = None -> columns_ok (selected (d_window serial) cols) cols ->
  forall w, selected w rows = py_range (Z.of_nat a) (Z.of_nat b) -> exists im1 im0,
  add_cti im (with_window parallel w) serial None = Ok (im1, the_roe parallel, the_roe serial) /\
  add_cti (blank a im) (with_window parallel WNone) serial None = Ok (im0, the_roe parallel, the_roe serial) /\
  shape rows cols im1 /\
  forall i j, (i < b)%nat -> pixel im1 i j = if Nat.ltb i a then pixel im i j else pixel im0 i j.
Proof.
  intros H1 H2 H3 H4 H5 H6 H7 H8 w Hw. eapply window_of_all; eauto.
Qed.
Print Assumptions C97_window_of_the_whole_readout.

(** The second of two pixels, with 1 electron, is read out alone: whatever is in the first, it keeps
    1/4, since half of the electrons are captured in each of two transfers past empty traps. *)
Example C97_example x : 0 <= x -> exists im1, add_cti [[x]; [1]] last_of_two no_direction None = Ok (im1, the_roe last_of_two, the_roe no_direction) /\
  pixel im1 0 0 = x /\ pixel im1 1 0 = 1/4.
Proof.
  intros Hx. assert (Hp : forall i j, 0 <= pixel [[x]; [1]] i j) by (intros [|[|[|i]]] [|[|j]]; cbn; rnum; lra).
  destruct (C97_window_of_the_whole_readout [[x]; [1]] (small_direction small_roe half) no_direction small_ccd half [ln 2] DFloat 2 1 1 2) with (w := WRange (py_range 1 2)) as (im1 & im0 & E1 & E0 & _ & V); try lia.
  - repeat constructor.
  - exact Hp.
  - apply small_setting, small_instant. lra.
  - left. reflexivity.
  - reflexivity.
  - exact small_columns.
  - reflexivity.
  - exists im1. split; [exact E1|]. change (blank 1 [[x]; [1]]) with [[0]; [1]] in E0. change (with_window (small_direction small_roe half) WNone) with (small_direction small_roe half) in E0.
    rewrite blank_readout in E0. injection E0 as <-. split; [apply (V 0%nat 0%nat); lia|]. rewrite (V 1%nat 0%nat) by lia. reflexivity.
Qed.

(** So a window is not a window on the result: with 1 electron in the first pixel too, the whole readout
    leaves the second more than 1/4. *)
Theorem C97_a_window_of_the_result_refuted : exists im parallel serial rows cols a b im1 im2 pr sr,
  shape rows cols im /\ (forall i j, 0 <= pixel im i j) /\ (a < b <= rows)%nat /\ d_traps serial = None /\ computes_all parallel rows /\
  add_cti im (with_window parallel (WRange (py_range (Z.of_nat a) (Z.of_nat b)))) serial None = Ok (im1, pr, sr) /\
  add_cti im (with_window parallel WNone) serial None = Ok (im2, pr, sr) /\
  exists i j, (a <= i < b)%nat /\ pixel im1 i j < pixel im2 i j.
Proof.
  destruct (C97_example 1 ltac:(lra)) as (im1 & E1 & _ & V1).
  exists [[1]; [1]], (small_direction small_roe half), no_direction, 2%nat, 1%nat, 1%nat, 2%nat, im1, [[1/2]; [1/2]], (the_roe (small_direction small_roe half)), (the_roe no_direction).
  split; [repeat constructor|]. split; [intros [|[|[|i]]] [|[|j]]; cbn; rnum; lra|]. split; [lia|]. split; [reflexivity|]. split; [left; reflexivity|].
  split; [exact E1|]. split; [exact full_readout_of_two|]. exists 1%nat, 0%nat. split; [lia|]. rewrite V1. cbn. lra.
Qed.
Print Assumptions C97_a_window_of_the_result_refuted.

(** ** C98: the offset is "the number of pixels separating the supplied image from the readout register" *)

(** An offset is that many blank rows before the image, if the two calls agree on whether first
    transfers are computed separately. *)
Theorem C98_an_offset_is_blank_rows im parallel serial c traps dwell dt rows cols k offset :
  shape rows cols im -> (0 < rows)%nat -> (forall i j, 0 <= pixel im i j) ->
  plain_setting parallel rows c traps dwell dt -> d_window parallel = WNone ->
  (d_express parallel = 0%nat \/ (S (d_express parallel) < rows)%nat \/ (k + rows <= d_express parallel)%nat) ->
  d_traps serial = None -> columns_ok (selected (d_window serial) cols) cols ->
  exists im1 im2,
  add_cti im (with_offset parallel (k + offset)) serial None = Ok (im1, the_roe parallel, the_roe serial) /\
  add_cti (rows_before k cols im) (with_offset parallel offset) serial None = Ok (im2, the_roe parallel, the_roe serial) /\
  shape rows cols im1 /\ shape (k + rows) cols im2 /\
  (forall i j, (i < k)%nat -> pixel im2 i j = 0) /\
  forall i j, (i < rows)%nat -> pixel im2 (k + i) j = pixel im1 i j.
Proof.
  intros H1 H2 H3 H4 H5 H6 H7 H8. exact (offset_is_rows im parallel serial c traps dwell dt rows cols k offset H1 H2 H3 H4 H5 H6 H7 H8).
Qed.
Print Assumptions C98_an_offset_is_blank_rows.

(** One pixel with 1 electron and an offset of 1 keeps 1/4, as after a blank pixel. *)
Example C98_example : exists im1, add_cti [[1]] (with_offset (small_direction small_roe half) 1) no_direction None = Ok (im1, the_roe (small_direction small_roe half), the_roe no_direction) /\
  pixel im1 0 0 = 1/4.
Proof.
  destruct (C98_an_offset_is_blank_rows [[1]] (small_direction small_roe half) no_direction small_ccd half [ln 2] DFloat 1 1 1 0) as (im1 & im2 & E1 & E2 & _ & _ & _ & V); try lia.
  - repeat constructor.
  - intros [|[|i]] [|[|j]]; cbn; rnum; lra.
  - apply small_setting, small_instant. lra.
  - reflexivity.
  - left. reflexivity.
  - reflexivity.
  - exact small_columns.
  - exists im1. split; [exact E1|]. change (rows_before 1 1 [[1]]) with [[0]; [1]] in E2. change (with_offset (small_direction small_roe half) 0) with (small_direction small_roe half) in E2.
    rewrite blank_readout in E2. injection E2 as <-. rewrite <- (V 0%nat 0%nat ltac:(lia)). reflexivity.
Qed.

(** For the other values of express the two differ: with express = 1, an offset of 2 and one
    pixel, the first transfer is not computed separately (5/8), after two blank rows it is (21/32). *)
Theorem C98_an_offset_is_blank_rows_for_every_express_refuted : exists im parallel serial c traps dwell dt rows cols k im1 im2 pr sr,
  shape rows cols im /\ (0 < rows)%nat /\ (forall i j, 0 <= pixel im i j) /\ plain_setting parallel rows c traps dwell dt /\ plain_setting parallel (k + rows) c traps dwell dt /\
  d_window parallel = WNone /\ d_traps serial = None /\
  add_cti im (with_offset parallel k) serial None = Ok (im1, pr, sr) /\
  add_cti (rows_before k cols im) (with_offset parallel 0) serial None = Ok (im2, pr, sr) /\
  exists i j, (i < rows)%nat /\ (j < cols)%nat /\ pixel im1 i j < pixel im2 (k + i) j.
Proof.
  destruct rows_readout as (im2 & E2 & V2).
  exists [[1]], lone_direction, no_direction, small_ccd, (TOne (small_trap (1/8))), [ln 2], DFloat, 1%nat, 1%nat, 2%nat, [[5/8]], im2, (the_roe lone_direction), (the_roe no_direction).
  split; [repeat constructor|]. split; [lia|]. split; [intros [|[|i]] [|[|j]]; cbn; rnum; lra|].
  split; [exact (lone_setting 0 1 ltac:(lia))|]. split; [exact (lone_setting 0 3 ltac:(lia))|]. split; [reflexivity|]. split; [reflexivity|].
  split; [exact offset_readout|]. split; [exact E2|]. exists 0%nat, 0%nat. split; [lia|]. split; [lia|]. cbn [Nat.add]. rewrite V2. cbn. lra.
Qed.
Print Assumptions C98_an_offset_is_blank_rows_for_every_express_refuted.
