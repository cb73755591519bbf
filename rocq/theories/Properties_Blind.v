(** * Property C95: traps that cannot capture, or of which there are none, do nothing
    (traps.py:17-60, trap_managers.py:302-350 and 547-870). *)
From Coq Require Import ZArith List Bool Reals Lra Lia SpecFloat.
From Verif Require Import Num Py RFacts CCDModel TrapsModel ManagerModel ROEModel ClockModel MainModel DoubleNum Spec SpecImage SpecReadout SpecHistory SpecDouble SpecBlind
  MainReadoutFacts ReadoutExamples ZeroCaptureExample DoubleCalls DoubleFacts BlindFacts BlindExample.
Import ListNotations.
Open Scope R_scope.

(** When every group of traps in use is made of traps of infinite capture timescale, or of
    traps of density 0, every call that finishes returns the image it was given: any shape, any
    window, any readout electronics, both directions. *)
Theorem C95_traps_that_cannot_capture_do_nothing im parallel serial tw im' pr sr rows cols :
  shape rows cols im -> (0 < rows)%nat -> (0 < cols)%nat -> (forall i j, 0 <= pixel im i j) ->
  harmless parallel -> harmless serial -> add_cti im parallel serial tw = Ok (im', pr, sr) -> im' = im.
Proof. exact (harmless_unchanged im parallel serial tw im' pr sr rows cols). Qed.
Print Assumptions C95_traps_that_cannot_capture_do_nothing.

(** Two pixels in a column, past one trap per pixel that never captures and releases with a
    timescale of 1: the call finishes. *)
Example C95_example : shape 2 1 two_packets /\ (forall i j, 0 <= pixel two_packets i j) /\ harmless blindly /\ harmless no_direction /\
  exists im' pr sr, add_cti two_packets blindly no_direction None = Ok (im', pr, sr).
Proof.
  split; [exact two_shape|]. split; [exact two_nonneg|]. split.
  - intros traps group [= <-] [<-|[]]. left. constructor; [exact blind_trap_blind|constructor].
  - split; [intros traps group [=]|]. destruct blind_readout as (im' & E). eauto.
Qed.

(** A trap whose release timescale is infinite as well should do nothing all the more.  The
    rates are then both 0, and the chance to capture is computed as 0 * (1 - 1) / 0, which is
    NaN.  Reading out a column of 50 and 10 electrons past traps of density 4 in a well of 100
    gives 48 and NaN: the first pixel has lost the electrons that a full trap would take, and the
    second is no number.  This holds in double arithmetic, whatever the C library is, so long
    as exp(0) is 1 and x ** 1 is x. *)
Theorem C95_frozen_traps_do_nothing_refuted exp_c log_c pow_c :
  (forall s, exp_c (S754_zero s) = double_of_Z 1) -> (forall x, pow_c x (double_of_Z 1) = x) ->
  let num := DoubleNum exp_c log_c pow_c in
  exists r r', frozen_call [[double_of_Z 50]; [double_of_Z 10]] = Ok ([[double_of_Z 48]; [S754_nan]], r, r').
Proof.
  intros He Hp. pose proof (frozen_act exp_c log_c pow_c) as H. rewrite (exp_zeroed exp_c He) in H.
  rewrite (pow_guard_of pow_c Hp) in H. exact H.
Qed.
Print Assumptions C95_frozen_traps_do_nothing_refuted.
(** There is such a library. *)
Example C95_library : exists (exp_c : double -> double) (pow_c : double -> double -> double), (forall s, exp_c (S754_zero s) = double_of_Z 1) /\ (forall x, pow_c x (double_of_Z 1) = x).
Proof. exists (fun _ => double_of_Z 1), (fun x _ => x). split; reflexivity. Qed.
