(** * Property C92: no pixel changes by more than the traps it passes
    (main.py:36-233, main_utils.pyx:14-264, trap_managers.py:454-790). *)
From Coq Require Import ZArith List Bool Reals Lra Lia.
From Verif Require Import Num Py RFacts CCDModel TrapsModel ManagerModel ROEModel ClockModel MainModel Spec SpecROE SpecImage SpecReadout SpecColumn SpecBound
  MainReadoutFacts ReadoutExamples BoundFacts.
Import ListNotations.
Open Scope R_scope.

(** Parallel and serial clocking, whatever the image, the species and groups of instant traps,
    the numbers of phases and the express values. *)
Theorem C92_change_is_limited im parallel serial rows cols :
  shape rows cols im -> (0 < rows)%nat -> (0 < cols)%nat -> (forall i j, 0 <= pixel im i j) ->
  plain_direction parallel rows -> plain_direction serial cols ->
  exists im', add_cti im parallel serial None = Ok (im', the_roe parallel, the_roe serial) /\ shape rows cols im' /\
  forall i j x y, (i < rows)%nat -> (j < cols)%nat -> change_limit parallel rows i x -> change_limit serial cols j y ->
    Rabs (pixel im' i j - pixel im i j) <= x + y.
Proof. exact (both_bounded im parallel serial rows cols). Qed.
Print Assumptions C92_change_is_limited.

(** The limit is attained: the first pixel loses exactly the traps of one pixel. *)
Example C92_example : let d := small_direction small_roe (TOne (small_trap (1/2))) in exists im',
  plain_direction d 2 /\ plain_direction no_direction 1 /\ change_limit d 2 0 (1/2) /\ change_limit no_direction 1 0 0 /\
  add_cti small_image d no_direction None = Ok (im', the_roe d, the_roe no_direction) /\
  Rabs (pixel im' 0 0 - pixel small_image 0 0) = 1/2 + 0.
Proof.
  intros d. exists [[1/2]; [3/32]].
  assert (Hset : plain_setting d 2 small_ccd (TOne (small_trap (1/2))) [ln 2] DFloat) by (apply small_setting, small_instant; lra).
  split; [split; [reflexivity|right; eauto]|]. split; [split; [reflexivity|left; reflexivity]|].
  split. { pose proof (limit_one_step d 2 0 _ _ _ _ Hset) as H. replace (1/2) with (INR (0 + 1 + d_offset d) * (all_shares small_ccd * traps_per_pixel (groups_in (TOne (small_trap (1/2)))))); [exact H|].
           unfold all_shares, traps_per_pixel, Rsum, share. cbn. lra. }
  split; [apply limit_no_traps; reflexivity|]. split; [exact small_readout|].
  unfold pixel, small_image. cbn. rewrite Rabs_left1 by lra. lra.
Qed.
