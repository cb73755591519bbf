(** * Property C93: the trail behind a pixel that is brighter than the notch
    (main.py:36-233, main_utils.pyx:14-264, trap_managers.py:454-790, ccd.py:115-180). *)
From Coq Require Import ZArith List Bool Reals Lra Lia.
From Verif Require Import Num Py RFacts CCDModel TrapsModel ManagerModel ROEModel ClockModel MainModel Spec SpecImage SpecReadout SpecHistory SpecTrail
  CCDFacts ReadoutExamples TrailFacts.
Import ListNotations.
Open Scope R_scope.

(** In every column, one pixel may be brighter than the notch; the others, and their trail,
    are held by the notch, and so is the charge of the traps of a pixel.  Then the readout
    does nothing ahead of the bright pixel, and adds to those behind it the exponential
    trails of the species, all in proportion to the volume that the bright pixel sweeps. *)
Theorem C93_exponential_trails im parallel serial c fraction group dwell notch beta full rows cols (hot : nat -> nat) :
  let loss j := swept (above_notch notch full beta) (fraction * traps_of group) (hot j + 1 + d_offset parallel) (pixel im (hot j) j) in
  shape rows cols im -> (0 < rows)%nat -> (forall i j, 0 <= pixel im i j) ->
  single_phase parallel rows c fraction group dwell false ->
  Forall (fun t => t_class t = CInstant) group -> Forall physical group ->
  phase_params c 0 notch beta full -> 0 < beta -> 0 <= notch < full -> fraction * traps_of group <= notch ->
  (forall j, (j < cols)%nat -> (hot j < rows)%nat) ->
  (forall i j, (i < rows)%nat -> (j < cols)%nat -> i <> hot j -> with_trail group fraction dwell (loss j) (hot j) i (pixel im i j) <= notch) ->
  d_traps serial = None -> d_window serial = WNone ->
  exists im', add_cti im parallel serial None = Ok (im', the_roe parallel, the_roe serial) /\ shape rows cols im' /\
    forall i j, (i < rows)%nat -> (j < cols)%nat ->
      pixel im' i j = with_trail group fraction dwell (loss j) (hot j) i (pixel im i j).
Proof. exact (trail_image im parallel serial c fraction group dwell notch beta full rows cols hot). Qed.
Print Assumptions C93_exponential_trails.

(** With one species, the release timescale is read off any two neighbours in a trail. *)
Theorem C93_timescale_from_the_trail im parallel serial c fraction t dwell notch beta full rows cols (hot : nat -> nat) im' r1 r2 j i :
  let loss j := swept (above_notch notch full beta) (fraction * traps_of [t]) (hot j + 1 + d_offset parallel) (pixel im (hot j) j) in
  shape rows cols im -> (0 < rows)%nat -> (forall i j, 0 <= pixel im i j) ->
  single_phase parallel rows c fraction [t] dwell false ->
  t_class t = CInstant -> physical t -> 0 < t_density t ->
  phase_params c 0 notch beta full -> 0 < beta -> 0 <= notch < full -> fraction * traps_of [t] <= notch ->
  (forall j, (j < cols)%nat -> (hot j < rows)%nat) ->
  (forall i j, (i < rows)%nat -> (j < cols)%nat -> i <> hot j -> with_trail [t] fraction dwell (loss j) (hot j) i (pixel im i j) <= notch) ->
  d_traps serial = None -> d_window serial = WNone ->
  add_cti im parallel serial None = Ok (im', r1, r2) ->
  (j < cols)%nat -> notch < pixel im (hot j) j -> (hot j < i)%nat -> (S i < rows)%nat ->
  0 < pixel im' (S i) j - pixel im (S i) j < pixel im' i j - pixel im i j /\
  t_release_timescale t = dwell / ln ((pixel im' i j - pixel im i j) / (pixel im' (S i) j - pixel im (S i) j)).
Proof. exact (trail_timescale im parallel serial c fraction t dwell notch beta full rows cols hot im' r1 r2 j i). Qed.
Print Assumptions C93_timescale_from_the_trail.

(** A notch of 8 electrons in a well of 16, and 4 traps that lose half of their charge in
    every transfer.  The packet of 16 electrons fills the whole pixel, then, with 12 electrons,
    half of it. *)
Definition notched_ccd : ccd R := mkCCD [1] 1 [16] [1] [8] [BList [16]].
Definition notched : direction R := mkDir (Some notched_ccd) (Some small_roe) (Some (TOne (small_trap 4))) 0 0 WNone.
Definition bright_column : image R := [[3]; [16]; [2]; [1]].
Lemma notched_setting : single_phase notched 4 notched_ccd 1 [small_trap 4] (ln 2) false.
Proof.
  constructor; try reflexivity; try lra; try discriminate.
  - exists (TOne (small_trap 4)). auto.
  - exists true, DFloat. reflexivity.
  - rewrite <- ln_1. apply ln_increasing; lra.
  - left. reflexivity.
Qed.
Lemma notched_swept : swept (above_notch 8 16 1) (1 * traps_of [small_trap 4]) 2 16 = 3 / 2.
Proof.
  replace (1 * traps_of [small_trap 4]) with 4 by (unfold traps_of, Rsum; cbn; lra).
  assert (W : forall n, 8 < n <= 16 -> above_notch 8 16 1 n = (n - 8) / 8).
  { intros n Hn. unfold above_notch. destruct (Rle_dec n 8); [lra|]. rewrite Rmin_right by lra. rewrite Rpower_1 by lra. lra. }
  cbn [swept]. rewrite (W 16) by lra. rewrite W by lra. lra.
Qed.
Lemma notched_still i : still_full [small_trap 4] (ln 2) i = 4 * (1 / 2) ^ i.
Proof.
  unfold still_full, Rsum. cbn [map fold_right small_trap t_density t_release_timescale].
  replace (exp (- ln 2 / 1)) with (1 / 2); [lra|]. unfold Rdiv. rewrite Rinv_1, Rmult_1_r, exp_Ropp, exp_ln by lra. lra.
Qed.
Definition hot_row : nat -> nat := fun _ => 1%nat.
Lemma notched_hypotheses :
  let loss j := swept (above_notch 8 16 1) (1 * traps_of [small_trap 4]) (hot_row j + 1 + d_offset notched) (pixel bright_column (hot_row j) j) in
  shape 4 1 bright_column /\ (0 < 4)%nat /\ (forall i j, 0 <= pixel bright_column i j) /\
  single_phase notched 4 notched_ccd 1 [small_trap 4] (ln 2) false /\
  Forall (fun t => t_class t = CInstant) [small_trap 4] /\ Forall physical [small_trap 4] /\
  phase_params notched_ccd 0 8 1 16 /\ 0 < 1 /\ 0 <= 8 < 16 /\ 1 * traps_of [small_trap 4] <= 8 /\
  (forall j, (j < 1)%nat -> (hot_row j < 4)%nat) /\
  (forall i j, (i < 4)%nat -> (j < 1)%nat -> i <> hot_row j ->
     with_trail [small_trap 4] 1 (ln 2) (loss j) (hot_row j) i (pixel bright_column i j) <= 8) /\
  d_traps (@no_direction R) = None /\ d_window (@no_direction R) = WNone.
Proof.
  intros loss. split; [split; [reflexivity|repeat constructor]|]. split; [lia|].
  split. { intros i j. unfold pixel, bright_column. destruct i as [|[|[|[|[|i]]]]], j as [|[|j]]; cbn; rnum; lra. }
  split; [exact notched_setting|]. split; [repeat constructor|]. split; [constructor; [apply small_physical; lra|constructor]|].
  split; [constructor; reflexivity|]. split; [lra|]. split; [lra|]. split; [unfold traps_of, Rsum; cbn; lra|]. split; [intros; unfold hot_row; lia|].
  split; [|split; reflexivity].
  intros i j Hi Hj Hne. destruct j; [|lia]. replace (loss 0%nat) with (3 / 2) by (symmetry; exact notched_swept).
  unfold hot_row in *. unfold with_trail. destruct i as [|[|[|[|i]]]]; cbn [Nat.ltb Nat.leb Nat.eqb Nat.sub]; rewrite ?notched_still; unfold pixel, bright_column; cbn [nth pow]; try lra; lia.
Qed.
Example C93_example : exists im', add_cti bright_column notched no_direction None = Ok (im', the_roe notched, the_roe no_direction) /\
  pixel im' 0 0 = 3 /\ pixel im' 1 0 = 10 /\ pixel im' 2 0 = 5 /\ pixel im' 3 0 = 5 / 2.
Proof.
  destruct notched_hypotheses as (H1 & H2 & H3 & H4 & H5 & H6 & H7 & H8 & H9 & H10 & H11 & H12 & H13 & H14).
  destruct (C93_exponential_trails bright_column notched no_direction notched_ccd 1 [small_trap 4] (ln 2) 8 1 16 4 1 hot_row H1 H2 H3 H4 H5 H6 H7 H8 H9 H10 H11 H12 H13 H14)
    as (im' & E & _ & H). exists im'. split; [exact E|].
  rewrite !H by lia. unfold hot_row. change (1 + 1 + d_offset notched)%nat with 2%nat. change (pixel bright_column 1 0) with 16. rewrite notched_swept.
  unfold with_trail. cbn [Nat.ltb Nat.leb Nat.eqb Nat.sub]. rewrite !notched_still. unfold traps_of, Rsum, pixel, bright_column. cbn. repeat split; lra.
Qed.
Example C93_timescale_example im' : add_cti bright_column notched no_direction None = Ok (im', the_roe notched, the_roe no_direction) ->
  1 = ln 2 / ln ((pixel im' 2 0 - pixel bright_column 2 0) / (pixel im' 3 0 - pixel bright_column 3 0)).
Proof.
  intros E. destruct notched_hypotheses as (H1 & H2 & H3 & H4 & H5 & H6 & H7 & H8 & H9 & H10 & H11 & H12 & H13 & H14).
  refine (proj2 (C93_timescale_from_the_trail bright_column notched no_direction notched_ccd 1 (small_trap 4) (ln 2) 8 1 16 4 1 hot_row im' _ _ 0 2
    H1 H2 H3 H4 _ _ _ H7 H8 H9 H10 H11 H12 H13 H14 E _ _ _ _)).
  - reflexivity.
  - apply small_physical. lra.
  - cbn. lra.
  - lia.
  - unfold hot_row, pixel, bright_column. cbn. lra.
  - unfold hot_row. lia.
  - lia.
Qed.
