(** * Properties C67-C70: images with negative pixels, and what readout and correction do to
    the order of images and their differences. *)
From Coq Require Import ZArith List Bool Reals Lra Lia.
From Verif Require Import Num Py RFacts CCDModel TrapsModel ManagerModel ROEModel ClockModel MainModel Spec SpecImage SpecReadout SpecHistory SpecRecovery
  ReadoutExamples OverfullExample RecoverFacts RecoverImageFacts DivergeExample.
Import ListNotations.
Open Scope R_scope.

(** ** C67: the readout of any image, with negative pixels too.
    A packet is a cloud only as far as it is above zero once what the traps release has
    joined it; a pixel that was negative leaves the first traps with at least zero. *)
Theorem C67_readout_of_any_image (im : image R) parallel serial c fraction group dwell full beta rows cols :
  shape rows cols im -> (0 < rows)%nat ->
  single_phase parallel rows c fraction group dwell false -> instant_group group ->
  phase_params c 0 0 beta full -> 0 < full -> 0 < beta ->
  d_traps serial = None -> d_window serial = WNone ->
  exists im', add_cti im parallel serial None = Ok (im', the_roe parallel, the_roe serial) /\ shape rows cols im' /\
    forall j, (j < cols)%nat -> column_of im' j =
      column_clouds (map (thinned fraction) group) (depth full beta) dwell (d_offset parallel) (column_of im j).
Proof. exact (any_image im parallel serial c fraction group dwell full beta rows cols). Qed.
Print Assumptions C67_readout_of_any_image.

Section Conditions.
(** A readout with a single phase, past one group of instant-capture traps, emptied between
    columns, every transfer computed, in a well without notch; no serial readout. *)
Context (parallel serial : direction R) (c : ccd R) (fraction dwell full beta floor : R) (group : list (trap R)) (rows cols : nat).
Definition per_pixel : R := traps_per_pixel (map (thinned fraction) group).
Definition n_passes : nat := (d_offset parallel + rows)%nat.
Definition simple_readout : Prop :=
  (0 < rows)%nat /\ (0 < cols)%nat /\ single_phase parallel rows c fraction group dwell false /\ instant_group group /\
  phase_params c 0 0 beta full /\ 0 < full /\ 0 < beta /\ d_traps serial = None /\ d_window serial = WNone.

(** ** C68: readout keeps the order of images, and does not enlarge their differences. *)
Theorem C68_more_charge_in_more_charge_out a b : simple_readout -> mild per_pixel full beta floor ->
  shape rows cols a -> shape rows cols b ->
  (forall i j, (i < rows)%nat -> (j < cols)%nat -> stays_above per_pixel floor n_passes (pixel a i j)) ->
  (forall i j, (i < rows)%nat -> (j < cols)%nat -> pixel a i j <= pixel b i j) ->
  exists a' b', add_cti a parallel serial None = Ok (a', the_roe parallel, the_roe serial) /\
    add_cti b parallel serial None = Ok (b', the_roe parallel, the_roe serial) /\
    forall i j, (i < rows)%nat -> (j < cols)%nat -> pixel a' i j <= pixel b' i j.
Proof.
  intros (H1 & H2 & H3 & H4 & H5 & H6 & H7 & H8 & H9) Hm.
  exact (order_image parallel serial c fraction dwell full beta floor group rows cols H1 H3 H4 H5 H6 H7 H8 H9 Hm a b).
Qed.
(** In each column, and in the rows up to any row, the total absolute difference of two
    images is at most what it was. *)
Theorem C68_differences_do_not_grow a b : simple_readout -> mild per_pixel full beta floor ->
  shape rows cols a -> shape rows cols b ->
  (forall i j, (i < rows)%nat -> (j < cols)%nat -> stays_above per_pixel floor n_passes (pixel a i j)) ->
  (forall i j, (i < rows)%nat -> (j < cols)%nat -> stays_above per_pixel floor n_passes (pixel b i j)) ->
  exists a' b', add_cti a parallel serial None = Ok (a', the_roe parallel, the_roe serial) /\
    add_cti b parallel serial None = Ok (b', the_roe parallel, the_roe serial) /\
    forall i j, (j < cols)%nat ->
      apart (firstn i (column_of a' j)) (firstn i (column_of b' j)) <= apart (firstn i (column_of a j)) (firstn i (column_of b j)).
Proof.
  intros (H1 & H2 & H3 & H4 & H5 & H6 & H7 & H8 & H9) Hm.
  exact (apart_image parallel serial c fraction dwell full beta floor group rows cols H1 H3 H4 H5 H6 H7 H8 H9 Hm a b).
Qed.
(** Two different images are never read out as the same image. *)
Theorem C68_different_images_stay_different a b out pr sr pr' sr' : simple_readout -> mild per_pixel full beta floor ->
  shape rows cols a -> shape rows cols b ->
  (forall i j, (i < rows)%nat -> (j < cols)%nat -> 0 <= pixel a i j /\ stays_above per_pixel floor n_passes (pixel a i j)) ->
  (forall i j, (i < rows)%nat -> (j < cols)%nat -> 0 <= pixel b i j /\ stays_above per_pixel floor n_passes (pixel b i j)) ->
  add_cti a parallel serial None = Ok (out, pr, sr) -> add_cti b parallel serial None = Ok (out, pr', sr') -> a = b.
Proof.
  intros (H1 & H2 & H3 & H4 & H5 & H6 & H7 & H8 & H9) Hm.
  exact (injective_image parallel serial c fraction dwell full beta floor group rows cols H1 H3 H4 H5 H6 H7 H8 H9 Hm a b out pr sr pr' sr').
Qed.

(** ** C69: remove_cti recovers the image that was read out, at a geometric rate. *)
Theorem C69_correction_recovers_the_image x : simple_readout -> mild per_pixel full beta floor ->
  shape rows cols x ->
  (forall i j, (i < rows)%nat -> (j < cols)%nat -> well_above per_pixel floor n_passes (pixel x i j)) ->
  exists im, add_cti x parallel serial None = Ok (im, the_roe parallel, the_roe serial) /\
  exists C r, 0 <= C /\ 0 <= r < 1 /\ forall n, exists est, remove_cti im n parallel serial None = Ok est /\ shape rows cols est /\
    forall i j, (i < rows)%nat -> (j < cols)%nat -> Rabs (pixel est i j - pixel x i j) <= C * r ^ n.
Proof.
  intros (H1 & H2 & H3 & H4 & H5 & H6 & H7 & H8 & H9) Hm.
  exact (recover_image parallel serial c fraction dwell full beta floor group rows cols H1 H3 H4 H5 H6 H7 H8 H9 Hm x H2).
Qed.
End Conditions.
Print Assumptions C68_more_charge_in_more_charge_out.
Print Assumptions C68_differences_do_not_grow.
Print Assumptions C68_different_images_stay_different.
Print Assumptions C69_correction_recovers_the_image.

(** Without that condition on the wells the claims fail: where one electron more makes a cloud
    reach more than one more trap, the larger of two images can be read out as the smaller,
    and two images as the same. *)
Theorem C68_any_well_refuted :
  simple_readout steep no_direction steep_ccd 1 (ln 2) 1 2 [small_trap (3 / 4)] 1 1 /\
  (exists a' b', add_cti [[2 / 3]] steep no_direction None = Ok ([[a']], the_roe steep, the_roe no_direction) /\
    add_cti [[1]] steep no_direction None = Ok ([[b']], the_roe steep, the_roe no_direction) /\ b' < a') /\
  add_cti [[1 / 3]] steep no_direction None = Ok ([[1 / 4]], the_roe steep, the_roe no_direction) /\
  add_cti [[1]] steep no_direction None = Ok ([[1 / 4]], the_roe steep, the_roe no_direction).
Proof.
  split; [|split; [|split]].
  - repeat split; try lia; try lra; try apply steep_setting; try reflexivity; try discriminate. apply (small_group (3 / 4)). lra.
  - eexists _, _. split; [apply steep_readout; lra|]. split; [apply steep_readout; lra|]. lra.
  - rewrite steep_readout by lra. do 5 f_equal. lra.
  - rewrite steep_readout by lra. do 5 f_equal. lra.
Qed.
Print Assumptions C68_any_well_refuted.

(** ** C70: it does not settle on every image.
    One pixel with one electron, followed by an empty one, one pixel away from the output,
    with half a trap per pixel: the estimate of the empty pixel decreases without end, because
    what it is given by the traps does not depend on how far below zero it starts. *)
Theorem C70_correction_settles_refuted :
  simple_readout further no_direction small_ccd 1 (ln 2) 1 1 [half_trap] 2 1 /\ mild (per_pixel 1 [half_trap]) 1 1 0 /\
  forall bound, exists n, forall k, (n <= k)%nat ->
    exists est, remove_cti small_image k further no_direction None = Ok est /\ pixel est 0 0 = 2 /\ pixel est 1 0 < - bound.
Proof.
  split; [|split; [exact half_mild|exact diverges_image]].
  repeat split; try lia; try lra; try apply further_setting; try apply small_params; try reflexivity; try discriminate.
  apply (small_group (1 / 2)). lra.
Qed.
Print Assumptions C70_correction_settles_refuted.

(** ** Images that meet the conditions. *)
(** Electrons below zero are only made up for by what is released. *)
Example C67_example : column_clouds [half_trap] (depth 1 1) (ln 2) 0 [-1] = [0].
Proof.
  unfold column_clouds. cbn [length through_clouds read_clouds past_clouds].
  assert (E : left_over [half_trap] (depth 1 1) (ln 2) (-1) empty_profile = 0); [|rewrite E; reflexivity].
  unfold left_over, cloud. rewrite empty_released, Rmax_left by lra. unfold captured.
  rewrite Rmin_left; [lra|]. unfold demand. assert (D : depth 1 1 0 = 0) by (unfold depth; destruct (Rle_dec 0 0); [reflexivity|lra]). rewrite D.
  unfold Spec.electrons. cbn [electrons_from]. rewrite Coquelicot.RInt.RInt_point. change Hierarchy.zero with 0. lra.
Qed.
Definition further_readout : simple_readout further no_direction small_ccd 1 (ln 2) 1 1 [half_trap] 2 1 := proj1 C70_correction_settles_refuted.
(** One and two electrons per pixel: nothing else is needed where the depth of the cloud is
    proportional to the electrons. *)
Example C68_example : exists a' b', add_cti [[1]; [1]] further no_direction None = Ok (a', the_roe further, the_roe no_direction) /\
  add_cti [[2]; [1]] further no_direction None = Ok (b', the_roe further, the_roe no_direction) /\
  forall i j, (i < 2)%nat -> (j < 1)%nat -> pixel a' i j <= pixel b' i j.
Proof.
  apply (C68_more_charge_in_more_charge_out further no_direction small_ccd 1 (ln 2) 1 1 0 [half_trap] 2 1 [[1]; [1]] [[2]; [1]] further_readout half_mild).
  - split; [reflexivity|repeat constructor].
  - split; [reflexivity|repeat constructor].
  - intros. left. reflexivity.
  - intros [|[|i]] [|j] Hi Hj; try lia; unfold pixel; cbn; lra.
Qed.
Example C69_example : exists im, add_cti [[1]; [1]] further no_direction None = Ok (im, the_roe further, the_roe no_direction) /\
  exists C r, 0 <= C /\ 0 <= r < 1 /\ forall n, exists est, remove_cti im n further no_direction None = Ok est /\ shape 2 1 est /\
    forall i j, (i < 2)%nat -> (j < 1)%nat -> Rabs (pixel est i j - pixel [[1]; [1]] i j) <= C * r ^ n.
Proof.
  apply (C69_correction_recovers_the_image further no_direction small_ccd 1 (ln 2) 1 1 0 [half_trap] 2 1 [[1]; [1]] further_readout half_mild).
  - split; [reflexivity|repeat constructor].
  - intros [|[|i]] [|j] Hi Hj; try lia; unfold well_above, pixel; cbn; left; lra.
Qed.
(** Wells with a power below one, where small clouds spread over much of the well: pixels with
    more than 11/2 electrons. *)
Definition half_power_ccd : ccd R := mkCCD [1] 1 [1000] [1 / 2] [0] [BList [1000]].
Definition spread : direction R := mkDir (Some half_power_ccd) (Some small_roe) (Some (TOne half_trap)) 0 1 WNone.
Example C69_example_half_power : exists im, add_cti [[6]; [7]] spread no_direction None = Ok (im, the_roe spread, the_roe no_direction) /\
  exists C r, 0 <= C /\ 0 <= r < 1 /\ forall n, exists est, remove_cti im n spread no_direction None = Ok est /\ shape 2 1 est /\
    forall i j, (i < 2)%nat -> (j < 1)%nat -> Rabs (pixel est i j - pixel [[6]; [7]] i j) <= C * r ^ n.
Proof.
  assert (P : per_pixel 1 [half_trap] = 1 / 2) by (unfold per_pixel; rewrite thin_half; apply half_per_pixel).
  apply (C69_correction_recovers_the_image spread no_direction half_power_ccd 1 (ln 2) 1000 (1 / 2) 1 [half_trap] 2 1 [[6]; [7]]).
  - repeat split; try lia; try lra; try reflexivity; try discriminate.
    + exists (TOne half_trap). auto.
    + exists true, DFloat. reflexivity.
    + apply ln_pos. lra.
    + left. reflexivity.
    + apply (small_group (1 / 2)). lra.
  - rewrite P. right. lra.
  - split; [reflexivity|repeat constructor].
  - rewrite P. intros [|[|i]] [|j] Hi Hj; try lia; unfold well_above, n_passes, pixel; cbn; right; lra.
Qed.
