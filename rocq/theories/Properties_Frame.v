(** * C135: the correction of the HST example's frame. *)
From Coq Require Import ZArith List Bool Reals Lra Lia Sorted.
From Verif Require Import Num Py RFacts CCDModel TrapsModel ManagerModel ROEModel ClockModel MainModel Spec SpecROE SpecImage SpecReadout SpecColumn SpecBound SpecRecovery SpecPhases SpecWork SpecWindowOrder SpecAbove SpecHST SpecHSTImage SpecHSTFrame SpecSharp
  GridFacts HSTFacts HSTFrameFacts Properties_Main Properties_Hst Properties_Sharp.
Import ListNotations.
Open Scope R_scope.

Lemma frame_room (d : direction R) a b lose back rows cols im : INR (rows + d_offset d) <= acs_rows -> 0 <= lose -> 0 <= back -> 200 + 2048 * lose <= a -> b <= 4900 - 2048 * back ->
  pixels_between a b rows cols im -> kept_between 200 4900 lose back (d_offset d) rows cols im.
Proof.
  intros HN Hl Hb Ha Hb' H i j Hi Hj. specialize (H i j Hi Hj). unfold acs_rows in HN. assert (N : INR (i + 1 + d_offset d) <= 2048) by (eapply Rle_trans; [|exact HN]; apply le_INR; lia).
  pose proof (Rmult_le_compat_r lose _ _ Hl N). pose proof (Rmult_le_compat_r back _ _ Hb N). lra.
Qed.
(** ** C135: with the HST ACS model of any date until 2018, anywhere on the detector, with an express
    other than 1 (the example's is 2): an image with 2300 to 2800 electrons in every pixel, the range that the
    example shows, is the readout of exactly one image with 1800 to 4500 electrons in every pixel, and
    remove_cti converges to that image at a geometric rate. *)
Theorem C135_correction_of_the_hst_frame date rows cols express offset : launch <= date <= start_of_2018 -> (0 < rows)%nat -> (0 < cols)%nat ->
  express <> 1%nat -> (express = 0%nat \/ S express <> rows) -> INR (rows + offset) <= acs_rows ->
  exists traps c r, model_for_HST_ACS date = Ok (traps, c, r) /\ let d := hst_direction traps c r express offset in
  exists C q, 0 <= C /\ 0 <= q < 1 /\ forall im, shape rows cols im -> pixels_between 2300 2800 rows cols im ->
  exists x pr sr, shape rows cols x /\ pixels_between 1800 4500 rows cols x /\ add_cti x d no_direction None = Ok (im, pr, sr) /\
    (forall y pr' sr', shape rows cols y -> pixels_between 1800 4500 rows cols y -> add_cti y d no_direction None = Ok (im, pr', sr') -> y = x) /\
    forall n, exists est, remove_cti im n d no_direction None = Ok est /\ shape rows cols est /\ image_apart est x <= C * q ^ n * image_apart im x.
Proof.
  intros Hd Hr Hc H1 He HN. destruct (hst_since date (proj1 Hd)) as (d1 & d2 & d3 & t1 & t2 & t3 & E & _). do 3 eexists. split; [exact E|]. cbv zeta.
  match goal with |- context [hst_direction ?t ?c ?r _ _] => set (d := hst_direction t c r express offset) end.
  pose proof (hst_narrow date rows cols express offset Hd Hr Hc (conj H1 He) HN _ _ _ E) as NA. fold d in NA.
  destruct (C134_every_image_is_the_readout_of_one_image d rows cols 200 4900 0.78 0.19 Hr Hc NA) as (C & q & HC & Hq & H). exists C, q. split; [exact HC|]. split; [exact Hq|].
  intros im Si Bi. destruct (H im Si) as (x & pr & sr & Sx & Kx & Ex & Cx & Ux & Ax); [apply (frame_room d 2300 2800); (assumption || lra)|].
  exists x, pr, sr. split; [exact Sx|]. split; [|split; [exact Ex|split; [|exact Ax]]].
  - intros i j Hi Hj. specialize (Cx i j Hi Hj). specialize (Bi i j Hi Hj). unfold acs_rows in HN. assert (N : INR (i + 1 + d_offset d) <= 2048) by (eapply Rle_trans; [|exact HN]; apply le_INR; cbn; lia). lra.
  - intros y pr' sr' Sy By Ey. apply (Ux y pr' sr' Sy); [|exact Ey]. apply (frame_room d 1800 4500); (assumption || lra).
Qed.
Print Assumptions C135_correction_of_the_hst_frame.
(** Noise is amplified by a bounded factor, and no pixel of an image with 1800 to 4500 electrons per pixel
    loses more than 0.78 electrons per transfer or gains more than 0.19. *)
Theorem C135_noise_in_the_hst_frame date rows cols express offset : launch <= date <= start_of_2018 -> (0 < rows)%nat -> (0 < cols)%nat ->
  express <> 1%nat -> (express = 0%nat \/ S express <> rows) -> INR (rows + offset) <= acs_rows ->
  exists traps c r, model_for_HST_ACS date = Ok (traps, c, r) /\ let d := hst_direction traps c r express offset in
  exists K, 0 <= K /\ forall a b n, shape rows cols a -> shape rows cols b -> pixels_between 2300 2800 rows cols a -> pixels_between 2300 2800 rows cols b ->
  exists a' b', remove_cti a n d no_direction None = Ok a' /\ remove_cti b n d no_direction None = Ok b' /\ image_apart a' b' <= K * image_apart a b.
Proof.
  intros Hd Hr Hc H1 He HN. destruct (hst_since date (proj1 Hd)) as (d1 & d2 & d3 & t1 & t2 & t3 & E & _). do 3 eexists. split; [exact E|]. cbv zeta.
  match goal with |- context [hst_direction ?t ?c ?r _ _] => set (d := hst_direction t c r express offset) end.
  pose proof (hst_narrow date rows cols express offset Hd Hr Hc (conj H1 He) HN _ _ _ E) as NA. fold d in NA.
  destruct (C134_noise_is_amplified_by_a_bounded_factor d rows cols 200 4900 0.78 0.19 Hr Hc NA) as (K & HK & H). exists K. split; [exact HK|]. intros a b n Sa Sb Ba Bb.
  apply H; [exact Sa|exact Sb| |]; apply (frame_room d 2300 2800); (assumption || lra).
Qed.
Print Assumptions C135_noise_in_the_hst_frame.
Theorem C135_loss_in_the_hst_frame date rows cols express offset : launch <= date <= start_of_2018 -> (0 < rows)%nat -> (0 < cols)%nat ->
  express <> 1%nat -> (express = 0%nat \/ S express <> rows) -> INR (rows + offset) <= acs_rows ->
  exists traps c r, model_for_HST_ACS date = Ok (traps, c, r) /\ let d := hst_direction traps c r express offset in
  forall im, shape rows cols im -> pixels_between 1800 4500 rows cols im ->
  exists im' pr sr, add_cti im d no_direction None = Ok (im', pr, sr) /\ shape rows cols im' /\
    forall i j, (i < rows)%nat -> (j < cols)%nat -> - (0.78 * INR (i + 1 + offset)) <= pixel im' i j - pixel im i j <= 0.19 * INR (i + 1 + offset).
Proof.
  intros Hd Hr Hc H1 He HN. destruct (hst_since date (proj1 Hd)) as (d1 & d2 & d3 & t1 & t2 & t3 & E & _). do 3 eexists. split; [exact E|]. cbv zeta.
  match goal with |- context [hst_direction ?t ?c ?r _ _] => set (d := hst_direction t c r express offset) end.
  pose proof (hst_narrow date rows cols express offset Hd Hr Hc (conj H1 He) HN _ _ _ E) as NA. fold d in NA. intros im Si Bi.
  destruct (C134_no_pixel_changes_by_more_than_the_traps_it_reaches im d rows cols 200 4900 0.78 0.19 Hr Hc NA Si) as (im' & pr & sr & Ei & S' & B); [apply (frame_room d 1800 4500); (assumption || lra)|].
  exists im', pr, sr. split; [exact Ei|]. split; [exact S'|]. intros i j Hi Hj. specialize (B i j Hi Hj). change (d_offset d) with offset in B. lra.
Qed.
Print Assumptions C135_loss_in_the_hst_frame.
Example C135_example : launch <= 2456293.5 <= start_of_2018 /\ 2%nat <> 1%nat /\ S 2 <> 30%nat /\ INR (30 + 1998) <= acs_rows /\ shape 30 15 frame /\ pixels_between 2300 2800 30 15 frame.
Proof.
  split; [unfold launch, start_of_2018; lra|]. split; [lia|]. split; [lia|]. split; [unfold acs_rows; replace (INR (30 + 1998)) with 2028 by (rewrite INR_IZR_INZ; f_equal; lia); lra|]. split; [exact frame_shape|exact frame_between].
Qed.
