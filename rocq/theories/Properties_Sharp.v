(** * C134: packets that stay between two numbers of electrons. *)
From Coq Require Import ZArith List Bool Reals Lra Lia Sorted.
From Verif Require Import Num Py RFacts CCDModel TrapsModel ManagerModel ROEModel ClockModel MainModel Spec SpecROE SpecImage SpecReadout SpecColumn SpecBound SpecRecovery SpecPhases SpecWork SpecWindowOrder SpecAbove SpecHST SpecHSTImage SpecHSTFrame SpecSharp
  GridFacts SteadyFacts ContractFacts WindowGridFacts AboveGridFacts InverseFacts SharpFacts SharpGridFacts HSTFacts HSTFrameFacts Properties_Main Properties_Hst.
Import ListNotations.
Open Scope R_scope.

(** ** A pixel loses at most the traps that its packets can reach, in each of its transfers, and gains at
    most what these traps release while a packet is over them. *)
Theorem C134_no_pixel_changes_by_more_than_the_traps_it_reaches im d rows cols floor top lose back : (0 < rows)%nat -> (0 < cols)%nat ->
  narrow d rows floor top lose back -> shape rows cols im -> kept_between floor top lose back (d_offset d) rows cols im ->
  exists im' pr sr, add_cti im d no_direction None = Ok (im', pr, sr) /\ shape rows cols im' /\
    forall i j, (i < rows)%nat -> (j < cols)%nat ->
      - (INR (i + 1 + d_offset d) * lose) <= pixel im' i j - pixel im i j <= INR (i + 1 + d_offset d) * back.
Proof.
  intros Hr Hc Hd Si Ki. destruct (narrow_map d rows cols floor top lose back Hr Hc Hd) as (gain & big & F & rp & rs & _ & _ & _ & HF).
  destruct (HF im Si Ki) as (im' & E & S' & _ & _ & B). exists im', rp, rs. auto.
Qed.
Print Assumptions C134_no_pixel_changes_by_more_than_the_traps_it_reaches.
(** ** More charge in, more charge out. *)
Theorem C134_more_charge_in_more_charge_out a b d rows cols floor top lose back : (0 < rows)%nat -> (0 < cols)%nat ->
  narrow d rows floor top lose back -> shape rows cols a -> shape rows cols b -> kept_between floor top lose back (d_offset d) rows cols a -> kept_between floor top lose back (d_offset d) rows cols b ->
  (forall i j, (i < rows)%nat -> (j < cols)%nat -> pixel a i j <= pixel b i j) ->
  exists a' b' pr sr, add_cti a d no_direction None = Ok (a', pr, sr) /\ add_cti b d no_direction None = Ok (b', pr, sr) /\
    forall i j, (i < rows)%nat -> (j < cols)%nat -> pixel a' i j <= pixel b' i j.
Proof.
  intros Hr Hc Hd Sa Sb Ka Kb Hab. destruct (narrow_map d rows cols floor top lose back Hr Hc Hd) as (gain & big & F & rp & rs & _ & _ & HT & HF).
  destruct (HF a Sa Ka) as (a' & Ea & Sa' & _ & Fa & _). destruct (HF b Sb Kb) as (b' & Eb & Sb' & _ & Fb & _). exists a', b', rp, rs. split; [exact Ea|]. split; [exact Eb|].
  apply (flat_ordered rows cols Hr Hc); [assumption|assumption|]. rewrite Fa, Fb. apply (st_mono _ _ _ HT). now apply (flat_ordered rows cols Hr Hc).
Qed.
Print Assumptions C134_more_charge_in_more_charge_out.

Lemma narrow_amounts d rows floor top lose back : (0 < rows)%nat -> narrow d rows floor top lose back -> 0 < floor /\ 0 <= lose /\ 0 <= back.
Proof.
  intros Hr Hd. destruct (narrow_facts d rows 1 floor top lose back Hr Nat.lt_0_1 Hd) as (Hf & c & traps & dwell & dt & group & full & beta & lo & ba & _ & _ & _ & _ & _ & _ & _ & A).
  destruct A as (_ & _ & _ & _ & _ & A1 & A2 & _). split; [exact Hf|]. lra.
Qed.
Section Kept.
Context (d : direction R) (rows cols : nat) (floor top lose back : R).
Notation taken := (fun i => INR (i + 1 + d_offset d) * lose).
Notation given := (fun i => INR (i + 1 + d_offset d) * back).
Lemma kept_region im : kept_between floor top lose back (d_offset d) rows cols im <-> region rows cols floor top taken given im.
Proof. split; intros H i j Hi Hj; specialize (H i j Hi Hj); cbv beta in *; lra. Qed.
Lemma kept_inner im : kept_between floor top (lose + back) (lose + back) (d_offset d) rows cols im -> region rows cols floor top (fun i => taken i + given i) (fun i => taken i + given i) im.
Proof. intros H i j Hi Hj; specialize (H i j Hi Hj); cbv beta in *; lra. Qed.
End Kept.
(** ** Every image with room for the loss and the gain of its pixels is the readout of exactly one image,
    pixel by pixel as close as the traps allow, and remove_cti converges to it at a geometric rate. *)
Theorem C134_every_image_is_the_readout_of_one_image d rows cols floor top lose back : (0 < rows)%nat -> (0 < cols)%nat ->
  narrow d rows floor top lose back ->
  exists C r, 0 <= C /\ 0 <= r < 1 /\ forall im, shape rows cols im -> kept_between floor top (lose + back) (lose + back) (d_offset d) rows cols im ->
  exists x pr sr, shape rows cols x /\ kept_between floor top lose back (d_offset d) rows cols x /\ add_cti x d no_direction None = Ok (im, pr, sr) /\
    (forall i j, (i < rows)%nat -> (j < cols)%nat -> - (INR (i + 1 + d_offset d) * back) <= pixel x i j - pixel im i j <= INR (i + 1 + d_offset d) * lose) /\
    (forall y pr' sr', shape rows cols y -> kept_between floor top lose back (d_offset d) rows cols y -> add_cti y d no_direction None = Ok (im, pr', sr') -> y = x) /\
    forall n, exists est, remove_cti im n d no_direction None = Ok est /\ shape rows cols est /\ image_apart est x <= C * r ^ n * image_apart im x.
Proof.
  intros Hr Hc Hd. destruct (narrow_map d rows cols floor top lose back Hr Hc Hd) as (gain & big & F & rp & rs & Hg & Hb & HT & HF). destruct (narrow_amounts _ _ _ _ _ _ Hr Hd) as (Hf & Hl & Hba).
  exists (scale_of gain big (rows * cols)), (1 - gain / 2). split; [left; now apply scale_pos|]. split; [now apply rate_range|]. intros im Si Ki.
  destruct (undone_between d no_direction rows cols floor top (fun i => INR (i + 1 + d_offset d) * lose) (fun i => INR (i + 1 + d_offset d) * back) Hr Hc (Rlt_le _ _ Hf)
    (fun i => Rmult_le_pos _ _ (pos_INR _) Hl) (fun i => Rmult_le_pos _ _ (pos_INR _) Hba) rp rs None gain big F Hg Hb HT) with (im := im) as (x & Sx & Ox & Ex & Bx & Ux & Ax).
  - intros y Sy Oy. destruct (HF y Sy) as (y' & E & S' & _ & Fy & B); [now apply kept_region|]. exists y'. auto.
  - exact Si.
  - now apply kept_inner.
  - exists x, rp, rs. split; [exact Sx|]. split; [now apply kept_region|]. split; [exact Ex|]. split; [exact Bx|]. split; [|exact Ax]. intros y pr' sr' Sy Ky Ey. apply (Ux y pr' sr' Sy); [now apply kept_region|exact Ey].
Qed.
Print Assumptions C134_every_image_is_the_readout_of_one_image.
(** ** However many iterations, noise is amplified by a bounded factor. *)
Theorem C134_noise_is_amplified_by_a_bounded_factor d rows cols floor top lose back : (0 < rows)%nat -> (0 < cols)%nat ->
  narrow d rows floor top lose back ->
  exists K, 0 <= K /\ forall a b n, shape rows cols a -> shape rows cols b -> kept_between floor top (lose + back) (lose + back) (d_offset d) rows cols a -> kept_between floor top (lose + back) (lose + back) (d_offset d) rows cols b ->
  exists a' b', remove_cti a n d no_direction None = Ok a' /\ remove_cti b n d no_direction None = Ok b' /\ image_apart a' b' <= K * image_apart a b.
Proof.
  intros Hr Hc Hd. destruct (narrow_map d rows cols floor top lose back Hr Hc Hd) as (gain & big & F & rp & rs & Hg & Hb & HT & HF). destruct (narrow_amounts _ _ _ _ _ _ Hr Hd) as (Hf & Hl & Hba).
  exists (scale_of gain big (rows * cols) * (1 + 2 / gain)). split.
  { apply Rmult_le_pos; [left; now apply scale_pos|]. assert (0 < 2 / gain) by (apply Rdiv_lt_0_compat; lra). lra. }
  intros a b n Sa Sb Ka Kb.
  apply (noise_between d no_direction rows cols floor top (fun i => INR (i + 1 + d_offset d) * lose) (fun i => INR (i + 1 + d_offset d) * back) Hr Hc (Rlt_le _ _ Hf)
    (fun i => Rmult_le_pos _ _ (pos_INR _) Hl) (fun i => Rmult_le_pos _ _ (pos_INR _) Hba) rp rs None gain big F Hg Hb HT); [|exact Sa|exact Sb|now apply kept_inner|now apply kept_inner].
  intros y Sy Oy. destruct (HF y Sy) as (y' & E & S' & _ & Fy & B); [now apply kept_region|]. exists y'. auto.
Qed.
Print Assumptions C134_noise_is_amplified_by_a_bounded_factor.
(** The setting of the HST example: 30 rows of 15 pixels, 1998 rows away from the register, in the year 2013. *)
Definition frame : image R := map (fun i => map (fun j => 2300 + 10 * INR i + INR j) (seq 0 15)) (seq 0 30).
Lemma frame_shape : shape 30 15 frame.
Proof. split; [reflexivity|]. apply Forall_map, Forall_forall. intros i _. rewrite map_length, seq_length. reflexivity. Qed.
Lemma frame_between : pixels_between 2300 2800 30 15 frame.
Proof.
  intros i j Hi Hj. assert (P : pixel frame i j = 2300 + 10 * INR i + INR j).
  { unfold pixel, frame. rewrite (nth_indep _ [] (map (fun j => 2300 + 10 * INR 0 + INR j) (seq 0 15))) by (rewrite map_length, seq_length; exact Hi). rewrite (map_nth (fun i => map (fun j => 2300 + 10 * INR i + INR j) (seq 0 15)) (seq 0 30) 0%nat), seq_nth by exact Hi.
    rewrite (nth_indep _ _ (2300 + 10 * INR (0 + i) + INR 0)) by (rewrite map_length, seq_length; exact Hj). rewrite (map_nth (fun j => 2300 + 10 * INR (0 + i) + INR j) (seq 0 15) 0%nat), seq_nth by exact Hj. reflexivity. }
  rewrite P. pose proof (pos_INR i). pose proof (pos_INR j). assert (INR i <= 29) by (replace 29 with (INR 29) by (cbn; lra); apply le_INR; lia). assert (INR j <= 14) by (replace 14 with (INR 14) by (cbn; lra); apply le_INR; lia). lra.
Qed.
Example C134_example : exists traps c r, model_for_HST_ACS 2456293.5 = Ok (traps, c, r) /\ let d := hst_direction traps c r 2 1998 in
  narrow d 30 200 4900 0.78 0.19 /\ shape 30 15 frame /\ kept_between 200 4900 (0.78 + 0.19) (0.78 + 0.19) (d_offset d) 30 15 frame.
Proof.
  assert (HD : launch <= 2456293.5 <= start_of_2018) by (unfold launch, start_of_2018; lra).
  destruct (hst_since 2456293.5 (proj1 HD)) as (d1 & d2 & d3 & t1 & t2 & t3 & E & _). do 3 eexists. split; [exact E|]. cbv zeta. split; [|split; [exact frame_shape|]].
  - apply (hst_narrow 2456293.5 30 15 2 1998 HD); try lia; [|exact E]. unfold acs_rows. replace (INR (30 + 1998)) with 2028 by (rewrite INR_IZR_INZ; f_equal; lia). lra.
  - intros i j Hi Hj. pose proof (frame_between i j Hi Hj) as B. cbn [hst_direction d_offset]. assert (INR (i + 1 + 1998) <= 2028) by (rewrite INR_IZR_INZ; apply IZR_le; lia). lra.
Qed.
