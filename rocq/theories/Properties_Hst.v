(** * C132: correction with the HST ACS model. *)
From Coq Require Import ZArith List Bool Reals Lra Lia Sorted.
From Verif Require Import Num Py RFacts CCDModel TrapsModel ManagerModel ROEModel ClockModel MainModel Spec SpecROE SpecImage SpecReadout SpecColumn SpecBound SpecRecovery SpecPhases SpecWork SpecWindowOrder SpecAbove SpecHST SpecHSTImage
  ROEExpressFacts HSTFacts MainFacts ReadoutImage ReadoutExamples AboveFacts GridFacts ExpressGridFacts WindowGridFacts AboveGridFacts Properties_Main Properties_AboveOrder Properties_Inverse.
Import ListNotations.
Open Scope R_scope.

Section Date.
Context (date : R) (rows cols express offset : nat).
Hypothesis Hdate : launch <= date.
Hypothesis Hrows : (0 < rows)%nat.
Hypothesis Hcols : (0 < cols)%nat.
Hypothesis Hexpress : express = 0%nat \/ S express <> rows.
Context (traps : list (trap R)) (c : ccd R) (r : roe R).
Hypothesis Hmodel : model_for_HST_ACS date = Ok (traps, c, r).
Let d := hst_direction traps c r express offset.
Let floor := 1 + INR (rows + offset) * traps_on date.
Lemma hst_facts : c = hst_ccd /\ SpecRecovery.traps_per_pixel traps = traps_on date /\ plain_setting d rows c (TFlat traps) [1] DFloat.
Proof.
  destruct (C47_hst_model date) as (_ & G). destruct (G Hdate) as (t1 & t2 & t3 & c' & r' & E & Ht & Es & _). clear G. rewrite Hmodel in E. injection E as -> <- <-.
  destruct (hst_since date Hdate) as (d1 & d2 & d3 & x1 & x2 & x3 & E' & _). rewrite Hmodel in E'. injection E' as E1 E2 E3 Ec Er.
  split; [exact Ec|]. split; [unfold SpecRecovery.traps_per_pixel; cbn; lra|].
  split; try reflexivity; [left; cbn; now rewrite Er|rewrite Ec; exact hst_plain|rewrite Ec; cbn; lia| |exact Hexpress].
  split; [discriminate|]. constructor; [|constructor]. split; [discriminate|]. eapply Forall_impl; [|exact Ht]. cbn. tauto.
Qed.
Lemma hst_traps_pos : 0 <= traps_on date.
Proof. left. now apply total_pos. Qed.
Lemma hst_floor : 0 < floor.
Proof. unfold floor. pose proof (Rmult_le_pos _ _ (pos_INR (rows + offset)) hst_traps_pos). lra. Qed.
Lemma hst_window : window_ok (selected (d_window d) rows) rows.
Proof. rewrite (selected_all d rows eq_refl). now apply window_ok_range. Qed.
Lemma hst_slow : slow_call floor d rows.
Proof.
  destruct hst_facts as (Ec & Et & Hset). right; left. exists rows. split; [rewrite (selected_all d rows eq_refl); apply ExpressGridFacts.range_sorted|]. split; [exact hst_window|]. split; [lia|].
  exists c, (TFlat traps), 1, DFloat, traps. split; [exact Hset|]. split; [reflexivity|]. intros k x Hk Hx. rewrite Ec in Hk |- *. cbn [ccd_n_phases hst_ccd] in Hk. assert (k = 0%nat) by lia. subst k.
  exists 84700, 0.478. split; [repeat split|]. right. split; [lra|].
  assert (T : SpecRecovery.traps_per_pixel (map (thinned (share hst_ccd 0)) traps) = traps_on date).
  { rewrite <- Et. unfold SpecRecovery.traps_per_pixel. f_equal. rewrite map_map. apply map_ext. intros t. unfold thinned, share. cbn. lra. }
  rewrite T. change (x = INR (rows + offset) / INR (passes_for (rows + offset) express)) in Hx.
  assert (X : 0 <= x <= INR (rows + offset)).
  { assert (HE : (0 < passes_for (rows + offset) express)%nat) by (unfold passes_for; destruct (Nat.eqb_spec express 0); lia).
    assert (HE' : 1 <= INR (passes_for (rows + offset) express)) by (apply (le_INR 1); lia). pose proof (pos_INR (rows + offset)) as HN. subst x. split.
    - apply Rmult_le_pos; [exact HN|]. left. apply Rinv_0_lt_compat. lra.
    - apply (Rmult_le_reg_r (INR (passes_for (rows + offset) express))); [lra|]. unfold Rdiv. rewrite Rmult_assoc, Rinv_l by lra. rewrite Rmult_1_r. rewrite <- (Rmult_1_r (INR (rows + offset))) at 1. apply Rmult_le_compat_l; lra. }
  pose proof (depth_range 84700 0.478 floor ltac:(lra) ltac:(lra)) as D. pose proof hst_traps_pos as P.
  assert (x * traps_on date <= INR (rows + offset) * traps_on date) by (apply Rmult_le_compat_r; lra).
  assert (0 <= x * traps_on date) by (apply Rmult_le_pos; lra).
  assert (x * traps_on date * depth 84700 0.478 floor <= x * traps_on date * 1) by (apply Rmult_le_compat_l; lra). unfold floor at 2. lra.
Qed.
Lemma hst_none : slow_call floor (no_direction : direction R) cols.
Proof.
  left. left. exists cols. rewrite (selected_all no_direction cols eq_refl). split; [apply ExpressGridFacts.range_sorted|]. split; [now apply window_ok_range|]. split; [lia|]. left. reflexivity.
Qed.
Lemma hst_limit i : (i < rows)%nat -> exists p, call_limit d rows i p /\ 0 <= p <= INR (rows + offset) * traps_on date.
Proof.
  intros Hi. destruct hst_facts as (Ec & Et & Hset). eexists. split; [apply (limit_in _ _ _ rows _ hst_window), (limit_one_step d rows i c (TFlat traps) 1 DFloat), Hset|].
  assert (A : all_shares c * SpecBound.traps_per_pixel (groups_in (TFlat traps)) = traps_on date).
  { rewrite <- Et, Ec. unfold all_shares, SpecBound.traps_per_pixel, SpecRecovery.traps_per_pixel, share. cbn. lra. }
  rewrite A. change (d_offset d) with offset. pose proof hst_traps_pos. split; [apply Rmult_le_pos; [apply pos_INR|assumption]|]. apply Rmult_le_compat_r; [assumption|]. apply le_INR. lia.
Qed.
Lemma none_limit j : call_limit (no_direction : direction R) cols j 0.
Proof. apply (limit_in _ _ _ cols); [rewrite (selected_all no_direction cols eq_refl); now apply window_ok_range|now apply limit_no_traps]. Qed.
Lemma bright_charged times im : bright date (S times) rows cols offset im -> charged_above floor (INR times) d no_direction rows cols im.
Proof.
  intros H i j Hi Hj. destruct (hst_limit i Hi) as (p & H1 & H2). exists p, 0. split; [exact H1|]. split; [apply none_limit|]. specialize (H i j Hi Hj). rewrite mult_INR, S_INR in H. unfold floor.
  pose proof (Rmult_le_compat_l (INR times) _ _ (pos_INR times) (proj2 H2)). lra.
Qed.
End Date.
Lemma bright_nonneg date times rows cols offset im i j : launch <= date -> bright date times rows cols offset im -> (i < rows)%nat -> (j < cols)%nat -> 0 <= pixel im i j.
Proof. intros Hd H Hi Hj. specialize (H i j Hi Hj). pose proof (Rmult_le_pos _ _ (pos_INR (times * (rows + offset))) (hst_traps_pos date Hd)). lra. Qed.

(** ** C132: at every date since the launch, for rows at any distance from the readout register, any express and any
    sizes: an image in which every pixel has more electrons than three times the traps on the way is
    the readout of exactly one image, and remove_cti with the HST ACS model converges to it at a geometric rate.
    (The frame of the example has 2300 to 2800 electrons in most pixels, which is less than this asks for
    so far from the register and so long after the launch: the theorem is about brighter images, earlier dates or shorter ways.) *)
Theorem C132_correction_with_the_hst_model date rows cols express offset : launch <= date -> (0 < rows)%nat -> (0 < cols)%nat -> (express = 0%nat \/ S express <> rows) ->
  exists traps c r, model_for_HST_ACS date = Ok (traps, c, r) /\ let d := hst_direction traps c r express offset in
  exists C q, 0 <= C /\ 0 <= q < 1 /\ forall im, shape rows cols im -> bright date 3 rows cols offset im ->
  exists x pr sr, shape rows cols x /\ bright date 2 rows cols offset x /\ add_cti x d no_direction None = Ok (im, pr, sr) /\
    (forall y pr' sr', shape rows cols y -> bright date 2 rows cols offset y -> add_cti y d no_direction None = Ok (im, pr', sr') -> y = x) /\
    forall n, exists est, remove_cti im n d no_direction None = Ok est /\ shape rows cols est /\ image_apart est x <= C * q ^ n * image_apart im x.
Proof.
  intros Hd Hr Hc He. destruct (C47_hst_model date) as (_ & G). destruct (G Hd) as (t1 & t2 & t3 & c & r & E & _). clear G. exists [t1; t2; t3], c, r. split; [exact E|]. cbv zeta.
  set (traps := [t1; t2; t3]) in *. set (d := hst_direction traps c r express offset).
  pose proof (hst_floor date rows offset Hd) as F0. set (floor := 1 + INR (rows + offset) * traps_on date) in *.
  pose proof (hst_slow date rows cols express offset Hd Hr Hc He traps c r E) as Sp. pose proof (hst_none date rows cols express offset Hr Hc He) as Ss. fold floor in Sp, Ss. fold d in Sp.
  assert (TR : time_range None) by constructor.
  destruct (C110_every_image_is_the_readout_of_one_image_past_any_wells d no_direction None rows cols floor F0 Hr Hc TR Sp Ss) as (C & q & HC & Hq & H).
  exists C, q. split; [exact HC|]. split; [exact Hq|]. intros im Si Bi. pose proof (bright_charged date rows cols express offset Hd Hr Hc He traps c r E 2 im Bi) as Ci.
  destruct (H im Si Ci) as (x & pr & sr & Sx & Cx & Ex & Ux & Rx).
  assert (Px : forall i j, (i < rows)%nat -> (j < cols)%nat -> 0 <= pixel x i j).
  { intros i j Hi Hj. destruct (Cx i j Hi Hj) as (p & s & L1 & L2 & L3). apply call_limit_nonneg in L1, L2. lra. }
  assert (Px' : forall i j, 0 <= pixel x i j) by exact (shape_nonneg rows cols Hr Hc x Sx Px).
  destruct (C108_no_pixel_changes_by_more_than_the_traps_it_passes x d no_direction None rows cols floor F0 Hr Hc TR Sp Ss Sx Px' Cx) as (im' & pr' & sr' & E' & _ & _ & B). rewrite Ex in E'. injection E' as <- <- <-.
  exists x, pr, sr. split; [exact Sx|]. split; [|split; [exact Ex|split; [|exact Rx]]].
  - intros i j Hi Hj. destruct (hst_limit date rows cols express offset Hd Hr Hc He traps c r E i Hi) as (p & L1 & L2). specialize (B i j p 0 Hi Hj L1 (none_limit cols Hc j)). specialize (Bi i j Hi Hj). rewrite mult_INR in Bi |- *. cbn [INR] in Bi |- *.
    pose proof (Rle_abs (pixel im i j - pixel x i j)). lra.
  - intros y pr' sr' Sy By Ey. apply (Ux y pr' sr' Sy); [|exact (bright_charged date rows cols express offset Hd Hr Hc He traps c r E 1 y By)|exact Ey].
    apply (shape_nonneg rows cols Hr Hc y Sy). intros i j Hi Hj. exact (bright_nonneg date 2 rows cols offset y i j Hd By Hi Hj).
Qed.
Print Assumptions C132_correction_with_the_hst_model.
(** However many iterations, noise is amplified by a bounded factor. *)
Theorem C132_noise_with_the_hst_model date rows cols express offset : launch <= date -> (0 < rows)%nat -> (0 < cols)%nat -> (express = 0%nat \/ S express <> rows) ->
  exists traps c r, model_for_HST_ACS date = Ok (traps, c, r) /\ let d := hst_direction traps c r express offset in
  exists K, 0 <= K /\ forall a b n, shape rows cols a -> shape rows cols b -> bright date 3 rows cols offset a -> bright date 3 rows cols offset b ->
  exists a' b', remove_cti a n d no_direction None = Ok a' /\ remove_cti b n d no_direction None = Ok b' /\ image_apart a' b' <= K * image_apart a b.
Proof.
  intros Hd Hr Hc He. destruct (C47_hst_model date) as (_ & G). destruct (G Hd) as (t1 & t2 & t3 & c & r & E & _). clear G. exists [t1; t2; t3], c, r. split; [exact E|]. cbv zeta.
  set (traps := [t1; t2; t3]) in *. set (d := hst_direction traps c r express offset).
  pose proof (hst_slow date rows cols express offset Hd Hr Hc He traps c r E) as Sp. pose proof (hst_none date rows cols express offset Hr Hc He) as Ss.
  assert (TR : time_range None) by constructor.
  destruct (C111_noise_is_amplified_by_a_bounded_factor_past_any_wells d no_direction None rows cols _ (hst_floor date rows offset Hd) Hr Hc TR Sp Ss) as (K & HK & H).
  exists K. split; [exact HK|]. intros a b n Sa Sb Ba Bb. apply H; [exact Sa|exact Sb| |]; now apply (bright_charged date rows cols express offset Hd Hr Hc He traps c r E 2).
Qed.
Print Assumptions C132_noise_with_the_hst_model.
(** The patch of the example: 30 rows in a frame of 2068, in the year 2020, with the express that it uses. *)
Definition patch : image R := map (fun _ => map (fun _ => 30000) (seq 0 15)) (seq 0 30).
Example C132_example : launch <= 2458849.5 /\ S 2 <> 30%nat /\ shape 30 15 patch /\ bright 2458849.5 3 30 15 1998 patch.
Proof.
  split; [unfold launch; lra|]. split; [lia|]. split.
  - split; [reflexivity|]. apply Forall_map, Forall_forall. intros i _. rewrite map_length, seq_length. reflexivity.
  - intros i j Hi Hj. assert (P : pixel patch i j = 30000).
    { unfold pixel, patch. rewrite (nth_indep _ [] (map (fun _ => 30000) (seq 0 15))) by (rewrite map_length, seq_length; exact Hi). rewrite (map_nth (fun _ => map (fun _ => 30000) (seq 0 15)) (seq 0 30) 0%nat).
      rewrite (nth_indep _ _ 30000) by (rewrite map_length, seq_length; exact Hj). apply (map_nth (fun _ => 30000) (seq 0 15) 0%nat). }
    rewrite P. unfold traps_on, repair, launch. replace (INR (3 * (30 + 1998))) with 6084 by (rewrite INR_IZR_INZ; f_equal; lia). destruct (Rlt_dec _ _); lra.
Qed.
