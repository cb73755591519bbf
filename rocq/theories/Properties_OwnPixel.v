(** * C117: the order in which charge passes the pixels (roe.py:336-372, 460-583, main_utils.pyx:14-264). *)
From Coq Require Import ZArith List Bool Reals Lra Lia.
From Coquelicot Require Import Rcomplements Rbar Hierarchy RInt.
From Verif Require Import Num Py RFacts CCDModel TrapsModel ManagerModel ROEModel ClockModel MainModel Spec SpecROE SpecImage SpecReadout SpecColumn SpecExpress SpecHistory SpecRecovery SpecFirst SpecOwnPixel
  InstantFacts ROEMatrixFacts ROEExpressFacts ReadoutForced ReadoutFull MainReadoutFacts OrderFacts TameFacts RecoverFacts DepthFacts AboveFacts RecoverImageFacts ReadoutImage ReadoutExamples ExpressFacts ExpressExample OverfullExample DivergeExample
  FirstFacts OwnPixelFacts Properties_First.
Import ListNotations.
Open Scope R_scope.

Lemma lone_column (im : image R) rows cols i j : shape rows cols im -> (i < rows)%nat -> (j < cols)%nat -> lone im i j ->
  column_of im j = repeat 0 i ++ pixel im i j :: repeat 0 (rows - i - 1).
Proof.
  intros Hs Hi Hj Hl. pose proof (column_length im rows cols j Hs) as L. apply (nth_ext _ _ 0 0).
  - rewrite app_length. cbn [length]. rewrite !repeat_length. lia.
  - intros k Hk. rewrite L in Hk. rewrite (nth_column im k j). destruct (lt_eq_lt_dec k i) as [[H|H]|H].
    + rewrite app_nth1 by (rewrite repeat_length; lia). rewrite nth_repeat. apply Hl. lia.
    + subst k. rewrite app_nth2, repeat_length, Nat.sub_diag by (rewrite repeat_length; lia). reflexivity.
    + rewrite app_nth2, repeat_length by (rewrite repeat_length; lia). destruct (k - i)%nat as [|q] eqn:E; [lia|]. cbn [nth]. rewrite nth_repeat. apply Hl. lia.
Qed.

Lemma thin_density fraction group : traps_per_pixel (map (thinned fraction) group) = fraction * traps_per_pixel group.
Proof. unfold traps_per_pixel. induction group as [|t g IH]; unfold Rsum in *; cbn in *; [lra|]. rewrite IH. lra. Qed.
(** The first charge of a column is read out as in the detector. *)
Theorem C117_first_packet_as_in_the_detector (im : image R) parallel serial c fraction group dwell full beta rows cols i j :
  shape rows cols im -> (i < rows)%nat -> (j < cols)%nat -> single_phase parallel rows c fraction group dwell false -> instant_group group ->
  phase_params c 0 0 beta full -> 0 < full -> 0 < beta -> d_traps serial = None -> d_window serial = WNone -> leads im i j -> 0 <= pixel im i j ->
  exists im', add_cti im parallel serial None = Ok (im', the_roe parallel, the_roe serial) /\
    pixel im' i j = nth i (detector_clouds (map (thinned fraction) group) (depth full beta) dwell (d_offset parallel) (column_of im j)) 0.
Proof.
  intros Hs Hi Hj Hset Hg Hpp Hf Hb Hst Hsw Hl Ha.
  destruct (first_packet im parallel serial c fraction group dwell full beta rows cols i j Hs Hi Hj Hset Hg Hpp Hf Hb Hst Hsw Hl Ha) as (im' & E & _ & K).
  exists im'. split; [exact E|]. rewrite K. pose proof (column_length im rows cols j Hs) as L.
  destruct (leading_column (column_of im j) i) as [l El]; [lia|intros k Hk; rewrite (nth_column im k j); now apply Hl|].
  rewrite (nth_column im i j) in El. rewrite El.
  rewrite detector_first by assumption.
  rewrite thin_density. reflexivity.
Qed.
Print Assumptions C117_first_packet_as_in_the_detector.

(** The row behind a lone bright pixel is not: when every transfer is computed it meets the traps of
    its own pixel last, after it has been given the trail, and loses part of the trail to them. *)
Theorem C117_row_behind_meets_its_own_pixel_last (im : image R) parallel serial c fraction group dwell full beta rows cols i j :
  shape rows cols im -> (S i < rows)%nat -> (j < cols)%nat -> single_phase parallel rows c fraction group dwell false -> instant_group group ->
  phase_params c 0 0 beta full -> 0 < full -> 0 < beta -> d_traps serial = None -> d_window serial = WNone -> lone im i j ->
  exists im', add_cti im parallel serial None = Ok (im', the_roe parallel, the_roe serial) /\
    pixel im' (S i) j = past_empty (fraction * traps_per_pixel group) full beta
      (nth (S i) (detector_clouds (map (thinned fraction) group) (depth full beta) dwell (d_offset parallel) (column_of im j)) 0).
Proof.
  intros Hs Hi Hj Hset Hg Hpp Hf Hb Hst Hsw Hl.
  destruct (any_image im parallel serial c fraction group dwell full beta rows cols Hs ltac:(lia) Hset Hg Hpp Hf Hb Hst Hsw) as (im' & E & S' & K).
  exists im'. split; [exact E|]. rewrite <- (nth_column im' (S i) j). rewrite (K j Hj).
  rewrite (lone_column im rows cols i j Hs ltac:(lia) Hj Hl).
  rewrite row_behind by (assumption || lia).
  rewrite thin_density. reflexivity.
Qed.
Print Assumptions C117_row_behind_meets_its_own_pixel_last.

(** ** What is lost *)
Lemma share_pos traps dwell : Forall physical traps -> 0 < dwell -> forall l s, Forall physical l -> 0 <= share_released traps dwell s l /\ (0 < traps_per_pixel l -> 0 < share_released traps dwell s l).
Proof.
  intros HP Hd. induction l as [|t l IH]; intros s Hl; cbn [share_released]; [unfold traps_per_pixel, Rsum; cbn; split; lra|].
  inversion Hl; subst. destruct (IH (S s) ltac:(assumption)) as [I1 I2].
  assert (K : 0 < 1 - exp (- dwell / timescale traps s)).
  { pose proof (timescale_pos traps s HP) as T. assert (0 < dwell / timescale traps s) by (apply Rdiv_lt_0_compat; lra). replace (- dwell / timescale traps s) with (- (dwell / timescale traps s)) by (field; lra).
    rewrite <- exp_0 at 1. enough (exp (- (dwell / timescale traps s)) < exp 0) by lra. apply exp_increasing. lra. }
  pose proof (ph_density t ltac:(assumption)) as D. assert (0 <= t_density t * (1 - exp (- dwell / timescale traps s))) by (apply Rmult_le_pos; lra). split; [lra|].
  unfold traps_per_pixel. cbn [map]. rewrite Rsum_cons. fold (traps_per_pixel l). intros Hpos. destruct (Rle_lt_or_eq_dec _ _ D) as [D'|D'].
  - assert (0 < t_density t * (1 - exp (- dwell / timescale traps s))) by (apply Rmult_lt_0_compat; lra). lra.
  - rewrite <- D' in *. specialize (I2 ltac:(lra)). lra.
Qed.
Lemma gentle_room traps full beta c : Forall physical traps -> 0 < full -> 1 <= beta -> traps_per_pixel traps * beta < full -> 0 < c -> traps_per_pixel traps * depth full beta c < c.
Proof.
  intros HP Hf Hb Hg Hc. pose proof (past_empty_strict (traps_per_pixel traps) full beta 0 c ltac:(now apply density_nonneg) Hf Hb Hg ltac:(lra)) as H.
  rewrite !past_empty_gentle in H; try lra; try (now apply density_nonneg). assert (D0 : depth full beta 0 = 0) by (unfold depth; destruct (Rle_dec 0 0); lra). rewrite D0 in H. lra.
Qed.
Lemma trail_positive traps full beta dwell : Forall physical traps -> 0 < dwell -> 0 < full -> 1 <= beta -> 0 < traps_per_pixel traps -> traps_per_pixel traps * beta < full ->
  forall n a b l, 0 < a -> 0 <= b -> 0 < nth 1 (through_clouds traps (depth full beta) dwell (S n) (a :: b :: l)) 0.
Proof.
  intros HP Hd Hf Hb Hpos Hg. induction n as [|n IH]; intros a b l Ha Hb';
    destruct (two_past traps full beta dwell HP ltac:(lra) Hf ltac:(lra) a b Ha Hb' ltac:(left; now apply gentle_room) (proj1 (share_pos traps dwell HP Hd traps 0 HP))) as (y & E & [B1 B2] & N);
    pose proof (gentle_room traps full beta a HP Hf Hb Hg Ha) as R1; pose proof (proj2 (share_pos traps dwell HP Hd traps 0 HP) Hpos) as R2.
  - assert (Dp : 0 < depth full beta a). { unfold depth. destruct (Rle_dec a 0); [lra|]. unfold Rpower. apply exp_pos. }
    assert (Hc : 0 < b + share_released traps dwell 0 traps * depth full beta a) by nra.
    pose proof (gentle_room traps full beta _ HP Hf Hb Hg Hc) as R3. cbn [through_clouds past_clouds nth] in *. injection E as _ E. rewrite E. lra.
  - cbn [past_clouds] in E. injection E as E1 E2. cbn [through_clouds] in IH |- *. cbn [past_clouds]. rewrite E1, E2. apply IH; lra.
Qed.
(** In wells that fill slowly enough for C68 it always loses some. *)
Theorem C117_row_behind_loses_charge (im : image R) parallel serial c fraction group dwell full beta rows cols i j :
  shape rows cols im -> (S i < rows)%nat -> (j < cols)%nat -> single_phase parallel rows c fraction group dwell false -> instant_group group ->
  phase_params c 0 0 beta full -> 0 < full -> 1 <= beta -> d_traps serial = None -> d_window serial = WNone -> lone im i j -> 0 < pixel im i j ->
  0 < traps_per_pixel group -> fraction * traps_per_pixel group * beta < full ->
  exists im', add_cti im parallel serial None = Ok (im', the_roe parallel, the_roe serial) /\
    0 < pixel im' (S i) j < nth (S i) (detector_clouds (map (thinned fraction) group) (depth full beta) dwell (d_offset parallel) (column_of im j)) 0.
Proof.
  intros Hs Hi Hj Hset Hg Hpp Hf Hb Hst Hsw Hl Ha Hpos Hgent.
  destruct (C117_row_behind_meets_its_own_pixel_last im parallel serial c fraction group dwell full beta rows cols i j Hs Hi Hj Hset Hg Hpp Hf ltac:(lra) Hst Hsw Hl) as (im' & E & K).
  exists im'. split; [exact E|]. rewrite K. set (y := nth (S i) _ 0). pose proof (sp_share _ _ _ _ _ _ _ Hset) as Hsh. pose proof (sp_dwell _ _ _ _ _ _ _ Hset) as Hdw.
  pose proof (im_phys parallel c fraction dwell group rows Hset Hg) as HP. pose proof (thin_density fraction group) as TD.
  assert (Hy : 0 < y).
  { unfold y. rewrite (lone_column im rows cols i j Hs ltac:(lia) Hj Hl). rewrite detector_lone by (assumption || lra).
    rewrite app_nth2, repeat_length by (rewrite repeat_length; lia). replace (S i - i)%nat with 1%nat by lia. replace (rows - i - 1)%nat with (S (rows - i - 2)) by lia.
    cbn [repeat]. apply trail_positive; auto; try lra; rewrite TD; [apply Rmult_lt_0_compat; assumption|exact Hgent]. }
  clearbody y. rewrite <- TD in *. rewrite past_empty_gentle; try lra; [|now apply density_nonneg].
  pose proof (gentle_room _ full beta y HP Hf Hb Hgent Hy).
  assert (Dp : 0 < depth full beta y). { unfold depth. destruct (Rle_dec y 0); [lra|]. unfold Rpower. apply exp_pos. }
  assert (0 < traps_per_pixel (map (thinned fraction) group)) by (rewrite TD; apply Rmult_lt_0_compat; assumption). nra.
Qed.
Print Assumptions C117_row_behind_loses_charge.

(** ** One electron in the first of three rows *)
Definition three_image : image R := [[1]; [0]; [0]].
Definition three_direction (express : nat) : direction R := mkDir (Some small_ccd) (Some small_roe) (Some (TOne half_trap)) express 0 WNone.
Lemma three_shape : shape 3 1 three_image. Proof. split; [reflexivity|repeat constructor]. Qed.
Lemma three_lone : lone three_image 0 0.
Proof. intros [|[|[|[|k]]]] H; [contradiction| | | |]; reflexivity. Qed.
Lemma three_setting : single_phase (three_direction 0) 3 small_ccd 1 [half_trap] (ln 2) false.
Proof. constructor; try reflexivity; try lra; [exists (TOne half_trap); auto|discriminate|exists true, DFloat; reflexivity|apply ln_pos; lra|left; reflexivity]. Qed.
Lemma half_instant : instant_group [half_trap].
Proof. split; [discriminate|]. constructor; [|constructor]. split; [apply small_physical; lra|reflexivity]. Qed.
Lemma left_net traps well d n P : 0 <= n + released traps d P ->
  left_over traps well d n P = n + transfer_net traps well d n P /\ then_traps traps well d n P = transfer_after traps well d n P.
Proof. intros H. unfold left_over, then_traps, cloud, transfer_net, transfer_after. rewrite Rmax_right by exact H. split; [lra|reflexivity]. Qed.
Lemma flat_released rho d a e P : flat a 1 P -> exp (- d) = e -> released [thinned 1 (small_trap rho)] d P = rho * (a * (1 - e)).
Proof.
  intros HP He. set (t := thinned 1 (small_trap rho)).
  assert (H1 : flat (a * e) 1 (after_release [t] d P)).
  { intros x Hx. unfold after_release. rewrite HP by exact Hx. unfold timescale. cbn. rewrite Rdiv_1, He. reflexivity. }
  unfold released. rewrite (flat_electrons t a 1 P ltac:(lra) HP), (flat_electrons t (a * e) 1 _ ltac:(lra) H1). cbn. lra.
Qed.
Lemma three_detector : nth 1 (detector_clouds (map (thinned 1) [half_trap]) (depth 1 1) (ln 2) 0 [1; 0; 0]) 0 = 3 / 16.
Proof.
  rewrite thin_half. change [1; 0; 0] with (repeat 0 0 ++ 1 :: repeat 0 2). rewrite detector_lone by lra. cbn [repeat app Nat.add through_clouds past_clouds nth].
  rewrite <- thin_half. cbn [map]. change (depth 1 1) with small_well. unfold half_trap.
  destruct (flat_step small_well (1/2) (ln 2) 0 (1/2) 1 0 1 empty_profile (flat_empty 1) exp_ln2) as [E1 H1]; try lra; [apply small_well_at; lra|].
  assert (R1 : released [thinned 1 (small_trap (1 / 2))] (ln 2) empty_profile = 0) by (rewrite (flat_released (1/2) (ln 2) 0 (1/2) _ (flat_empty 1) exp_ln2); lra).
  destruct (left_net [thinned 1 (small_trap (1 / 2))] small_well (ln 2) 1 empty_profile ltac:(lra)) as [_ L1]. rewrite L1.
  destruct (flat_step small_well (1/2) (ln 2) 1 (1/2) 0 (1/4) (1/4) _ H1 exp_ln2) as [E2 H2]; try lra; [apply small_well_at; lra|].
  destruct (left_net [thinned 1 (small_trap (1 / 2))] small_well (ln 2) 0 (transfer_after [thinned 1 (small_trap (1 / 2))] small_well (ln 2) 1 empty_profile)) as [L2 _].
  { rewrite (flat_released (1/2) (ln 2) 1 (1/2) _ H1 exp_ln2). lra. }
  rewrite L2, E2. lra.
Qed.
Lemma three_matrix : exists mon, standard_express true DFloat (py_range 0 (Z.of_nat 3)) 1 0 None = Ok ([[0; 0; 1]; [0; 1; 0]; [1; 1; 2]], mon).
Proof.
  unfold standard_express. change (n_pixels_of_window (py_range 0 (Z.of_nat 3))) with (@Ok nat 3%nat). cbn [bind].
  unfold standard_full_matrix. cbn [express_used Nat.eqb Nat.add Nat.min Nat.ltb Nat.leb andb Nat.sub].
  assert (Hm : @max_multiplier R _ DFloat 2 1 = 2) by (unfold max_multiplier; rewrite !nofN_INR; cbn; lra).
  rewrite Hm. clear Hm. unfold plain_matrix. change (seq 0 2) with [0; 1]%nat. change (seq 0 1) with [0]%nat. cbn [map].
  assert (H0 : @plain_entry R _ 2 0 0 = 1) by (rewrite plain_entry_2; cbn [INR]; rewrite Rmax_right, Rmin_right; lra).
  assert (H1 : @plain_entry R _ 2 0 1 = 2) by (rewrite plain_entry_2; cbn [INR]; rewrite Rmax_right, Rmin_left; lra).
  rewrite H0, H1. unfold insert_small. cbn [fold_left].
  assert (N : n_positive [1; 2] = 2%nat). { unfold n_positive. rnum. cbn [filter]. replace (Rltb 0 1) with true by (symmetry; apply Rltb_true; lra). replace (Rltb 0 2) with true by (symmetry; apply Rltb_true; lra). reflexivity. }
  rewrite N. change (py_range 0 (Z.of_nat 3)) with [0; 1; 2]%Z. cbn. rnum. eexists. rewrite !Rplus_0_l. reflexivity.
Qed.

Lemma three_nonneg i j : 0 <= pixel three_image i j.
Proof. unfold pixel, three_image. destruct i as [|[|[|[|i]]]], j as [|[|j]]; cbn; rnum; lra. Qed.
Lemma three_express : plain_setting (three_direction 1) 3 small_ccd (TOne half_trap) [ln 2] DFloat.
Proof. constructor; try reflexivity; [left; reflexivity|exact small_plain|apply small_instant; lra|right; cbn; lia]. Qed.
(** An empty packet past empty traps. *)
Lemma nothing_passes rho : transfer_net [thinned 1 (small_trap rho)] small_well (ln 2) 0 empty_profile = 0.
Proof.
  unfold transfer_net. rewrite (flat_released rho (ln 2) 0 (1/2) _ (flat_empty 1) exp_ln2). replace (0 + rho * (0 * (1 - 1 / 2))) with 0 by lra.
  assert (W : small_well 0 = 0) by (unfold small_well, depth; destruct (Rle_dec 0 0); [reflexivity|lra]). rewrite W. unfold captured, demand, electrons. cbn [electrons_from]. rewrite RInt_point. unfold zero. cbn. unfold Rmin. destruct (Rle_dec _ _); lra.
Qed.
Lemma three_readout : exists im1, add_cti three_image (three_direction 1) no_direction None = Ok (im1, the_roe (three_direction 1), the_roe no_direction) /\ pixel im1 1 0 = 3 / 16.
Proof.
  destruct (express_readout three_image (three_direction 1) no_direction _ _ _ _ 3 1 three_shape ltac:(lia) three_nonneg three_express eq_refl eq_refl small_columns)
    as (im' & m & mon & E & Hm & _ & _ & _ & Ha & Hs & Hi).
  exists im'. split; [exact Ha|]. destruct three_matrix as [mon' Hq]. cbn [three_direction d_express d_offset] in Hm. rewrite Hq in Hm. injection Hm as <- <-.
  pose proof (Hi 1%nat 0%nat ltac:(lia) (or_introl eq_refl)) as H1. rewrite H1. clear H1 Hi.
  change (the_roe (three_direction 1)) with (built (Standard true) [ln 2] DFloat true true).
  rewrite small_phases, roe_steps by (apply ln_pos; lra). unfold readout.
  assert (Hpass : weighted_passes [[0; 0; 1]; [0; 1; 0]; [1; 1; 2]] = [[(2%Z, 1, false)]; [(1%Z, 1, false)]; [(0%Z, 1, false); (1%Z, 1, false); (2%Z, 2, false)]]).
  { unfold weighted_passes, weighted_pass. cbn [map length seq combine flat_map]. destruct (Rlt_dec 0 2), (Rlt_dec 0 1), (Rlt_dec 0 0); try lra. reflexivity. }
  rewrite Hpass. clear Hpass.
  do 3 (cbn [fold_left transfer_pass]; rewrite !one_cell; cbn zeta). cbn [fold_left transfer_pass fst].
  change (groups_in (TOne half_trap)) with [[small_trap (1/2)]]. rewrite !small_site.
  set (c0 := col_fun three_image 0) in *. change (Z.of_nat 1) with 1%Z.
  assert (A0 : c0 0%Z = 1) by reflexivity. assert (A1 : c0 1%Z = 0) by reflexivity. assert (A2 : c0 2%Z = 0) by reflexivity.
  change (all_empty (site_of small_ccd [[small_trap (1 / 2)]]) 0%nat) with [empty_profile]. unfold put. cbn [Nat.eqb].
  unfold site_after. cbn [site_groups site_well combine map]. rewrite !one_group_net, !Rmult_1_r, !A2, !nothing_passes.
  set (c1 := give c0 2 0). assert (B0 : c1 0%Z = 1) by (unfold c1; rewrite give_other by lia; exact A0). assert (B1 : c1 1%Z = 0) by (unfold c1; rewrite give_other by lia; exact A1).
  set (c2 := give c1 1 0). assert (C0 : c2 0%Z = 1) by (unfold c2; rewrite give_other by lia; exact B0). assert (C1 : c2 1%Z = 0) by (apply give_at; lra).
  destruct (flat_step small_well (1/2) (ln 2) 0 (1/2) 1 0 1 empty_profile (flat_empty 1) exp_ln2) as [E1 F1]; try lra; [apply small_well_at; lra|].
  rewrite !C0, !E1. set (P1 := transfer_after _ _ _ 1 empty_profile) in *. set (c3 := give c2 0 _) in *.
  assert (D1 : c3 1%Z = 0) by (unfold c3; rewrite give_other by lia; exact C1).
  destruct (flat_step small_well (1/2) (ln 2) 1 (1/2) 0 (1/4) (1/4) P1 F1 exp_ln2) as [E2 _]; try lra; [apply small_well_at; lra|].
  rewrite !D1, !E2. rewrite give_other by lia. apply give_at; lra.
Qed.

(** Computing every transfer (express = 0), called slower and more accurate, gives half the charge that
    the detector has behind the bright pixel; computing each transfer once (express = 1) gives all of it. *)
Theorem C117_clouds_meet_empty_traps_in_their_own_pixel_refuted : exists (im im0 im1 : image R) d trap,
  shape 3 1 im /\ lone im 0 0 /\ single_phase (d 0%nat) 3 small_ccd 1 [trap] (ln 2) false /\ instant_group [trap] /\ phase_params small_ccd 0 0 1 1 /\
  (forall express, d express = mkDir (d_ccd (d 0%nat)) (d_roe (d 0%nat)) (d_traps (d 0%nat)) express (d_offset (d 0%nat)) (d_window (d 0%nat))) /\
  add_cti im (d 0%nat) no_direction None = Ok (im0, the_roe (d 0%nat), the_roe no_direction) /\
  add_cti im (d 1%nat) no_direction None = Ok (im1, the_roe (d 1%nat), the_roe no_direction) /\
  let real := nth 1 (detector_clouds (map (thinned 1) [trap]) (depth 1 1) (ln 2) (d_offset (d 0%nat)) (column_of im 0)) 0 in
  0 < real /\ pixel im0 1 0 = real / 2 /\ pixel im1 1 0 = real.
Proof.
  destruct (C117_row_behind_meets_its_own_pixel_last three_image (three_direction 0) no_direction small_ccd 1 [half_trap] (ln 2) 1 1 3 1 0 0 three_shape ltac:(lia) ltac:(lia) three_setting half_instant
    ltac:(constructor; reflexivity) ltac:(lra) ltac:(lra) eq_refl eq_refl three_lone) as (im0 & E0 & K0).
  destruct three_readout as (im1 & E1 & K1). exists three_image, im0, im1, three_direction, half_trap.
  split; [exact three_shape|]. split; [exact three_lone|]. split; [exact three_setting|]. split; [exact half_instant|]. split; [constructor; reflexivity|]. split; [reflexivity|].
  split; [exact E0|]. split; [exact E1|]. change (column_of three_image 0) with [1; 0; 0] in *. cbn [d_offset three_direction] in *. rewrite three_detector in *. cbn zeta.
  split; [lra|]. split; [|exact K1]. rewrite K0, half_per_pixel, past_empty_gentle by lra. rewrite depth_one, Rmin_right by lra. lra.
Qed.
Print Assumptions C117_clouds_meet_empty_traps_in_their_own_pixel_refuted.

Example C117_example : shape 3 1 three_image /\ lone three_image 0 0 /\ leads three_image 0 0 /\ 0 < pixel three_image 0 0 /\
  single_phase (three_direction 0) 3 small_ccd 1 [half_trap] (ln 2) false /\ instant_group [half_trap] /\ phase_params small_ccd 0 0 1 1 /\
  0 < traps_per_pixel [half_trap] /\ 1 * traps_per_pixel [half_trap] * 1 < 1.
Proof.
  split; [exact three_shape|]. split; [exact three_lone|]. split; [intros k Hk; lia|]. split; [unfold pixel; cbn; lra|]. split; [exact three_setting|]. split; [exact half_instant|].
  split; [constructor; reflexivity|]. rewrite half_per_pixel. lra.
Qed.
