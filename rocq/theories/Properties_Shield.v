(** * C148: charge in front shields the charge behind it. *)
From Coq Require Import ZArith List Bool Reals Lra Lia.
From Verif Require Import Num Py RFacts CCDModel TrapsModel ManagerModel ROEModel ClockModel MainModel Spec SpecImage SpecReadout SpecHistory SpecRecovery SpecFirst SpecInTurn
  ImageFacts ClockFacts MainFacts ROEExpressFacts MainReadoutFacts MainColumnFacts
  InstantFacts OrderFacts TameFacts RecoverFacts DepthFacts AboveFacts RecoverImageFacts ReadoutImage ReadoutExamples OverfullExample DivergeExample FirstFacts EfficiencyFacts OwnPixelFacts Properties_First Properties_OwnPixel GridFacts SpecReturn FirstReturnFacts InTurnFacts Properties_InTurn ShieldFacts.
Import ListNotations.
Open Scope R_scope.

(** In wells that fill evenly, with any number of rows in front of it, the output of a pixel is at
    least the trail that the charge in front leaves there, [im1], plus what is left of its own charge [x] on its own. *)
Theorem C148_charge_in_front_shields_charge_behind (im im1 : image R) parallel serial c fraction group dwell full rows cols i j x :
  shape rows cols im -> shape rows cols im1 -> (i < rows)%nat -> (j < cols)%nat -> single_phase parallel rows c fraction group dwell false -> instant_group group ->
  phase_params c 0 0 1 full -> 0 < full -> fraction * traps_per_pixel group <= full -> d_traps serial = None -> d_window serial = WNone ->
  (forall k, (k < i)%nat -> pixel im k j = pixel im1 k j) -> 0 <= pixel im1 i j -> 0 <= x -> pixel im i j = pixel im1 i j + x ->
  exists im' im1', add_cti im parallel serial None = Ok (im', the_roe parallel, the_roe serial) /\ add_cti im1 parallel serial None = Ok (im1', the_roe parallel, the_roe serial) /\
    pixel im1' i j + past_pixels (fraction * traps_per_pixel group) full 1 (i + 1 + d_offset parallel) x <= pixel im' i j.
Proof.
  intros Hs Hs1 Hi Hj Hset Hg Hpp Hf Hr Hst Hsw Hk H1 Hx Hp.
  destruct (any_image im parallel serial c fraction group dwell full 1 rows cols Hs ltac:(lia) Hset Hg Hpp Hf ltac:(lra) Hst Hsw) as (im' & E & _ & K).
  destruct (any_image im1 parallel serial c fraction group dwell full 1 rows cols Hs1 ltac:(lia) Hset Hg Hpp Hf ltac:(lra) Hst Hsw) as (im1' & E1 & _ & K1).
  exists im', im1'. split; [exact E|]. split; [exact E1|]. rewrite <- (nth_column im' i j), <- (nth_column im1' i j), (K j Hj), (K1 j Hj).
  pose proof (sp_share _ _ _ _ _ _ _ Hset). pose proof (sp_dwell _ _ _ _ _ _ _ Hset). destruct Hg as [_ Hg].
  assert (HP : Forall physical (map (thinned fraction) group)) by (apply thinned_physical; [lra|]; eapply Forall_impl; [|exact Hg]; intros t Ht; apply Ht).
  rewrite <- thin_density in *. apply (ahead_column (map (thinned fraction) group) full dwell HP ltac:(lra) Hf Hr i x).
  assert (L : forall a : image R, shape rows cols a -> length (column_of a j) = rows) by (intros a Ha; unfold column_of; rewrite map_length; apply Ha).
  unfold ahead. rewrite !L by assumption. rewrite !nth_column. split; [exact Hi|]. split; [exact Hi|]. split; [|split; [exact H1|split; [exact Hx|lra]]].
  apply (nth_ext _ _ 0 0); rewrite !firstn_length, !L by assumption; [reflexivity|]. intros k Hk'. assert (k < i)%nat as Hki by lia.
  assert (F : forall l : list R, nth k (firstn i l) 0 = nth k l 0).
  { intros l. rewrite <- (firstn_skipn i l) at 2. destruct (Nat.lt_ge_cases k (length (firstn i l))) as [Q|Q]; [now rewrite app_nth1|]. rewrite (nth_overflow _ _ Q). rewrite nth_overflow; [reflexivity|]. rewrite firstn_skipn. rewrite firstn_length in Q. lia. }
  rewrite !F, !nth_column. now apply Hk.
Qed.
Print Assumptions C148_charge_in_front_shields_charge_behind.
(** With [leads] the second part is the readout of an image: the output of a pixel is at least the sum of what it would be without its charge and what it would be without that in front. *)
Theorem C148_outputs_of_parts_add_up_to_no_more (im front own : image R) parallel serial c fraction group dwell full rows cols i j :
  shape rows cols im -> shape rows cols front -> shape rows cols own -> (i < rows)%nat -> (j < cols)%nat -> single_phase parallel rows c fraction group dwell false -> instant_group group ->
  phase_params c 0 0 1 full -> 0 < full -> fraction * traps_per_pixel group <= full -> d_traps serial = None -> d_window serial = WNone ->
  (forall k, (k < i)%nat -> pixel front k j = pixel im k j) -> pixel front i j = 0 -> leads own i j -> pixel own i j = pixel im i j -> 0 <= pixel im i j ->
  exists im' front' own', add_cti im parallel serial None = Ok (im', the_roe parallel, the_roe serial) /\ add_cti front parallel serial None = Ok (front', the_roe parallel, the_roe serial) /\
    add_cti own parallel serial None = Ok (own', the_roe parallel, the_roe serial) /\ pixel front' i j + pixel own' i j <= pixel im' i j.
Proof.
  intros Hs Hs1 Hs2 Hi Hj Hset Hg Hpp Hf Hr Hst Hsw Hk H1 Hl Ho Hx.
  destruct (C148_charge_in_front_shields_charge_behind im front parallel serial c fraction group dwell full rows cols i j (pixel im i j)) as (im' & front' & E & E1 & K); auto; try lra.
  { intros k Hk'. symmetry. now apply Hk. }
  destruct (first_packet own parallel serial c fraction group dwell full 1 rows cols i j) as (own' & E2 & _ & K2); auto; try lra.
  exists im', front', own'. rewrite K2, Ho. auto.
Qed.
Print Assumptions C148_outputs_of_parts_add_up_to_no_more.
(** In wells of any fill power up to 1, and in others with few traps, every pixel keeps at least as much as if it were the first of its column. *)
Theorem C148_every_pixel_keeps_what_the_first_would (im : image R) parallel serial c fraction group dwell full beta rows cols i j :
  shape rows cols im -> (i < rows)%nat -> (j < cols)%nat -> single_phase parallel rows c fraction group dwell false -> instant_group group ->
  phase_params c 0 0 beta full -> 0 < full -> 0 < beta -> orderly (fraction * traps_per_pixel group) full beta -> d_traps serial = None -> d_window serial = WNone -> 0 <= pixel im i j ->
  exists im', add_cti im parallel serial None = Ok (im', the_roe parallel, the_roe serial) /\ shape rows cols im' /\
    past_pixels (fraction * traps_per_pixel group) full beta (i + 1 + d_offset parallel) (pixel im i j) <= pixel im' i j.
Proof.
  intros Hs Hi Hj Hset Hg Hpp Hf Hb Ho Hst Hsw Hx.
  destruct (any_image im parallel serial c fraction group dwell full beta rows cols Hs ltac:(lia) Hset Hg Hpp Hf Hb Hst Hsw) as (im' & E & S & K).
  exists im'. split; [exact E|]. split; [exact S|]. rewrite <- (nth_column im' i j), (K j Hj).
  pose proof (sp_share _ _ _ _ _ _ _ Hset). pose proof (sp_dwell _ _ _ _ _ _ _ Hset). destruct Hg as [_ Hg].
  assert (HP : Forall physical (map (thinned fraction) group)) by (apply thinned_physical; [lra|]; eapply Forall_impl; [|exact Hg]; intros t Ht; apply Ht).
  rewrite <- thin_density in *. apply (holds_column (map (thinned fraction) group) full beta dwell HP ltac:(lra) Hf Hb Ho).
  split; [unfold column_of; rewrite map_length, (proj1 Hs); exact Hi|]. rewrite nth_column. lra.
Qed.
Print Assumptions C148_every_pixel_keeps_what_the_first_would.
(** Also when it is clocked in both directions, and is neither the first of its column nor of its row. *)
Lemma density_of fraction group parallel rows c dwell : single_phase parallel rows c fraction group dwell false -> instant_group group -> 0 <= fraction * traps_per_pixel group.
Proof.
  intros Hset [_ Hg]. apply Rmult_le_pos; [left; exact (sp_share _ _ _ _ _ _ _ Hset)|]. apply density_nonneg. eapply Forall_impl; [|exact Hg]. intros t Ht. apply Ht.
Qed.
Theorem C148_every_pixel_keeps_what_the_first_would_in_both_directions (im : image R) parallel serial cp cs fraction_p fraction_s dwell_p dwell_s full_p full_s beta_p beta_s group_p group_s rows cols i j :
  single_phase parallel rows cp fraction_p group_p dwell_p false -> instant_group group_p -> phase_params cp 0 0 beta_p full_p -> 0 < full_p -> 0 < beta_p -> orderly (fraction_p * traps_per_pixel group_p) full_p beta_p ->
  single_phase serial cols cs fraction_s group_s dwell_s false -> instant_group group_s -> phase_params cs 0 0 beta_s full_s -> 0 < full_s -> 0 < beta_s -> orderly (fraction_s * traps_per_pixel group_s) full_s beta_s ->
  shape rows cols im -> (i < rows)%nat -> (j < cols)%nat -> 0 <= pixel im i j ->
  exists im', add_cti im parallel serial None = Ok (im', the_roe parallel, the_roe serial) /\ shape rows cols im' /\
    past_pixels (fraction_s * traps_per_pixel group_s) full_s beta_s (j + 1 + d_offset serial)
      (past_pixels (fraction_p * traps_per_pixel group_p) full_p beta_p (i + 1 + d_offset parallel) (pixel im i j)) <= pixel im' i j.
Proof.
  intros Sp Gp Pp Fp Bp Op Ss Gs Ps Fs Bs Os Hs Hi Hj Hx. assert (Hr : (0 < rows)%nat) by lia. assert (Hc : (0 < cols)%nat) by lia.
  assert (W : d_window (without_traps serial) = WNone) by (cbn; exact (sp_window _ _ _ _ _ _ _ Ss)).
  destruct (C148_every_pixel_keeps_what_the_first_would im parallel (without_traps serial) cp fraction_p group_p dwell_p full_p beta_p rows cols i j Hs Hi Hj Sp Gp Pp Fp Bp Op eq_refl W Hx) as (im1 & E1 & S1 & K1).
  pose proof (density_of _ _ _ _ _ _ Sp Gp) as Rp. pose proof (density_of _ _ _ _ _ _ Ss Gs) as Rs.
  pose proof (pixels_pos (fraction_p * traps_per_pixel group_p) full_p beta_p (i + 1 + d_offset parallel) (pixel im i j) Hx) as P1.
  pose proof (transpose_shape rows cols im1 S1 Hr) as Ht.
  assert (Tp : forall k l, pixel (transpose im1) k l = pixel im1 l k) by (intros; apply (transpose_pixel_all rows cols); assumption).
  destruct (C148_every_pixel_keeps_what_the_first_would (transpose im1) serial no_direction cs fraction_s group_s dwell_s full_s beta_s cols rows j i Ht Hj Hi Ss Gs Ps Fs Bs Os eq_refl eq_refl) as (im2 & E2 & S2 & K2); [rewrite Tp; lra|].
  exists (transpose im2). split; [|split; [now apply transpose_shape|]].
  - rewrite (in_turn im parallel serial None rows cols Hs Hr), E1. cbn [bind]. rewrite idle_parallel by exact (sp_window _ _ _ _ _ _ _ Sp).
    pose proof (sp_roe _ _ _ _ _ _ _ Ss) as (force & dt & Er).
    rewrite (serial_parallel im1 serial rows cols cols true (the_roe serial) S1 Hr Hc eq_refl).
    + rewrite E2. reflexivity.
    + unfold the_roe. rewrite Er. reflexivity.
    + rewrite (sp_window _ _ _ _ _ _ _ Ss). cbn [selected]. rewrite <- py_range_0. apply window_ok_range. exact Hc.
    + lia.
  - rewrite (transpose_pixel_all cols rows) by assumption. rewrite Tp in K2. eapply Rle_trans; [|exact K2]. apply pixels_order; auto.
Qed.
Print Assumptions C148_every_pixel_keeps_what_the_first_would_in_both_directions.
(** So every pixel that does not fill the well keeps at least the share that the first one keeps (C143), whatever is in front of it. *)
Theorem C148_every_pixel_keeps_the_share_of_the_first (im : image R) parallel serial c fraction group dwell full rows cols i j :
  shape rows cols im -> (i < rows)%nat -> (j < cols)%nat -> single_phase parallel rows c fraction group dwell false -> instant_group group ->
  phase_params c 0 0 1 full -> 0 < full -> fraction * traps_per_pixel group <= full -> d_traps serial = None -> d_window serial = WNone -> 0 <= pixel im i j <= full ->
  exists im', add_cti im parallel serial None = Ok (im', the_roe parallel, the_roe serial) /\
    pixel im i j * (1 - fraction * traps_per_pixel group / full) ^ (i + 1 + d_offset parallel) <= pixel im' i j.
Proof.
  intros Hs Hi Hj Hset Hg Hpp Hf Hr Hst Hsw Hx.
  destruct (any_image im parallel serial c fraction group dwell full 1 rows cols Hs ltac:(lia) Hset Hg Hpp Hf ltac:(lra) Hst Hsw) as (im' & E & _ & K).
  exists im'. split; [exact E|]. rewrite <- (nth_column im' i j), (K j Hj).
  pose proof (sp_share _ _ _ _ _ _ _ Hset). pose proof (sp_dwell _ _ _ _ _ _ _ Hset). destruct Hg as [_ Hg].
  assert (HP : Forall physical (map (thinned fraction) group)) by (apply thinned_physical; [lra|]; eapply Forall_impl; [|exact Hg]; intros t Ht; apply Ht). pose proof (density_nonneg _ HP) as Hrho.
  rewrite <- thin_density in *. rewrite <- pixels_linear by (auto; lra).
  assert (L : length (column_of im j) = rows) by (unfold column_of; rewrite map_length; apply Hs).
  destruct (ahead_column (map (thinned fraction) group) full dwell HP ltac:(lra) Hf Hr i (pixel im i j) (column_of im j) (firstn i (column_of im j) ++ [0]) (d_offset parallel)) as [A B]; [|lra].
  assert (Lf : length (firstn i (column_of im j)) = i) by (rewrite firstn_length, L; lia).
  unfold ahead. rewrite L, app_length, Lf. split; [exact Hi|]. split; [cbn; lia|]. split; [rewrite firstn_app, Lf, Nat.sub_diag, firstn_firstn, Nat.min_id; cbn; now rewrite app_nil_r|].
  rewrite app_nth2, Lf, Nat.sub_diag by lia. cbn [nth]. rewrite nth_column. lra.
Qed.
Print Assumptions C148_every_pixel_keeps_the_share_of_the_first.

(** ** Half an electron in each of two rows *)
Definition halves : image R := [[1 / 2]; [1 / 2]].
Definition front_half : image R := [[1 / 2]; [0]].
Definition behind_half : image R := [[0]; [1 / 2]].
Definition two_direction : direction R := small_direction small_roe (TOne half_trap).
Lemma two_setting : single_phase two_direction 2 small_ccd 1 [half_trap] (ln 2) false.
Proof. constructor; try reflexivity; try lra; [exists (TOne half_trap); auto|discriminate|exists true, DFloat; reflexivity|apply ln_pos; lra|left; reflexivity]. Qed.
Definition half_filled : profile := then_traps [half_trap] (depth 1 1) (ln 2) (1 / 2) empty_profile.
Lemma half_low x : x < 1 / 2 -> half_filled 0%nat x = 1.
Proof.
  intros Hx. unfold half_filled, then_traps, cloud. rewrite empty_released, Rplus_0_r, (Rmax_right 0 (1 / 2)), depth_one, Rmin_right by lra. unfold after_capture. destruct (Rlt_dec x (1 / 2)); [|lra].
  rewrite (void_demand [half_trap]) by (lra || apply void_release, void_empty). rewrite half_per_pixel. destruct (Rle_dec (1 / 2 * (1 / 2)) (1 / 2)); lra.
Qed.
Lemma half_high x : 1 / 2 <= x -> half_filled 0%nat x = 0.
Proof.
  intros Hx. unfold half_filled, then_traps, cloud. rewrite empty_released, Rplus_0_r, (Rmax_right 0 (1 / 2)), depth_one, Rmin_right by lra. unfold after_capture. destruct (Rlt_dec x (1 / 2)); [lra|].
  unfold after_release, empty_profile. lra.
Qed.
Lemma half_keep : exp (- ln 2 / timescale [half_trap] 0) = 1 / 2.
Proof. cbn. replace (- ln 2 / 1) with (- ln 2) by lra. rewrite exp_Ropp, exp_ln by lra. lra. Qed.
Lemma half_tidy : tidy 1 half_filled.
Proof. apply (left_even [half_trap] 1 (ln 2) half_physical ln2_nonneg ltac:(lra) ltac:(rewrite half_per_pixel; lra) (1 / 2) empty_profile). apply (tidy_empty [half_trap]). Qed.
Lemma half_part (q : R) (P : profile) v : (forall x, x < 1 / 2 -> P 0%nat x = q) -> 0 <= v <= 1 / 2 -> electrons [half_trap] P 0 v = q * v / 2.
Proof.
  intros H Hv. rewrite (electrons_eq [half_trap] P (fun _ _ => q) 0 v); [rewrite half_electrons; lra|lra|]. intros s x Hs Hx. cbn in Hs. assert (s = 0%nat) as -> by lia. apply H. lra.
Qed.
Lemma half_whole (q : R) (P : profile) v : tidy 1 P -> (forall x, x < 1 / 2 -> P 0%nat x = q) -> (forall x, 1 / 2 <= x -> P 0%nat x = 0) -> 1 / 2 <= v <= 1 -> electrons [half_trap] P 0 v = q / 4.
Proof.
  intros T H H' Hv. rewrite (electrons_chasles [half_trap] P 0 (1 / 2) v) by (apply tidy_integrable; auto; lra). rewrite (half_part q P (1 / 2) H) by lra.
  rewrite (electrons_eq [half_trap] P (fun _ _ => 0) (1 / 2) v); [rewrite half_electrons; lra|lra|]. intros s x Hs Hx. cbn in Hs. assert (s = 0%nat) as -> by lia. apply H'. lra.
Qed.
Lemma half_later x : (x < 1 / 2 -> after_release [half_trap] (ln 2) half_filled 0%nat x = 1 / 2) /\ (1 / 2 <= x -> after_release [half_trap] (ln 2) half_filled 0%nat x = 0).
Proof. unfold after_release. rewrite half_keep. split; intros H; [rewrite half_low by exact H|rewrite half_high by exact H]; lra. Qed.
Lemma later_tidy : tidy 1 (after_release [half_trap] (ln 2) half_filled).
Proof. apply (tidy_release [half_trap] (ln 2) half_physical ln2_nonneg), half_tidy. Qed.
Lemma half_released : released [half_trap] (ln 2) half_filled = 1 / 8.
Proof.
  unfold released. rewrite (half_whole 1 half_filled 1 half_tidy half_low half_high) by lra. rewrite (half_whole (1 / 2) _ 1 later_tidy (fun x => proj1 (half_later x)) (fun x => proj2 (half_later x))) by lra. lra.
Qed.
Lemma behind_left b : 0 <= b <= 1 / 2 -> left_over [half_trap] (depth 1 1) (ln 2) b half_filled = (b + 1 / 8) / 2 + Rmin (b + 1 / 8) (1 / 2) / 4.
Proof.
  intros Hb. destruct (left_even [half_trap] 1 (ln 2) half_physical ln2_nonneg ltac:(lra) ltac:(rewrite half_per_pixel; lra) b half_filled half_tidy) as (-> & _). unfold cloud. rewrite half_released, Rmax_right, half_per_pixel, depth_one, Rmin_right by lra.
  unfold Rmin. destruct (Rle_dec (b + 1 / 8) (1 / 2)).
  - rewrite (half_part (1 / 2) _ _ (fun x => proj1 (half_later x))) by lra. lra.
  - rewrite (half_whole (1 / 2) _ _ later_tidy (fun x => proj1 (half_later x)) (fun x => proj2 (half_later x))) by lra. lra.
Qed.
Lemma two_read (im : image R) b : shape 2 1 im -> column_of im 0 = [1 / 2; b] -> 0 <= b <= 1 / 2 ->
  exists im', add_cti im two_direction no_direction None = Ok (im', the_roe two_direction, the_roe no_direction) /\ pixel im' 1 0 = (b + 1 / 8) / 4 + Rmin (b + 1 / 8) (1 / 2) / 8.
Proof.
  intros Hs E Hb. destruct (any_image im two_direction no_direction small_ccd 1 [half_trap] (ln 2) 1 1 2 1 Hs ltac:(lia) two_setting half_instant small_params ltac:(lra) ltac:(lra) eq_refl eq_refl) as (im' & A & _ & K).
  exists im'. split; [exact A|]. rewrite <- (nth_column im' 1 0), (K 0%nat ltac:(lia)), E, thin_half. change (d_offset two_direction) with 0%nat.
  unfold column_clouds. cbn [length through_clouds read_clouds past_clouds nth]. fold half_filled. rewrite (behind_left b Hb).
  assert (0 <= Rmin (b + 1 / 8) (1 / 2)) by (apply Rmin_glb; lra). pose proof (Rmin_r (b + 1 / 8) (1 / 2)).
  rewrite (void_left [half_trap]) by (lra || apply void_empty). rewrite half_per_pixel. set (m := Rmin (b + 1 / 8) (1 / 2)) in *. clearbody m. rewrite past_empty_gentle by lra. rewrite depth_one, Rmin_right by lra. lra.
Qed.
(** Not just as much: half an electron behind another leads to 7/32, not to 3/64 + 1/8. So outputs do not add, though they are proportional (C142). *)
Theorem C148_outputs_of_parts_add_up_refuted : exists (im front own im' front' own' : image R) d,
  single_phase d 2 small_ccd 1 [half_trap] (ln 2) false /\ instant_group [half_trap] /\ shape 2 1 im /\ (forall i j, 0 <= pixel front i j /\ 0 <= pixel own i j /\ pixel im i j = pixel front i j + pixel own i j /\ pixel im i j <= 1 / 2) /\
  add_cti im d no_direction None = Ok (im', the_roe d, the_roe no_direction) /\ add_cti front d no_direction None = Ok (front', the_roe d, the_roe no_direction) /\
  add_cti own d no_direction None = Ok (own', the_roe d, the_roe no_direction) /\ pixel im' 1 0 = 7 / 32 /\ pixel front' 1 0 = 3 / 64 /\ pixel own' 1 0 = 1 / 8.
Proof.
  assert (S : forall a b : R, shape 2 1 [[a]; [b]]) by (intros; split; [reflexivity|repeat constructor]).
  destruct (two_read halves (1 / 2) (S _ _) eq_refl ltac:(lra)) as (im' & E & K). destruct (two_read front_half 0 (S _ _) eq_refl ltac:(lra)) as (front' & E1 & K1).
  destruct (first_packet behind_half two_direction no_direction small_ccd 1 [half_trap] (ln 2) 1 1 2 1 1 0) as (own' & E2 & _ & K2); try (exact two_setting || exact half_instant || exact small_params || reflexivity || lra || lia || apply S).
  { intros [|k] Hk; [reflexivity|lia]. }
  { unfold pixel; cbn; lra. }
  exists halves, front_half, behind_half, im', front', own', two_direction. split; [exact two_setting|]. split; [exact half_instant|]. split; [apply S|].
  split; [intros i j; unfold pixel, halves, front_half, behind_half; destruct i as [|[|i]]; destruct j as [|j]; cbn; try lra; repeat match goal with |- context [match ?k with O => _ | S _ => _ end] => destruct k; cbn; try lra end|].
  split; [exact E|]. split; [exact E1|]. split; [exact E2|]. split; [rewrite K, Rmin_right by lra; lra|]. split; [rewrite K1, Rmin_left by lra; lra|].
  rewrite K2. rewrite half_per_pixel. change (pixel behind_half 1 0) with (1 / 2). rewrite pixels_linear by lra. change (1 + 1 + d_offset two_direction)%nat with 2%nat. cbn. lra.
Qed.
Print Assumptions C148_outputs_of_parts_add_up_refuted.

Example C148_example : shape 2 1 halves /\ shape 2 1 front_half /\ shape 2 1 behind_half /\ single_phase two_direction 2 small_ccd 1 [half_trap] (ln 2) false /\ instant_group [half_trap] /\
  phase_params small_ccd 0 0 1 1 /\ 1 * traps_per_pixel [half_trap] <= 1 /\ leads behind_half 1 0 /\ pixel front_half 1 0 = 0 /\ pixel behind_half 1 0 = pixel halves 1 0 /\ 0 < pixel front_half 0 0 /\ 0 < pixel halves 1 0 <= 1.
Proof.
  repeat split; try reflexivity; try (repeat constructor); try (apply two_setting); try (apply half_instant); try (rewrite half_per_pixel; lra); try (unfold pixel; cbn; lra); try (intros [|k] Hk; [reflexivity|lia]).
Qed.
Example C148_both_directions_example : shape 2 1 halves /\ single_phase two_direction 2 small_ccd 1 [half_trap] (ln 2) false /\ single_phase deep_direction 1 deep_ccd 1 [small_trap (1 / 4)] (ln 2) false /\
  instant_group [half_trap] /\ instant_group [small_trap (1 / 4)] /\ phase_params small_ccd 0 0 1 1 /\ phase_params deep_ccd 0 0 1 2 /\ orderly (1 * traps_per_pixel [half_trap]) 1 1 /\ orderly (1 * traps_per_pixel [small_trap (1 / 4)]) 2 1 /\
  past_pixels (1 * traps_per_pixel [small_trap (1 / 4)]) 2 1 1 (past_pixels (1 * traps_per_pixel [half_trap]) 1 1 2 (pixel halves 1 0)) = 7 / 64.
Proof.
  split; [split; [reflexivity|repeat constructor]|]. split; [exact two_setting|]. split; [exact deep_setting|]. split; [exact half_instant|]. split; [exact quarter_group|]. split; [exact small_params|]. split; [exact deep_params|].
  split; [left; lra|]. split; [left; lra|]. rewrite half_per_pixel, quarter_density. change (pixel halves 1 0) with (1 / 2). rewrite (pixels_linear (1 * (1 / 2))) by lra. rewrite pixels_linear; cbn; lra.
Qed.

(** ** Steep wells with many traps *)
(** There, half an electron in front lets a charge of 13/16 lose more: at most 15/256 is left of it instead of 8463/65536. *)
Definition crowded : list (trap R) := [small_trap 1].
Definition crowded_direction : direction R := mkDir (Some steep_ccd) (Some (roe_init [ln 4] true true true DFloat)) (Some (TOne (small_trap 1))) 0 0 WNone.
Lemma ln4_pos : 0 < ln 4. Proof. apply ln_pos. lra. Qed.
Lemma crowded_setting : single_phase crowded_direction 2 steep_ccd 1 crowded (ln 4) false.
Proof. constructor; try reflexivity; try lra; [exists (TOne (small_trap 1)); auto|discriminate|exists true, DFloat; reflexivity|exact ln4_pos|left; reflexivity]. Qed.
Lemma crowded_instant : instant_group crowded.
Proof. apply small_group. lra. Qed.
Lemma crowded_physical : Forall physical crowded.
Proof. constructor; [apply small_physical; lra|constructor]. Qed.
Lemma crowded_density : traps_per_pixel crowded = 1.
Proof. unfold traps_per_pixel, Rsum. cbn. lra. Qed.
Lemma thin_crowded : map (thinned 1) crowded = crowded.
Proof. unfold crowded. cbn [map]. do 1 f_equal. unfold thinned, small_trap. cbn. f_equal. lra. Qed.
Lemma steep_depth a : 0 < a <= 1 -> depth 1 2 a = a * a.
Proof. intros Ha. unfold depth. destruct (Rle_dec a 0); [lra|]. replace (a / 1) with a by field. rewrite Rmin_right by lra. replace 2 with (INR 2) by (cbn; lra). rewrite Rpower_pow by lra. cbn. lra. Qed.
Definition crowd : profile := then_traps crowded (depth 1 2) (ln 4) (1 / 2) empty_profile.
Lemma crowd_is : tidy 1 crowd /\ (forall s x, 0 < x < 1 / 4 -> crowd s x = 1) /\ (forall s x, 1 / 4 < x < 1 -> crowd s x = 0).
Proof.
  split; [apply (then_keep crowded 1 2 (ln 4) crowded_physical (Rlt_le _ _ ln4_pos)); try lra; apply (tidy_empty crowded)|].
  assert (C : cloud crowded (ln 4) (1 / 2) empty_profile = 1 / 2) by (unfold cloud; rewrite void_released, Rplus_0_r, Rmax_right; auto using void_empty; lra).
  unfold crowd, then_traps. rewrite C, steep_depth by lra. unfold after_capture. rewrite (void_demand crowded) by (lra || apply void_release, void_empty). rewrite crowded_density.
  split; intros s x Hx; (destruct (Rlt_dec x (1 / 2 * (1 / 2))); [|]); try lra.
  - destruct (Rle_dec (1 * (1 / 2 * (1 / 2))) (1 / 2)); lra.
  - unfold after_release, empty_profile. lra.
Qed.
Lemma crowd_released : released crowded (ln 4) crowd = 3 / 16.
Proof.
  destruct crowd_is as (_ & H1 & H2). rewrite (step_released crowded (ln 4) (1 / 4) crowd ltac:(lra) H1 H2). cbn. replace (- ln 4 / 1) with (- ln 4) by lra. rewrite exp_Ropp, exp_ln by lra. lra.
Qed.
Lemma crowd_total : electrons crowded crowd 0 1 = 1 / 4.
Proof. destruct crowd_is as (_ & H1 & H2). unfold electrons. rewrite (filled_total crowd (1 / 4) (fun _ => 1) ltac:(lra) H1 H2). cbn. lra. Qed.
Lemma crowd_left : 0 <= left_over crowded (depth 1 2) (ln 4) (13 / 16) crowd <= 1 / 16.
Proof.
  destruct crowd_is as (T & _). unfold left_over, cloud. rewrite crowd_released, Rmax_right by lra. replace (13 / 16 + 3 / 16) with 1 by lra. rewrite steep_depth by lra. replace (1 * 1) with 1 by lra. unfold captured.
  assert (T' : tidy 1 (after_release crowded (ln 4) crowd)) by (apply (tidy_release crowded (ln 4) crowded_physical (Rlt_le _ _ ln4_pos)), T).
  rewrite (demand_value crowded _ 1 T') by lra. rewrite crowded_density. pose proof crowd_released as R. unfold released in R. rewrite crowd_total in R.
  pose proof (electrons_nonneg crowded crowded_physical _ 0 1 T' ltac:(lra) ltac:(lra)). unfold Rmin. destruct (Rle_dec _ _); lra.
Qed.
Theorem C148_every_pixel_keeps_what_the_first_would_refuted : exists (im im' : image R) d c group dwell,
  single_phase d 2 c 1 group dwell false /\ instant_group group /\ phase_params c 0 0 2 1 /\ 1 * traps_per_pixel group <= 1 /\ shape 2 1 im /\ (forall i j, 0 <= pixel im i j <= 1) /\
  add_cti im d no_direction None = Ok (im', the_roe d, the_roe no_direction) /\
  pixel im' 1 0 < past_pixels (1 * traps_per_pixel group) 1 2 (1 + 1 + d_offset d) (pixel im 1 0).
Proof.
  set (im := [[1 / 2]; [13 / 16]] : image R). assert (S : shape 2 1 im) by (split; [reflexivity|repeat constructor]). assert (P : phase_params steep_ccd 0 0 2 1) by (constructor; reflexivity).
  destruct (any_image im crowded_direction no_direction steep_ccd 1 crowded (ln 4) 1 2 2 1 S ltac:(lia) crowded_setting crowded_instant P ltac:(lra) ltac:(lra) eq_refl eq_refl) as (im' & A & _ & K).
  exists im, im', crowded_direction, steep_ccd, crowded, (ln 4). split; [exact crowded_setting|]. split; [exact crowded_instant|]. split; [exact P|]. split; [rewrite crowded_density; lra|]. split; [exact S|].
  split; [intros i j; unfold pixel, im; destruct i as [|[|i]]; destruct j as [|j]; cbn; try lra; repeat match goal with |- context [match ?k with O => _ | S _ => _ end] => destruct k; cbn; try lra end|].
  split; [exact A|]. rewrite <- (nth_column im' 1 0), (K 0%nat ltac:(lia)), thin_crowded. change (column_of im 0) with [1 / 2; 13 / 16]. change (d_offset crowded_direction) with 0%nat. change (pixel im 1 0) with (13 / 16).
  unfold column_clouds. cbn [length through_clouds read_clouds past_clouds nth Nat.add past_pixels]. fold crowd. pose proof crowd_left as L. set (y := left_over crowded (depth 1 2) (ln 4) (13 / 16) crowd) in *. clearbody y.
  rewrite (void_left crowded) by (lra || apply void_empty). rewrite crowded_density, Rmult_1_l.
  assert (F : forall a, 0 < a <= 1 -> past_empty 1 1 2 a = a - a * a) by (intros a Ha; unfold past_empty; rewrite steep_depth by exact Ha; rewrite Rmin_right by nra; lra).
  rewrite (F (13 / 16)) by lra. rewrite (F (13 / 16 - 13 / 16 * (13 / 16))) by lra.
  destruct (Req_dec y 0) as [->|N]; [rewrite (past_0 1 1 2); lra|]. rewrite F by lra. nra.
Qed.
Print Assumptions C148_every_pixel_keeps_what_the_first_would_refuted.
