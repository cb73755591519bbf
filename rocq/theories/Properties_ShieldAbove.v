(** * C148: extra charge in a pixel comes out in part, and what is kept in both directions. *)
From Coq Require Import ZArith List Bool Reals Lra Lia.
From Verif Require Import Num Py RFacts CCDModel TrapsModel ManagerModel ROEModel ClockModel MainModel Spec SpecImage SpecReadout SpecHistory SpecRecovery SpecFirst SpecInTurn
  ImageFacts ClockFacts MainFacts ROEExpressFacts MainReadoutFacts MainColumnFacts
  InstantFacts OrderFacts TameFacts RecoverFacts DepthFacts AboveFacts RecoverImageFacts ReadoutImage ReadoutExamples OverfullExample DivergeExample FirstFacts EfficiencyFacts OwnPixelFacts Properties_First Properties_OwnPixel GridFacts SpecReturn FirstReturnFacts InTurnFacts Properties_InTurn ShieldFacts Properties_Shield ShieldAboveFacts.
Import ListNotations.
Open Scope R_scope.

(** In wells that fill evenly, [x] electrons more in one pixel add at most [x] to what is read out there, and at least what would be left of [x] on its own, whatever is in front of it. *)
Theorem C148_extra_charge_comes_out_in_part (im im1 : image R) parallel serial c fraction group dwell full rows cols i j x :
  shape rows cols im -> shape rows cols im1 -> (i < rows)%nat -> (j < cols)%nat -> single_phase parallel rows c fraction group dwell false -> instant_group group ->
  phase_params c 0 0 1 full -> 0 < full -> fraction * traps_per_pixel group <= full -> d_traps serial = None -> d_window serial = WNone ->
  (forall k, (k < i)%nat -> pixel im k j = pixel im1 k j) -> 0 <= pixel im1 i j -> 0 <= x -> pixel im i j = pixel im1 i j + x ->
  exists im' im1', add_cti im parallel serial None = Ok (im', the_roe parallel, the_roe serial) /\ add_cti im1 parallel serial None = Ok (im1', the_roe parallel, the_roe serial) /\
    past_pixels (fraction * traps_per_pixel group) full 1 (i + 1 + d_offset parallel) x <= pixel im' i j - pixel im1' i j <= x.
Proof.
  intros Hs Hs1 Hi Hj Hset Hg Hpp Hf Hr Hst Hsw Hk H1 Hx Hp.
  destruct (C148_charge_in_front_shields_charge_behind im im1 parallel serial c fraction group dwell full rows cols i j x Hs Hs1 Hi Hj Hset Hg Hpp Hf Hr Hst Hsw Hk H1 Hx Hp) as (im' & im1' & E & E1 & B).
  destruct (any_image im parallel serial c fraction group dwell full 1 rows cols Hs ltac:(lia) Hset Hg Hpp Hf ltac:(lra) Hst Hsw) as (im2 & E2 & _ & K).
  destruct (any_image im1 parallel serial c fraction group dwell full 1 rows cols Hs1 ltac:(lia) Hset Hg Hpp Hf ltac:(lra) Hst Hsw) as (im3 & E3 & _ & K1).
  rewrite E in E2. injection E2 as <-. rewrite E1 in E3. injection E3 as <-.
  exists im', im1'. split; [exact E|]. split; [exact E1|]. split; [lra|]. apply Rplus_le_reg_l with (pixel im1' i j). apply Rle_trans with (pixel im' i j); [lra|].
  rewrite <- (nth_column im' i j), <- (nth_column im1' i j), (K j Hj), (K1 j Hj).
  pose proof (sp_share _ _ _ _ _ _ _ Hset). pose proof (sp_dwell _ _ _ _ _ _ _ Hset). destruct Hg as [_ Hg].
  assert (HP : Forall physical (map (thinned fraction) group)) by (apply thinned_physical; [lra|]; eapply Forall_impl; [|exact Hg]; intros t Ht; apply Ht).
  rewrite <- thin_density in *. apply (within_column (map (thinned fraction) group) full dwell HP ltac:(lra) Hf Hr i x).
  assert (L : forall a : image R, shape rows cols a -> length (column_of a j) = rows) by (intros a Ha; unfold column_of; rewrite map_length; apply Ha).
  unfold within. rewrite !L by assumption. rewrite !nth_column. split; [exact Hi|]. split; [exact Hi|]. split; [|split; lra].
  apply (nth_ext _ _ 0 0); rewrite !firstn_length, !L by assumption; [reflexivity|]. intros k Hk'. assert (k < i)%nat as Hki by lia.
  assert (F : forall l : list R, nth k (firstn i l) 0 = nth k l 0).
  { intros l. rewrite <- (firstn_skipn i l) at 2. destruct (Nat.lt_ge_cases k (length (firstn i l))) as [Q|Q]; [now rewrite app_nth1|]. rewrite (nth_overflow _ _ Q). rewrite nth_overflow; [reflexivity|]. rewrite firstn_skipn. rewrite firstn_length in Q. lia. }
  rewrite !F, !nth_column. now apply Hk.
Qed.
Print Assumptions C148_extra_charge_comes_out_in_part.

(** Half an electron more behind half an electron: 1/8 on its own, 11/64 here. *)
Example C148_extra_example : shape 2 1 halves /\ shape 2 1 front_half /\ single_phase two_direction 2 small_ccd 1 [half_trap] (ln 2) false /\ instant_group [half_trap] /\
  phase_params small_ccd 0 0 1 1 /\ 1 * traps_per_pixel [half_trap] <= 1 /\ pixel halves 0 0 = pixel front_half 0 0 /\ pixel halves 1 0 = pixel front_half 1 0 + 1 / 2 /\
  exists im' im1', add_cti halves two_direction no_direction None = Ok (im', the_roe two_direction, the_roe no_direction) /\ add_cti front_half two_direction no_direction None = Ok (im1', the_roe two_direction, the_roe no_direction) /\
    pixel im' 1 0 - pixel im1' 1 0 = 11 / 64.
Proof.
  assert (S : forall a b : R, shape 2 1 [[a]; [b]]) by (intros; split; [reflexivity|repeat constructor]).
  destruct (two_read halves (1 / 2) (S _ _) eq_refl ltac:(lra)) as (im' & E & K). destruct (two_read front_half 0 (S _ _) eq_refl ltac:(lra)) as (im1' & E1 & K1).
  split; [apply S|]. split; [apply S|]. split; [exact two_setting|]. split; [exact half_instant|]. split; [exact small_params|]. split; [rewrite half_per_pixel; lra|]. split; [reflexivity|]. split; [unfold pixel; cbn; lra|].
  exists im', im1'. split; [exact E|]. split; [exact E1|]. rewrite K, K1. rewrite Rmin_right, Rmin_left by lra. lra.
Qed.

(** Clocked in both directions, every pixel keeps at least the share that the first of all keeps (C144), wherever the charge in front of it is. *)
Theorem C148_every_pixel_keeps_the_share_in_both_directions (im : image R) parallel serial cp cs fraction_p fraction_s dwell_p dwell_s full_p full_s group_p group_s rows cols i j :
  single_phase parallel rows cp fraction_p group_p dwell_p false -> instant_group group_p -> phase_params cp 0 0 1 full_p -> 0 < full_p -> fraction_p * traps_per_pixel group_p <= full_p ->
  single_phase serial cols cs fraction_s group_s dwell_s false -> instant_group group_s -> phase_params cs 0 0 1 full_s -> 0 < full_s -> fraction_s * traps_per_pixel group_s <= full_s ->
  shape rows cols im -> (i < rows)%nat -> (j < cols)%nat -> 0 <= pixel im i j <= full_p -> pixel im i j <= full_s ->
  exists im', add_cti im parallel serial None = Ok (im', the_roe parallel, the_roe serial) /\ shape rows cols im' /\
    pixel im i j * (1 - fraction_p * traps_per_pixel group_p / full_p) ^ (i + 1 + d_offset parallel) * (1 - fraction_s * traps_per_pixel group_s / full_s) ^ (j + 1 + d_offset serial) <= pixel im' i j.
Proof.
  intros Hp Gp Pp Fp Rp Hs Gs Ps Fs Rs Him Hi Hj Hx Hxs.
  pose proof (density_of _ _ _ _ _ _ Hp Gp) as Dp. pose proof (density_of _ _ _ _ _ _ Hs Gs) as Ds.
  destruct (C148_every_pixel_keeps_what_the_first_would_in_both_directions im parallel serial cp cs fraction_p fraction_s dwell_p dwell_s full_p full_s 1 1 group_p group_s rows cols i j
    Hp Gp Pp Fp ltac:(lra) ltac:(left; lra) Hs Gs Ps Fs ltac:(lra) ltac:(left; lra) Him Hi Hj ltac:(lra)) as (im' & E & S & B).
  exists im'. split; [exact E|]. split; [exact S|]. set (q := 1 - fraction_p * traps_per_pixel group_p / full_p).
  assert (Q : 0 <= q <= 1).
  { assert (0 <= fraction_p * traps_per_pixel group_p / full_p) by (apply Rcomplements.Rdiv_le_0_compat; assumption).
    assert (fraction_p * traps_per_pixel group_p / full_p <= 1) by (apply Rmult_le_reg_r with full_p; [assumption|]; unfold Rdiv; rewrite Rmult_assoc, Rinv_l by lra; lra). unfold q; lra. }
  assert (QN : forall m, 0 <= q ^ m <= 1) by (intros m; split; [apply pow_le; lra|rewrite <- (pow1 m); apply pow_incr; lra]).
  pose proof (QN (i + 1 + d_offset parallel)%nat) as Qm.
  assert (X : 0 <= pixel im i j * q ^ (i + 1 + d_offset parallel) <= pixel im i j).
  { split; [apply Rmult_le_pos; lra|]. rewrite <- (Rmult_1_r (pixel im i j)) at 2. apply Rmult_le_compat_l; lra. }
  rewrite (pixels_linear (fraction_p * traps_per_pixel group_p)) in B by lra. fold q in B. rewrite pixels_linear in B by lra. exact B.
Qed.
Print Assumptions C148_every_pixel_keeps_the_share_in_both_directions.

(** [C148_both_directions_example] meets the hypotheses; its bound is 7/64 of an electron. *)
Example C148_share_example : 1 * traps_per_pixel [half_trap] <= 1 /\ 1 * traps_per_pixel [small_trap (1 / 4)] <= 2 /\ 0 < pixel halves 1 0 <= 1 /\ pixel halves 1 0 <= 2 /\
  exists im', add_cti halves two_direction deep_direction None = Ok (im', the_roe two_direction, the_roe deep_direction) /\ shape 2 1 im' /\ 7 / 64 <= pixel im' 1 0.
Proof.
  destruct C148_both_directions_example as (S & Hp & Hs & Gp & Gs & Pp & Ps & _).
  assert (A : 1 * traps_per_pixel [half_trap] <= 1) by (rewrite half_per_pixel; lra). assert (B : 1 * traps_per_pixel [small_trap (1 / 4)] <= 2) by (rewrite quarter_density; lra).
  assert (X : pixel halves 1 0 = 1 / 2) by reflexivity. split; [exact A|]. split; [exact B|]. split; [lra|]. split; [lra|].
  destruct (C148_every_pixel_keeps_the_share_in_both_directions halves two_direction deep_direction small_ccd deep_ccd 1 1 (ln 2) (ln 2) 1 2 [half_trap] [small_trap (1 / 4)] 2 1 1 0
    Hp Gp Pp ltac:(lra) A Hs Gs Ps ltac:(lra) B S ltac:(lia) ltac:(lia) ltac:(lra) ltac:(lra)) as (im' & E & S' & K).
  exists im'. split; [exact E|]. split; [exact S'|]. eapply Rle_trans; [|exact K]. rewrite X, half_per_pixel, quarter_density. cbn. lra.
Qed.
