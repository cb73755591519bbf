(** * C102, C108: what happens without the conditions of these properties. *)
From Coq Require Import ZArith List Bool Reals Lra Lia.
From Coquelicot Require Import Rcomplements Rbar Hierarchy RInt.
From Verif Require Import Num Py RFacts CCDModel TrapsModel ManagerModel ROEModel ClockModel MainModel Spec SpecROE SpecImage SpecReadout SpecColumn SpecExpress SpecHistory SpecRecovery SpecPhases SpecExpressOrder
  InstantFacts ROEMatrixFacts ROEExpressFacts ReadoutForced ReadoutFull MainReadoutFacts MainColumnFacts ReadoutExamples ExpressFacts ExpressExample OverfullExample RemoveFacts OrderFacts TameFacts ReadoutImage DivergeExample OffsetExample SpecWindowOrder SpecAbove RecoverFacts DepthFacts RecoverImageFacts Properties_AboveOrder.
Import ListNotations.
Open Scope R_scope.

(** Two pixels away from the output, with 3/10 traps in every pixel, in wells that fill as the square of the charge. *)
Definition steep_far (express : nat) : direction R := mkDir (Some steep_ccd) (Some small_roe) (Some (TOne (small_trap (3 / 10)))) express 2 WNone.
Lemma steep_plain : plain_ccd steep_ccd.
Proof.
  constructor; [reflexivity| |].
  - intros [|[|k]]; unfold share; cbn; lra.
  - intros [|k] Hk; [|cbn in Hk; lia]. exists 1, 2. split; [constructor; reflexivity|lra].
Qed.
Lemma steep_far_setting e : (e <= 1)%nat -> plain_setting (steep_far e) 1 steep_ccd (TOne (small_trap (3 / 10))) [ln 2] DFloat.
Proof. intros He. constructor; try reflexivity; [left; reflexivity|exact steep_plain|apply small_instant; lra|destruct e as [|[|e]]; [left; reflexivity|right; cbn; lia|lia]]. Qed.
Lemma steep_depth a : 0 < a <= 1 -> depth 1 2 a = a * a.
Proof.
  intros Ha. unfold depth. destruct (Rle_dec a 0); [lra|]. rewrite Rdiv_1, Rmin_right by lra. replace 2 with (1 + 1) by lra. rewrite Rpower_plus, Rpower_1 by lra. reflexivity.
Qed.
Lemma steep_net a : 0 < a <= 1 -> transfer_net [thinned 1 (small_trap (3 / 10))] (depth 1 2) (ln 2) a empty_profile = - (3 / 10 * (a * a)).
Proof.
  intros Ha. set (G := [thinned 1 (small_trap (3 / 10))]).
  assert (HG : Forall physical G) by (constructor; [apply thinned_physical; [lra|apply small_physical; lra]|constructor]).
  assert (Er : released G (ln 2) empty_profile = 0).
  { unfold released. rewrite (electrons_eq G empty_profile (after_release G (ln 2) empty_profile) 0 1); [lra|lra|intros; unfold after_release, empty_profile; lra]. }
  assert (E0 : forall v, 0 <= v <= 1 -> electrons G (after_release G (ln 2) empty_profile) 0 v = 0).
  { intros v Hv. rewrite (electrons_eq G _ (fun s x => 1 - 1) 0 v); [|lra|intros; unfold after_release, empty_profile; lra].
    rewrite (electrons_minus G (fun _ _ => 1) (fun _ _ => 1)) by apply one_integrable. lra. }
  unfold transfer_net. cbn zeta. rewrite Er, Rplus_0_r, steep_depth by exact Ha. assert (0 <= a * a <= 1) by nra. unfold captured.
  rewrite demand_value by (auto; apply tidy_release; auto using ln2_nonneg; apply tidy_empty). rewrite E0 by assumption.
  assert (P : traps_per_pixel G = 3 / 10) by (unfold traps_per_pixel, Rsum, G; cbn; lra). rewrite P, Rmin_right by nra. lra.
Qed.
Lemma steep_far_readout a : 0 < a <= 1 -> add_cti [[a]] (steep_far 1) no_direction None = Ok ([[a - 9 / 10 * (a * a)]], the_roe (steep_far 1), the_roe no_direction).
Proof.
  intros Ha. assert (Hs : shape 1 1 [[a]]) by (split; [reflexivity|repeat constructor]).
  assert (Hn : forall i j, 0 <= pixel [[a]] i j) by (intros [|[|i]] [|[|j]]; unfold pixel; cbn; lra).
  destruct (express_readout [[a]] (steep_far 1) no_direction _ _ _ _ 1 1 Hs ltac:(lia) Hn (steep_far_setting 1 ltac:(lia)) eq_refl eq_refl small_columns)
    as (im' & m & mon & E & Hm & _ & _ & _ & Hc & Hs' & Hi).
  rewrite Hc. do 3 f_equal. destruct dot_matrix as [mon' Hq]. cbn [steep_far d_express d_offset] in Hm. rewrite Hq in Hm. injection Hm as <- <-.
  pose proof (Hi 0%nat 0%nat ltac:(lia) (or_introl eq_refl)) as H0. change (the_roe (steep_far 1)) with (built (Standard true) [ln 2] DFloat true true) in H0.
  replace (trap_phases steep_ccd) with [0%nat] in H0 by (symmetry; apply one_phase; [reflexivity|unfold share; cbn; lra]).
  rewrite roe_steps in H0 by (apply ln_pos; lra). unfold readout in H0.
  assert (Hpass : weighted_passes [[3]] = [[(0%Z, 3, false)]]) by (unfold weighted_passes, weighted_pass; cbn [map length seq combine flat_map]; destruct (Rlt_dec 0 3); [reflexivity|lra]).
  rewrite Hpass in H0. clear Hpass. cbn [fold_left transfer_pass] in H0. rewrite one_cell in H0. cbn [fst] in H0.
  change (groups_in (TOne (small_trap (3 / 10)))) with [[small_trap (3 / 10)]] in H0.
  change (site_of steep_ccd [[small_trap (3 / 10)]] 0) with (mkSite [[thinned 1 (small_trap (3 / 10))]] (depth 1 2)) in H0. change (Z.of_nat 0) with 0%Z in H0.
  change (all_empty (site_of steep_ccd [[small_trap (3 / 10)]]) 0%nat) with [empty_profile] in H0. rewrite one_group_net in H0.
  change (col_fun [[a]] 0 0%Z) with a in H0. rewrite steep_net in H0 by exact Ha.
  apply one_row; [exact Hs'|]. rewrite H0. apply give_at; [change (col_fun [[a]] 0 0%Z) with a; lra|nra].
Qed.

(** [gentle_direction] is the condition of C100, with every transfer computed: then the image with
    more charge stays ahead (C100).  With express 1 the single computed transfer stands for three, and
    the image with more charge comes out with less. *)
Theorem C102_without_the_factor_refuted : exists d a b a' b',
  (forall express, (express <= 1)%nat -> plain_setting (d express) 1 steep_ccd (TOne (small_trap (3 / 10))) [ln 2] DFloat) /\
  gentle_direction (d 0%nat) 1 /\ shape 1 1 a /\ shape 1 1 b /\
  (forall i j, 0 <= pixel a i j) /\ (forall i j, pixel a i j <= pixel b i j) /\
  add_cti a (d 1%nat) no_direction None = Ok (a', the_roe (d 1%nat), the_roe no_direction) /\
  add_cti b (d 1%nat) no_direction None = Ok (b', the_roe (d 1%nat), the_roe no_direction) /\ pixel b' 0 0 < pixel a' 0 0.
Proof.
  exists steep_far, [[4 / 5]], [[1]], [[4 / 5 - 9 / 10 * (4 / 5 * (4 / 5))]], [[1 - 9 / 10 * (1 * 1)]].
  split; [exact steep_far_setting|]. split.
  { split; [reflexivity|]. right. exists steep_ccd, (TOne (small_trap (3 / 10))), [ln 2], DFloat, [small_trap (3 / 10)]. split; [apply steep_far_setting; lia|].
    split; [left; reflexivity|]. split; [reflexivity|]. intros k Hk. destruct k; [|cbn in Hk; lia]. exists 1, 2. split; [constructor; reflexivity|]. split; [lra|]. unfold traps_per_pixel, Rsum, share; cbn; lra. }
  split; [split; [reflexivity|repeat constructor]|]. split; [split; [reflexivity|repeat constructor]|].
  split; [intros [|[|i]] [|[|j]]; unfold pixel; cbn; lra|]. split; [intros [|[|i]] [|[|j]]; unfold pixel; cbn; lra|].
  split; [apply steep_far_readout; lra|]. split; [apply steep_far_readout; lra|]. unfold pixel; cbn; lra.
Qed.
Print Assumptions C102_without_the_factor_refuted.

(** ** C108: pixels with little charge in wells that fill as the root of the charge. *)
Definition faint_direction : direction R := mkDir (Some root_ccd) (Some small_roe) (Some (TOne (small_trap (1 / 8)))) 0 0 WNone.
Lemma faint_plain : plain_setting faint_direction 1 root_ccd (TOne (small_trap (1 / 8))) [ln 2] DFloat.
Proof.
  constructor; try reflexivity; [left; reflexivity| |apply small_instant; lra|left; reflexivity].
  constructor; [reflexivity| |].
  - intros [|[|k]]; unfold share; cbn; lra.
  - intros [|k] Hk; [|cbn in Hk; lia]. exists 100, (1 / 2). split; [constructor; reflexivity|lra].
Qed.
Lemma faint_single : single_phase faint_direction 1 root_ccd 1 [small_trap (1 / 8)] (ln 2) false.
Proof.
  constructor; try reflexivity; try lra.
  - exists (TOne (small_trap (1 / 8))). auto.
  - discriminate.
  - exists true, DFloat. reflexivity.
  - apply ln_pos. lra.
  - left. reflexivity.
Qed.
Lemma faint_readout s : 0 < s <= 1 / 80 -> add_cti [[s * s]] faint_direction no_direction None = Ok ([[0]], the_roe faint_direction, the_roe no_direction).
Proof.
  intros Ha. assert (Hs : shape 1 1 [[s * s]]) by (split; [reflexivity|repeat constructor]).
  destruct (any_image [[s * s]] faint_direction no_direction root_ccd 1 [small_trap (1 / 8)] (ln 2) 100 (1 / 2) 1 1 Hs ltac:(lia) faint_single (small_group (1 / 8) ltac:(lra))) as (im' & E & S & K);
    [constructor; reflexivity|lra|lra|reflexivity|reflexivity|].
  specialize (K 0%nat ltac:(lia)). change (column_of [[s * s]] 0) with [s * s] in K. change (d_offset faint_direction) with 0%nat in K.
  unfold column_clouds in K. cbn [length through_clouds read_clouds past_clouds] in K. assert (Hp : 0 < s * s) by nra.
  assert (D : depth 100 (1 / 2) (s * s) = s / 10).
  { unfold depth. destruct (Rle_dec (s * s) 0); [lra|]. replace (s * s / 100) with ((s / 10) * (s / 10)) by field. rewrite Rmin_right by nra.
    replace (1 / 2) with (/ 2) by lra. rewrite Rpower_sqrt by nra. apply sqrt_square. lra. }
  rewrite empty_left in K; [| |apply ln2_nonneg|lra|rewrite D; nra].
  - rewrite D in K. assert (P : traps_per_pixel (map (thinned 1) [small_trap (1 / 8)]) = 1 / 8) by (unfold traps_per_pixel, Rsum; cbn; lra).
    rewrite P, Rmin_left in K by nra. rewrite E. do 3 f_equal.
    apply (columns_determine im' [[0]] 1 1 S); [split; [reflexivity|repeat constructor]|]. intros j Hj. assert (j = 0)%nat as -> by lia. rewrite K. unfold column_of. cbn. f_equal. lra.
  - cbn [map]. constructor; [apply thinned_physical; [lra|apply small_physical; lra]|constructor].
Qed.
(** The device meets the condition of C108 for pixels that keep one electron; images with
    less charge are swallowed whole, whatever they are, and cannot be told apart. *)
Theorem C108_little_charge_is_told_apart_refuted : exists d, slow_in_window 1 d 1 /\
  exists a b out, shape 1 1 a /\ shape 1 1 b /\ (forall i j, 0 <= pixel a i j) /\ (forall i j, 0 <= pixel b i j) /\ a <> b /\
    add_cti a d no_direction None = Ok (out, the_roe d, the_roe no_direction) /\ add_cti b d no_direction None = Ok (out, the_roe d, the_roe no_direction).
Proof.
  exists faint_direction. split.
  { exists 1%nat. split; [cbn; repeat constructor|]. split; [split; [cbn; repeat constructor; cbn; lia|cbn; auto]|]. split; [lia|].
    exists root_ccd, (TOne (small_trap (1 / 8))), (ln 2), DFloat, [small_trap (1 / 8)]. split; [exact faint_plain|]. split; [reflexivity|].
    intros k x Hk Hx. cbn in Hk, Hx. subst x. destruct k; [|lia]. exists 100, (1 / 2). split; [constructor; reflexivity|]. right. rewrite root_depth. cbn. lra. }
  exists [[1 / 80 * (1 / 80)]], [[1 / 160 * (1 / 160)]], [[0]].
  split; [split; [reflexivity|repeat constructor]|]. split; [split; [reflexivity|repeat constructor]|].
  split; [intros [|[|i]] [|[|j]]; unfold pixel; cbn; lra|]. split; [intros [|[|i]] [|[|j]]; unfold pixel; cbn; lra|].
  split; [intros Q; injection Q; lra|]. split; apply faint_readout; lra.
Qed.
Print Assumptions C108_little_charge_is_told_apart_refuted.
