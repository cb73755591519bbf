(** * Property C136: whether traps are given in one group or in several makes a difference. *)
From Coq Require Import ZArith List Bool Reals Lra Lia Permutation.
From Verif Require Import Num Py RFacts CCDModel TrapsModel ManagerModel ROEModel ClockModel MainModel Spec SpecROE SpecImage SpecReadout SpecColumn SpecTime SpecSlow SpecHistory SpecGroups
  WmFacts ArrayFacts CutFacts InstantFacts ClockFacts MainFacts ShapeFacts ColumnFacts
  ROEClockFacts ROEMatrixFacts ROEExpressFacts ROEKindFacts ReadoutFacts ReadoutImage ReadoutForced ReadoutFull ReadoutInjection ReadoutSpecFacts ReadoutColumnFacts MainReadoutFacts MainColumnFacts
  ReadoutExamples HistoryFacts GroupFacts.
Import ListNotations.
Open Scope R_scope.

(** One transfer, timescale 1, dwell time ln 2: half of the trapped electrons are released. *)
Definition one_transfer (traps : traps_arg R) : direction R := injection_direction small_ccd (ln 2) (Some 1%nat) traps.
Definition halves (a : R) : traps_arg R := TNested [[small_trap (a / 2)]; [small_trap (a / 2)]].
Lemma halves_instant a : 0 <= a -> instant_traps (halves a).
Proof. intros H. split; [discriminate|]. cbn [groups_in halves]. repeat (constructor; [apply small_group; lra|]). constructor. Qed.
Lemma whole_instant a : 0 <= a -> instant_traps (TFlat [small_trap a]).
Proof. intros H. split; [discriminate|]. cbn [groups_in]. constructor; [apply small_group, H|constructor]. Qed.

Lemma in_two_groups a : 0 < a <= 1 ->
  add_cti small_image (one_transfer (halves a)) no_direction None =
    Ok ([[1 - a]; [a / 2 - a * a / 8]], the_roe (one_transfer (halves a)), the_roe no_direction).
Proof.
  intros Ha. set (d := one_transfer (halves a)). assert (Hd : 0 < ln 2) by (apply ln_pos; lra).
  destruct (injection_parallel small_image d no_direction small_ccd (halves a) [ln 2] (Some 1%nat) 2 1) as (im' & E & Hs & _ & _ & Hi); auto.
  - exact small_shape.
  - exact small_nonneg.
  - exact small_plain.
  - apply halves_instant; lra.
  - exact small_columns.
  - rewrite E. do 3 f_equal.
    pose proof (Hi 0%nat 0%nat ltac:(lia) (or_introl eq_refl)) as H0. pose proof (Hi 1%nat 0%nat ltac:(lia) (or_introl eq_refl)) as H1.
    change (the_roe d) with (built (Injection (Some 1%nat)) [ln 2] DFloat true true) in H0, H1.
    rewrite small_phases, roe_steps in H0, H1 by exact Hd. unfold readout in H0, H1. unfold injection_passes in H0, H1.
    cbn [d one_transfer injection_direction d_express d_offset passes_for Nat.eqb injection_transfers seq map] in H0, H1.
    replace (overlap (INR 0 * (INR 1 / INR 1)) (INR 1 * (INR 1 / INR 1)) 0 (INR (2 + 0))) with 1 in H0, H1
      by (symmetry; apply overlap_is; [cbn [INR Nat.add]; unfold Rdiv; rewrite Rinv_1, Rmin_left, Rmax_right by lra; lra|lra]).
    cbn [fold_left transfer_pass] in H0, H1. rewrite !one_cell in H0, H1. cbn zeta in H0, H1. cbn [fold_left fst] in H0, H1.
    change (site_of small_ccd (groups_in (halves a)) 0) with (mkSite [[thinned 1 (small_trap (a / 2))]; [thinned 1 (small_trap (a / 2))]] small_well) in H0, H1.
    set (c0 := col_fun small_image 0) in *. change (Z.of_nat 0) with 0%Z in H0, H1. change (Z.of_nat 1) with 1%Z in H0, H1.
    assert (A0 : c0 0%Z = 1) by reflexivity. assert (A1 : c0 1%Z = 0) by reflexivity.
    change (all_empty (site_of small_ccd (groups_in (halves a))) 0%nat) with [empty_profile; empty_profile] in H0, H1. unfold put in H0, H1. cbn [Nat.eqb] in H0, H1.
    unfold site_after, site_net in H0, H1. cbn [site_groups site_well combine map] in H0, H1. rewrite !Rmult_1_r in H0, H1. unfold Rsum in H0, H1. cbn [fold_right] in H0, H1.
    destruct (flat_step small_well (a / 2) (ln 2) 0 (1/2) 1 0 1 empty_profile (flat_empty 1) exp_ln2) as [E1 F1]; try lra; [apply small_well_at; lra|].
    rewrite A0, E1 in H0, H1. set (P1 := transfer_after _ _ _ 1 empty_profile) in *.
    set (c1 := give c0 0 _) in *. assert (B1 : c1 1%Z = 0) by (unfold c1; rewrite give_other by lia; exact A1). assert (B0 : c1 0%Z = 1 - a) by (apply give_at; rewrite ?A0; lra).
    destruct (flat_step small_well (a / 2) (ln 2) 1 (1/2) 0 (a / 4) (a / 4) P1 F1 exp_ln2) as [E2 _]; try lra; [apply small_well_at; lra|nra|].
    rewrite B1, E2 in H0, H1. apply two_rows; [exact Hs| |].
    + rewrite H0. rewrite give_other by lia. exact B0.
    + rewrite H1. apply give_at; [rewrite B1; lra|nra].
Qed.
Lemma in_one_species a : 0 < a <= 1 ->
  add_cti small_image (one_transfer (TFlat [small_trap a])) no_direction None =
    Ok ([[1 - a]; [a / 2 - a * a / 4]], the_roe (one_transfer (TFlat [small_trap a])), the_roe no_direction).
Proof.
  intros Ha. set (d := one_transfer (TFlat [small_trap a])). assert (Hd : 0 < ln 2) by (apply ln_pos; lra).
  destruct (injection_parallel small_image d no_direction small_ccd (TFlat [small_trap a]) [ln 2] (Some 1%nat) 2 1) as (im' & E & Hs & _ & _ & Hi); auto.
  - exact small_shape.
  - exact small_nonneg.
  - exact small_plain.
  - apply whole_instant; lra.
  - exact small_columns.
  - rewrite E. do 3 f_equal.
    pose proof (Hi 0%nat 0%nat ltac:(lia) (or_introl eq_refl)) as H0. pose proof (Hi 1%nat 0%nat ltac:(lia) (or_introl eq_refl)) as H1.
    change (the_roe d) with (built (Injection (Some 1%nat)) [ln 2] DFloat true true) in H0, H1.
    rewrite small_phases, roe_steps in H0, H1 by exact Hd. unfold readout in H0, H1. unfold injection_passes in H0, H1.
    cbn [d one_transfer injection_direction d_express d_offset passes_for Nat.eqb injection_transfers seq map] in H0, H1.
    replace (overlap (INR 0 * (INR 1 / INR 1)) (INR 1 * (INR 1 / INR 1)) 0 (INR (2 + 0))) with 1 in H0, H1
      by (symmetry; apply overlap_is; [cbn [INR Nat.add]; unfold Rdiv; rewrite Rinv_1, Rmin_left, Rmax_right by lra; lra|lra]).
    cbn [fold_left transfer_pass] in H0, H1. rewrite !one_cell in H0, H1. cbn zeta in H0, H1. cbn [fold_left fst] in H0, H1.
    change (site_of small_ccd (groups_in (TFlat [small_trap a])) 0) with (mkSite [[thinned 1 (small_trap a)]] small_well) in H0, H1.
    set (c0 := col_fun small_image 0) in *. change (Z.of_nat 0) with 0%Z in H0, H1. change (Z.of_nat 1) with 1%Z in H0, H1.
    assert (A0 : c0 0%Z = 1) by reflexivity. assert (A1 : c0 1%Z = 0) by reflexivity.
    change (all_empty (site_of small_ccd (groups_in (TFlat [small_trap a]))) 0%nat) with [empty_profile] in H0, H1. unfold put in H0, H1. cbn [Nat.eqb] in H0, H1.
    unfold site_after in H0, H1. cbn [site_groups site_well combine map] in H0, H1. rewrite !one_group_net, !Rmult_1_r in H0, H1.
    destruct (flat_step small_well a (ln 2) 0 (1/2) 1 0 1 empty_profile (flat_empty 1) exp_ln2) as [E1 F1]; try lra; [apply small_well_at; lra|].
    rewrite A0, E1 in H0, H1. set (P1 := transfer_after _ _ _ 1 empty_profile) in *.
    set (c1 := give c0 0 _) in *. assert (B1 : c1 1%Z = 0) by (unfold c1; rewrite give_other by lia; exact A1). assert (B0 : c1 0%Z = 1 - a) by (apply give_at; rewrite ?A0; lra).
    destruct (flat_step small_well a (ln 2) 1 (1/2) 0 (a / 2) (a / 2) P1 F1 exp_ln2) as [E2 _]; try lra; [apply small_well_at; lra|nra|].
    rewrite B1, E2 in H0, H1. apply two_rows; [exact Hs| |].
    + rewrite H0. rewrite give_other by lia. exact B0.
    + rewrite H1. apply give_at; [rewrite B1; lra|nra].
Qed.

(** ** C136: the same traps, listed in one group or in two, do not give the same image.
    (test_traps.py:206-228 means to check that they do; its last line,
    [assert (image_single == image_multi).all], forgets to call [all] and is always true.)
    The packet loses the same charge, but each group of two may only recapture from the
    electrons it has itself released, so the pixel behind is left brighter. *)
Theorem C136_the_grouping_of_traps_does_not_matter_refuted a : 0 < a <= 1 ->
  exists pr sr pr' sr',
    add_cti [[1]; [0]] (one_transfer (TFlat [small_trap (a / 2); small_trap (a / 2)])) no_direction None =
      Ok ([[1 - a]; [a / 2 - a * a / 4]], pr, sr) /\
    add_cti [[1]; [0]] (one_transfer (TNested [[small_trap (a / 2)]; [small_trap (a / 2)]])) no_direction None =
      Ok ([[1 - a]; [a / 2 - a * a / 8]], pr', sr') /\
    a / 2 - a * a / 4 < a / 2 - a * a / 8.
Proof.
  intros Ha. do 4 eexists. split; [|split; [exact (in_two_groups a Ha)|nra]].
  rewrite <- (species_do_not_matter [[1]; [0]] (one_transfer (TFlat [small_trap a])) no_direction); [exact (in_one_species a Ha)| |left; reflexivity].
  right. split; [repeat split|]. do 2 eexists. split; [reflexivity|]. split; [reflexivity|].
  split; [|constructor; [discriminate|constructor]]. constructor; [|constructor].
  pose proof (split_species (small_trap a) (a / 2) (a / 2) []) as X. replace (a / 2 + a / 2) with a in X by lra. exact X.
Qed.
Print Assumptions C136_the_grouping_of_traps_does_not_matter_refuted.
(** Two species of a tenth of a trap each: 0.09 electrons behind the packet, or 0.095. *)
Example C136_example : exists pr sr pr' sr',
  add_cti [[1]; [0]] (one_transfer (TFlat [small_trap (1/10); small_trap (1/10)])) no_direction None = Ok ([[4/5]; [9/100]], pr, sr) /\
  add_cti [[1]; [0]] (one_transfer (TNested [[small_trap (1/10)]; [small_trap (1/10)]])) no_direction None = Ok ([[4/5]; [19/200]], pr', sr').
Proof.
  destruct (C136_the_grouping_of_traps_does_not_matter_refuted (1/5) ltac:(lra)) as (pr & sr & pr' & sr' & A & B & _).
  replace (1 / 5 / 2) with (1/10) in A, B by lra. replace (1 - 1/5) with (4/5) in A, B by lra.
  replace (1 / 10 - 1 / 5 * (1 / 5) / 4) with (9/100) in A by lra. replace (1 / 10 - 1 / 5 * (1 / 5) / 8) with (19/200) in B by lra.
  exists pr, sr, pr', sr'. split; [exact A|exact B].
Qed.
