(** * An approximate readout that makes a pixel brighter than any of the image: charge injection
    into two rows with five pixels of offset, express = 1. *)
From Coq Require Import ZArith List Bool Reals Lra Lia FinFun.
From Coquelicot Require Import Rcomplements Rbar Hierarchy RInt.
From Verif Require Import Num Py RFacts CCDModel TrapsModel ManagerModel ROEModel ClockModel MainModel Spec SpecROE SpecImage SpecReadout SpecColumn SpecExpress
  ROEMatrixFacts ROEExpressFacts ReadoutForced ReadoutFull MainReadoutFacts ReadoutInjection MainColumnFacts ReadoutExamples ExpressFacts SharedExample ExpressExample.
Import ListNotations.
Open Scope R_scope.

Definition trail_direction : direction R :=
  mkDir (Some small_ccd) (Some (roe_injection_init [ln 2] None true true DFloat)) (Some (TOne (small_trap (1/2)))) 1 5 WNone.
Lemma trail_range i j : 0 <= pixel small_image i j <= 1.
Proof. unfold pixel, small_image. destruct i as [|[|i]]; destruct j as [|[|j]]; cbn; try lra; destruct i; cbn; try lra; destruct j; cbn; lra. Qed.
Lemma trail_readout : exists im', add_cti small_image trail_direction no_direction None = Ok (im', roe_injection_init [ln 2] (Some 7%nat) true true DFloat, the_roe no_direction) /\
  pixel im' 1 0 = 21 / 16.
Proof.
  destruct (injection_parallel small_image trail_direction no_direction small_ccd (TOne (small_trap (1/2))) [ln 2] None 2 1) as (im' & E & Hs & _ & _ & Hi);
    auto using small_shape, small_plain, small_columns; try (intros; apply trail_range); try (apply small_instant; lra); try (cbn; lia).
  exists im'. split; [exact E|].
  pose proof (Hi 1%nat 0%nat ltac:(lia) (or_introl eq_refl)) as H1.
  change (the_roe trail_direction) with (built (Injection None) [ln 2] DFloat true true) in H1. rewrite small_phases, roe_steps in H1 by (apply ln_pos; lra). unfold readout, injection_passes in H1.
  cbn [trail_direction d_express d_offset passes_for Nat.eqb injection_transfers seq map Nat.add Nat.min] in H1.
  rewrite (overlap_is _ _ _ _ 7) in H1; [|cbn [INR]; unfold Rmin, Rmax; repeat destruct Rle_dec; lra|lra].
  do 2 (cbn [fold_left transfer_pass] in H1; rewrite ?one_cell in H1; cbn zeta in H1). cbn [fold_left transfer_pass] in H1.
  change (groups_in (TOne (small_trap (1/2)))) with [[small_trap (1/2)]] in H1.
  set (c0 := col_fun small_image 0) in *. change (Z.of_nat 1) with 1%Z in H1. change (Z.of_nat 0) with 0%Z in H1.
  assert (A0 : c0 0%Z = 1) by reflexivity. assert (A1 : c0 1%Z = 0) by reflexivity.
  change (all_empty (site_of small_ccd [[small_trap (1 / 2)]]) 0%nat) with [empty_profile] in H1. unfold put in H1. cbn [Nat.eqb] in H1.
  change (site_of small_ccd [[small_trap (1 / 2)]] 0) with (mkSite [half] small_well) in H1.
  unfold site_after in H1. cbn [site_groups site_well combine map] in H1. unfold half in H1. rewrite !one_group_net in H1. fold half in H1.
  destruct (first_packet empty_profile (flat_empty 1)) as [E1 F1]. rewrite A0, E1 in H1. destruct (second_packet _ F1) as [E2 _].
  set (c1 := give c0 0 _) in *. assert (B1 : c1 1%Z = 0) by (unfold c1; rewrite give_other by lia; exact A1). rewrite B1, E2 in H1.
  rewrite H1. cbn [fst]. apply give_at; lra.
Qed.
