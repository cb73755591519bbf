(** * Concrete calls, used as witnesses in Properties_Calls.v. *)
From Coq Require Import ZArith List Bool Reals Lra Lia.
From Verif Require Import Num Py RFacts CCDModel TrapsModel ManagerModel ROEModel ClockModel MainModel Spec SpecROE SpecImage SpecReadout SpecColumn
  WmFacts ArrayFacts CutFacts InstantFacts ClockFacts MainFacts ShapeFacts ColumnFacts
  ROEClockFacts ROEMatrixFacts ROEExpressFacts ROEKindFacts ReadoutFacts ReadoutImage ReadoutForced ReadoutFull ReadoutInjection ReadoutSpecFacts ReadoutColumnFacts MainReadoutFacts MainColumnFacts
  SpecCalls CallModel CallFacts ReadoutExamples.
Import ListNotations.
Open Scope R_scope.

(** Charge injection of a single pixel of half an electron, by serial clocking, once or twice. *)
Definition serial_injection (offset : nat) (npt : option nat) : direction R :=
  mkDir (Some small_ccd) (Some (roe_injection_init [ln 2] npt true true DFloat)) (Some half) 0 offset WNone.
Definition half_image : image R := [[1/2]].
Lemma half_shape : shape 1 1 half_image.
Proof. split; [reflexivity|repeat constructor]. Qed.
Lemma half_nonneg i j : 0 <= pixel half_image i j.
Proof. unfold pixel, half_image. destruct i as [|[|i]], j as [|[|j]]; cbn; rnum; lra. Qed.
Lemma half_serial offset npt n parallel : d_traps parallel = None -> d_window parallel = WNone ->
  injection_transfers npt 1 offset = n -> (n = 1 \/ n = 2)%nat ->
  exists im', add_cti half_image parallel (serial_injection offset npt) None = Ok (im', the_roe parallel, roe_injection_init [ln 2] (Some n) true true DFloat) /\
    pixel im' 0 0 = if Nat.eqb n 1 then 1/4 else 1/8.
Proof.
  intros Hp Hw Hn H12. set (d := serial_injection offset npt). assert (Hd : 0 < ln 2) by (apply ln_pos; lra).
  destruct (injection_serial half_image d parallel small_ccd half [ln 2] npt 1 1) as (im' & E & Hs & Hi); auto.
  - exact half_shape.
  - exact half_nonneg.
  - exact small_plain.
  - apply small_instant; lra.
  - cbn [d serial_injection d_offset]. rewrite Hn. lia.
  - exists im'. cbn [d serial_injection d_offset d_express] in E, Hi. rewrite Hn in E, Hi. split; [exact E|]. clear E.
    pose proof (Hi 0%nat 0%nat ltac:(lia) ltac:(lia)) as H0. clear Hi.
    change (the_roe d) with (built (Injection npt) [ln 2] DFloat true true) in H0.
    rewrite small_phases, roe_steps in H0 by exact Hd. unfold readout, injection_passes in H0.
    change (groups_in half) with [[small_trap (1/2)]] in H0.
    set (c0 := col_fun (transpose half_image) 0) in *. change (Z.of_nat 0) with 0%Z in H0. assert (A0 : c0 0%Z = 1/2) by reflexivity.
    destruct H12 as [->| ->]; cbn [passes_for Nat.eqb seq map] in H0 |- *.
    + replace (INR 1 * (INR 1 / INR 1) - INR 0 * (INR 1 / INR 1)) with 1 in H0 by (cbn [INR]; field).
      cbn [fold_left transfer_pass] in H0. rewrite !one_cell in H0. cbn zeta in H0. cbn [fold_left fst] in H0. rewrite !small_site in H0.
      change (all_empty (site_of small_ccd [[small_trap (1 / 2)]]) 0%nat) with [empty_profile] in H0. rewrite !one_group_net in H0. rewrite H0.
      change (Z.of_nat 0) with 0%Z. rewrite A0, (half_net (1/2) empty_profile ltac:(lra) (flat_empty 1)). apply give_at; lra.
    + replace (INR 1 * (INR 2 / INR 2) - INR 0 * (INR 2 / INR 2)) with 1 in H0 by (cbn [INR]; field).
      replace (INR 2 * (INR 2 / INR 2) - INR 1 * (INR 2 / INR 2)) with 1 in H0 by (cbn [INR]; field).
      do 2 (cbn [fold_left transfer_pass] in H0; rewrite !one_cell in H0; cbn zeta in H0). cbn [fold_left transfer_pass fst] in H0. rewrite !small_site in H0.
      change (all_empty (site_of small_ccd [[small_trap (1 / 2)]]) 0%nat) with [empty_profile] in H0. rewrite !one_group_net in H0. rewrite H0.
      change (Z.of_nat 0) with 0%Z. rewrite A0, (half_net (1/2) empty_profile ltac:(lra) (flat_empty 1)).
      assert (B0 : give c0 0 (- (1/2) / 2 * 1) 0%Z = 1/4) by (apply give_at; lra).
      rewrite B0, (half_net (1/4) empty_profile ltac:(lra) (flat_empty 1)). apply give_at; lra.
Qed.
(** The first pixel of [small_image] past one trap instead of half a trap. *)
Lemma dense_past P : flat 0 1 P -> past_traps [thinned 1 (small_trap 1)] small_well (ln 2) P [1; 0] = [0; 1/4].
Proof.
  intros HP. cbn [past_traps].
  destruct (flat_step small_well 1 (ln 2) 0 (1/2) 1 0 1 P HP exp_ln2) as [E1 H1]; try lra; [apply small_well_at; lra|].
  rewrite E1.
  destruct (flat_step small_well 1 (ln 2) 1 (1/2) 0 (1/2) (1/2) _ H1 exp_ln2) as [E2 H2]; try lra; [apply small_well_at; lra|].
  rewrite E2. f_equal; [lra|]. f_equal. lra.
Qed.
Lemma dense_readout : let d := small_direction small_roe (TOne (small_trap 1)) in
  exists im', add_cti small_image d no_direction None = Ok (im', the_roe d, the_roe no_direction) /\ pixel im' 0 0 = 0.
Proof.
  intros d. assert (Hset : plain_setting d 2 small_ccd (TOne (small_trap 1)) [ln 2] DFloat) by (apply small_setting, small_instant; lra).
  destruct (textbook_readout small_image d no_direction small_ccd (TOne (small_trap 1)) [small_trap 1] (ln 2) DFloat 2 1 0)
    as (im' & E & H); auto.
  - exact small_shape.
  - exact small_nonneg.
  - left; reflexivity.
  - exact small_columns.
  - apply ln_pos; lra.
  - unfold share; cbn; lra.
  - left; reflexivity.
  - exists im'. split; [exact E|]. change (column_of small_image 0) with [1; 0] in H. change (d_offset d) with 0%nat in H. change (share small_ccd 0) with 1 in H.
    change (depth (nth 0 (ccd_full_well small_ccd) 1) (nth 0 (ccd_fill_power small_ccd) 1)) with small_well in H. cbn [map] in H.
    unfold textbook in H. cbn [length through_pixels read_out] in H. rewrite (dense_past _ (flat_empty 1)) in H.
    destruct im' as [|row im']; [discriminate H|]. cbn in H. injection H as H _. exact H.
Qed.
