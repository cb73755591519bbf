(** * An approximate readout that creates charge: two rows, two pixels of offset, express = 2. *)
From Coq Require Import ZArith List Bool Reals Lra Lia FinFun.
From Coquelicot Require Import Rcomplements Rbar Hierarchy RInt.
From Verif Require Import Num Py RFacts CCDModel TrapsModel ManagerModel ROEModel ClockModel MainModel Spec SpecROE SpecImage SpecReadout SpecColumn SpecExpress
  ROEMatrixFacts ROEExpressFacts ReadoutForced ReadoutFull MainReadoutFacts ReadoutExamples ExpressFacts.
Import ListNotations.
Open Scope R_scope.

(** Full well depth 1/2: any cloud of at least 1/2 electron reaches all the traps. *)
Definition shallow_ccd : ccd R := mkCCD [1] 1 [1/2] [1] [0] [BList [1/2]].
Lemma shallow_ccd_init : ccd_init (PList [1]) (Scalar (1/2)) (Scalar 0) (Scalar 1) None = Ok shallow_ccd.
Proof. reflexivity. Qed.
Lemma shallow_plain : plain_ccd shallow_ccd.
Proof.
  constructor; [reflexivity| |].
  - intros [|[|k]]; unfold share; cbn; lra.
  - intros [|k] Hk; [|cbn in Hk; lia]. exists (1/2), 1. split; [constructor; reflexivity|lra].
Qed.
Lemma shallow_phases : trap_phases shallow_ccd = [0%nat].
Proof. unfold trap_phases. cbn [ccd_n_phases shallow_ccd seq filter]. unfold share. cbn. destruct (Rlt_dec 0 1); [reflexivity|lra]. Qed.
Definition shallow_well := depth (1/2) 1.
Lemma shallow_well_at n v : 0 < n -> v = Rmin 1 (2 * n) -> shallow_well n = v.
Proof.
  intros Hn ->. unfold shallow_well, depth. destruct (Rle_dec n 0); [lra|]. replace (n / (1/2)) with (2 * n) by lra.
  apply Rpower_1. apply Rmin_glb_lt; lra.
Qed.
Lemma shallow_site rho : site_of shallow_ccd [[small_trap rho]] 0 = mkSite [[thinned 1 (small_trap rho)]] shallow_well.
Proof. reflexivity. Qed.

Definition quick_direction : direction R :=
  mkDir (Some shallow_ccd) (Some (roe_init [ln 8] true true true DFloat)) (Some (TOne (small_trap (1/64)))) 2 2 WNone.
Lemma exp_ln8 : exp (- ln 8) = 1 / 8.
Proof. rewrite exp_Ropp, exp_ln by lra. lra. Qed.
Lemma quick_setting : plain_setting quick_direction 2 shallow_ccd (TOne (small_trap (1/64))) [ln 8] DFloat.
Proof.
  constructor; try reflexivity; [left; reflexivity|exact shallow_plain|apply small_instant; lra|right; cbn; lia].
Qed.
Lemma plain_entry_2 e j : @plain_entry R _ 2 e j = Rmin 2 (Rmax 0 (INR (S j) - INR e * 2)).
Proof. apply plain_entry_eq. lra. Qed.
Lemma quick_matrix : exists mon, standard_express true DFloat (py_range 0 (Z.of_nat 2)) 2 2 None = Ok ([[2; 2]; [1; 2]], mon).
Proof.
  unfold standard_express. change (n_pixels_of_window (py_range 0 (Z.of_nat 2))) with (@Ok nat 2%nat). cbn [bind].
  unfold standard_full_matrix. cbn [express_used Nat.eqb Nat.add Nat.min Nat.ltb Nat.leb andb].
  assert (Hm : @max_multiplier R _ DFloat 4 2 = 2) by (unfold max_multiplier; rewrite !nofN_INR; cbn; lra).
  rewrite Hm. clear Hm. unfold plain_matrix, positive_mask, select_columns, restrict_time_span.
  change (seq 0 2) with [0; 1]%nat. change (seq 0 4) with [0; 1; 2; 3]%nat. cbn [map].
  assert (H02 : @plain_entry R _ 2 0 2 = 2) by (rewrite plain_entry_2; cbn [INR]; rewrite Rmax_right, Rmin_left; lra).
  assert (H03 : @plain_entry R _ 2 0 3 = 2) by (rewrite plain_entry_2; cbn [INR]; rewrite Rmax_right, Rmin_left; lra).
  assert (H12 : @plain_entry R _ 2 1 2 = 1) by (rewrite plain_entry_2; cbn [INR]; rewrite Rmax_right, Rmin_right; lra).
  assert (H13 : @plain_entry R _ 2 1 3 = 2) by (rewrite plain_entry_2; cbn [INR]; rewrite Rmax_right, Rmin_right; lra).
  rewrite H02, H03, H12, H13. eexists. reflexivity.
Qed.

Lemma quick_readout : 
  add_cti small_image quick_direction no_direction None = Ok ([[61/64]; [434007/8388608]], the_roe quick_direction, the_roe no_direction).
Proof.
  destruct (express_readout small_image quick_direction no_direction _ _ _ _ 2 1 small_shape ltac:(lia) small_nonneg quick_setting eq_refl eq_refl small_columns)
    as (im' & m & mon & E & Hm & _ & _ & _ & Ha & Hs & Hi).
  rewrite Ha. do 3 f_equal. destruct quick_matrix as [mon' Hq]. cbn [quick_direction d_express d_offset] in Hm. rewrite Hq in Hm. injection Hm as <- <-.
  pose proof (Hi 0%nat 0%nat ltac:(lia) (or_introl eq_refl)) as H0. pose proof (Hi 1%nat 0%nat ltac:(lia) (or_introl eq_refl)) as H1.
  change (the_roe quick_direction) with (built (Standard true) [ln 8] DFloat true true) in H0, H1.
  rewrite shallow_phases, roe_steps in H0, H1 by (apply ln_pos; lra). unfold readout in H0, H1.
  assert (Hpass : weighted_passes [[2; 2]; [1; 2]] = [[(0%Z, 2, false); (1%Z, 2, false)]; [(0%Z, 1, false); (1%Z, 2, false)]]).
  { unfold weighted_passes, weighted_pass. cbn [map length seq combine flat_map]. destruct (Rlt_dec 0 2), (Rlt_dec 0 1); try lra. reflexivity. }
  rewrite Hpass in H0, H1. clear Hpass.
  do 2 (cbn [fold_left transfer_pass] in H0, H1; rewrite !one_cell in H0, H1; cbn zeta in H0, H1). cbn [fold_left transfer_pass] in H0, H1.
  change (groups_in (TOne (small_trap (1/64)))) with [[small_trap (1/64)]] in H0, H1. rewrite !shallow_site in H0, H1.
  set (c0 := col_fun small_image 0) in *. change (Z.of_nat 0) with 0%Z in H0. change (Z.of_nat 1) with 1%Z in H1.
  assert (A0 : c0 0%Z = 1) by reflexivity. assert (A1 : c0 1%Z = 0) by reflexivity.
  change (all_empty (site_of shallow_ccd [[small_trap (1 / 64)]]) 0%nat) with [empty_profile] in H0, H1. unfold put in H0, H1. cbn [Nat.eqb] in H0, H1.
  unfold site_after in H0, H1. cbn [site_groups site_well combine map] in H0, H1. rewrite !one_group_net in H0, H1.
  destruct (flat_step shallow_well (1/64) (ln 8) 0 (1/8) 1 0 1 empty_profile (flat_empty 1) exp_ln8) as [E1 F1]; try lra; [apply shallow_well_at; [lra|rewrite Rmin_left; lra]|].
  rewrite A0, E1 in H0, H1. set (P1 := transfer_after _ _ _ 1 empty_profile) in *.
  set (c1 := give c0 0 _) in *. assert (B1 : c1 1%Z = 0) by (unfold c1; rewrite give_other by lia; exact A1). assert (B0 : c1 0%Z = 31/32) by (apply give_at; lra).
  destruct (flat_step shallow_well (1/64) (ln 8) 1 (1/8) 0 (7/512) (7/256) P1 F1 exp_ln8) as [E2 _]; try lra; [apply shallow_well_at; [lra|rewrite Rmin_right; lra]|].
  rewrite B1, E2 in H0, H1. set (c2 := give c1 1 _) in *.
  assert (C1 : c2 1%Z = 1743/65536) by (apply give_at; lra). assert (C0 : c2 0%Z = 31/32) by (unfold c2; rewrite give_other by lia; exact B0).
  destruct (flat_step shallow_well (1/64) (ln 8) 0 (1/8) (31/32) 0 1 empty_profile (flat_empty 1) exp_ln8) as [E3 F3]; try lra; [apply shallow_well_at; [lra|rewrite Rmin_left; lra]|].
  rewrite C0, E3 in H0, H1. set (P3 := transfer_after _ _ _ (31/32) empty_profile) in *.
  set (c3 := give c2 0 _) in *. assert (D1 : c3 1%Z = 1743/65536) by (unfold c3; rewrite give_other by lia; exact C1). assert (D0 : c3 0%Z = 61/64) by (apply give_at; lra).
  destruct (flat_step shallow_well (1/64) (ln 8) 1 (1/8) (1743/65536) (7/512) (2639/32768) P3 F3 exp_ln8) as [E4 _]; try lra; [apply shallow_well_at; [lra|rewrite Rmin_right; lra]|].
  rewrite D1, E4 in H0, H1. cbn [fst] in H0, H1. apply two_rows; [exact Hs| |].
  - rewrite H0. rewrite give_other by lia. exact D0.
  - rewrite H1. apply give_at; lra.
Qed.
