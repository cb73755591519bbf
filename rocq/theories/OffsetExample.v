(** * Offsets and windows: small readouts. *)
From Coq Require Import ZArith List Bool Reals Lra Lia FinFun.
From Coquelicot Require Import Rcomplements Rbar Hierarchy RInt.
From Verif Require Import Num Py RFacts CCDModel TrapsModel ManagerModel ROEModel ClockModel MainModel Spec SpecROE SpecImage SpecReadout SpecColumn SpecExpress SpecWindow
  InstantFacts ROEMatrixFacts ROEExpressFacts ReadoutForced ReadoutFull MainReadoutFacts MainColumnFacts ReadoutExamples ExpressFacts ExpressExample WindowFacts.
Import ListNotations.
Open Scope R_scope.

Lemma nothing_flat t d : let P := transfer_after [t] small_well d 0 empty_profile in transfer_net [t] small_well d 0 empty_profile = 0 /\ flat 0 1 P.
Proof.
  cbn zeta. assert (W : small_well 0 = 0) by (unfold small_well, depth; destruct (Rle_dec 0 0); [reflexivity|lra]).
  destruct (nothing_happens [t] small_well d W) as [H1 H2]. split; [exact H1|]. intros x Hx. apply (H2 0%nat x); [cbn; lia|lra].
Qed.

(** ** A window: the last of two pixels *)
Definition last_of_two : direction R := with_window (small_direction small_roe half) (WRange (py_range 1 2)).
Lemma blank_textbook : textbook [thinned 1 (small_trap (1/2))] small_well (ln 2) 0 [0; 1] = [0; 1/4].
Proof.
  unfold textbook. cbn [length through_pixels read_out past_traps]. destruct (nothing_flat (thinned 1 (small_trap (1/2))) (ln 2)) as [N1 N2]. rewrite N1.
  rewrite (half_net 1 _ ltac:(lra) N2), (half_net (1 + - (1) / 2) _ ltac:(lra) (flat_empty 1)). f_equal; [lra|]. f_equal. lra.
Qed.
Lemma blank_readout : let d := small_direction small_roe half in
  add_cti [[0]; [1]] d no_direction None = Ok ([[0]; [1/4]], the_roe d, the_roe no_direction).
Proof.
  intros d. assert (Hset : plain_setting d 2 small_ccd half [ln 2] DFloat) by (apply small_setting, small_instant; lra).
  assert (Hs : shape 2 1 [[0]; [1]]) by (split; [reflexivity|repeat constructor]).
  assert (Hp : forall i j, 0 <= pixel [[0]; [1]] i j) by (intros [|[|[|i]]] [|[|j]]; cbn; rnum; lra).
  destruct (textbook_readout [[0]; [1]] d no_direction small_ccd half [small_trap (1/2)] (ln 2) DFloat 2 1 0)
    as (im' & E & H); auto.
  - left; reflexivity.
  - exact small_columns.
  - apply ln_pos; lra.
  - unfold share; cbn; lra.
  - left; reflexivity.
  - rewrite E. change (column_of [[0]; [1]] 0) with [0; 1] in H. change (d_offset d) with 0%nat in H. change (share small_ccd 0) with 1 in H.
    change (depth (nth 0 (ccd_full_well small_ccd) 1) (nth 0 (ccd_fill_power small_ccd) 1)) with small_well in H. cbn [map] in H. rewrite blank_textbook in H.
    destruct (plain_returns [[0]; [1]] d no_direction 2 1 Hs) as (im2 & E2 & [L F] & _); try lia; [exact Hp|split; [reflexivity|right; eauto]|split; [reflexivity|left; reflexivity]|].
    assert (im2 = im') as -> by congruence. destruct im' as [|[|x [|? ?]] [|[|y [|? ?]] [|? ?]]]; try discriminate; repeat match goal with H : Forall _ (_ :: _) |- _ => inversion H; clear H; subst end; try discriminate.
    cbn in H. injection H as -> ->. reflexivity.
Qed.

Lemma two_textbook : textbook [thinned 1 (small_trap (1/2))] small_well (ln 2) 0 [1; 1] = [1/2; 1/2].
Proof.
  unfold textbook. cbn [length through_pixels read_out past_traps].
  destruct (flat_step small_well (1/2) (ln 2) 0 (1/2) 1 0 1 empty_profile (flat_empty 1) exp_ln2) as [E1 H1]; try lra; [apply small_well_at; lra|]. rewrite E1.
  assert (W : small_well (1 + 1/4) = 1) by (unfold small_well, depth; destruct (Rle_dec (1 + 1/4) 0); [lra|]; rewrite Rmin_left by lra; apply Rpower_1; lra).
  destruct (flat_step small_well (1/2) (ln 2) 1 (1/2) 1 (1/4) 1 _ H1 exp_ln2) as [E2 H2]; try lra. rewrite E2.
  replace (1 + (1/4 - 1/2 * ((1 - 1 * (1/2)) * 1))) with 1 by lra. rewrite (half_net 1 empty_profile ltac:(lra) (flat_empty 1)). f_equal; [lra|]. f_equal. lra.
Qed.
Lemma full_readout_of_two : let d := small_direction small_roe half in
  add_cti [[1]; [1]] d no_direction None = Ok ([[1/2]; [1/2]], the_roe d, the_roe no_direction).
Proof.
  intros d. assert (Hset : plain_setting d 2 small_ccd half [ln 2] DFloat) by (apply small_setting, small_instant; lra).
  assert (Hs : shape 2 1 [[1]; [1]]) by (split; [reflexivity|repeat constructor]).
  assert (Hp : forall i j, 0 <= pixel [[1]; [1]] i j) by (intros [|[|[|i]]] [|[|j]]; cbn; rnum; lra).
  destruct (textbook_readout [[1]; [1]] d no_direction small_ccd half [small_trap (1/2)] (ln 2) DFloat 2 1 0)
    as (im' & E & H); auto.
  - left; reflexivity.
  - exact small_columns.
  - apply ln_pos; lra.
  - unfold share; cbn; lra.
  - left; reflexivity.
  - rewrite E. change (column_of [[1]; [1]] 0) with [1; 1] in H. change (d_offset d) with 0%nat in H. change (share small_ccd 0) with 1 in H.
    change (depth (nth 0 (ccd_full_well small_ccd) 1) (nth 0 (ccd_fill_power small_ccd) 1)) with small_well in H. cbn [map] in H. rewrite two_textbook in H.
    destruct (plain_returns [[1]; [1]] d no_direction 2 1 Hs) as (im2 & E2 & [L F] & _); try lia; [exact Hp|split; [reflexivity|right; eauto]|split; [reflexivity|left; reflexivity]|].
    assert (im2 = im') as -> by congruence. destruct im' as [|[|x [|? ?]] [|[|y [|? ?]] [|? ?]]]; try discriminate; repeat match goal with H : Forall _ (_ :: _) |- _ => inversion H; clear H; subst end; try discriminate.
    cbn in H. injection H as -> ->. reflexivity.
Qed.

(** ** An offset of two pixels, or two blank rows, with express = 1 *)
Definition lone_direction : direction R := mkDir (Some small_ccd) (Some small_roe) (Some (TOne (small_trap (1/8)))) 1 0 WNone.
Lemma lone_setting n rows : (rows <> 2)%nat -> plain_setting (with_offset lone_direction n) rows small_ccd (TOne (small_trap (1/8))) [ln 2] DFloat.
Proof. intros H. constructor; try reflexivity; [left; reflexivity|exact small_plain|apply small_instant; lra|right; cbn; lia]. Qed.
Lemma dot_matrix : exists mon, standard_express true DFloat (py_range 0 (Z.of_nat 1)) 1 2 None = Ok ([[3]], mon).
Proof.
  unfold standard_express. change (n_pixels_of_window (py_range 0 (Z.of_nat 1))) with (@Ok nat 1%nat). cbn [bind].
  unfold standard_full_matrix. cbn [express_used Nat.eqb Nat.add Nat.min Nat.ltb Nat.leb andb].
  assert (Hm : @max_multiplier R _ DFloat 3 1 = 3) by (unfold max_multiplier; rewrite !nofN_INR; cbn; lra).
  rewrite Hm. clear Hm. unfold plain_matrix, positive_mask, select_columns, restrict_time_span.
  change (seq 0 1) with [0]%nat. change (seq 0 3) with [0; 1; 2]%nat. cbn [map].
  assert (H02 : @plain_entry R _ 3 0 2 = 3) by (rewrite plain_entry_eq by lra; cbn [INR]; rewrite Rmax_right, Rmin_left; lra).
  rewrite H02. eexists. reflexivity.
Qed.
Lemma column_matrix : exists mon, standard_express true DFloat (py_range 0 (Z.of_nat 3)) 1 0 None = Ok ([[0; 0; 1]; [0; 1; 0]; [1; 1; 2]], mon).
Proof.
  unfold standard_express. change (n_pixels_of_window (py_range 0 (Z.of_nat 3))) with (@Ok nat 3%nat). cbn [bind].
  unfold standard_full_matrix. cbn [express_used Nat.eqb Nat.add Nat.min Nat.ltb Nat.leb andb Nat.sub].
  assert (Hm : @max_multiplier R _ DFloat 2 1 = 2) by (unfold max_multiplier; rewrite !nofN_INR; cbn; lra).
  rewrite Hm. clear Hm. unfold plain_matrix. change (seq 0 1) with [0]%nat. change (seq 0 2) with [0; 1]%nat. cbn [map].
  assert (H0 : @plain_entry R _ 2 0 0 = 1) by (rewrite plain_entry_eq by lra; cbn [INR]; rewrite Rmax_right, Rmin_right; lra).
  assert (H1 : @plain_entry R _ 2 0 1 = 2) by (rewrite plain_entry_eq by lra; cbn [INR]; rewrite Rmax_right, Rmin_right; lra).
  rewrite H0, H1. clear H0 H1. assert (Hn : @n_positive R _ [1; 2] = 2%nat) by (unfold n_positive; cbn [filter]; rnum; rewrite (proj2 (Rltb_true 0 1) ltac:(lra)), (proj2 (Rltb_true 0 2) ltac:(lra)); reflexivity).
  unfold insert_small. cbn [fold_left]. rewrite Hn. change (@flipud_identity R _ 3) with [[0; 0; 1]; [0; 1; 0]; [1; 0; 0]]. cbn [nth_error].
  change (upd [[0; 0; 1]; [0; 1; 0]; [1; 0; 0]] 2 (1 :: row_add [0; 0] [1; 2])) with [[0; 0; 1]; [0; 1; 0]; [1; 0 + 1; 0 + 2]].
  replace (0 + 1) with 1 by lra. replace (0 + 2) with 2 by lra. unfold positive_mask, select_columns, restrict_time_span. eexists. reflexivity.
Qed.
Lemma eighth_net n P : 0 < n <= 1 -> flat 0 1 P -> transfer_net [thinned 1 (small_trap (1/8))] small_well (ln 2) n P = - n / 8.
Proof.
  intros Hn HP. destruct (flat_step small_well (1/8) (ln 2) 0 (1/2) n 0 n P HP exp_ln2 ltac:(lra) (small_well_at _ _ (Rplus_0_r n) Hn) Hn ltac:(lra)) as [E1 _]. rewrite E1. lra.
Qed.
Lemma offset_readout : add_cti [[1]] (with_offset lone_direction 2) no_direction None = Ok ([[5/8]], the_roe lone_direction, the_roe no_direction).
Proof.
  destruct (express_readout dot_image (with_offset lone_direction 2) no_direction _ _ _ _ 1 1 dot_shape ltac:(lia) dot_nonneg (lone_setting 2 1 ltac:(lia)) eq_refl eq_refl small_columns)
    as (im' & m & mon & E & Hm & _ & _ & _ & Ha & Hs & Hi).
  change [[1]] with dot_image. rewrite Ha. do 3 f_equal. destruct dot_matrix as [mon' Hq]. cbn [lone_direction with_offset d_express d_offset] in Hm. rewrite Hq in Hm. injection Hm as <- <-.
  pose proof (Hi 0%nat 0%nat ltac:(lia) (or_introl eq_refl)) as H0. change (the_roe (with_offset lone_direction 2)) with (built (Standard true) [ln 2] DFloat true true) in H0.
  rewrite small_phases, roe_steps in H0 by (apply ln_pos; lra). unfold readout in H0.
  assert (Hpass : weighted_passes [[3]] = [[(0%Z, 3, false)]]) by (unfold weighted_passes, weighted_pass; cbn [map length seq combine flat_map]; destruct (Rlt_dec 0 3); [reflexivity|lra]).
  rewrite Hpass in H0. clear Hpass. cbn [fold_left transfer_pass] in H0. rewrite one_cell in H0. cbn [fst] in H0.
  change (groups_in (TOne (small_trap (1/8)))) with [[small_trap (1/8)]] in H0. rewrite small_site in H0. change (Z.of_nat 0) with 0%Z in H0.
  change (all_empty (site_of small_ccd [[small_trap (1 / 8)]]) 0%nat) with [empty_profile] in H0. rewrite one_group_net in H0.
  change (col_fun dot_image 0 0%Z) with 1 in H0. rewrite (eighth_net 1 empty_profile ltac:(lra) (flat_empty 1)) in H0.
  apply one_row; [exact Hs|]. rewrite H0. apply give_at; [change (col_fun dot_image 0 0%Z) with 1; lra|lra].
Qed.
Definition column_image : image R := [[0]; [0]; [1]].
Lemma rows_readout : exists im', add_cti column_image (with_offset lone_direction 0) no_direction None = Ok (im', the_roe lone_direction, the_roe no_direction) /\ pixel im' 2 0 = 21/32.
Proof.
  assert (Hshape : shape 3 1 column_image) by (split; [reflexivity|repeat constructor]).
  assert (Hp : forall i j, 0 <= pixel column_image i j) by (intros [|[|[|[|i]]]] [|[|j]]; cbn; rnum; lra).
  destruct (express_readout column_image (with_offset lone_direction 0) no_direction _ _ _ _ 3 1 Hshape ltac:(lia) Hp (lone_setting 0 3 ltac:(lia)) eq_refl eq_refl small_columns)
    as (im' & m & mon & E & Hm & _ & _ & _ & Ha & Hs & Hi).
  exists im'. split; [exact Ha|]. destruct column_matrix as [mon' Hq]. cbn [lone_direction with_offset d_express d_offset] in Hm. rewrite Hq in Hm. injection Hm as <- <-.
  rewrite (Hi 2%nat 0%nat ltac:(lia) (or_introl eq_refl)). change (the_roe (with_offset lone_direction 0)) with (built (Standard true) [ln 2] DFloat true true).
  rewrite small_phases, roe_steps by (apply ln_pos; lra). unfold readout.
  assert (Hpass : weighted_passes [[0; 0; 1]; [0; 1; 0]; [1; 1; 2]] = [[(2%Z, 1, false)]; [(1%Z, 1, false)]; [(0%Z, 1, false); (1%Z, 1, false); (2%Z, 2, false)]]).
  { unfold weighted_passes, weighted_pass. cbn [map length seq combine flat_map]. destruct (Rlt_dec 0 0), (Rlt_dec 0 1), (Rlt_dec 0 2); try lra. reflexivity. }
  rewrite Hpass. clear Hpass. cbn [fold_left transfer_pass]. do 3 (rewrite ?one_cell; cbn zeta; cbn [fold_left transfer_pass]). cbn [fst].
  change (groups_in (TOne (small_trap (1/8)))) with [[small_trap (1/8)]]. rewrite !small_site.
  change (all_empty (site_of small_ccd [[small_trap (1 / 8)]]) 0%nat) with [empty_profile]. unfold put. cbn [Nat.eqb]. change (all_empty (site_of small_ccd [[small_trap (1 / 8)]]) 0%nat) with [empty_profile].
  unfold site_after. cbn [site_groups site_well combine map]. rewrite !one_group_net. change (Z.of_nat 2) with 2%Z.
  set (c0 := col_fun column_image 0). assert (A0 : c0 0%Z = 0) by reflexivity. assert (A1 : c0 1%Z = 0) by reflexivity. assert (A2 : c0 2%Z = 1) by reflexivity.
  rewrite A2, (eighth_net 1 empty_profile ltac:(lra) (flat_empty 1)). set (c1 := give c0 2 _).
  assert (B0 : c1 0%Z = 0) by (unfold c1; rewrite give_other by lia; exact A0). assert (B1 : c1 1%Z = 0) by (unfold c1; rewrite give_other by lia; exact A1). assert (B2 : c1 2%Z = 7/8) by (apply give_at; lra).
  destruct (nothing_flat (thinned 1 (small_trap (1/8))) (ln 2)) as [N1 N2]. rewrite B1, N1. set (c2 := give c1 1 _).
  assert (D0 : c2 0%Z = 0) by (unfold c2; rewrite give_other by lia; exact B0). assert (D1 : c2 1%Z = 0) by (apply give_at; lra). assert (D2 : c2 2%Z = 7/8) by (unfold c2; rewrite give_other by lia; exact B2).
  rewrite D0, N1. set (P1 := transfer_after _ _ _ 0 empty_profile) in *. set (c3 := give c2 0 _).
  assert (F1 : c3 1%Z = 0) by (unfold c3; rewrite give_other by lia; exact D1). assert (F2 : c3 2%Z = 7/8) by (unfold c3; rewrite give_other by lia; exact D2). rewrite F1.
  assert (W : small_well 0 = 0) by (unfold small_well, depth; destruct (Rle_dec 0 0); [reflexivity|lra]).
  assert (S1 : same_profile 1 P1 empty_profile) by (apply (nothing_happens [thinned 1 (small_trap (1/8))] small_well (ln 2) W)).
  destruct (transfer_same [thinned 1 (small_trap (1/8))] small_well (ln 2) 0 P1 empty_profile S1) as [T1 T2].
  { replace (released _ _ _) with 0; [rewrite Rplus_0_l, W; lra|]. symmetry. unfold released. rewrite (electrons_same _ (after_release [thinned 1 (small_trap (1/8))] (ln 2) empty_profile) empty_profile); [lra| |lra|lra]. intros s x _ _. unfold after_release, empty_profile. ring. }
  rewrite T1, N1. fold P1 in T2. assert (Hflat : flat 0 1 (transfer_after [thinned 1 (small_trap (1/8))] small_well (ln 2) 0 P1)).
  { intros x Hx. rewrite (T2 0%nat x ltac:(cbn; lia) ltac:(lra)). apply N2, Hx. }
  set (c4 := give c3 1 _). assert (G2 : c4 2%Z = 7/8) by (unfold c4; rewrite give_other by lia; exact F2). rewrite G2, (eighth_net (7/8) _ ltac:(lra) Hflat). apply give_at; lra.
Qed.
