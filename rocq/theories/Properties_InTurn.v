
(** * C144: clocking in both directions is clocking in one and then in the other. *)
From Coq Require Import ZArith List Bool Reals Lra Lia.
From Verif Require Import Num Py RFacts CCDModel TrapsModel ManagerModel ROEModel ClockModel MainModel Spec SpecImage SpecReadout SpecHistory SpecRecovery SpecFirst SpecInTurn
  InstantFacts OrderFacts TameFacts RecoverFacts DepthFacts AboveFacts RecoverImageFacts ReadoutImage ReadoutExamples DivergeExample FirstFacts EfficiencyFacts InTurnFacts Properties_Efficiency.
Import ListNotations.
Open Scope R_scope.

(** A call with parallel and serial arguments does what a call with the parallel traps does, followed by
    a call with the serial traps: also with windows, with a time window and with charge
    injection, in any arithmetic, and with the same errors. *)
Theorem C144_both_directions_are_clocked_in_turn {F} {num : Num F} (im : image F) parallel serial tw rows cols : shape rows cols im -> (0 < rows)%nat ->
  add_cti im parallel serial tw =
  match add_cti im parallel (without_traps serial) tw with
  | Err e => Err e
  | Ok (im1, parallel_roe, _) =>
      match add_cti im1 (without_traps parallel) serial tw with
      | Err e => Err e
      | Ok (im2, _, serial_roe) => Ok (im2, parallel_roe, serial_roe)
      end
  end.
Proof.
  intros Hs Hr. rewrite (in_turn im parallel serial tw rows cols Hs Hr). destruct (add_cti im parallel _ tw) as [[[im1 pr] s1]|e]; [|reflexivity]. cbn [bind].
  destruct (add_cti im1 _ serial tw) as [[[im2 p2] sr]|e]; reflexivity.
Qed.
Print Assumptions C144_both_directions_are_clocked_in_turn.

(** The first charge seen from the output meets empty traps in both directions. *)
Theorem C144_first_pixel_in_closed_form (im : image R) parallel serial cp cs fraction_p fraction_s dwell_p dwell_s full_p full_s beta_p beta_s group_p group_s rows cols i j :
  single_phase parallel rows cp fraction_p group_p dwell_p false -> instant_group group_p -> phase_params cp 0 0 beta_p full_p -> 0 < full_p -> 0 < beta_p ->
  single_phase serial cols cs fraction_s group_s dwell_s false -> instant_group group_s -> phase_params cs 0 0 beta_s full_s -> 0 < full_s -> 0 < beta_s ->
  shape rows cols im -> (i < rows)%nat -> (j < cols)%nat -> leads_corner im i j -> 0 <= pixel im i j ->
  exists im', add_cti im parallel serial None = Ok (im', the_roe parallel, the_roe serial) /\ shape rows cols im' /\
    pixel im' i j = past_pixels (fraction_s * traps_per_pixel group_s) full_s beta_s (j + 1 + d_offset serial)
                      (past_pixels (fraction_p * traps_per_pixel group_p) full_p beta_p (i + 1 + d_offset parallel) (pixel im i j)).
Proof. intros H1 H2 H3 H4 H5 H6 H7 H8 H9 H10. exact (first_pixel parallel serial cp cs fraction_p fraction_s dwell_p dwell_s full_p full_s beta_p beta_s group_p group_s rows cols H1 H2 H3 H4 H5 H6 H7 H8 H9 H10 im i j). Qed.
Print Assumptions C144_first_pixel_in_closed_form.

(** In wells that fill evenly, the charge transfer efficiencies multiply. *)
Theorem C144_efficiencies_multiply (im : image R) parallel serial cp cs fraction_p fraction_s dwell_p dwell_s full_p full_s group_p group_s rows cols i j :
  single_phase parallel rows cp fraction_p group_p dwell_p false -> instant_group group_p -> phase_params cp 0 0 1 full_p -> 0 < full_p -> fraction_p * traps_per_pixel group_p <= full_p ->
  single_phase serial cols cs fraction_s group_s dwell_s false -> instant_group group_s -> phase_params cs 0 0 1 full_s -> 0 < full_s -> fraction_s * traps_per_pixel group_s <= full_s ->
  shape rows cols im -> (i < rows)%nat -> (j < cols)%nat -> leads_corner im i j -> 0 <= pixel im i j -> pixel im i j <= full_p -> pixel im i j <= full_s ->
  exists im', add_cti im parallel serial None = Ok (im', the_roe parallel, the_roe serial) /\ shape rows cols im' /\
    pixel im' i j = pixel im i j * (1 - fraction_p * traps_per_pixel group_p / full_p) ^ (i + 1 + d_offset parallel)
                                 * (1 - fraction_s * traps_per_pixel group_s / full_s) ^ (j + 1 + d_offset serial).
Proof.
  intros S1 G1 P1 F1 R1 S2 G2 P2 F2 R2 Hs Hi Hj Hl Ha Hfp Hfs. pose proof (trapped_share _ _ _ _ _ _ S1 G1) as T1. pose proof (trapped_share _ _ _ _ _ _ S2 G2) as T2.
  destruct (first_pixel parallel serial cp cs fraction_p fraction_s dwell_p dwell_s full_p full_s 1 1 group_p group_s rows cols S1 G1 P1 F1 Rlt_0_1 S2 G2 P2 F2 Rlt_0_1 im i j Hs Hi Hj Hl Ha) as (im' & E & Sh & K).
  exists im'. split; [exact E|]. split; [exact Sh|]. rewrite K.
  pose proof (pixels_le (fraction_p * traps_per_pixel group_p) full_p 1 T1 F1 Rlt_0_1 (i + 1 + d_offset parallel) (pixel im i j) Ha) as L. pose proof (pixels_pos (fraction_p * traps_per_pixel group_p) full_p 1 (i + 1 + d_offset parallel) (pixel im i j) Ha) as L0.
  rewrite pixels_linear; [|split; assumption|exact F2|split; [exact L0|exact (Rle_trans _ _ _ L Hfs)]]. f_equal. apply pixels_linear; [split; assumption|exact F1|split; assumption].
Qed.
Print Assumptions C144_efficiencies_multiply.

(** ** One pixel. *)
Definition deep_ccd : ccd R := mkCCD [1] 1 [2] [1] [0] [BList [2]].
Definition deep_direction : direction R := mkDir (Some deep_ccd) (Some small_roe) (Some (TOne (small_trap (1 / 4)))) 0 0 WNone.
Lemma deep_setting : single_phase deep_direction 1 deep_ccd 1 [small_trap (1 / 4)] (ln 2) false.
Proof. constructor; try reflexivity; try lra; [exists (TOne (small_trap (1 / 4))); auto|discriminate|exists true, DFloat; reflexivity|apply ln_pos; lra|left; reflexivity]. Qed.
Lemma quarter_group : instant_group [small_trap (1 / 4)]. Proof. apply small_group; lra. Qed.
Lemma dot_corner a : leads_corner (one_row a) 0 0.
Proof. intros k l Hk Hl N. exfalso. apply N. f_equal; lia. Qed.
Lemma one_pixel (im : image R) : shape 1 1 im -> im = one_row (pixel im 0 0).
Proof.
  intros [L H]. destruct im as [|r [|? ?]]; try discriminate. inversion H as [|? ? Hr _]; subst. destruct r as [|a [|? ?]]; try discriminate. reflexivity.
Qed.
Lemma quarter_density : 1 * traps_per_pixel [small_trap (1 / 4)] = 1 / 4. Proof. exact far_density. Qed.
Lemma shallow_params : phase_params small_ccd 0 0 1 1. Proof. constructor; reflexivity. Qed.
Lemma deep_params : phase_params deep_ccd 0 0 1 2. Proof. constructor; reflexivity. Qed.
(** What one transfer leaves of [a] electrons in the shallow and in the deep well. *)
Lemma past_shallow a : 1 <= a -> past_pixels (1 / 4) 1 1 1 a = a - 1 / 4.
Proof. intros Ha. rewrite pixels_full by (cbn; lra). cbn. lra. Qed.
Lemma past_shallow' a : 0 <= a <= 1 -> past_pixels (1 / 4) 1 1 1 a = 3 / 4 * a.
Proof. intros Ha. rewrite pixels_linear by lra. cbn. lra. Qed.
Lemma past_deep a : 0 <= a <= 2 -> past_pixels (1 / 4) 2 1 1 a = 7 / 8 * a.
Proof. intros Ha. rewrite pixels_linear by lra. cbn. lra. Qed.
Lemma shallow_alone a serial : 0 <= a -> d_traps serial = None -> d_window serial = WNone ->
  add_cti (one_row a) (far_direction 0) serial None = Ok (one_row (past_pixels (1 / 4) 1 1 1 a), the_roe (far_direction 0), the_roe serial).
Proof.
  intros Ha Ht Hw. destruct (first_packet (one_row a) (far_direction 0) serial small_ccd 1 [small_trap (1 / 4)] (ln 2) 1 1 1 1 0 0 (one_row_shape a) ltac:(lia) ltac:(lia) (far_setting 0) quarter_group shallow_params ltac:(lra) ltac:(lra) Ht Hw (one_row_leads a) Ha) as (im' & E & Sh & K).
  rewrite E, (one_pixel im' Sh), K, quarter_density. reflexivity.
Qed.
Lemma deep_alone a parallel : 0 <= a -> d_window parallel = WNone ->
  add_cti (one_row a) (without_traps parallel) deep_direction None = Ok (one_row (past_pixels (1 / 4) 2 1 1 a), the_roe parallel, the_roe deep_direction).
Proof.
  intros Ha Hw. rewrite idle_parallel by exact Hw.
  destruct (along_rows deep_direction deep_ccd 1 (ln 2) 2 1 [small_trap (1 / 4)] 1 1 deep_setting quarter_group deep_params ltac:(lra) ltac:(lra) (one_row a) 0 0 (one_row_shape a) ltac:(lia) ltac:(lia) ltac:(intros; lia) Ha) as (im' & E & Sh & K).
  rewrite E. cbn [bind]. rewrite (one_pixel im' Sh), K, quarter_density. reflexivity.
Qed.
Lemma both_alone a : 0 <= a -> add_cti (one_row a) (far_direction 0) deep_direction None = Ok (one_row (past_pixels (1 / 4) 2 1 1 (past_pixels (1 / 4) 1 1 1 a)), the_roe (far_direction 0), the_roe deep_direction).
Proof.
  intros Ha. rewrite (in_turn _ _ _ _ 1 1 (one_row_shape a)) by lia. rewrite shallow_alone by (try reflexivity; lra). cbn [bind]. rewrite deep_alone by (try reflexivity; now apply pixels_pos). reflexivity.
Qed.
(** The order matters: two electrons lose a quarter of an electron to the shallow wells of one direction, which they
    fill, and an eighth of what there is to the deep wells of the other. *)
Theorem C144_the_order_of_the_directions_does_not_matter_refuted : exists (im im1 im2 im' : image R) parallel serial cp cs group dwell,
  single_phase parallel 1 cp 1 group dwell false /\ single_phase serial 1 cs 1 group dwell false /\ instant_group group /\ shape 1 1 im /\ (forall i j, 0 <= pixel im i j) /\
  add_cti im parallel serial None = Ok (im', the_roe parallel, the_roe serial) /\
  add_cti im (without_traps parallel) serial None = Ok (im1, the_roe parallel, the_roe serial) /\
  add_cti im1 parallel (without_traps serial) None = Ok (im2, the_roe parallel, the_roe serial) /\
  pixel im' 0 0 <> pixel im2 0 0.
Proof.
  exists (one_row 2), (one_row (past_pixels (1 / 4) 2 1 1 2)), (one_row (past_pixels (1 / 4) 1 1 1 (past_pixels (1 / 4) 2 1 1 2))),
    (one_row (past_pixels (1 / 4) 2 1 1 (past_pixels (1 / 4) 1 1 1 2))), (far_direction 0), deep_direction, small_ccd, deep_ccd, [small_trap (1 / 4)], (ln 2).
  split; [apply far_setting|]. split; [exact deep_setting|]. split; [exact quarter_group|]. split; [apply one_row_shape|]. split; [intros [|[|i]] [|[|j]]; unfold pixel; cbn; lra|].
  split; [|split; [|split]].
  - apply both_alone. lra.
  - apply deep_alone; [lra|reflexivity].
  - rewrite shallow_alone by (try reflexivity; rewrite past_deep; lra). reflexivity.
  - unfold pixel. cbn [one_row nth]. rewrite (past_shallow 2), (past_deep 2), (past_deep (2 - 1 / 4)), (past_shallow (7 / 8 * 2)) by lra. lra.
Qed.
Print Assumptions C144_the_order_of_the_directions_does_not_matter_refuted.

(** Nor can a correction be made in two calls, undoing the serial clocking first: after one
    iteration of each, half an electron becomes 43/64 in one call and 45/64 in two. *)
Theorem C144_corrections_in_turn_refuted : exists (im im1 im2 im' : image R) parallel serial cp cs group dwell,
  single_phase parallel 1 cp 1 group dwell false /\ single_phase serial 1 cs 1 group dwell false /\ instant_group group /\ shape 1 1 im /\ (forall i j, 0 <= pixel im i j) /\
  remove_cti im 1 parallel serial None = Ok im' /\ remove_cti im 1 (without_traps parallel) serial None = Ok im1 /\ remove_cti im1 1 parallel (without_traps serial) None = Ok im2 /\
  pixel im' 0 0 < pixel im2 0 0.
Proof.
  exists (one_row (1 / 2)), (one_row (9 / 16)), (one_row (45 / 64)), (one_row (43 / 64)), (far_direction 0), deep_direction, small_ccd, deep_ccd, [small_trap (1 / 4)], (ln 2).
  split; [apply far_setting|]. split; [exact deep_setting|]. split; [exact quarter_group|]. split; [apply one_row_shape|]. split; [intros [|[|i]] [|[|j]]; unfold pixel; cbn; lra|].
  unfold remove_cti. cbn [remove_cti_loop]. split; [|split; [|split]].
  - rewrite both_alone by lra. cbn [bind]. rewrite past_shallow' by lra. rewrite past_deep by lra. cbn. unfold one_row. do 3 f_equal. lra.
  - rewrite deep_alone by (try reflexivity; lra). cbn [bind]. rewrite past_deep by lra. cbn. unfold one_row. do 3 f_equal. lra.
  - rewrite shallow_alone by (try reflexivity; lra). cbn [bind]. rewrite past_shallow' by lra. cbn. unfold one_row. do 3 f_equal. lra.
  - unfold pixel. cbn. lra.
Qed.
Print Assumptions C144_corrections_in_turn_refuted.

(** Half an electron in the second column of two rows: three quarters of it pass the parallel
    register, and 49/64 of these the two pixels of the serial one. *)
Definition corner_image : image R := [[0; 1 / 2]; [1 / 3; 1 / 4]].
Example C144_example : exists im',
  add_cti corner_image (far_direction 0) deep_direction None = Ok (im', the_roe (far_direction 0), the_roe deep_direction) /\ shape 2 2 im' /\ pixel im' 0 1 = 147 / 512.
Proof.
  assert (S1 : single_phase (far_direction 0) 2 small_ccd 1 [small_trap (1 / 4)] (ln 2) false) by (constructor; try reflexivity; try lra; [exists (TOne (small_trap (1 / 4))); auto|discriminate|exists true, DFloat; reflexivity|apply ln_pos; lra|left; reflexivity]).
  assert (S2 : single_phase deep_direction 2 deep_ccd 1 [small_trap (1 / 4)] (ln 2) false) by (constructor; try reflexivity; try lra; [exists (TOne (small_trap (1 / 4))); auto|discriminate|exists true, DFloat; reflexivity|apply ln_pos; lra|left; reflexivity]).
  assert (L : leads_corner corner_image 0 1). { intros [|k] [|[|l]] Hk Hl N; try lia; [reflexivity|exfalso; now apply N]. }
  destruct (C144_efficiencies_multiply corner_image (far_direction 0) deep_direction small_ccd deep_ccd 1 1 (ln 2) (ln 2) 1 2 [small_trap (1 / 4)] [small_trap (1 / 4)] 2 2 0 1
    S1 quarter_group shallow_params ltac:(lra) ltac:(rewrite quarter_density; lra) S2 quarter_group deep_params ltac:(lra) ltac:(rewrite quarter_density; lra)
    ltac:(split; [reflexivity|repeat constructor]) ltac:(lia) ltac:(lia) L ltac:(unfold pixel; cbn; lra) ltac:(unfold pixel; cbn; lra) ltac:(unfold pixel; cbn; lra)) as (im' & E & Sh & K).
  exists im'. split; [exact E|]. split; [exact Sh|]. rewrite K, quarter_density. unfold pixel. cbn. lra.
Qed.
