
(** * C146: a correction approaches the first charge from below. *)
From Coq Require Import ZArith List Bool Reals Lra Lia.
From Verif Require Import Num Py RFacts CCDModel TrapsModel ManagerModel ROEModel ClockModel MainModel Spec SpecImage SpecReadout SpecHistory SpecRecovery SpecFirst SpecInTurn SpecReturn
  OrderFacts ReadoutImage ReadoutExamples FirstFacts EfficiencyFacts InTurnFacts FirstReturnFacts Properties_Efficiency Properties_InTurn.
Import ListNotations.
Open Scope R_scope.

(** Every iteration brings back some of the first charge seen from the output, and never too much:
    in wells whose fill power is at most 1 with any number of traps, and in others with few. *)
Theorem C146_corrections_never_overshoot_the_first_charge (im : image R) parallel serial cp cs fraction_p fraction_s dwell_p dwell_s full_p full_s beta_p beta_s group_p group_s rows cols i j :
  single_phase parallel rows cp fraction_p group_p dwell_p false -> instant_group group_p -> phase_params cp 0 0 beta_p full_p -> 0 < full_p -> 0 < beta_p -> orderly (fraction_p * traps_per_pixel group_p) full_p beta_p ->
  single_phase serial cols cs fraction_s group_s dwell_s false -> instant_group group_s -> phase_params cs 0 0 beta_s full_s -> 0 < full_s -> 0 < beta_s -> orderly (fraction_s * traps_per_pixel group_s) full_s beta_s ->
  shape rows cols im -> (i < rows)%nat -> (j < cols)%nat -> leads_corner im i j -> 0 <= pixel im i j ->
  exists y, add_cti im parallel serial None = Ok (y, the_roe parallel, the_roe serial) /\
    forall n, exists once more, remove_cti y n parallel serial None = Ok once /\ remove_cti y (S n) parallel serial None = Ok more /\
      pixel y i j <= pixel once i j /\ pixel once i j <= pixel more i j /\ pixel more i j <= pixel im i j.
Proof.
  intros S1 G1 P1 F1 B1 O1 S2 G2 P2 F2 B2 O2 Hs Hi Hj Hl Ha.
  destruct (returned parallel serial cp cs fraction_p fraction_s dwell_p dwell_s full_p full_s beta_p beta_s group_p group_s rows cols i j S1 G1 P1 F1 B1 O1 S2 G2 P2 F2 B2 O2 Hi Hj im Hs Hl Ha) as (y & E & Ky & R).
  exists y. split; [exact E|]. intros n. destruct (R n) as (once & En & _ & Kn). destruct (R (S n)) as (more & Em & _ & Km). exists once, more. split; [exact En|]. split; [exact Em|]. rewrite Kn, Km, Ky.
  assert (Q1 := both_pos parallel serial fraction_p fraction_s full_p full_s beta_p beta_s group_p group_s i j).
  assert (Q2 := both_le parallel serial cp cs fraction_p fraction_s dwell_p dwell_s full_p full_s beta_p beta_s group_p group_s rows cols i j S1 G1 F1 B1 S2 G2 F2 B2).
  assert (Q3 := both_order parallel serial cp cs fraction_p fraction_s dwell_p dwell_s full_p full_s beta_p beta_s group_p group_s rows cols i j S1 G1 F1 O1 S2 G2 F2 O2).
  assert (Q4 := both_short parallel serial cp cs fraction_p fraction_s dwell_p dwell_s full_p full_s beta_p beta_s group_p group_s rows cols i j S1 G1 F1 B1 O1 S2 G2 F2 B2 O2).
  split; [|split].
  - apply (proj1 (estimate_range _ _ Q1 Q2 Q4 Ha n)).
  - apply (estimate_grows _ _ Q1 Q2 Q3 Q4 Ha n).
  - apply (proj2 (estimate_range _ _ Q1 Q2 Q4 Ha (S n))).
Qed.
Print Assumptions C146_corrections_never_overshoot_the_first_charge.

(** If anything is left of it after the readout, all of it comes back with enough iterations. *)
Theorem C146_the_first_charge_comes_back (im : image R) parallel serial cp cs fraction_p fraction_s dwell_p dwell_s full_p full_s beta_p beta_s group_p group_s rows cols i j :
  single_phase parallel rows cp fraction_p group_p dwell_p false -> instant_group group_p -> phase_params cp 0 0 beta_p full_p -> 0 < full_p -> 0 < beta_p -> orderly (fraction_p * traps_per_pixel group_p) full_p beta_p ->
  single_phase serial cols cs fraction_s group_s dwell_s false -> instant_group group_s -> phase_params cs 0 0 beta_s full_s -> 0 < full_s -> 0 < beta_s -> orderly (fraction_s * traps_per_pixel group_s) full_s beta_s ->
  shape rows cols im -> (i < rows)%nat -> (j < cols)%nat -> leads_corner im i j -> 0 <= pixel im i j ->
  exists y, add_cti im parallel serial None = Ok (y, the_roe parallel, the_roe serial) /\
    (0 < pixel y i j -> forall eps, 0 < eps -> exists iterations, forall n, (iterations <= n)%nat ->
      exists im', remove_cti y n parallel serial None = Ok im' /\ pixel im i j - eps < pixel im' i j <= pixel im i j).
Proof.
  intros S1 G1 P1 F1 B1 O1 S2 G2 P2 F2 B2 O2 Hs Hi Hj Hl Ha.
  destruct (returned parallel serial cp cs fraction_p fraction_s dwell_p dwell_s full_p full_s beta_p beta_s group_p group_s rows cols i j S1 G1 P1 F1 B1 O1 S2 G2 P2 F2 B2 O2 Hi Hj im Hs Hl Ha) as (y & E & Ky & R).
  exists y. split; [exact E|]. intros Hy eps He. rewrite Ky in Hy.
  assert (Q1 := both_pos parallel serial fraction_p fraction_s full_p full_s beta_p beta_s group_p group_s i j).
  assert (Q2 := both_le parallel serial cp cs fraction_p fraction_s dwell_p dwell_s full_p full_s beta_p beta_s group_p group_s rows cols i j S1 G1 F1 B1 S2 G2 F2 B2).
  assert (Q3 := both_order parallel serial cp cs fraction_p fraction_s dwell_p dwell_s full_p full_s beta_p beta_s group_p group_s rows cols i j S1 G1 F1 O1 S2 G2 F2 O2).
  assert (Q4 := both_short parallel serial cp cs fraction_p fraction_s dwell_p dwell_s full_p full_s beta_p beta_s group_p group_s rows cols i j S1 G1 F1 B1 O1 S2 G2 F2 B2 O2).
  assert (Q5 := fun a H => both_strict parallel serial cp cs fraction_p fraction_s dwell_p dwell_s full_p full_s beta_p beta_s group_p group_s rows cols i j S1 G1 F1 O1 S2 G2 F2 O2 a (pixel im i j) H Hy).
  destruct (estimate_returns _ _ Q1 Q2 Q3 Q4 Ha Q5 eps He) as (N & HN). exists N. intros n Hn. destruct (R n) as (im' & En & _ & Kn). exists im'. split; [exact En|]. rewrite Kn.
  split; [now apply HN|]. apply (proj2 (estimate_range _ _ Q1 Q2 Q4 Ha n)).
Qed.
Print Assumptions C146_the_first_charge_comes_back.

(** ** One pixel. *)
Definition well_ccd (beta : R) : ccd R := mkCCD [1] 1 [1] [beta] [0] [BList [1]].
Definition well_direction (beta density : R) : direction R := mkDir (Some (well_ccd beta)) (Some small_roe) (Some (TOne (small_trap density))) 0 0 WNone.
Lemma well_setting beta density : single_phase (well_direction beta density) 1 (well_ccd beta) 1 [small_trap density] (ln 2) false.
Proof. constructor; try reflexivity; try lra; [exists (TOne (small_trap density)); auto|discriminate|exists true, DFloat; reflexivity|apply ln_pos; lra|left; reflexivity]. Qed.
Lemma well_density x : 1 * traps_per_pixel [small_trap x] = x.
Proof. unfold traps_per_pixel, Rsum. cbn. lra. Qed.
Lemma well_params beta : phase_params (well_ccd beta) 0 0 beta 1. Proof. constructor; reflexivity. Qed.
(** A pixel with as many traps as the well has room for, and a well that fills as the square of the charge, leaves as
    much of nine tenths of an electron as of one tenth. *)
Theorem C146_steep_wells_refuted : exists (dim bright y : image R) parallel serial cp cs gp gs dwell,
  single_phase parallel 1 cp 1 gp dwell false /\ instant_group gp /\ phase_params cp 0 0 2 1 /\ single_phase serial 1 cs 1 gs dwell false /\ instant_group gs /\
  shape 1 1 dim /\ shape 1 1 bright /\ leads_corner dim 0 0 /\ leads_corner bright 0 0 /\ 0 <= pixel dim 0 0 < pixel bright 0 0 /\
  add_cti dim parallel serial None = Ok (y, the_roe parallel, the_roe serial) /\ add_cti bright parallel serial None = Ok (y, the_roe parallel, the_roe serial) /\ 0 < pixel y 0 0.
Proof.
  assert (G : instant_group [small_trap 1]) by (apply small_group; lra).
  assert (X : forall a, 0 < a < 1 -> add_cti (one_row a) (well_direction 2 1) deep_direction None = Ok (one_row (7 / 8 * (a - a * a)), the_roe (well_direction 2 1), the_roe deep_direction)).
  { intros a Ha.
    destruct (first_pixel (well_direction 2 1) deep_direction (well_ccd 2) deep_ccd 1 1 (ln 2) (ln 2) 1 2 2 1 [small_trap 1] [small_trap (1 / 4)] 1 1 (well_setting 2 1) G (well_params 2) ltac:(lra) ltac:(lra)
      deep_setting quarter_group deep_params ltac:(lra) ltac:(lra) (one_row a) 0 0 (one_row_shape a) ltac:(lia) ltac:(lia) (dot_corner a) ltac:(unfold pixel; cbn; lra)) as (im' & E & Sh & K).
    rewrite E, (one_pixel im' Sh), K, quarter_density, well_density. change (0 + 1 + d_offset (well_direction 2 1))%nat with 1%nat. change (0 + 1 + d_offset deep_direction)%nat with 1%nat.
    assert (D : past_pixels 1 1 2 1 (pixel (one_row a) 0 0) = a - a * a).
    { cbn [past_pixels]. unfold pixel. cbn [one_row nth]. unfold past_empty, depth. destruct (Rle_dec a 0); [lra|]. replace (a / 1) with a by field. rewrite (Rmin_right 1 a) by lra. replace 2 with (INR 2) by (cbn; lra). rewrite Rpower_pow by lra. cbn [pow]. rewrite Rmin_right by nra. ring. }
    rewrite D, past_deep by nra. reflexivity. }
  exists (one_row (1 / 10)), (one_row (9 / 10)), (one_row (7 / 8 * (9 / 100))), (well_direction 2 1), deep_direction, (well_ccd 2), deep_ccd, [small_trap 1], [small_trap (1 / 4)], (ln 2).
  split; [apply well_setting|]. split; [exact G|]. split; [apply well_params|]. split; [exact deep_setting|]. split; [exact quarter_group|]. split; [apply one_row_shape|]. split; [apply one_row_shape|].
  split; [apply dot_corner|]. split; [apply dot_corner|]. split; [unfold pixel; cbn; lra|].
  split; [rewrite X by lra; replace (1 / 10 - 1 / 10 * (1 / 10)) with (9 / 100) by lra; reflexivity|]. split; [rewrite X by lra; replace (9 / 10 - 9 / 10 * (9 / 10)) with (9 / 100) by lra; reflexivity|]. unfold pixel. cbn. lra.
Qed.
Print Assumptions C146_steep_wells_refuted.

(** Wells that fill as the square root of the charge: 21/32 of an electron are read out, and come back. *)
Example C146_example : exists y, add_cti (one_row 1) (well_direction (1 / 2) (1 / 4)) deep_direction None = Ok (y, the_roe (well_direction (1 / 2) (1 / 4)), the_roe deep_direction) /\ pixel y 0 0 = 21 / 32 /\
  orderly (1 * traps_per_pixel [small_trap (1 / 4)]) 1 (1 / 2) /\ orderly (1 * traps_per_pixel [small_trap (1 / 4)]) 2 1 /\
  exists iterations, forall n, (iterations <= n)%nat -> exists im', remove_cti y n (well_direction (1 / 2) (1 / 4)) deep_direction None = Ok im' /\ 99 / 100 < pixel im' 0 0 <= 1.
Proof.
  assert (O1 : orderly (1 * traps_per_pixel [small_trap (1 / 4)]) 1 (1 / 2)) by (left; lra). assert (O2 : orderly (1 * traps_per_pixel [small_trap (1 / 4)]) 2 1) by (left; lra).
  destruct (C146_the_first_charge_comes_back (one_row 1) (well_direction (1 / 2) (1 / 4)) deep_direction (well_ccd (1 / 2)) deep_ccd 1 1 (ln 2) (ln 2) 1 2 (1 / 2) 1 [small_trap (1 / 4)] [small_trap (1 / 4)] 1 1 0 0
    (well_setting _ _) quarter_group (well_params _) ltac:(lra) ltac:(lra) O1 deep_setting quarter_group deep_params ltac:(lra) ltac:(lra) O2 (one_row_shape 1) ltac:(lia) ltac:(lia) (dot_corner 1) ltac:(unfold pixel; cbn; lra)) as (y & E & R).
  destruct (first_pixel (well_direction (1 / 2) (1 / 4)) deep_direction (well_ccd (1 / 2)) deep_ccd 1 1 (ln 2) (ln 2) 1 2 (1 / 2) 1 [small_trap (1 / 4)] [small_trap (1 / 4)] 1 1
    (well_setting _ _) quarter_group (well_params _) ltac:(lra) ltac:(lra) deep_setting quarter_group deep_params ltac:(lra) ltac:(lra) (one_row 1) 0 0 (one_row_shape 1) ltac:(lia) ltac:(lia) (dot_corner 1) ltac:(unfold pixel; cbn; lra)) as (y' & E' & _ & K).
  rewrite E in E'. injection E' as <-. rewrite quarter_density in K. change (0 + 1 + d_offset (well_direction (1 / 2) (1 / 4)))%nat with 1%nat in K. change (0 + 1 + d_offset deep_direction)%nat with 1%nat in K. change (pixel (one_row 1) 0 0) with 1 in K.
  assert (D : past_pixels (1 / 4) 1 (1 / 2) 1 1 = 3 / 4) by (rewrite pixels_full by (cbn; lra); cbn; lra). rewrite D, past_deep in K by lra.
  assert (K' : pixel y 0 0 = 21 / 32) by (rewrite K; lra). exists y. split; [exact E|]. split; [exact K'|]. split; [exact O1|]. split; [exact O2|].
  destruct (R ltac:(rewrite K'; lra) (1 / 100) ltac:(lra)) as (N & HN). exists N. intros n Hn. destruct (HN n Hn) as (im' & En & B). exists im'. split; [exact En|]. unfold pixel in B at 1 4. cbn in B. split; [|apply B]. eapply Rle_lt_trans; [|apply B]. lra.
Qed.
