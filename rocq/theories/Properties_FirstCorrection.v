
(** * C145: what a correction brings back of the first charge, in linear wells. *)
From Coq Require Import ZArith List Bool Reals Lra Lia.
From Verif Require Import Num Py RFacts CCDModel TrapsModel ManagerModel ROEModel ClockModel MainModel Spec SpecImage SpecReadout SpecHistory SpecRecovery SpecFirst SpecInTurn
  OrderFacts ReadoutImage ReadoutExamples FirstFacts EfficiencyFacts InTurnFacts FirstCorrectionFacts Properties_Efficiency Properties_InTurn.
Import ListNotations.
Open Scope R_scope.

(** The share of the first charge that is read out from row [i] and column [j]. *)
Definition efficiency (parallel serial : direction R) (rho_p full_p rho_s full_s : R) (i j : nat) : R :=
  (1 - rho_p / full_p) ^ (i + 1 + d_offset parallel) * (1 - rho_s / full_s) ^ (j + 1 + d_offset serial).

(** A correction with [n] iterations leaves the share [(1 - e) ^ (n + 1)] missing, where [e] is the share that was read out. *)
Theorem C145_correction_of_the_first_charge (y : image R) n parallel serial cp cs fraction_p fraction_s dwell_p dwell_s full_p full_s group_p group_s rows cols i j :
  single_phase parallel rows cp fraction_p group_p dwell_p false -> instant_group group_p -> phase_params cp 0 0 1 full_p -> 0 < full_p -> fraction_p * traps_per_pixel group_p < full_p ->
  single_phase serial cols cs fraction_s group_s dwell_s false -> instant_group group_s -> phase_params cs 0 0 1 full_s -> 0 < full_s -> fraction_s * traps_per_pixel group_s < full_s ->
  shape rows cols y -> (i < rows)%nat -> (j < cols)%nat -> leads_corner y i j ->
  let e := efficiency parallel serial (fraction_p * traps_per_pixel group_p) full_p (fraction_s * traps_per_pixel group_s) full_s i j in
  0 <= pixel y i j -> pixel y i j <= full_p * e -> pixel y i j <= full_s * e ->
  exists im', remove_cti y n parallel serial None = Ok im' /\ shape rows cols im' /\ pixel im' i j = pixel y i j / e * (1 - (1 - e) ^ (n + 1)).
Proof.
  intros S1 G1 P1 F1 R1 S2 G2 P2 F2 R2 Hs Hi Hj Hl e Ha Hp Hq. replace (n + 1)%nat with (S n) by lia.
  exact (corrected_first parallel serial cp cs fraction_p fraction_s dwell_p dwell_s full_p full_s group_p group_s rows cols i j S1 G1 P1 F1 R1 S2 G2 P2 F2 R2 Hi Hj y n Hs Hl Ha Hp Hq).
Qed.
Print Assumptions C145_correction_of_the_first_charge.

(** So of an image that was read out, all but that share of the first charge comes back. *)
Theorem C145_first_charge_comes_back (im : image R) n parallel serial cp cs fraction_p fraction_s dwell_p dwell_s full_p full_s group_p group_s rows cols i j :
  single_phase parallel rows cp fraction_p group_p dwell_p false -> instant_group group_p -> phase_params cp 0 0 1 full_p -> 0 < full_p -> fraction_p * traps_per_pixel group_p < full_p ->
  single_phase serial cols cs fraction_s group_s dwell_s false -> instant_group group_s -> phase_params cs 0 0 1 full_s -> 0 < full_s -> fraction_s * traps_per_pixel group_s < full_s ->
  shape rows cols im -> (i < rows)%nat -> (j < cols)%nat -> leads_corner im i j -> 0 <= pixel im i j -> pixel im i j <= full_p -> pixel im i j <= full_s ->
  let e := efficiency parallel serial (fraction_p * traps_per_pixel group_p) full_p (fraction_s * traps_per_pixel group_s) full_s i j in
  0 < e <= 1 /\
  exists y im', add_cti im parallel serial None = Ok (y, the_roe parallel, the_roe serial) /\ remove_cti y n parallel serial None = Ok im' /\ shape rows cols im' /\
    pixel im' i j = pixel im i j * (1 - (1 - e) ^ (n + 1)).
Proof.
  intros S1 G1 P1 F1 R1 S2 G2 P2 F2 R2 Hs Hi Hj Hl Ha Hp Hq e. pose proof (e_share parallel serial cp cs fraction_p fraction_s dwell_p dwell_s full_p full_s group_p group_s rows cols i j S1 G1 R1 S2 G2 R2) as He. change (0 < e <= 1) in He. split; [exact He|].
  destruct (read_once parallel serial cp cs fraction_p fraction_s dwell_p dwell_s full_p full_s group_p group_s rows cols i j S1 G1 P1 F1 R1 S2 G2 P2 F2 R2 Hi Hj im Hs Hl Ha Hp Hq) as (y & E & Sy & Ly & Ky). change (pixel y i j = pixel im i j * e) in Ky.
  assert (M : forall z, pixel im i j <= z -> pixel y i j <= z * e) by (intros z Hz; rewrite Ky; apply Rmult_le_compat_r; lra).
  destruct (C145_correction_of_the_first_charge y n parallel serial cp cs fraction_p fraction_s dwell_p dwell_s full_p full_s group_p group_s rows cols i j S1 G1 P1 F1 R1 S2 G2 P2 F2 R2 Sy Hi Hj Ly) as (im' & E' & Sh & K).
  - rewrite Ky. apply Rmult_le_pos; lra.
  - now apply M.
  - now apply M.
  - exists y, im'. split; [exact E|]. split; [exact E'|]. split; [exact Sh|]. rewrite K. fold e. rewrite Ky. field. lra.
Qed.
Print Assumptions C145_first_charge_comes_back.

(** ** Half an electron in the second column of two rows. *)
Example C145_example : exists y im',
  add_cti corner_image (far_direction 0) deep_direction None = Ok (y, the_roe (far_direction 0), the_roe deep_direction) /\ remove_cti y 2 (far_direction 0) deep_direction None = Ok im' /\
  pixel im' 0 1 = 1 / 2 * (1 - (109 / 256) ^ 3).
Proof.
  assert (S1 : single_phase (far_direction 0) 2 small_ccd 1 [small_trap (1 / 4)] (ln 2) false) by (constructor; try reflexivity; try lra; [exists (TOne (small_trap (1 / 4))); auto|discriminate|exists true, DFloat; reflexivity|apply ln_pos; lra|left; reflexivity]).
  assert (S2 : single_phase deep_direction 2 deep_ccd 1 [small_trap (1 / 4)] (ln 2) false) by (constructor; try reflexivity; try lra; [exists (TOne (small_trap (1 / 4))); auto|discriminate|exists true, DFloat; reflexivity|apply ln_pos; lra|left; reflexivity]).
  assert (L : leads_corner corner_image 0 1). { intros [|k] [|[|l]] Hk Hl N; try lia; [reflexivity|exfalso; now apply N]. }
  destruct (C145_first_charge_comes_back corner_image 2 (far_direction 0) deep_direction small_ccd deep_ccd 1 1 (ln 2) (ln 2) 1 2 [small_trap (1 / 4)] [small_trap (1 / 4)] 2 2 0 1
    S1 quarter_group shallow_params ltac:(lra) ltac:(rewrite quarter_density; lra) S2 quarter_group deep_params ltac:(lra) ltac:(rewrite quarter_density; lra)
    ltac:(split; [reflexivity|repeat constructor]) ltac:(lia) ltac:(lia) L ltac:(unfold pixel; cbn; lra) ltac:(unfold pixel; cbn; lra) ltac:(unfold pixel; cbn; lra)) as (_ & y & im' & E & E' & _ & K).
  exists y, im'. split; [exact E|]. split; [exact E'|]. rewrite K, quarter_density. unfold pixel, efficiency. cbn. lra.
Qed.
