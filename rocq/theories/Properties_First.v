(** * C116: the first packet of a column, and what more traps do. *)
From Coq Require Import ZArith List Bool Reals Lra Lia FunctionalExtensionality.
From Coquelicot Require Import Rcomplements Rbar Hierarchy RInt.
From Verif Require Import Num Py RFacts CCDModel TrapsModel ManagerModel ROEModel ClockModel MainModel Spec SpecImage SpecReadout SpecHistory SpecRecovery SpecFirst
  InstantFacts OrderFacts TameFacts RecoverFacts DepthFacts AboveFacts RecoverImageFacts ReadoutImage ReadoutExamples DivergeExample FirstFacts.
Import ListNotations.
Open Scope R_scope.

(** The first charge in a column only meets empty traps: what is left of it depends on the number of
    traps in a pixel alone, not on their lifetimes, the dwell time, or what follows. *)
Theorem C116_first_packet_in_closed_form (im : image R) parallel serial c fraction group dwell full beta rows cols i j :
  shape rows cols im -> (i < rows)%nat -> (j < cols)%nat -> single_phase parallel rows c fraction group dwell false -> instant_group group ->
  phase_params c 0 0 beta full -> 0 < full -> 0 < beta -> d_traps serial = None -> d_window serial = WNone -> leads im i j -> 0 <= pixel im i j ->
  exists im', add_cti im parallel serial None = Ok (im', the_roe parallel, the_roe serial) /\ shape rows cols im' /\
    pixel im' i j = past_pixels (fraction * traps_per_pixel group) full beta (i + 1 + d_offset parallel) (pixel im i j).
Proof. exact (first_packet im parallel serial c fraction group dwell full beta rows cols i j). Qed.
Print Assumptions C116_first_packet_in_closed_form.

(** More traps take more from it, in wells that fill slowly enough for the fewer traps; the
    lifetimes and dwell times of the two calls may differ. *)
Theorem C116_more_traps_take_more_from_the_first_packet (im : image R) parallel parallel' serial c c' fraction fraction' group group' dwell dwell' full beta rows cols i j :
  shape rows cols im -> (i < rows)%nat -> (j < cols)%nat -> 0 < full -> 1 <= beta -> d_traps serial = None -> d_window serial = WNone ->
  single_phase parallel rows c fraction group dwell false -> instant_group group -> phase_params c 0 0 beta full ->
  single_phase parallel' rows c' fraction' group' dwell' false -> instant_group group' -> phase_params c' 0 0 beta full ->
  d_offset parallel = d_offset parallel' -> leads im i j -> 0 < pixel im i j ->
  fraction * traps_per_pixel group * beta < full -> fraction * traps_per_pixel group < fraction' * traps_per_pixel group' ->
  exists im1 im2, add_cti im parallel serial None = Ok (im1, the_roe parallel, the_roe serial) /\
    add_cti im parallel' serial None = Ok (im2, the_roe parallel', the_roe serial) /\ pixel im2 i j < pixel im1 i j.
Proof.
  intros Hs Hi Hj Hf Hb Hst Hsw S1 G1 P1 S2 G2 P2 Ho Hl Ha Hg Hm.
  destruct (first_packet im parallel serial c fraction group dwell full beta rows cols i j Hs Hi Hj S1 G1 P1 Hf ltac:(lra) Hst Hsw Hl ltac:(lra)) as (im1 & E1 & _ & K1).
  destruct (first_packet im parallel' serial c' fraction' group' dwell' full beta rows cols i j Hs Hi Hj S2 G2 P2 Hf ltac:(lra) Hst Hsw Hl ltac:(lra)) as (im2 & E2 & _ & K2).
  exists im1, im2. split; [exact E1|]. split; [exact E2|]. rewrite K1, K2, Ho. apply pixels_more_strict; auto; [|lia].
  apply Rmult_le_pos; [left; exact (sp_share _ _ _ _ _ _ _ S1)|]. apply density_nonneg. destruct G1 as [_ G1]. eapply Forall_impl; [|exact G1]. intros t Ht. apply Ht.
Qed.
Print Assumptions C116_more_traps_take_more_from_the_first_packet.
(** So it tells how many traps there are. *)
Theorem C116_first_packet_tells_the_density (im : image R) parallel parallel' serial c c' fraction fraction' group group' dwell dwell' full beta rows cols i j im1 im2 pr1 pr2 sr1 sr2 :
  shape rows cols im -> (i < rows)%nat -> (j < cols)%nat -> 0 < full -> 1 <= beta -> d_traps serial = None -> d_window serial = WNone ->
  single_phase parallel rows c fraction group dwell false -> instant_group group -> phase_params c 0 0 beta full ->
  single_phase parallel' rows c' fraction' group' dwell' false -> instant_group group' -> phase_params c' 0 0 beta full ->
  d_offset parallel = d_offset parallel' -> leads im i j -> 0 < pixel im i j ->
  fraction * traps_per_pixel group * beta < full -> fraction' * traps_per_pixel group' * beta < full ->
  add_cti im parallel serial None = Ok (im1, pr1, sr1) -> add_cti im parallel' serial None = Ok (im2, pr2, sr2) -> pixel im1 i j = pixel im2 i j ->
  fraction * traps_per_pixel group = fraction' * traps_per_pixel group'.
Proof.
  intros Hs Hi Hj Hf Hb Hst Hsw S1 G1 P1 S2 G2 P2 Ho Hl Ha Hg1 Hg2 E1 E2 Hp.
  destruct (Rtotal_order (fraction * traps_per_pixel group) (fraction' * traps_per_pixel group')) as [H|[H|H]]; [|exact H|]; exfalso.
  - destruct (C116_more_traps_take_more_from_the_first_packet im parallel parallel' serial c c' fraction fraction' group group' dwell dwell' full beta rows cols i j) as (a & b & Ea & Eb & L); auto. rewrite E1 in Ea. rewrite E2 in Eb. injection Ea as -> _ _. injection Eb as -> _ _. lra.
  - destruct (C116_more_traps_take_more_from_the_first_packet im parallel' parallel serial c' c fraction' fraction group' group dwell' dwell full beta rows cols i j) as (a & b & Ea & Eb & L); auto. rewrite E2 in Ea. rewrite E1 in Eb. injection Ea as -> _ _. injection Eb as -> _ _. lra.
Qed.
Print Assumptions C116_first_packet_tells_the_density.

(** ** More traps may yet leave more charge in the image. *)
(** Traps that release quickly, in wells that fill as the fourth power of the charge. *)
Definition quick_trap : trap R := mkTrap (1 / 8) (1 / 8) RInf (1 / (1 / 8)) false CInstant.
Definition fourth_ccd : ccd R := mkCCD [1] 1 [1] [4] [0] [BList [1]].
Definition fourth_direction (traps : list (trap R)) : direction R := mkDir (Some fourth_ccd) (Some small_roe) (Some (TFlat traps)) 0 1 WNone.
Lemma quick_trap_init : trap_instant_init (1 / 8) (1 / 8) false = Ok quick_trap.
Proof.
  unfold trap_instant_init, trap_init_class, quick_trap. rnum.
  replace (Reqb (1 / 8) 0) with false by (symmetry; apply Reqb_false; lra). replace (Reqb 0 0) with true by (symmetry; apply Reqb_true; reflexivity). reflexivity.
Qed.
Lemma quick_physical : physical quick_trap. Proof. constructor; cbn; lra. Qed.
Lemma fourth_setting traps : traps <> [] -> single_phase (fourth_direction traps) 2 fourth_ccd 1 traps (ln 2) false.
Proof.
  intros H. constructor; try reflexivity; try lra; try assumption.
  - exists (TFlat traps). split; [reflexivity|]. destruct traps; [contradiction|reflexivity].
  - exists true, DFloat. reflexivity.
  - apply ln_pos. lra.
  - left. reflexivity.
Qed.
Lemma fourth_depth a : 0 < a <= 1 -> depth 1 4 a = a * a * (a * a).
Proof.
  intros Ha. unfold depth. destruct (Rle_dec a 0); [lra|]. rewrite Rdiv_1, Rmin_right by lra. replace 4 with (INR 4) by (cbn; lra). rewrite Rpower_pow by lra. cbn. lra.
Qed.

(** Two packets through a pixel: the first from an empty pixel. *)
Section Two.
Context (traps : list (trap R)) (full beta dwell : R).
Hypothesis Hphys : Forall physical traps.
Hypothesis Hd : 0 <= dwell.
Hypothesis Hf : 0 < full.
Hypothesis Hb : 0 < beta.
Let rho := traps_per_pixel traps.
Notation keep s := (exp (- dwell / timescale traps s)).
(** What a pixel filled up to [v] releases. *)
Fixpoint share_released (s : nat) (l : list (trap R)) : R :=
  match l with [] => 0 | t :: l' => t_density t * (1 - keep s) + share_released (S s) l' end.
Lemma filled_total (P : profile) v k : 0 <= v <= 1 -> (forall s x, 0 < x < v -> P s x = k s) -> (forall s x, v < x < 1 -> P s x = 0) ->
  forall l s, electrons_from s l P 0 1 = v * (fix go s l := match l with [] => 0 | t :: l' => t_density t * k s + go (S s) l' end) s l.
Proof.
  intros Hv H1 H2. induction l as [|t l IH]; intros s; cbn [electrons_from]; [lra|]. rewrite IH.
  assert (R1 : is_RInt (P s) 0 v (v * k s)).
  { apply (is_RInt_ext (fun _ => k s)); [intros x Hx; rewrite Rmin_left, Rmax_right in Hx by lra; symmetry; now apply H1|].
    replace (v * k s) with (scal (v - 0) (k s)) by (unfold scal; cbn; unfold mult; cbn; lra). apply (is_RInt_const (V := R_NormedModule)). }
  assert (R2 : is_RInt (P s) v 1 0).
  { apply (is_RInt_ext (fun _ => 0)); [intros x Hx; rewrite Rmin_left, Rmax_right in Hx by lra; symmetry; now apply H2|].
    pose proof (is_RInt_const (V := R_NormedModule) v 1 0) as Q. unfold scal in Q; cbn in Q; unfold mult in Q; cbn in Q. rewrite Rmult_0_r in Q. exact Q. }
  pose proof (is_RInt_Chasles (V := R_NormedModule) _ _ _ _ _ _ R1 R2) as R3. apply (is_RInt_unique (V := R_CompleteNormedModule)) in R3. rewrite R3. unfold plus. cbn. lra.
Qed.
Lemma step_released v (P : profile) : 0 <= v <= 1 -> (forall s x, 0 < x < v -> P s x = 1) -> (forall s x, v < x < 1 -> P s x = 0) -> released traps dwell P = share_released 0 traps * v.
Proof.
  intros Hv H1 H2. unfold released, electrons.
  rewrite (filled_total P v (fun _ => 1) Hv H1 H2), (filled_total (after_release traps dwell P) v (fun s => keep s) Hv).
  - assert (G : forall l s, v * (fix go s l := match l with [] => 0 | t :: l' => t_density t * 1 + go (S s) l' end) s l
                         - v * (fix go s l := match l with [] => 0 | t :: l' => t_density t * keep s + go (S s) l' end) s l = share_released s l * v).
    { induction l as [|t l IH]; intros s; cbn [share_released]; [lra|]. specialize (IH (S s)). lra. }
    apply G.
  - intros s x Hx. unfold after_release. rewrite H1 by exact Hx. lra.
  - intros s x Hx. unfold after_release. rewrite H2 by exact Hx. lra.
Qed.
Lemma two_past a b : 0 < a -> 0 <= b -> rho * depth full beta a <= a -> 0 <= share_released 0 traps ->
  let c := b + share_released 0 traps * depth full beta a in
  exists y, past_clouds traps (depth full beta) dwell empty_profile [a; b] = [a - rho * depth full beta a; y] /\ c - rho * depth full beta c <= y <= c /\ 0 <= y.
Proof.
  intros Ha Hb' Hr Hsr c. pose proof (depth_range full beta a Hf Hb) as Da. assert (L1 : left_over traps (depth full beta) dwell a empty_profile = a - rho * depth full beta a).
  { rewrite void_left; auto using void_empty; try lra. unfold past_empty. rewrite Rmin_right; [reflexivity|exact Hr]. }
  cbn [past_clouds]. rewrite L1. eexists. split; [reflexivity|].
  set (P := then_traps _ _ _ a empty_profile).
  assert (Cl : cloud traps dwell a empty_profile = a) by (unfold cloud; rewrite void_released, Rplus_0_r, Rmax_right; auto using void_empty; lra).
  assert (Dm : demand traps (depth full beta a) (after_release traps dwell empty_profile) = rho * depth full beta a) by (apply void_demand; [apply void_release, void_empty|exact Da]).
  assert (P1 : forall s x, 0 < x < depth full beta a -> P s x = 1).
  { intros s x Hx. unfold P, then_traps. rewrite Cl. unfold after_capture. destruct (Rlt_dec x (depth full beta a)); [|lra]. destruct (Rle_dec _ _) as [_|N]; [reflexivity|]. exfalso. apply N. rewrite Dm. exact Hr. }
  assert (P2 : forall s x, depth full beta a < x < 1 -> P s x = 0).
  { intros s x Hx. unfold P, then_traps. rewrite Cl. unfold after_capture. destruct (Rlt_dec x (depth full beta a)); [lra|]. unfold after_release, empty_profile. lra. }
  assert (Er : released traps dwell P = share_released 0 traps * depth full beta a) by now apply step_released.
  assert (Hc : 0 <= c) by (unfold c; nra).
  assert (Tp : tidy (length traps) P).
  { assert (E : P = fill_to (depth full beta a) (after_release traps dwell empty_profile)).
    { apply functional_extensionality. intros s. apply functional_extensionality. intros x. unfold P, then_traps. rewrite Cl. unfold after_capture, fill_to.
      destruct (Rlt_dec x (depth full beta a)); [|reflexivity]. destruct (Rle_dec _ _) as [_|N]; [reflexivity|]. exfalso. apply N. rewrite Dm. exact Hr. }
    rewrite E. apply tidy_fill; [exact Da|]. apply tidy_release; auto. apply tidy_empty. }
  unfold left_over. unfold cloud. rewrite Er. fold c. rewrite Rmax_right by exact Hc. unfold captured.
  pose proof (depth_range full beta c Hf Hb) as Dc. pose proof (demand_bounds traps Hphys (depth full beta c) (after_release traps dwell P) Dc ltac:(now apply tidy_release)) as Db. fold rho in Db.
  unfold Rmin. destruct (Rle_dec _ _); lra.
Qed.
End Two.

Lemma past_empty_bounds rho full beta a : 0 <= rho -> 0 < full -> 0 < beta -> 0 <= a -> a - rho * depth full beta a <= past_empty rho full beta a <= a.
Proof.
  intros Hr Hf Hb Ha. unfold past_empty. pose proof (depth_range full beta a Hf Hb). assert (0 <= rho * depth full beta a) by (apply Rmult_le_pos; lra). unfold Rmin. destruct (Rle_dec _ _); lra.
Qed.
Definition slow_only := [small_trap (1 / 8)].
Definition slow_and_quick := [small_trap (1 / 8); quick_trap].
Lemma thin_traps l : Forall physical l -> Forall physical (map (thinned 1) l).
Proof. intros H. induction H; constructor; [apply thinned_physical; [lra|assumption]|assumption]. Qed.
Lemma slow_group : instant_group slow_only /\ instant_group slow_and_quick.
Proof. split; (split; [discriminate|]); repeat constructor; try apply small_physical; try apply quick_physical; cbn; lra. Qed.
Lemma slow_density : traps_per_pixel (map (thinned 1) slow_only) = 1 / 8 /\ traps_per_pixel (map (thinned 1) slow_and_quick) = 1 / 4.
Proof. unfold traps_per_pixel, Rsum; cbn; split; lra. Qed.
Lemma slow_shares : share_released (map (thinned 1) slow_only) (ln 2) 0 (map (thinned 1) slow_only) = 1 / 16 /\
  share_released (map (thinned 1) slow_and_quick) (ln 2) 0 (map (thinned 1) slow_and_quick) = 383 / 2048.
Proof.
  unfold timescale. cbn. replace (- ln 2 / 1) with (- ln 2) by field. rewrite exp_ln2.
  replace (- ln 2 / (1 / 8)) with (- ln (2 ^ 8)) by (rewrite ln_pow by lra; cbn; field). rewrite exp_Ropp, exp_ln by lra. lra.
Qed.
(** The readout of one electron in the first of two rows, one pixel away from the output. *)
Lemma fourth_readout group : group <> [] -> instant_group group -> exists im', add_cti small_image (fourth_direction group) no_direction None = Ok (im', the_roe (fourth_direction group), the_roe no_direction) /\
  column_of im' 0 = column_clouds (map (thinned 1) group) (depth 1 4) (ln 2) 1 [1; 0].
Proof.
  intros Hne Hg. destruct (any_image small_image (fourth_direction group) no_direction fourth_ccd 1 group (ln 2) 1 4 2 1 small_shape ltac:(lia) (fourth_setting group Hne) Hg) as (im' & E & _ & K);
    [constructor; reflexivity|lra|lra|reflexivity|reflexivity|].
  exists im'. split; [exact E|]. exact (K 0%nat ltac:(lia)).
Qed.
Lemma slow_total : Rsum (column_clouds (map (thinned 1) slow_only) (depth 1 4) (ln 2) 1 [1; 0]) <= 91 / 100.
Proof.
  destruct slow_density as [D _]. destruct slow_shares as [S _]. assert (HP : Forall physical (map (thinned 1) slow_only)) by (apply thin_traps; repeat constructor; cbn; lra).
  unfold column_clouds. cbn [length through_clouds].
  destruct (two_past _ 1 4 (ln 2) HP ln2_nonneg Rlt_0_1 ltac:(lra) 1 0 ltac:(lra) ltac:(lra)) as (y1 & E1 & B1 & N1); [rewrite D, fourth_depth; lra|rewrite S; lra|]. rewrite E1. rewrite D, S, fourth_depth in * by lra.
  cbn [read_clouds]. set (a := 1 - 1 / 8 * (1 * 1 * (1 * 1))) in *. assert (Ea : a = 7 / 8) by (unfold a; lra). clearbody a. subst a.
  destruct (two_past _ 1 4 (ln 2) HP ln2_nonneg Rlt_0_1 ltac:(lra) (7 / 8) y1 ltac:(lra) N1) as (y2 & E2 & B2 & N2); [rewrite D, fourth_depth; lra|rewrite S; lra|]. rewrite E2. rewrite D, S, (fourth_depth (7 / 8)) in * by lra.
  cbn [past_clouds]. rewrite void_left; auto using void_empty, ln2_nonneg; try lra. rewrite D. pose proof (past_empty_bounds (1 / 8) 1 4 y2 ltac:(lra) Rlt_0_1 ltac:(lra) N2) as B3.
  unfold Rsum. cbn [fold_right]. lra.
Qed.
Lemma quick_total : 91 / 100 < Rsum (column_clouds (map (thinned 1) slow_and_quick) (depth 1 4) (ln 2) 1 [1; 0]).
Proof.
  destruct slow_density as [_ D]. destruct slow_shares as [_ S]. assert (HP : Forall physical (map (thinned 1) slow_and_quick)) by (apply thin_traps; repeat constructor; try apply quick_physical; cbn; lra).
  unfold column_clouds. cbn [length through_clouds].
  destruct (two_past _ 1 4 (ln 2) HP ln2_nonneg Rlt_0_1 ltac:(lra) 1 0 ltac:(lra) ltac:(lra)) as (y1 & E1 & B1 & N1); [rewrite D, fourth_depth; lra|rewrite S; lra|]. rewrite E1. rewrite D, S, (fourth_depth 1) in * by lra.
  rewrite fourth_depth in B1 by lra.
  cbn [read_clouds]. set (a := 1 - 1 / 4 * (1 * 1 * (1 * 1))) in *. assert (Ea : a = 3 / 4) by (unfold a; lra). clearbody a. subst a.
  destruct (two_past _ 1 4 (ln 2) HP ln2_nonneg Rlt_0_1 ltac:(lra) (3 / 4) y1 ltac:(lra) N1) as (y2 & E2 & B2 & N2); [rewrite D, fourth_depth; lra|rewrite S; lra|]. rewrite E2. rewrite D, S, (fourth_depth (3 / 4)) in * by lra.
  assert (Y1 : 186 / 1000 <= y1 <= 188 / 1000) by lra. clear B1 E1 E2.
  assert (F : forall c, 0 < c <= 26 / 100 -> depth 1 4 c <= 46 / 10000) by (intros c Hc; rewrite fourth_depth by lra; assert (Q1 : 0 <= c * c <= 676 / 10000) by nra; set (q := c * c) in *; clearbody q; clear -Q1; nra).
  pose proof (F (y1 + 383 / 2048 * (3 / 4 * (3 / 4) * (3 / 4 * (3 / 4)))) ltac:(lra)) as F1. pose proof (F y2 ltac:(lra)) as F2.
  cbn [past_clouds]. rewrite void_left; auto using void_empty, ln2_nonneg; try lra. rewrite D. pose proof (past_empty_bounds (1 / 4) 1 4 y2 ltac:(lra) Rlt_0_1 ltac:(lra) N2) as B3.
  unfold Rsum. cbn [fold_right]. lra.
Qed.
(** The quick traps take charge from the bright packet, so that it fills fewer of the slow traps, and give it
    back before the readout ends.  The wells are as C68 and C100 ask for, with and without them. *)
Theorem C116_more_traps_leave_less_charge_refuted : exists slow quick im im1 im2,
  let d := fourth_direction in
  instant_group [slow] /\ instant_group [slow; quick] /\ 0 < t_density slow /\ 0 < t_density quick /\
  mild (traps_per_pixel [slow]) 1 4 0 /\ traps_per_pixel [slow; quick] * 4 <= 1 /\
  single_phase (d [slow]) 2 fourth_ccd 1 [slow] (ln 2) false /\ single_phase (d [slow; quick]) 2 fourth_ccd 1 [slow; quick] (ln 2) false /\
  shape 2 1 im /\ (forall i j, 0 <= pixel im i j) /\
  add_cti im (d [slow]) no_direction None = Ok (im1, the_roe (d [slow]), the_roe no_direction) /\
  add_cti im (d [slow; quick]) no_direction None = Ok (im2, the_roe (d [slow; quick]), the_roe no_direction) /\
  Rsum (column_of im1 0) < Rsum (column_of im2 0).
Proof.
  destruct slow_group as [G1 G2]. destruct (fourth_readout slow_only ltac:(discriminate) G1) as (im1 & E1 & K1). destruct (fourth_readout slow_and_quick ltac:(discriminate) G2) as (im2 & E2 & K2).
  exists (small_trap (1 / 8)), quick_trap, small_image, im1, im2. cbn zeta. split; [exact G1|]. split; [exact G2|]. split; [cbn; lra|]. split; [cbn; lra|].
  split; [left; unfold traps_per_pixel, Rsum; cbn; lra|]. split; [unfold traps_per_pixel, Rsum; cbn; lra|]. split; [apply fourth_setting; discriminate|]. split; [apply fourth_setting; discriminate|].
  split; [exact small_shape|]. split; [exact small_nonneg|]. split; [exact E1|]. split; [exact E2|]. rewrite K1, K2. pose proof slow_total. pose proof quick_total. lra.
Qed.
Print Assumptions C116_more_traps_leave_less_charge_refuted.

(** ** One electron in the second of three rows. *)
Example C116_example : let im := [[0]; [1]; [1 / 2]] : image R in
  shape 3 1 im /\ leads im 1 0 /\ 0 < pixel im 1 0 /\
  single_phase (small_direction small_roe (TOne (small_trap (1 / 4)))) 3 small_ccd 1 [small_trap (1 / 4)] (ln 2) false /\ instant_group [small_trap (1 / 4)] /\ phase_params small_ccd 0 0 1 1 /\
  1 * traps_per_pixel [small_trap (1 / 4)] * 1 < 1 /\ 1 * traps_per_pixel [small_trap (1 / 4)] < 1 * traps_per_pixel [small_trap (1 / 2)] /\
  past_pixels (1 * traps_per_pixel [small_trap (1 / 4)]) 1 1 2 1 = 9 / 16.
Proof.
  cbn zeta. split; [split; [reflexivity|repeat constructor]|]. split; [intros [|k] Hk; [reflexivity|lia]|]. split; [unfold pixel; cbn; lra|].
  split; [constructor; try reflexivity; try lra; [exists (TOne (small_trap (1 / 4))); auto|discriminate|exists true, DFloat; reflexivity|apply ln_pos; lra|left; reflexivity]|].
  split; [apply small_group; lra|]. split; [constructor; reflexivity|]. assert (T : forall x, traps_per_pixel [small_trap x] = x) by (intros x; unfold traps_per_pixel, Rsum; cbn; lra). rewrite !T.
  split; [lra|]. split; [lra|]. cbn [past_pixels]. rewrite (past_empty_gentle _ 1 1 1) by lra. rewrite depth_one, Rmin_left by lra.
  replace (1 - 1 * (1 / 4) * 1) with (3 / 4) by lra. rewrite past_empty_gentle by lra. rewrite depth_one, Rmin_right by lra. lra.
Qed.
