(** * Concrete readouts, computed with the readout model: a single column, one phase, full well
    depth 1 and fill power 1, so that [n <= 1] electrons reach depth [n]. *)
From Coq Require Import ZArith List Bool Reals Lra Lia FinFun.
From Coquelicot Require Import Rcomplements Rbar Hierarchy RInt.
From Verif Require Import Num Py RFacts CCDModel TrapsModel ManagerModel ROEModel ClockModel MainModel Spec SpecROE SpecImage SpecReadout SpecColumn
  WmFacts ArrayFacts CutFacts InstantFacts ClockFacts MainFacts ShapeFacts ColumnFacts
  ROEClockFacts ROEMatrixFacts ROEExpressFacts ROEKindFacts ReadoutFacts ReadoutImage ReadoutForced ReadoutFull ReadoutInjection ReadoutSpecFacts ReadoutColumnFacts MainReadoutFacts MainColumnFacts.
Import ListNotations.
Open Scope R_scope.

(** ccd_init (PList [1]) (Scalar 1) (Scalar 0) (Scalar 1) None *)
Definition small_ccd : ccd R := mkCCD [1] 1 [1] [1] [0] [BList [1]].
Lemma small_ccd_init : ccd_init (PList [1]) (Scalar 1) (Scalar 0) (Scalar 1) None = Ok small_ccd.
Proof. reflexivity. Qed.
Definition small_trap (density : R) : trap R := mkTrap density 1 RInf (1 / 1) false CInstant.
Lemma small_trap_init density : trap_instant_init density 1 false = Ok (small_trap density).
Proof.
  unfold trap_instant_init, trap_init_class, small_trap. rnum.
  replace (Reqb 1 0) with false by (symmetry; apply Reqb_false; lra). replace (Reqb 0 0) with true by (symmetry; apply Reqb_true; reflexivity). reflexivity.
Qed.
Lemma small_plain : plain_ccd small_ccd.
Proof.
  constructor; [reflexivity| |].
  - intros [|[|k]]; unfold share; cbn; lra.
  - intros [|k] Hk; [|cbn in Hk; lia]. exists 1, 1. split; [constructor; reflexivity|lra].
Qed.
Lemma small_physical density : 0 <= density -> physical (small_trap density).
Proof. intros H. constructor; cbn; lra. Qed.
Lemma small_group density : 0 <= density -> instant_group [small_trap density].
Proof. intros H. split; [discriminate|]. constructor; [|constructor]. split; [apply small_physical, H|reflexivity]. Qed.
Lemma small_phases : trap_phases small_ccd = [0%nat].
Proof. apply one_phase; [reflexivity|unfold share; cbn; lra]. Qed.
Definition small_well := depth 1 1.
Lemma small_well_eq n : 0 < n <= 1 -> small_well n = n.
Proof.
  intros H. unfold small_well, depth. destruct (Rle_dec n 0); [lra|]. rewrite Rmin_right by (unfold Rdiv; lra). rewrite Rpower_1 by (unfold Rdiv; lra). unfold Rdiv. lra.
Qed.

Lemma small_well_at n v : n = v -> 0 < v <= 1 -> small_well n = v.
Proof. intros -> H. apply small_well_eq, H. Qed.

(** The traps hold an electron with the same probability at every depth. *)
Definition flat (a v : R) (P : profile) : Prop := forall x, 0 < x < v -> P 0%nat x = a.
Lemma flat_electrons t a v P : 0 <= v -> flat a v P -> electrons [t] P 0 v = t_density t * (a * v).
Proof.
  intros Hv H. unfold electrons. cbn [electrons_from].
  rewrite (RInt_ext (P 0%nat) (fun _ => a)) by (intros x Hx; rewrite Rmin_left, Rmax_right in Hx by lra; apply H, Hx).
  rewrite RInt_const. unfold scal. cbn. unfold mult. cbn. lra.
Qed.
Lemma flat_empty v : flat 0 v empty_profile.
Proof. intros x _. reflexivity. Qed.
Lemma flat_step well rho d a e n r v P : flat a 1 P -> exp (- d) = e -> r = rho * (a * (1 - e)) -> well (n + r) = v -> 0 < v <= 1 ->
  rho * ((1 - a * e) * v) <= n + r ->
  let t := thinned 1 (small_trap rho) in
  transfer_net [t] well d n P = r - rho * ((1 - a * e) * v) /\
  flat 1 v (transfer_after [t] well d n P).
Proof.
  intros HP He Er Ev Hv Hle t.
  assert (Dt : t_density t = rho) by (unfold t; cbn; lra).
  assert (H1 : flat (a * e) 1 (after_release [t] d P)).
  { intros x Hx. unfold after_release. rewrite HP by exact Hx. unfold timescale. cbn. rewrite Rdiv_1, He. reflexivity. }
  assert (Hr : released [t] d P = r).
  { unfold released. rewrite (flat_electrons t a 1 P ltac:(lra) HP), (flat_electrons t (a * e) 1 _ ltac:(lra) H1), Dt, Er. lra. }
  assert (Hd : demand [t] v (after_release [t] d P) = rho * ((1 - a * e) * v)).
  { unfold demand. rewrite (flat_electrons t (1 - a * e) v); [rewrite Dt; reflexivity|lra|]. intros x Hx. rewrite H1 by lra. reflexivity. }
  unfold transfer_net, transfer_after. rewrite Hr, Ev. split.
  - unfold captured. rewrite Hd, Rmin_right by exact Hle. reflexivity.
  - intros x Hx. unfold after_capture. rewrite Hd. destruct (Rlt_dec x v); [|lra]. destruct (Rle_dec _ (n + r)); [reflexivity|contradiction].
Qed.
Lemma exp_ln2 : exp (- ln 2) = 1 / 2.
Proof. rewrite exp_Ropp, exp_ln by lra. lra. Qed.
Lemma exp_ln4 : exp (- ln 4) = 1 / 4.
Proof. rewrite exp_Ropp, exp_ln by lra. lra. Qed.
Lemma ln_pos x : 1 < x -> 0 < ln x.
Proof. intros H. rewrite <- ln_1. apply ln_increasing; lra. Qed.

(** ** The default readout of a pixel of charge followed by an empty one. *)
Definition small_direction (r : roe R) (traps : traps_arg R) : direction R := mkDir (Some small_ccd) (Some r) (Some traps) 0 0 WNone.
Definition small_roe : roe R := roe_init [ln 2] true true true DFloat.
Lemma small_setting traps n : instant_traps traps -> plain_setting (small_direction small_roe traps) n small_ccd traps [ln 2] DFloat.
Proof.
  intros H. constructor; try reflexivity; [left; reflexivity|exact small_plain|exact H|left; reflexivity].
Qed.
Lemma small_instant rho : 0 <= rho -> instant_traps (TOne (small_trap rho)).
Proof. intros H. split; [discriminate|]. cbn [groups_in]. constructor; [apply small_group, H|constructor]. Qed.
Definition small_image : image R := [[1]; [0]].
Lemma small_shape : shape 2 1 small_image.
Proof. split; [reflexivity|repeat constructor]. Qed.
Lemma small_nonneg i j : 0 <= pixel small_image i j.
Proof. unfold pixel, small_image. destruct i as [|[|[|i]]], j as [|[|j]]; cbn; rnum; lra. Qed.
Lemma small_columns : columns_ok (selected (d_window (no_direction : direction R)) 1) 1.
Proof. split; [constructor; [intros []|constructor]|]. intros j [<-|[]]. cbn. lia. Qed.

Lemma small_past P : flat 0 1 P -> past_traps [thinned 1 (small_trap (1/2))] small_well (ln 2) P [1; 0] = [1/2; 3/16].
Proof.
  intros HP. cbn [past_traps].
  destruct (flat_step small_well (1/2) (ln 2) 0 (1/2) 1 0 1 P HP exp_ln2) as [E1 H1]; try lra; [apply small_well_at; lra|].
  rewrite E1.
  destruct (flat_step small_well (1/2) (ln 2) 1 (1/2) 0 (1/4) (1/4) _ H1 exp_ln2) as [E2 H2]; try lra; [apply small_well_at; lra|].
  rewrite E2. f_equal; [lra|]. f_equal. lra.
Qed.
Lemma small_past' P : flat 0 1 P -> past_traps [thinned 1 (small_trap (1/2))] small_well (ln 2) P [3/16] = [3/32].
Proof.
  intros HP. cbn [past_traps].
  destruct (flat_step small_well (1/2) (ln 2) 0 (1/2) (3/16) 0 (3/16) P HP exp_ln2) as [E1 H1]; try lra; [apply small_well_at; lra|].
  rewrite E1. f_equal. lra.
Qed.
Lemma small_textbook : textbook [thinned 1 (small_trap (1/2))] small_well (ln 2) 0 [1; 0] = [1/2; 3/32].
Proof.
  unfold textbook. cbn [length through_pixels read_out]. rewrite (small_past _ (flat_empty 1)), (small_past' _ (flat_empty 1)). reflexivity.
Qed.
Lemma small_readout : let d := small_direction small_roe (TOne (small_trap (1/2))) in
  add_cti small_image d no_direction None = Ok ([[1/2]; [3/32]], the_roe d, the_roe no_direction).
Proof.
  intros d. assert (Hset : plain_setting d 2 small_ccd (TOne (small_trap (1/2))) [ln 2] DFloat) by (apply small_setting, small_instant; lra).
  destruct (textbook_readout small_image d no_direction small_ccd (TOne (small_trap (1/2))) [small_trap (1/2)] (ln 2) DFloat 2 1 0)
    as (im' & E & H); auto.
  - exact small_shape.
  - exact small_nonneg.
  - left; reflexivity.
  - exact small_columns.
  - apply ln_pos; lra.
  - unfold share; cbn; lra.
  - left; reflexivity.
  - rewrite E. change (column_of small_image 0) with [1; 0] in H. change (d_offset d) with 0%nat in H. change (share small_ccd 0) with 1 in H.
    change (depth (nth 0 (ccd_full_well small_ccd) 1) (nth 0 (ccd_fill_power small_ccd) 1)) with small_well in H. cbn [map] in H. rewrite small_textbook in H.
    destruct (plain_returns small_image d no_direction 2 1 small_shape) as (im2 & E2 & [L F] & _); try lia; [exact small_nonneg|split; [reflexivity|right; eauto]|split; [reflexivity|left; reflexivity]|].
    assert (im2 = im') as -> by congruence. destruct im' as [|[|x [|? ?]] [|[|y [|? ?]] [|? ?]]]; try discriminate; repeat match goal with H : Forall _ (_ :: _) |- _ => inversion H; clear H; subst end; try discriminate.
    cbn in H. injection H as -> ->. reflexivity.
Qed.

(** ** Single transfers in the readout model *)
Lemma one_cell sites d (c : column) (T saved : traps_state) row mult save :
  pass_cell sites [0%nat] [(d, [mkRP true 0%Z [0%Z] [1]])] (c, T, saved) (row, mult, save) =
  let T' := put T 0 (site_after (sites 0%nat) d (c row) (T 0%nat)) in
  (give c row (site_net (sites 0%nat) d (c row) (T 0%nat) * mult), T', if save then T' else saved).
Proof.
  cbn [pass_cell]. unfold transfer_pixel. cbn [fold_left expose]. unfold electrode. cbn [nth rp_high rp_capture rp_release rp_fraction combine].
  unfold deposit. cbn [fold_left]. rewrite !Z.add_0_r, Rmult_1_r. reflexivity.
Qed.
Lemma give_at c row q v : v = c row + q -> 0 <= v -> give c row q row = v.
Proof. intros -> H. unfold give. rewrite Z.eqb_refl. apply Rmax_right, H. Qed.
Lemma give_neg c row q : c row + q <= 0 -> give c row q row = 0.
Proof. intros H. unfold give. rewrite Z.eqb_refl. apply Rmax_left, H. Qed.
Lemma give_other c row q row' : row' <> row -> give c row q row' = c row'.
Proof. intros H. unfold give. destruct (Z.eqb_spec row' row); [contradiction|reflexivity]. Qed.
Lemma roe_steps k d : 0 < d -> timed_steps (built k [d] DFloat true true) = [(d, [mkRP true 0%Z [0%Z] [1]])].
Proof.
  intros Hd. unfold timed_steps. cbn [built make_roe roe_dwell_times roe_clock_sequence length].
  cbn -[Rlt_dec]. destruct (Rlt_dec 0 d); [reflexivity|contradiction].
Qed.
(** The image of two rows and one column with these values. *)
Lemma two_rows im (x y : R) : shape 2 1 im -> pixel im 0 0 = x -> pixel im 1 0 = y -> im = [[x]; [y]].
Proof.
  intros [L F] Hx Hy. destruct im as [|[|a [|? ?]] [|[|b [|? ?]] [|? ?]]]; try discriminate; repeat match goal with H : Forall _ (_ :: _) |- _ => inversion H; clear H; subst end; try discriminate.
  reflexivity.
Qed.
Lemma one_row im (x : R) : shape 1 1 im -> pixel im 0 0 = x -> im = [[x]].
Proof.
  intros [L F] Hx. destruct im as [|[|a [|? ?]] [|? ?]]; try discriminate; repeat match goal with H : Forall _ (_ :: _) |- _ => inversion H; clear H; subst end; try discriminate.
  reflexivity.
Qed.
(** One group of traps, in the given well. *)
Lemma one_group_net t well d n P : site_net (mkSite [[t]] well) d n [P] = transfer_net [t] well d n P.
Proof. unfold site_net. cbn [site_groups site_well combine map]. unfold Rsum. cbn [fold_right]. lra. Qed.
Lemma small_site rho : site_of small_ccd [[small_trap rho]] 0 = mkSite [[thinned 1 (small_trap rho)]] small_well.
Proof. reflexivity. Qed.
Lemma small_columns_in : forall j, In j (py_range 0 1) -> (0 <= j < Z.of_nat 1)%Z.
Proof. intros j [<-|[]]. lia. Qed.
Lemma small_columns_nodup : NoDup (py_range 0 1).
Proof. repeat constructor. intros []. Qed.

(** ** empty_traps_for_first_transfers = False: the electrons in the saved trap states are
    released twice. *)
Definition saving_roe : roe R := roe_init [ln 4] false true true DFloat.
Lemma saving_small : let d := small_direction saving_roe (TOne (small_trap (1/8))) in
  add_cti small_image d no_direction None = Ok ([[7/8]; [5307/32768]], the_roe d, the_roe no_direction).
Proof.
  intros d. rewrite (add_cti_only_parallel small_image d no_direction (TOne (small_trap (1/8))) eq_refl eq_refl).
  assert (Hd : 0 < ln 4) by (apply ln_pos; lra).
  destruct (saving_readout small_image small_ccd [ln 4] DFloat (TOne (small_trap (1/8))) [[small_trap (1/8)]] 0 (py_range 0 1) 2 1 small_shape ltac:(lia) small_nonneg small_plain ltac:(cbn; lia) eq_refl
    (proj2 (small_instant (1/8) ltac:(lra))) small_columns_in small_columns_nodup (or_introl eq_refl)) as (im' & E & Hs & _ & Hi).
  unfold clock_direction. cbn [d small_direction d_ccd d_express d_offset d_window resolve_window]. 
  change (length small_image) with 2%nat. change (n_columns small_image) with 1%nat.
  change (the_roe d) with (built (Standard false) [ln 4] DFloat true true).
  change (resolve_window (d_window no_direction) 1) with (py_range 0 1). rewrite E. cbn [bind]. do 3 f_equal.
  pose proof (Hi 0%nat 0%nat ltac:(lia) (or_introl eq_refl)) as H0. pose proof (Hi 1%nat 0%nat ltac:(lia) (or_introl eq_refl)) as H1.
  rewrite small_phases, roe_steps in H0, H1 by exact Hd. unfold readout in H0, H1.
  change (saving_passes 2) with [[(0%Z, 1, true); (1%Z, 1, false)]; [(1%Z, 1, false)]] in H0, H1.
  do 2 (cbn [fold_left transfer_pass] in H0, H1; rewrite !one_cell in H0, H1; cbn zeta in H0, H1). cbn [fold_left transfer_pass] in H0, H1. rewrite !small_site in H0, H1.
  set (c0 := col_fun small_image 0) in *. change (Z.of_nat 0) with 0%Z in H0. change (Z.of_nat 1) with 1%Z in H1.
  assert (A0 : c0 0%Z = 1) by reflexivity. assert (A1 : c0 1%Z = 0) by reflexivity.
  change (all_empty (site_of small_ccd [[small_trap (1 / 8)]]) 0%nat) with [empty_profile] in H0, H1. unfold put in H0, H1. cbn [Nat.eqb] in H0, H1.
  unfold site_after in H0, H1. cbn [site_groups site_well combine map] in H0, H1. rewrite !one_group_net, !Rmult_1_r in H0, H1.
  destruct (flat_step small_well (1/8) (ln 4) 0 (1/4) 1 0 1 empty_profile (flat_empty 1) exp_ln4) as [E1 F1]; try lra; [apply small_well_at; lra|].
  rewrite A0, E1 in H0, H1. set (P1 := transfer_after _ _ _ 1 empty_profile) in *.
  set (c1 := give c0 0 _) in *. assert (B1 : c1 1%Z = 0) by (unfold c1; rewrite give_other by lia; exact A1). assert (B0 : c1 0%Z = 7/8) by (apply give_at; lra).
  destruct (flat_step small_well (1/8) (ln 4) 1 (1/4) 0 (3/32) (3/32) P1 F1 exp_ln4) as [E2 _]; try lra; [apply small_well_at; lra|].
  rewrite B1, E2 in H0, H1. set (c2 := give c1 1 _) in *. assert (C1 : c2 1%Z = 87/1024) by (apply give_at; lra). assert (C0 : c2 0%Z = 7/8) by (unfold c2; rewrite give_other by lia; exact B0).
  destruct (flat_step small_well (1/8) (ln 4) 1 (1/4) (87/1024) (3/32) (183/1024) P1 F1 exp_ln4) as [E3 _]; try lra; [apply small_well_at; lra|].
  rewrite C1, E3 in H0, H1. cbn [fst] in H0, H1. apply two_rows; [exact Hs| |].
  - rewrite H0. rewrite give_other by lia. exact C0.
  - rewrite H1. apply give_at; lra.
Qed.

(** ** Two groups of traps are offered the same electrons (charge injection, one transfer). *)
Definition deep_ccd : ccd R := mkCCD [1] 1 [1] [4] [0] [BList [1]].
Lemma deep_ccd_init : ccd_init (PList [1]) (Scalar 1) (Scalar 0) (Scalar 4) None = Ok deep_ccd.
Proof. reflexivity. Qed.
Lemma deep_plain : plain_ccd deep_ccd.
Proof.
  constructor; [reflexivity| |].
  - intros [|[|k]]; unfold share; cbn; lra.
  - intros [|k] Hk; [|cbn in Hk; lia]. exists 1, 4. split; [constructor; reflexivity|lra].
Qed.
Definition deep_well := depth 1 4.
Lemma deep_well_at n v : 0 < n <= 1 -> n * n * n * n = v -> deep_well n = v.
Proof.
  intros H <-. unfold deep_well, depth. destruct (Rle_dec n 0); [lra|]. rewrite Rmin_right by (unfold Rdiv; lra).
  replace 4 with (INR 4) by (cbn; lra). rewrite Rpower_pow by (unfold Rdiv; lra). unfold Rdiv. rewrite Rinv_1. cbn [pow]. ring.
Qed.
Definition two_groups : traps_arg R := TNested [[small_trap 1]; [small_trap 1]].
Lemma two_groups_instant : instant_traps two_groups.
Proof. split; [discriminate|]. repeat constructor; try discriminate; cbn; lra. Qed.
Definition injection_direction (c : ccd R) (dwell : R) (npt : option nat) (traps : traps_arg R) : direction R :=
  mkDir (Some c) (Some (roe_injection_init [dwell] npt true true DFloat)) (Some traps) 0 0 WNone.
Lemma overlap_is x y lo hi v : Rmin y hi = v + Rmax x lo -> 0 <= v -> overlap x y lo hi = v.
Proof. intros H Hv. unfold overlap. rewrite H. replace (v + Rmax x lo - Rmax x lo) with v by ring. apply Rmax_right, Hv. Qed.
Lemma two_groups_create : let d := injection_direction deep_ccd (ln 4) (Some 1%nat) two_groups in
  add_cti small_image d no_direction None = Ok ([[0]; [525/512]], the_roe d, the_roe no_direction).
Proof.
  intros d. assert (Hd : 0 < ln 4) by (apply ln_pos; lra).
  destruct (injection_parallel small_image d no_direction deep_ccd two_groups [ln 4] (Some 1%nat) 2 1) as (im' & E & Hs & _ & _ & Hi); auto.
  - exact small_shape.
  - exact small_nonneg.
  - exact deep_plain.
  - exact two_groups_instant.
  - exact small_columns.
  - rewrite E. do 3 f_equal.
    pose proof (Hi 0%nat 0%nat ltac:(lia) (or_introl eq_refl)) as H0. pose proof (Hi 1%nat 0%nat ltac:(lia) (or_introl eq_refl)) as H1.
    assert (Eph : trap_phases deep_ccd = [0%nat]) by (apply one_phase; [reflexivity|unfold share; cbn; lra]).
    change (the_roe d) with (built (Injection (Some 1%nat)) [ln 4] DFloat true true) in H0, H1.
    rewrite Eph, roe_steps in H0, H1 by exact Hd. unfold readout in H0, H1. unfold injection_passes in H0, H1.
    cbn [d injection_direction d_express d_offset passes_for Nat.eqb injection_transfers seq map] in H0, H1.
    replace (overlap (INR 0 * (INR 1 / INR 1)) (INR 1 * (INR 1 / INR 1)) 0 (INR (2 + 0))) with 1 in H0, H1
      by (symmetry; apply overlap_is; [cbn [INR Nat.add]; unfold Rdiv; rewrite Rinv_1, Rmin_left, Rmax_right by lra; lra|lra]).
    cbn [fold_left transfer_pass] in H0, H1. rewrite !one_cell in H0, H1. cbn zeta in H0, H1. cbn [fold_left fst] in H0, H1.
    change (site_of deep_ccd (groups_in two_groups) 0) with (mkSite [[thinned 1 (small_trap 1)]; [thinned 1 (small_trap 1)]] deep_well) in H0, H1.
    set (c0 := col_fun small_image 0) in *. change (Z.of_nat 0) with 0%Z in H0, H1. change (Z.of_nat 1) with 1%Z in H0, H1.
    assert (A0 : c0 0%Z = 1) by reflexivity. assert (A1 : c0 1%Z = 0) by reflexivity.
    change (all_empty (site_of deep_ccd (groups_in two_groups)) 0%nat) with [empty_profile; empty_profile] in H0, H1. unfold put in H0, H1. cbn [Nat.eqb] in H0, H1.
    unfold site_after, site_net in H0, H1. cbn [site_groups site_well combine map] in H0, H1. rewrite !Rmult_1_r in H0, H1. unfold Rsum in H0, H1. cbn [fold_right] in H0, H1.
    destruct (flat_step deep_well 1 (ln 4) 0 (1/4) 1 0 1 empty_profile (flat_empty 1) exp_ln4) as [E1 F1]; try lra; [apply deep_well_at; lra|].
    rewrite A0, E1 in H0, H1. set (P1 := transfer_after _ _ _ 1 empty_profile) in *.
    set (c1 := give c0 0 _) in *. assert (B1 : c1 1%Z = 0) by (unfold c1; rewrite give_other by lia; exact A1). assert (B0 : c1 0%Z = 0) by (apply give_neg; lra).
    destruct (flat_step deep_well 1 (ln 4) 1 (1/4) 0 (3/4) (81/256) P1 F1 exp_ln4) as [E2 _]; try lra; [apply deep_well_at; lra|].
    rewrite B1, E2 in H0, H1. apply two_rows; [exact Hs| |].
    + rewrite H0. rewrite give_other by lia. exact B0.
    + rewrite H1. apply give_at; lra.
Qed.

(** ** Charge injection of a single pixel, and its dependence on earlier calls. *)
Definition dot_image : image R := [[1]].
Lemma dot_shape : shape 1 1 dot_image.
Proof. split; [reflexivity|repeat constructor]. Qed.
Lemma dot_nonneg i j : 0 <= pixel dot_image i j.
Proof. unfold pixel, dot_image. destruct i as [|[|i]], j as [|[|j]]; cbn; rnum; lra. Qed.
Definition half : traps_arg R := TOne (small_trap (1/2)).
Lemma half_net n P : 0 < n <= 1 -> flat 0 1 P -> transfer_net [thinned 1 (small_trap (1/2))] small_well (ln 2) n P = - n / 2.
Proof.
  intros Hn HP. destruct (flat_step small_well (1/2) (ln 2) 0 (1/2) n 0 n P HP exp_ln2 ltac:(lra) (small_well_at _ _ (Rplus_0_r n) Hn) Hn ltac:(lra)) as [E1 _]. rewrite E1. lra.
Qed.
(** Two transfers asked for: parallel clocking performs one, serial clocking both. *)
Lemma dot_parallel : let d := injection_direction small_ccd (ln 2) (Some 2%nat) half in
  add_cti dot_image d no_direction None = Ok ([[1/2]], the_roe d, the_roe no_direction).
Proof.
  intros d. assert (Hd : 0 < ln 2) by (apply ln_pos; lra).
  destruct (injection_parallel dot_image d no_direction small_ccd half [ln 2] (Some 2%nat) 1 1) as (im' & E & Hs & _ & _ & Hi); auto.
  - exact dot_shape.
  - exact dot_nonneg.
  - exact small_plain.
  - apply small_instant; lra.
  - exact small_columns.
  - cbn; lia.
  - rewrite E. do 3 f_equal. pose proof (Hi 0%nat 0%nat ltac:(lia) (or_introl eq_refl)) as H0.
    change (the_roe d) with (built (Injection (Some 2%nat)) [ln 2] DFloat true true) in H0.
    rewrite small_phases, roe_steps in H0 by exact Hd. unfold readout, injection_passes in H0.
    cbn [d injection_direction d_express d_offset passes_for Nat.eqb injection_transfers seq map] in H0.
    replace (overlap (INR 0 * (INR 2 / INR 2)) (INR 1 * (INR 2 / INR 2)) 0 (INR (1 + 0))) with 1 in H0
      by (symmetry; apply overlap_is; [cbn [INR Nat.add]; replace ((1 + 1) / (1 + 1)) with 1 by (field); rewrite Rmin_left, Rmax_right by lra; lra|lra]).
    replace (overlap (INR 1 * (INR 2 / INR 2)) (INR 2 * (INR 2 / INR 2)) 0 (INR (1 + 0))) with 0 in H0
      by (symmetry; apply overlap_is; [cbn [INR Nat.add]; replace ((1 + 1) / (1 + 1)) with 1 by (field); rewrite Rmin_right, Rmax_left by lra; lra|lra]).
    do 2 (cbn [fold_left transfer_pass] in H0; rewrite !one_cell in H0; cbn zeta in H0). cbn [fold_left transfer_pass fst] in H0. change (groups_in half) with [[small_trap (1/2)]] in H0. rewrite !small_site in H0.
    set (c0 := col_fun dot_image 0) in *. change (Z.of_nat 0) with 0%Z in H0. assert (A0 : c0 0%Z = 1) by reflexivity.
    change (all_empty (site_of small_ccd [[small_trap (1 / 2)]]) 0%nat) with [empty_profile] in H0. rewrite !one_group_net in H0.
    rewrite A0, (half_net 1 empty_profile ltac:(lra) (flat_empty 1)) in H0. apply one_row; [exact Hs|]. rewrite H0, Rmult_0_r.
    assert (B0 : give c0 0 (- (1) / 2 * 1) 0%Z = 1/2) by (apply give_at; lra). apply give_at; lra.
Qed.
Lemma dot_serial : let d := injection_direction small_ccd (ln 2) (Some 2%nat) half in
  add_cti dot_image no_direction d None = Ok ([[1/4]], the_roe no_direction, the_roe d).
Proof.
  intros d. assert (Hd : 0 < ln 2) by (apply ln_pos; lra).
  destruct (injection_serial dot_image d no_direction small_ccd half [ln 2] (Some 2%nat) 1 1) as (im' & E & Hs & Hi); auto.
  - exact dot_shape.
  - exact dot_nonneg.
  - exact small_plain.
  - apply small_instant; lra.
  - cbn; lia.
  - rewrite E. do 3 f_equal. pose proof (Hi 0%nat 0%nat ltac:(lia) ltac:(lia)) as H0.
    change (the_roe d) with (built (Injection (Some 2%nat)) [ln 2] DFloat true true) in H0.
    rewrite small_phases, roe_steps in H0 by exact Hd. unfold readout, injection_passes in H0.
    cbn [d injection_direction d_express d_offset passes_for Nat.eqb injection_transfers seq map] in H0.
    replace (INR 1 * (INR 2 / INR 2) - INR 0 * (INR 2 / INR 2)) with 1 in H0 by (cbn [INR]; field).
    replace (INR 2 * (INR 2 / INR 2) - INR 1 * (INR 2 / INR 2)) with 1 in H0 by (cbn [INR]; field).
    do 2 (cbn [fold_left transfer_pass] in H0; rewrite !one_cell in H0; cbn zeta in H0). cbn [fold_left transfer_pass fst] in H0. change (groups_in half) with [[small_trap (1/2)]] in H0. rewrite !small_site in H0.
    set (c0 := col_fun (transpose dot_image) 0) in *. change (Z.of_nat 0) with 0%Z in H0. assert (A0 : c0 0%Z = 1) by reflexivity.
    change (all_empty (site_of small_ccd [[small_trap (1 / 2)]]) 0%nat) with [empty_profile] in H0. rewrite !one_group_net in H0.
    rewrite A0, (half_net 1 empty_profile ltac:(lra) (flat_empty 1)) in H0. apply one_row; [exact Hs|]. rewrite H0.
    assert (B0 : give c0 0 (- (1) / 2 * 1) 0%Z = 1/2) by (apply give_at; lra).
    rewrite B0, (half_net (1/2) empty_profile ltac:(lra) (flat_empty 1)). apply give_at; lra.
Qed.

(** The first row of a two-row image, for one and for two transfers. *)
Lemma first_row npt n : injection_transfers npt 2 0 = n -> (n = 1 \/ n = 2)%nat ->
  let d := injection_direction small_ccd (ln 2) npt half in exists im' r,
  add_cti small_image d no_direction None = Ok (im', r, the_roe no_direction) /\ pixel im' 0 0 = if Nat.eqb n 1 then 1/2 else 1/4.
Proof.
  intros Hn H12 d. assert (Hd : 0 < ln 2) by (apply ln_pos; lra).
  destruct (injection_parallel small_image d no_direction small_ccd half [ln 2] npt 2 1) as (im' & E & Hs & _ & _ & Hi); auto.
  - exact small_shape.
  - exact small_nonneg.
  - exact small_plain.
  - apply small_instant; lra.
  - exact small_columns.
  - cbn [d injection_direction d_offset]. rewrite Hn. lia.
  - exists im'. eexists. split; [exact E|]. clear E. pose proof (Hi 0%nat 0%nat ltac:(lia) (or_introl eq_refl)) as H0. clear Hi.
    change (the_roe d) with (built (Injection npt) [ln 2] DFloat true true) in H0.
    rewrite small_phases, roe_steps in H0 by exact Hd. unfold readout, injection_passes in H0.
    cbn [d injection_direction d_express d_offset passes_for Nat.eqb] in H0. rewrite Hn in H0. change (groups_in half) with [[small_trap (1/2)]] in H0.
    set (c0 := col_fun small_image 0) in *. change (Z.of_nat 0) with 0%Z in H0. assert (A0 : c0 0%Z = 1) by reflexivity.
    destruct H12 as [->| ->]; cbn [passes_for Nat.eqb seq map] in H0 |- *.
    + replace (overlap (INR 0 * (INR 1 / INR 1)) (INR 1 * (INR 1 / INR 1)) 0 (INR (2 + 0))) with 1 in H0
        by (symmetry; apply overlap_is; [cbn [INR Nat.add]; unfold Rdiv; rewrite Rinv_1, Rmin_left, Rmax_right by lra; lra|lra]).
      cbn [fold_left transfer_pass] in H0. rewrite !one_cell in H0. cbn zeta in H0. cbn [fold_left fst] in H0. rewrite !small_site in H0.
      change (all_empty (site_of small_ccd [[small_trap (1 / 2)]]) 0%nat) with [empty_profile] in H0. rewrite H0. rewrite give_other by (cbn; lia).
      rewrite one_group_net. change (Z.of_nat 0) with 0%Z. rewrite A0, (half_net 1 empty_profile ltac:(lra) (flat_empty 1)). apply give_at; lra.
    + replace (overlap (INR 0 * (INR 2 / INR 2)) (INR 1 * (INR 2 / INR 2)) 0 (INR (2 + 0))) with 1 in H0
        by (symmetry; apply overlap_is; [cbn [INR Nat.add]; replace ((1 + 1) / (1 + 1)) with 1 by (field); rewrite Rmin_left, Rmax_right by lra; lra|lra]).
      replace (overlap (INR 1 * (INR 2 / INR 2)) (INR 2 * (INR 2 / INR 2)) 0 (INR (2 + 0))) with 1 in H0
        by (symmetry; apply overlap_is; [cbn [INR Nat.add]; replace ((1 + 1) / (1 + 1)) with 1 by (field); rewrite Rmin_left, Rmax_left by lra; lra|lra]).
      do 2 (cbn [fold_left transfer_pass] in H0; rewrite !one_cell in H0; cbn zeta in H0). cbn [fold_left transfer_pass fst] in H0. rewrite !small_site in H0.
      change (all_empty (site_of small_ccd [[small_trap (1 / 2)]]) 0%nat) with [empty_profile] in H0. rewrite H0. clear H0. rewrite give_other by (cbn; lia).
      change (Z.of_nat 0) with 0%Z. rewrite !one_group_net.
      set (c1 := give c0 0 _). assert (B0 : c1 0%Z = 1/2) by (unfold c1; rewrite A0, (half_net 1 empty_profile ltac:(lra) (flat_empty 1)); apply give_at; lra).
      set (c2 := give c1 _ _). assert (C0 : c2 0%Z = 1/2) by (unfold c2; rewrite give_other by (cbn; lia); exact B0).
      rewrite C0, (half_net (1/2) empty_profile ltac:(lra) (flat_empty 1)). apply give_at; lra.
Qed.
