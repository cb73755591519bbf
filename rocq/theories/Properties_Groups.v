(** * Properties C81-C82: the order of species and of groups of traps. *)
From Coq Require Import ZArith List Bool Reals Lra Lia Permutation.
From Verif Require Import Num Py RFacts CCDModel TrapsModel ManagerModel ROEModel ClockModel MainModel Spec SpecROE SpecImage SpecReadout SpecColumn SpecTime SpecSlow SpecHistory SpecGroups
  WmFacts ShapeFacts ReadoutExamples OverfullExample HistoryFacts GroupFacts.
Import ListNotations.
Open Scope R_scope.

(** ** C81: species. *)
(** Within groups of traps of one class (any of the three), the order of the species does not
    matter, and a species may be listed in several parts with the same total density: for any
    image, CCD, ROE, express, windows and offsets, with the same exceptions. *)
Theorem C81_only_the_species_matter im parallel serial parallel' serial' tw :
  same_direction parallel parallel' -> same_direction serial serial' ->
  add_cti im parallel serial tw = add_cti im parallel' serial' tw.
Proof. exact (species_do_not_matter im parallel serial parallel' serial' tw). Qed.
Print Assumptions C81_only_the_species_matter.
Theorem C81_only_the_species_matter_to_a_correction im iterations parallel serial parallel' serial' tw :
  same_direction parallel parallel' -> same_direction serial serial' ->
  remove_cti im iterations parallel serial tw = remove_cti im iterations parallel' serial' tw.
Proof. exact (correction_species im iterations parallel serial parallel' serial' tw im). Qed.
Print Assumptions C81_only_the_species_matter_to_a_correction.

(** A slow species in two parts, and another one in another order, in a list of lists. *)
Definition slow_trap (density : R) : trap R := mkTrap density 1 (RFin 1) 1 false CTrap.
Definition other_trap : trap R := mkTrap (1/8) 2 (RFin 1) (1/2) true CTrap.
Example C81_example : let a := small_direction small_roe (TFlat [slow_trap (1/2); other_trap]) in
  let b := small_direction small_roe (TNested [[other_trap; slow_trap (1/8); slow_trap (3/8)]]) in
  same_direction a b /\ forall im tw, add_cti im a no_direction tw = add_cti im b no_direction tw.
Proof.
  intros a b. assert (H : same_direction a b).
  { right. split; [repeat split|]. do 2 eexists. split; [reflexivity|]. split; [reflexivity|]. split; [|constructor; [discriminate|constructor]].
    constructor; [|constructor]. apply (same_trans _ [slow_trap (1/8); slow_trap (3/8); other_trap]).
    - pose proof (split_species (slow_trap (1/2)) (1/8) (3/8) [other_trap]) as X. replace (1/8 + 3/8) with (1/2) in X by lra. exact X.
    - apply (reordered Plain); [repeat constructor|]. apply (Permutation_app_comm [slow_trap (1/8); slow_trap (3/8)] [other_trap]). }
  split; [exact H|]. intros im tw. apply C81_only_the_species_matter; [exact H|left; reflexivity].
Qed.

(** In a group of several classes the order matters: the class of the manager is that of the
    first trap (trap_managers.py:90-106). *)
Definition one_pixel (g : list (trap R)) : direction R := small_direction small_roe (TFlat g).
Lemma one_pixel_readout g m' net : g <> [] -> manager_step (empty_manager 1 g 1) 1 small_fill (ln 2) = Ok (net, m') -> 0 <= 1 + net ->
  exists pr sr, add_cti [[1]] (one_pixel g) no_direction None = Ok ([[1 + net]], pr, sr).
Proof.
  intros Hg E Hn. assert (Hset : single_phase (one_pixel g) 1 small_ccd 1 g (ln 2) false).
  { constructor; try reflexivity; try lra; auto.
    - exists (TFlat g). auto.
    - exists true, DFloat. reflexivity.
    - apply ln_pos. lra. }
  pose proof (history_readout [[1]] (one_pixel g) no_direction small_ccd 1 g (ln 2) false 1 1 ltac:(split; [reflexivity|repeat constructor]) ltac:(lia) Hset eq_refl eq_refl) as H. cbv zeta in H.
  change (map (column_of [[1]]) (seq 0 1)) with [[1]] in H. change (d_offset (one_pixel g)) with 0%nat in H. change (well_fill small_ccd 0 false) with small_fill in H.
  cbn [columns_past column_past before reading bind length past_manager] in H. unfold column_past in H. cbn [before reading bind length past_manager] in H. change (fun n : R => small_fill n) with small_fill in H. rewrite E in H. cbn [bind] in H.
  destruct H as (im' & E' & [L F] & _ & H). do 2 eexists. rewrite E'. do 3 f_equal.
  destruct im' as [|row [|? ?]]; try discriminate L. inversion F as [|? ? Fr _]; subst. destruct row as [|x [|? ?]]; try discriminate Fr.
  pose proof (H 0%nat ltac:(lia)) as H0. cbn in H0. injection H0 as ->. rewrite Rmax_right by exact Hn. reflexivity.
Qed.
Lemma mixed_count k a b w w' : k <> KTime -> n_trapped (mkManager k [thinned 1 (a : trap R); thinned 1 b] w) w' = trapped [t_density a * 1; t_density b * 1] w'.
Proof. intros H. unfold n_trapped. cbn [m_kind]. destruct k; [| |contradiction]; apply cy_n_trapped_eq. Qed.
Lemma mixed_instant : exists m', manager_step (empty_manager 1 [small_trap (1/4); slow_trap (1/4)] 1) 1 small_fill (ln 2) = Ok (- (1/2), m').
Proof.
  unfold empty_manager. cbn [kind_for small_trap t_class map length repeat]. set (m := mkManager _ _ _).
  assert (Z : max_watermark_index [(0, [0; 0]); (0, [0; 0])] = (-1)%Z) by (unfold max_watermark_index, first_zero_volume; cbn; rnum; decide_R; reflexivity).
  assert (E1 : n_electrons_released m (ln 2) = (0, m)).
  { unfold n_electrons_released. cbn [m m_wm]. rewrite Z. change (Z.to_nat (-1 + 1)) with 0%nat. set (w := map_vals_slice _ _ _ _).
    assert (Ew : w = m_wm m) by reflexivity. rewrite Ew. f_equal. rnum. cbn [m m_wm]. lra. }
  unfold manager_step, instant_step. change (m_kind m) with KInstant. cbv iota. rewrite E1. unfold n_electrons_captured.
  change (m_wm m) with [(0, [0; 0]); (0, [0; 0])]. rewrite Z. rnum. rewrite (small_fill_at (1 + 0) 1) by lra. cbn [bind]. decide_R. cbn [Z.eqb Pos.eqb andb].
  unfold instant_first_capture. change (m_kind m) with KInstant. change (length (m_traps m)) with 2%nat. cbn [filled_value repeat]. unfold set_row0. change (m_wm m) with [(0, [0; 0]); (0, [0; 0])]. cbn [upd].
  unfold m. rewrite mixed_count by discriminate. unfold trapped, row_trapped, Rsum. cbn [map fold_right fst snd dot small_trap slow_trap t_density]. rnum. decide_R.
  cbn [bind]. eexists. f_equal. f_equal. lra.
Qed.
Lemma mixed_slow : exists m', manager_step (empty_manager 1 [slow_trap (1/4); small_trap (1/4)] 1) 1 small_fill (ln 2) = Ok (- (11/32), m').
Proof.
  unfold empty_manager. cbn [kind_for slow_trap t_class map length repeat Nat.mul Nat.add]. set (m := mkManager _ _ _).
  assert (Z : max_watermark_index [(0, [0; 0]); (0, [0; 0]); (0, [0; 0])] = (-1)%Z) by (unfold max_watermark_index, first_zero_volume; cbn; rnum; decide_R; reflexivity).
  assert (E2 : exp (- (1 + 1) * ln 2) = 1 / 4).
  { replace (- (1 + 1) * ln 2) with (- ln 2 + - ln 2) by ring. rewrite exp_plus, exp_ln2. lra. }
  assert (EP : exists p q q', fill_probabilities (m_traps m) (ln 2) = Ok [(3/8, p, q); (1, 1, q')]).
  { unfold fill_probabilities. cbn [m m_traps mapM]. unfold fill_probabilities1. cbn [thinned with_density slow_trap small_trap t_capture_rate t_emission_rate].
    pose proof (ln_pos 2 ltac:(lra)) as L. unfold release_probability. cbn [thinned with_density slow_trap small_trap t_emission_rate]. rnum. rewrite E2. decide_R. cbn [bind].
    replace (1 * ((1 - 1 / 4) / (1 + 1))) with (3 / 8) by lra. do 3 eexists. reflexivity. }
  destruct EP as (p & q & q' & EP).
  unfold manager_step. change (m_kind m) with KSlow. cbv iota. unfold slow_step. rewrite EP. cbn [bind].
  change (m_wm m) with [(0, [0; 0]); (0, [0; 0]); (0, [0; 0])]. rewrite Z. rnum. rewrite (small_fill_at 1 1) by lra. cbn [bind]. decide_R. cbn [Z.eqb Pos.eqb andb].
  unfold slow_first_capture. unfold set_row0. change (m_wm m) with [(0, [0; 0]); (0, [0; 0]); (0, [0; 0])]. cbn [upd map p_empty fst].
  unfold m. rewrite mixed_count by discriminate. unfold trapped, row_trapped, Rsum. cbn [map fold_right fst snd dot small_trap slow_trap t_density]. rnum. decide_R.
  cbn [bind]. eexists. f_equal. f_equal. lra.
Qed.
Theorem C81_the_order_of_classes_does_not_matter_refuted : exists g h x y,
  Permutation g h /\ Forall (fun t => 0 < t_density t /\ 0 < t_release_timescale t) g /\ x <> y /\
  (exists pr sr, add_cti [[1]] (one_pixel g) no_direction None = Ok ([[x]], pr, sr)) /\
  (exists pr sr, add_cti [[1]] (one_pixel h) no_direction None = Ok ([[y]], pr, sr)).
Proof.
  exists [small_trap (1/4); slow_trap (1/4)], [slow_trap (1/4); small_trap (1/4)], (1 + - (1/2)), (1 + - (11/32)). split; [apply perm_swap|]. split; [repeat constructor; cbn; lra|]. split; [lra|]. split.
  - destruct mixed_instant as [m' E]. eapply one_pixel_readout; [discriminate|exact E|lra].
  - destruct mixed_slow as [m' E]. eapply one_pixel_readout; [discriminate|exact E|lra].
Qed.
Print Assumptions C81_the_order_of_classes_does_not_matter_refuted.

(** ** C82: groups. *)
(** The order of the groups does not matter, for groups of any classes and mixtures: each is
    offered the same free electrons, and what they release and capture is added up.  (Only
    the exception may be another one, if several groups raise.) *)
Theorem C82_the_order_of_groups_does_not_matter im parallel serial parallel' serial' tw :
  reordered_groups parallel parallel' -> reordered_groups serial serial' ->
  same_outcome (add_cti im parallel serial tw) (add_cti im parallel' serial' tw).
Proof. exact (groups_order im parallel serial parallel' serial' tw). Qed.
Print Assumptions C82_the_order_of_groups_does_not_matter.
Theorem C82_the_order_of_groups_does_not_matter_to_a_correction im iterations parallel serial parallel' serial' tw :
  reordered_groups parallel parallel' -> reordered_groups serial serial' ->
  same_outcome (remove_cti im iterations parallel serial tw) (remove_cti im iterations parallel' serial' tw).
Proof. exact (correction_order im iterations parallel serial parallel' serial' tw im). Qed.
Print Assumptions C82_the_order_of_groups_does_not_matter_to_a_correction.
(** An instant-capture species and a slow one, as two groups. *)
Example C82_example : let a := small_direction small_roe (TNested [[small_trap (1/4)]; [slow_trap (1/4)]]) in
  let b := small_direction small_roe (TNested [[slow_trap (1/4)]; [small_trap (1/4)]]) in
  reordered_groups a b /\ forall im im' pr sr tw, add_cti im a no_direction tw = Ok (im', pr, sr) -> add_cti im b no_direction tw = Ok (im', pr, sr).
Proof.
  intros a b. assert (H : reordered_groups a b).
  { right. split; [repeat split|]. do 2 eexists. split; [reflexivity|]. split; [reflexivity|]. apply perm_swap. }
  split; [exact H|]. intros im im' pr sr tw E. pose proof (C82_the_order_of_groups_does_not_matter im a no_direction b no_direction tw H (or_introl eq_refl)) as S.
  rewrite E in S. destruct (add_cti im b no_direction tw); [cbn in S; subst; reflexivity|contradiction].
Qed.
