(** * Properties C74-C78: ways of calling the package (main.py, trap_managers.py, ccd.py). *)
From Coq Require Import ZArith List Bool Reals Lra Lia.
From Verif Require Import Num Py RFacts CCDModel TrapsModel ManagerModel ROEModel ClockModel MainModel CallModel Spec SpecROE SpecImage SpecReadout SpecColumn SpecCalls
  MainReadoutFacts MainColumnFacts ReadoutExamples CallFacts CallExamples.
Import ListNotations.

(** ** C74: images of integers. *)
(** add_cti works as if the pixels were floats, *)
Theorem C74_integer_images_are_read_out {F} {num : Num F} im (parallel serial : direction F) tw rows cols :
  shape rows cols (map (map nofZ) im) -> (0 < rows)%nat -> d_traps parallel <> None \/ d_traps serial <> None ->
  add_cti_array (Ints im) parallel serial tw =
  do '(im', pr, sr) <- add_cti (map (map nofZ) im) parallel serial tw; Ok (Floats im', pr, sr).
Proof. intros Hs Hr Ht. exact (ints_add (Ints im) parallel serial tw rows cols Hr Hs Ht). Qed.
Print Assumptions C74_integer_images_are_read_out.
(** ... and so does the rest of the package on floats, *)
Theorem C74_float_images {F} {num : Num F} (im : image F) parallel serial tw iterations :
  add_cti_array (Floats im) parallel serial tw = (do '(im', pr, sr) <- add_cti im parallel serial tw; Ok (Floats im', pr, sr)) /\
  remove_cti_array (Floats im) iterations parallel serial tw = (do im' <- remove_cti im iterations parallel serial tw; Ok (Floats im')).
Proof.
  split; [apply floats_add|]. unfold remove_cti_array, remove_cti. rewrite floats_remove.
  destruct (remove_cti_loop im iterations parallel serial tw im) as [[[out p] s]|e]; reflexivity.
Qed.
Print Assumptions C74_float_images.
(** ... but no image of integers can be corrected. *)
Theorem C74_integer_images_are_corrected_refuted {F} {num : Num F} im (parallel serial : direction F) tw rows cols iterations out pr sr :
  shape rows cols (map (map nofZ) im) -> (0 < rows)%nat -> d_traps parallel <> None \/ d_traps serial <> None -> (0 < iterations)%nat ->
  add_cti (map (map nofZ) im) parallel serial tw = Ok (out, pr, sr) ->
  remove_cti_array (Ints im) iterations parallel serial tw = Err TypeError.
Proof.
  intros Hs Hr Ht Hi E. destruct iterations as [|n]; [lia|]. exact (ints_remove im n parallel serial tw rows cols out pr sr Hr Hs Ht E).
Qed.
Print Assumptions C74_integer_images_are_corrected_refuted.
(** Without traps it stays an image of integers, also when corrected. *)
Theorem C74_integer_images_without_traps {F} {num : Num F} im iterations (parallel serial : direction F) :
  d_traps parallel = None -> d_traps serial = None ->
  add_cti_array (Ints im) parallel serial None = Ok (Ints im, the_roe parallel, the_roe serial) /\
  remove_cti_array (Ints im) iterations parallel serial None = Ok (Ints im).
Proof.
  intros Hp Hs. split; [exact (no_traps_add (Ints im) parallel serial Hp Hs)|exact (no_traps_remove im iterations parallel serial Hp Hs)].
Qed.
Print Assumptions C74_integer_images_without_traps.
Example C74_without_traps_example : remove_cti_array (Ints [[3; 1]; [0; 2]]%Z) 5 (no_direction : direction R) no_direction None = Ok (Ints [[3; 1]; [0; 2]]%Z).
Proof. now apply C74_integer_images_without_traps. Qed.
Open Scope R_scope.
Example C74_example : let d := small_direction small_roe half in
  add_cti_array (Ints [[1%Z]; [0%Z]]) d no_direction None = Ok (Floats [[1/2]; [3/32]], the_roe d, the_roe no_direction) /\
  remove_cti_array (Ints [[1%Z]; [0%Z]]) 3 d no_direction None = Err TypeError.
Proof.
  intros d. pose proof small_readout as S. cbv zeta in S.
  assert (E : map (map nofZ) [[1%Z]; [0%Z]] = small_image) by reflexivity.
  split.
  - rewrite (C74_integer_images_are_read_out _ d no_direction None 2 1); [rewrite E; unfold d, half; rewrite S; reflexivity|rewrite E; exact small_shape|lia|left; discriminate].
  - apply (C74_integer_images_are_corrected_refuted _ d no_direction None 2 1 3 [[1/2]; [3/32]] (the_roe d) (the_roe no_direction)); [rewrite E; exact small_shape|lia|left; discriminate|lia|rewrite E; exact S].
Qed.

(** ** C75: one ROE object for both directions. *)
Theorem C75_one_roe_is_two_calls {F} {num : Num F} (im : image F) r parallel serial rows cols :
  shape rows cols im -> (0 < rows)%nat -> (0 < cols)%nat ->
  add_cti_one_roe im r parallel serial None =
  do '(im1, r1, _) <- add_cti im (with_roe parallel r) (without_traps serial) None;
  do '(im2, _, r2) <- add_cti im1 (without_traps parallel) (with_roe serial r1) None; Ok (im2, r2).
Proof. exact (one_roe_two_calls im r parallel serial rows cols). Qed.
Print Assumptions C75_one_roe_is_two_calls.
(** It makes no difference for any ROE, except charge injection without a number of transfers. *)
Theorem C75_sharing_makes_no_difference {F} {num : Num F} (im : image F) r parallel serial tw : roe_kind_of r <> Injection None ->
  add_cti_one_roe im r parallel serial tw =
  do '(im', _, _) <- add_cti im (with_roe parallel r) (with_roe serial r) tw; Ok (im', r).
Proof. exact (one_roe im r parallel serial tw). Qed.
Print Assumptions C75_sharing_makes_no_difference.
(** One pixel, one transfer in the parallel direction and two in the serial one: with one ROE object
    the second transfer is missing. *)
Theorem C75_sharing_injection_makes_no_difference_refuted : exists (im : image R) r parallel serial im1 im2 pr sr r',
  shape 1 1 im /\ add_cti im (with_roe parallel r) (with_roe serial r) None = Ok (im1, pr, sr) /\
  add_cti_one_roe im r parallel serial None = Ok (im2, r') /\ im1 <> im2.
Proof.
  set (r := roe_injection_init [ln 2] None true true DFloat : roe R).
  set (p := injection_direction small_ccd (ln 2) None half). set (s := serial_injection 1 None).
  destruct (injection_parallel dot_image p (without_traps s) small_ccd half [ln 2] None 1 1 dot_shape ltac:(lia) dot_nonneg eq_refl eq_refl eq_refl eq_refl
             small_plain (le_n 1) (small_instant (1/2) ltac:(lra)) eq_refl small_columns ltac:(cbn; lia)) as (im1 & E1 & S1 & _ & _ & Hi).
  change (add_cti dot_image (with_roe p r) (without_traps s) None = Ok (im1, roe_injection_init [ln 2] (Some 1%nat) true true DFloat, the_roe (without_traps s))) in E1.
  assert (Ei : im1 = half_image).
  { assert (Hd : 0 < ln 2) by (apply ln_pos; lra). pose proof (Hi 0%nat 0%nat ltac:(lia) (or_introl eq_refl)) as H0. clear Hi.
    change (the_roe p) with (ReadoutForced.built (Injection None) [ln 2] DFloat true true) in H0.
    rewrite small_phases, roe_steps in H0 by exact Hd. unfold readout, injection_passes in H0.
    cbn [p injection_direction d_express d_offset injection_transfers Nat.add passes_for Nat.eqb seq map] in H0.
    replace (overlap (INR 0 * (INR 1 / INR 1)) (INR 1 * (INR 1 / INR 1)) 0 (INR 1)) with 1 in H0
      by (symmetry; apply overlap_is; [cbn [INR Nat.add]; unfold Rdiv; rewrite Rinv_1, Rmin_left, Rmax_right by lra; lra|lra]).
    cbn [fold_left transfer_pass] in H0. rewrite !one_cell in H0. cbn zeta in H0. cbn [fold_left fst] in H0. change (groups_in half) with [[small_trap (1/2)]] in H0. rewrite !small_site in H0.
    change (all_empty (site_of small_ccd [[small_trap (1 / 2)]]) 0%nat) with [empty_profile] in H0. rewrite !one_group_net in H0.
    set (c0 := col_fun dot_image 0) in *. change (Z.of_nat 0) with 0%Z in H0. assert (A0 : c0 0%Z = 1) by reflexivity.
    rewrite A0, (half_net 1 empty_profile ltac:(lra) (flat_empty 1)) in H0. apply one_row; [exact S1|]. rewrite H0. apply give_at; lra. }
  subst im1.
  destruct (half_serial 1 None 2 (without_traps p) eq_refl eq_refl eq_refl (or_intror eq_refl)) as (a & Ea & Pa).
  destruct (half_serial 1 (Some 1%nat) 1 (without_traps p) eq_refl eq_refl eq_refl (or_introl eq_refl)) as (b & Eb & Pb).
  assert (EA : exists pr sr, add_cti dot_image (with_roe p r) (with_roe s r) None = Ok (a, pr, sr)).
  { unfold add_cti in E1, Ea |- *. cbn in E1, Ea |- *. change (d_traps p) with (Some half) in *.
    match type of E1 with context [clock_charge_in_one_direction ?a ?b ?c ?d ?e ?f ?g ?h ?i] => destruct (clock_charge_in_one_direction a b c d e f g h i) as [[i1 r1]|] eqn:C1 end;
      cbn [bind] in E1; [|discriminate E1].
    injection E1 as -> _. cbn [bind]. change (transpose half_image) with ([[1/2]] : image R). unfold r.
    match type of Ea with context [clock_charge_in_one_direction ?a ?b ?c ?d ?e ?f ?g ?h ?i] => destruct (clock_charge_in_one_direction a b c d e f g h i) as [[i2 r2]|] eqn:C2 end;
      cbn [bind] in Ea; [|discriminate Ea].
    cbn [bind]. injection Ea as <- _. eauto. }
  destruct EA as (pr & sr & EA).
  exists dot_image, r, p, s, a, b, pr, sr, (roe_injection_init [ln 2] (Some 1%nat) true true DFloat).
  split; [exact dot_shape|]. split; [exact EA|]. split.
  - rewrite (C75_one_roe_is_two_calls dot_image r p s 1 1 dot_shape ltac:(lia) ltac:(lia)), E1. cbn [bind].
    change (with_roe s (roe_injection_init [ln 2] (Some 1%nat) true true DFloat)) with (serial_injection 1 (Some 1%nat)). rewrite Eb. reflexivity.
  - intros ->. cbn in Pa, Pb. lra.
Qed.
Print Assumptions C75_sharing_injection_makes_no_difference_refuted.
Example C75_example : exists im', add_cti_one_roe small_image small_roe (small_direction small_roe half) no_direction None = Ok (im', small_roe) /\ pixel im' 0 0 = 1/2.
Proof.
  exists [[1/2]; [3/32]]. split; [|reflexivity]. rewrite C75_sharing_makes_no_difference by discriminate.
  change (with_roe (small_direction small_roe half) small_roe) with (small_direction small_roe half).
  rewrite (MainReadoutFacts.add_cti_only_parallel _ _ _ half) by reflexivity.
  pose proof small_readout as S. cbv zeta in S. rewrite (MainReadoutFacts.add_cti_only_parallel _ _ _ half) in S by reflexivity.
  cbn [with_roe no_direction d_window] in *.
  destruct (clock_direction _ _ _ _ _ _ _) as [[i r]|]; cbn [bind] in *; [|discriminate S]. injection S as -> _. reflexivity.
Qed.

(** ** C76: units of fraction_of_traps_per_phase ("the units do not matter", ccd.py:45-53). *)
(** The fractions are not normalised: multiplying them all multiplies the densities, for any
    traps, images, ROE and windows. *)
Theorem C76_fractions_multiply_densities k k' im parallel serial tw : 0 < k -> 0 < k' ->
  add_cti im (fractions_times k parallel) (fractions_times k' serial) tw = add_cti im (densities_times k parallel) (densities_times k' serial) tw.
Proof. exact (fractions_scaled k k' im parallel serial tw). Qed.
Print Assumptions C76_fractions_multiply_densities.
Theorem C76_units_do_not_matter_refuted : exists k im d im1 im2, 0 < k /\ shape 2 1 im /\
  add_cti im d no_direction None = Ok (im1, the_roe d, the_roe no_direction) /\
  add_cti im (fractions_times k d) no_direction None = Ok (im2, the_roe d, the_roe no_direction) /\ im1 <> im2.
Proof.
  destruct dense_readout as (im2 & E2 & P2). exists 2, small_image, (small_direction small_roe half), [[1/2]; [3/32]], im2.
  split; [lra|]. split; [exact small_shape|]. split; [exact small_readout|]. split.
  - change (no_direction : direction R) with (fractions_times 1 no_direction). rewrite C76_fractions_multiply_densities by lra.
    change (densities_times 1 no_direction) with (no_direction : direction R).
    replace (densities_times 2 (small_direction small_roe half)) with (small_direction small_roe (TOne (small_trap 1))); [exact E2|].
    unfold densities_times, small_direction, half. cbn [d_ccd d_roe d_traps d_express d_offset d_window option_map map_traps]. do 2 f_equal. f_equal.
    unfold times_density, small_trap. cbn. f_equal. lra.
  - intros <-. cbn in P2. lra.
Qed.
Print Assumptions C76_units_do_not_matter_refuted.

(** ** C77: lists that mix traps and lists of traps. *)
Theorem C77_plain_lists {F} {num : Num F} (traps : list (trap F)) groups N c :
  atm_init_list (map ETrap traps) N c = atm_init (TFlat traps) N c /\ atm_init_list (map EList groups) N c = atm_init (TNested groups) N c.
Proof. exact (conj (list_of_traps traps N c) (list_of_lists groups N c)). Qed.
Print Assumptions C77_plain_lists.
(** Only these are accepted. *)
Theorem C77_mixed_lists_fail {F} {num : Num F} (l : list (traps_elt F)) N c a :
  (0 < ccd_n_phases c)%nat -> atm_init_list l N c = Ok a ->
  (exists traps, l = map ETrap traps /\ traps <> []) \/ (exists groups, l = map EList groups /\ groups <> [] /\ Forall (fun g => g <> []) groups).
Proof. exact (mixed_list l N c a). Qed.
Print Assumptions C77_mixed_lists_fail.
Example C77_example : (exists a, atm_init_list [EList [small_trap 1]; EList [small_trap 2; small_trap 3]] 5 small_ccd = Ok a) /\
  atm_init_list [EList [small_trap 1]; ETrap (small_trap 2)] 5 small_ccd = Err TypeError /\
  atm_init_list [ETrap (small_trap 1); EList [small_trap 2]] 5 small_ccd = Err AttributeError.
Proof. split; [eexists; reflexivity|split; reflexivity]. Qed.

(** ** C78: phases counted from the end. *)
Definition lengths_ok {F} (c : ccd F) : Prop :=
  length (ccd_fractions c) = ccd_n_phases c /\ length (ccd_full_well c) = ccd_n_phases c /\ length (ccd_notch c) = ccd_n_phases c /\
  length (ccd_fill_power c) = ccd_n_phases c /\ length (ccd_bloom c) = ccd_n_phases c.
Lemma constructed_lengths {F} {num : Num F} fractions full_well notch fill_power bloom (c : ccd F) :
  ccd_init fractions full_well notch fill_power bloom = Ok c -> lengths_ok c.
Proof. intros E. destruct (CCDFacts.ccd_init_ok _ _ _ _ _ _ E) as (_ & L0 & L1 & L2 & L3 & L4 & L5 & _). unfold lengths_ok. rewrite L0. auto. Qed.
(** A phase from 0 on is the one meant by MainModel.v; phase -1 is the last one, and so on. *)
Theorem C78_phases_from_the_start {F} {num : Num F} (c : ccd F) k surface n : well_fill_at c (Z.of_nat k) surface n = well_fill c k surface n.
Proof. unfold well_fill_at, well_fill. rewrite !py_index_nonneg. reflexivity. Qed.
Print Assumptions C78_phases_from_the_start.
Theorem C78_phases_from_the_end {F} {num : Num F} fractions full_well notch fill_power bloom (c : ccd F) k :
  ccd_init fractions full_well notch fill_power bloom = Ok c -> (k < ccd_n_phases c)%nat ->
  let from_end := (Z.of_nat k - Z.of_nat (ccd_n_phases c))%Z in
  (forall surface n, well_fill_at c from_end surface n = well_fill c k surface n) /\
  exists p q, ccd_phase_init c k = Ok p /\ ccd_phase_at c from_end = Ok q /\
    cp_fraction q = cp_fraction p /\ cp_full_well q = cp_full_well p /\ cp_fill_power q = cp_fill_power p /\ cp_notch q = cp_notch p /\
    cp_bloom q = cp_bloom p /\ forall n surface, cp_fill q n surface = cp_fill p n surface.
Proof.
  intros E Hk z. destruct (constructed_lengths _ _ _ _ _ _ E) as (L1 & L2 & L3 & L4 & L5).
  assert (P : forall A (l : list A), length l = ccd_n_phases c -> py_index l z = of_option IndexError (nth_error l k)).
  { intros A l L. unfold z. rewrite <- L. apply py_index_from_end. lia. }
  assert (W : forall surface n, well_fill_at c z surface n = well_fill c k surface n).
  { intros surface n. unfold well_fill_at, well_fill. rewrite !P by assumption. reflexivity. }
  split; [exact W|]. unfold ccd_phase_init, ccd_phase_at. rewrite !P by assumption.
  assert (Q : forall A (l : list A), length l = ccd_n_phases c -> exists x, nth_error l k = Some x).
  { intros A l L. destruct (nth_error l k) eqn:Ex; [eauto|]. apply nth_error_None in Ex. lia. }
  destruct (Q _ _ L1) as [x1 ->], (Q _ _ L2) as [x2 ->], (Q _ _ L3) as [x3 ->], (Q _ _ L4) as [x4 ->], (Q _ _ L5) as [x5 ->].
  cbn [of_option bind]. do 2 eexists. split; [reflexivity|]. split; [reflexivity|]. cbn. repeat split; try reflexivity. intros n surface. apply W.
Qed.
Print Assumptions C78_phases_from_the_end.
Theorem C78_no_such_phase {F} {num : Num F} fractions full_well notch fill_power bloom (c : ccd F) phase n :
  ccd_init fractions full_well notch fill_power bloom = Ok c -> (phase < - Z.of_nat (ccd_n_phases c) \/ Z.of_nat (ccd_n_phases c) <= phase)%Z ->
  (n =? n0)%num = false -> well_fill_at c phase false n = Err IndexError /\ ccd_phase_at c phase = Err IndexError.
Proof.
  intros E Hp Hn. destruct (constructed_lengths _ _ _ _ _ _ E) as (L1 & L2 & L3 & L4 & L5). split.
  - unfold well_fill_at. rewrite Hn. rewrite (py_index_beyond (ccd_notch c)) by (rewrite L3; exact Hp). reflexivity.
  - unfold ccd_phase_at. rewrite (py_index_beyond (ccd_fractions c)) by (rewrite L1; exact Hp). reflexivity.
Qed.
Print Assumptions C78_no_such_phase.
Example C78_example : exists c : ccd R, ccd_init (PList [1; 2; 3]) (PList [10; 20; 30]) (Scalar 0) (Scalar 1) None = Ok c /\
  well_fill_at c (-1) false 15 = well_fill c 2 false 15 /\ well_fill_at c (-4) false 15 = Err IndexError.
Proof.
  eexists. split; [reflexivity|]. split.
  - exact (proj1 (C78_phases_from_the_end (PList [1; 2; 3]) (PList [10; 20; 30]) (Scalar 0) (Scalar 1) None _ 2 eq_refl ltac:(cbn; lia)) false 15).
  - refine (proj1 (C78_no_such_phase (PList [1; 2; 3]) (PList [10; 20; 30]) (Scalar 0) (Scalar 1) None _ (-4) 15 eq_refl _ _)); [left; cbn; lia|rnum; apply Reqb_false; lra].
Qed.
