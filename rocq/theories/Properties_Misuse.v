(** * Properties C57-C59: changed dwell times, mismatched phases, negative pixels
    (roe.py:113-128 and 789-808, main_utils.pyx:173-251). *)
From Coq Require Import ZArith List Bool Reals Lra Lia.
From Coquelicot Require Import Rcomplements Rbar Hierarchy RInt.
From Verif Require Import Num Py RFacts CCDModel TrapsModel ManagerModel ROEModel ClockModel MainModel Spec SpecROE SpecImage SpecReadout SpecColumn SpecObjects
  ClockFacts MainFacts MainReadoutFacts MainColumnFacts ROEExpressFacts ReadoutExamples ForceFacts ReachFacts NegativeFacts NegativeExample.
Import ListNotations.
Open Scope R_scope.

Lemma constructed_sequence r steps phases : constructed r steps phases ->
  length (roe_dwell_times r) = steps /\ exists force, roe_clock_sequence r = generate_clock_sequence force steps phases.
Proof.
  intros [dwell ef eb force dt|dwell npt eb force dt|dwell n_pumps ef dt r' E].
  - split; [reflexivity|]. exists force. reflexivity.
  - split; [reflexivity|]. exists force. reflexivity.
  - unfold roe_pumping_init in E. destruct (Nat.even _); [|discriminate]. injection E as <-. split; [reflexivity|]. exists false.
    cbn [roe_clock_sequence make_roe]. rewrite Nat.div2_div. reflexivity.
Qed.
Lemma sequence_length force steps phases : length (@generate_clock_sequence R _ force steps phases) = steps.
Proof. unfold generate_clock_sequence. rewrite map_length, seq_length. reflexivity. Qed.
Lemma sequence_phases force steps phases k rps : nth_error (@generate_clock_sequence R _ force steps phases) k = Some rps -> length rps = phases.
Proof.
  intros H. apply nth_error_In in H. apply in_map_iff in H as (s & <- & _). rewrite map_length, seq_length. reflexivity.
Qed.

(** ** C57: the setter of dwell_times. *)
(** Assigning dwell times gives the object that the constructor would have built from them,
    if and only if their number does not change. *)
Theorem C57_assignment_is_construction dwell l ef eb force dt : (0 < length dwell)%nat ->
  set_dwell_times (roe_init dwell ef eb force dt) l = @roe_init R _ l ef eb force dt <-> length l = length dwell.
Proof.
  intros Hd. split; intros H.
  - apply (f_equal (fun r => length (roe_clock_sequence r))) in H. cbn [set_dwell_times roe_init make_roe roe_clock_sequence] in H.
    rewrite !sequence_length in H. congruence.
  - unfold set_dwell_times, roe_init, make_roe. cbn. rewrite H. reflexivity.
Qed.
Print Assumptions C57_assignment_is_construction.
(** With more dwell times than before no image is ever read out. *)
Theorem C57_more_steps_fail_refuted im d serial rows cols c traps r l n k p steps phases :
  shape rows cols im -> (0 < rows)%nat -> selected (d_window serial) cols <> [] ->
  window_ok (selected (d_window d) rows) n -> (n <= rows)%nat ->
  constructed r steps phases ->
  d_ccd d = Some c -> d_traps d = Some traps -> d_roe d = Some (fst (assign_dwell_times r l)) ->
  (steps <= k)%nat -> 0 < nth k l 0 -> 0 < nth p (ccd_fractions c) 0 ->
  forall res, add_cti im d serial None <> Ok res.
Proof.
  intros Hs Hr Hsel Hwin Hn Hcon Hc Ht Hroe Hk Hl Hp res H.
  destruct (call_needs_phase im d serial rows cols c traps _ n k p res Hs Hr Hsel Hwin Hn Hc Ht Hroe Hl Hp H) as (rps & rp & E & _).
  destruct (constructed_sequence r steps phases Hcon) as [_ [force Es]]. cbn in E. rewrite Es in E.
  assert (k < steps)%nat; [|lia]. rewrite <- (sequence_length force steps phases). apply nth_error_Some. congruence.
Qed.
Print Assumptions C57_more_steps_fail_refuted.
(** A rejected assignment to a trap-pumping ROE changes the object all the same. *)
Theorem C57_rejected_assignment_has_no_effect_refuted dwell n_pumps ef dt r l :
  @roe_pumping_init R _ dwell n_pumps ef dt = Ok r -> Nat.even (length l) = false ->
  snd (assign_dwell_times r l) = Some OtherException /\ fst (assign_dwell_times r l) <> r /\
  roe_dwell_times (fst (assign_dwell_times r l)) = l.
Proof.
  unfold roe_pumping_init. destruct (Nat.even (length dwell)) eqn:E; [|discriminate]. intros H Hl. injection H as <-.
  cbn [assign_dwell_times snd fst roe_kind_of make_roe roe_dwell_times set_dwell_times]. rewrite Hl.
  split; [reflexivity|]. split; [|reflexivity]. intros H. apply (f_equal (@roe_dwell_times R)) in H. cbn in H. congruence.
Qed.
Print Assumptions C57_rejected_assignment_has_no_effect_refuted.

(** The constructor refuses exactly the odd numbers of steps. *)
Theorem C57_odd_numbers_of_steps_are_refused (dwell : list R) n_pumps ef dt :
  (roe_pumping_init dwell n_pumps ef dt = Err OtherException <-> exists n, length dwell = (2 * n + 1)%nat) /\
  ((exists r, roe_pumping_init dwell n_pumps ef dt = Ok r /\ roe_dwell_times r = dwell) <-> exists n, length dwell = (2 * n)%nat).
Proof.
  unfold roe_pumping_init. destruct (Nat.even (length dwell)) eqn:E.
  - apply Nat.even_spec in E as [n E]. split; split; intros H; try discriminate; try (destruct H as [m H]; lia); [eexists; exact E|]. eexists. split; reflexivity.
  - assert (O : Nat.odd (length dwell) = true) by (unfold Nat.odd; now rewrite E). apply Nat.odd_spec in O as [n O]. split; split; intros H; try reflexivity.
    + eexists; exact O.
    + destruct H as (r & H & _). discriminate.
    + destruct H as [m H]. lia.
Qed.
Print Assumptions C57_odd_numbers_of_steps_are_refused.
Example C57_example_odd : roe_pumping_init [1; 2; 3] 5 true DFloat = Err OtherException.
Proof. apply C57_odd_numbers_of_steps_are_refused. exists 1%nat. reflexivity. Qed.

(** One step of clocking works, so do two with a new object; changing one step to two
    does not. *)
Example C57_example : let d r := small_direction r (TOne (small_trap (1/2))) in
  (exists res, add_cti small_image (d small_roe) no_direction None = Ok res) /\
  (exists res, add_cti small_image (d (roe_init [ln 2; ln 2] true true true DFloat)) no_direction None = Ok res) /\
  (forall res, add_cti small_image (d (fst (assign_dwell_times small_roe [ln 2; ln 2]))) no_direction None <> Ok res).
Proof.
  intros d. assert (Hl : 0 < ln 2) by (apply ln_pos; lra). split; [|split].
  - destruct (plain_returns small_image (d small_roe) no_direction 2 1 small_shape ltac:(lia) ltac:(lia) small_nonneg) as (im' & E & _); [| |eauto].
    + split; [reflexivity|right]. do 4 eexists. apply small_setting, small_instant. lra.
    + split; [reflexivity|left; reflexivity].
  - destruct (plain_returns small_image (d (roe_init [ln 2; ln 2] true true true DFloat)) no_direction 2 1 small_shape ltac:(lia) ltac:(lia) small_nonneg) as (im' & E & _); [| |eauto].
    + split; [reflexivity|right]. exists small_ccd, (TOne (small_trap (1/2))), [ln 2; ln 2], DFloat.
      constructor; try reflexivity; [left; reflexivity|exact small_plain|cbn; lia|apply small_instant; lra|left; reflexivity].
    + split; [reflexivity|left; reflexivity].
  - apply (C57_more_steps_fail_refuted small_image (d (fst (assign_dwell_times small_roe [ln 2; ln 2]))) no_direction 2 1 small_ccd
             (TOne (small_trap (1/2))) small_roe [ln 2; ln 2] 2 1 0 1 1); try reflexivity; try (cbn; lia); try (cbn; lra).
    + exact small_shape.
    + discriminate.
    + split; [repeat constructor; lia|cbn; auto].
    + exact (new_roe [ln 2] true true true DFloat).
Qed.

(** ** C58: a CCD with more phases than the ROE. *)
Theorem C58_too_many_ccd_phases_refuted im d serial rows cols c traps r n p steps phases :
  shape rows cols im -> (0 < rows)%nat -> selected (d_window serial) cols <> [] ->
  window_ok (selected (d_window d) rows) n -> (n <= rows)%nat ->
  constructed r steps phases ->
  d_ccd d = Some c -> d_traps d = Some traps -> d_roe d = Some r ->
  Exists (Rlt 0) (roe_dwell_times r) -> (phases <= p)%nat -> 0 < nth p (ccd_fractions c) 0 ->
  forall res, add_cti im d serial None <> Ok res.
Proof.
  intros Hs Hr Hsel Hwin Hn Hcon Hc Ht Hroe Hd Hp Hf res H.
  apply Exists_exists in Hd as (x & Hx & Hpos). apply (In_nth _ _ 0) in Hx as (k & Hk & <-).
  destruct (call_needs_phase im d serial rows cols c traps r n k p res Hs Hr Hsel Hwin Hn Hc Ht Hroe Hpos Hf H) as (rps & rp & E & Ep).
  destruct (constructed_sequence r steps phases Hcon) as [_ [force Es]]. rewrite Es in E. apply sequence_phases in E.
  assert (p < phases)%nat; [|lia]. rewrite <- E. apply nth_error_Some. congruence.
Qed.
Print Assumptions C58_too_many_ccd_phases_refuted.
(** The default ROE and a CCD of two phases; whereas two clocking steps return (C38). *)
Definition pair_ccd : ccd R := mkCCD [1/2; 1/2] 2 [1; 1] [1; 1] [0; 0] [BList [1; 1]; BList [1; 1]].
Definition pair_direction (r : roe R) : direction R := mkDir (Some pair_ccd) (Some r) (Some (TOne (small_trap (1/2)))) 0 0 WNone.
Example C58_example : ccd_init (PList [1/2; 1/2]) (Scalar 1) (Scalar 0) (Scalar 1) None = Ok pair_ccd /\
  (exists res, add_cti small_image (pair_direction (roe_init [1; 1] true true true DFloat)) no_direction None = Ok res) /\
  (forall res, add_cti small_image (pair_direction roe_default) no_direction None <> Ok res).
Proof.
  split; [reflexivity|]. split.
  - destruct (plain_returns small_image (pair_direction (roe_init [1; 1] true true true DFloat)) no_direction 2 1 small_shape ltac:(lia) ltac:(lia) small_nonneg) as (im' & E & _); [| |eauto].
    + split; [reflexivity|right]. exists pair_ccd, (TOne (small_trap (1/2))), [1; 1], DFloat.
      constructor; try reflexivity; [left; reflexivity| |apply small_instant; lra|left; reflexivity].
      split; [reflexivity| |].
      * intros [|[|k]]; unfold share, pair_ccd; cbn; try lra. destruct k; lra.
      * intros k Hk. exists 1, 1. cbn in Hk. split; [|lra]. destruct k as [|[|k]]; [| |lia]; repeat split; reflexivity.
    + split; [reflexivity|left; reflexivity].
  - apply (C58_too_many_ccd_phases_refuted small_image (pair_direction roe_default) no_direction 2 1 pair_ccd
             (TOne (small_trap (1/2))) roe_default 2 1 1 1); try reflexivity; try (cbn; lia); try (cbn; lra).
    + exact small_shape.
    + discriminate.
    + split; [repeat constructor; lia|cbn; auto].
    + exact (new_roe [1] true true true DFloat).
    + constructor. rnum. lra.
Qed.

(** ** C59: negative pixels. *)
(** Whatever the image and the traps, every pixel that is processed ends up non-negative. *)
Theorem C59_processed_pixels_are_not_negative im d serial rows cols c traps r steps phases n i j im' pr sr :
  shape rows cols im -> (0 < rows)%nat -> (0 < cols)%nat ->
  window_ok (selected (d_window d) rows) n -> (n <= rows)%nat -> NoDup (selected (d_window d) rows) ->
  constructed r steps phases -> 0 < nth 0 (roe_dwell_times r) 0 -> 0 < nth 0 (ccd_fractions c) 0 ->
  d_ccd d = Some c -> d_traps d = Some traps -> d_roe d = Some r ->
  In (Z.of_nat i) (selected (d_window d) rows) -> (j < cols)%nat -> In (Z.of_nat j) (selected (d_window serial) cols) ->
  add_cti im d serial None = Ok (im', pr, sr) -> 0 <= pixel im' i j.
Proof.
  intros Hs Hr Hc0 Hwin Hn Hnd Hcon Hd Hf Hc Ht Hroe Hi Hj Hcol H.
  refine (call_sets im d serial rows cols c traps r n i j im' pr sr _ Hs Hr Hc0 Hwin Hn Hnd Hc Ht Hroe Hi Hj Hcol H).
  destruct (constructed_sequence r steps phases Hcon) as [Hl [force Es]].
  assert (Hst : (0 < steps)%nat) by (rewrite <- Hl; destruct (roe_dwell_times r); cbn in *; [lra|lia]).
  assert (Hph : (0 < phases)%nat).
  { inversion Hcon as [? ? ? ? ? E1 E2 E3|? ? ? ? ? E1 E2 E3|dwell np ef dt r' E E1 E2 E3]; subst; try assumption.
    unfold roe_pumping_init in E. destruct (Nat.even (length dwell)) eqn:Ev; [|discriminate]. injection E as <-. cbn in Hd.
    destruct dwell as [|a [|b dwell]]; cbn in *; try lia; lra. }
  destruct (first_phase force phases steps Hph Hst) as (rps & rp & A & B & C).
  exists 0%nat, (nth 0 (roe_dwell_times r) 0), 0%nat, rps, rp. rewrite Es.
  split; [exact (in_steps r 0 Hd)|]. split; [exact (in_phases c 0 Hf)|]. auto.
Qed.
Print Assumptions C59_processed_pixels_are_not_negative.

(** Hence reading out an image whose pixels sum to less than zero creates charge. *)
Lemma charge_nonneg (im : image R) rows cols : shape rows cols im -> (forall i j, (i < rows)%nat -> (j < cols)%nat -> 0 <= pixel im i j) -> 0 <= charge im.
Proof.
  intros [Hl Hf] H. unfold charge. subst rows. induction im as [|row im IH]; cbn; [lra|].
  assert (0 <= Rsum row).
  { inversion Hf; subst. pose proof (fun j => H 0%nat j ltac:(cbn; lia)) as H0. unfold pixel in H0. cbn in H0. clear - H0.
    induction row as [|x row IH]; cbn; [lra|]. pose proof (H0 0%nat ltac:(cbn; lia)). cbn in H.
    assert (0 <= Rsum row) by (apply IH; intros j Hj; exact (H0 (S j) ltac:(cbn; lia))). unfold Rsum in *. lra. }
  assert (0 <= Rsum (map Rsum im)). { apply IH; [inversion Hf; assumption|]. intros i j Hi Hj. exact (H (S i) j ltac:(cbn; lia) Hj). }
  unfold Rsum in *. cbn in *. lra.
Qed.
Theorem C59_negative_images_keep_their_charge_refuted im d serial rows cols c traps r steps phases im' pr sr :
  shape rows cols im -> (0 < rows)%nat -> (0 < cols)%nat -> d_window d = WNone -> d_window serial = WNone ->
  constructed r steps phases -> 0 < nth 0 (roe_dwell_times r) 0 -> 0 < nth 0 (ccd_fractions c) 0 ->
  d_ccd d = Some c -> d_traps d = Some traps -> d_roe d = Some r ->
  charge im < 0 -> add_cti im d serial None = Ok (im', pr, sr) -> charge im < charge im'.
Proof.
  intros Hs Hr Hc0 Hw Hw' Hcon Hd Hf Hc Ht Hroe Hneg H. eapply Rlt_le_trans; [exact Hneg|].
  pose proof (proj1 (add_cti_shape_sign _ _ _ _ _ _ _ rows cols Hs Hr Hc0 H)) as Hs'.
  apply (charge_nonneg im' rows cols Hs'). intros i j Hi Hj.
  assert (Hin : forall m k, (k < m)%nat -> In (Z.of_nat k) (selected WNone m)) by (intros m k Hk; apply in_map, in_seq; lia).
  refine (C59_processed_pixels_are_not_negative im d serial rows cols c traps r steps phases rows i j im' pr sr Hs Hr Hc0 _ (le_n _) _ Hcon Hd Hf Hc Ht Hroe _ Hj _ H).
  - rewrite Hw. cbn [selected]. rewrite <- py_range_0. apply window_ok_range, Hr.
  - rewrite Hw. cbn [selected]. apply FinFun.Injective_map_NoDup; [intros a b E; lia|apply seq_NoDup].
  - rewrite Hw. apply Hin, Hi.
  - rewrite Hw'. apply Hin, Hj.
Qed.
Print Assumptions C59_negative_images_keep_their_charge_refuted.
(** Even traps of density zero change a negative pixel (compare C42). *)
Example C59_example : add_cti [[-1]] (small_direction small_roe (TOne (small_trap 0))) no_direction None
  = Ok ([[0]], small_roe, the_roe no_direction) /\ charge [[-1]] < charge [[0]].
Proof. split; [exact (dark_readout 0)|unfold charge, Rsum; cbn; lra]. Qed.
