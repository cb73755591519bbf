(** * Properties C36-C39, C41-C43, C45, C49, C50: readout as a mathematical model
    (main.py:36-233, main_utils.pyx:14-264, with instant-capture traps). *)
From Coq Require Import ZArith List Bool Reals Lra Lia.
From Coquelicot Require Import Rcomplements Rbar Hierarchy RInt.
From Verif Require Import Num Py RFacts CCDModel TrapsModel ManagerModel ROEModel ClockModel MainModel Spec SpecROE SpecImage SpecReadout SpecColumn
  ROEMatrixFacts ROEKindFacts ClockFacts MainFacts ReadoutForced ReadoutFull MainReadoutFacts MainColumnFacts ReadoutExamples ForceFacts.
Import ListNotations.
Open Scope R_scope.

(** ** C36: readout never creates charge. *)
Theorem C36_charge_is_not_created im parallel serial rows cols :
  shape rows cols im -> (0 < rows)%nat -> (0 < cols)%nat -> (forall i j, 0 <= pixel im i j) ->
  one_group_direction parallel rows -> one_group_direction serial cols ->
  exists im', add_cti im parallel serial None = Ok (im', the_roe parallel, the_roe serial) /\ charge im' <= charge im.
Proof. exact (charge_both im parallel serial rows cols). Qed.
Print Assumptions C36_charge_is_not_created.

(** The balance of a column: what is missing was left in traps, or released into the row
    beyond the last one, which is dropped. *)
Theorem C36_charge_balance im parallel serial c traps dwell dt rows cols :
  shape rows cols im -> (0 < rows)%nat -> (forall i j, 0 <= pixel im i j) ->
  plain_setting parallel rows c traps dwell dt -> computes_all parallel rows -> length (groups_in traps) = 1%nat ->
  d_window parallel = WNone -> d_traps serial = None -> columns_ok (selected (d_window serial) cols) cols ->
  let sites := site_of c (groups_in traps) in
  let passes := full_passes rows (d_offset parallel) in
  exists im', add_cti im parallel serial None = Ok (im', the_roe parallel, the_roe serial) /\
  forall j, In (Z.of_nat j) (selected (d_window serial) cols) ->
    let lost := left_behind sites (trap_phases c) (timed_steps (the_roe parallel)) passes (col_fun im j) in
    let beyond := readout sites (trap_phases c) (timed_steps (the_roe parallel)) passes (col_fun im j) (Z.of_nat rows) in
    0 <= lost /\ 0 <= beyond /\ total rows (col_fun im' j) + lost + beyond = total rows (col_fun im j).
Proof.
  intros Hs Hr Hp Hps Hall Hg Hw Hser Hcols.
  destruct (parallel_readout im parallel serial c traps dwell dt rows cols Hs Hr Hp Hps Hall Hw Hser Hcols) as (im' & E & Hs' & _ & _ & G).
  exists im'. split; [exact E|]. intros j Hj.
  refine (column_account im im' parallel c traps dwell dt rows cols Hps Hs Hr Hp j Hg _). intros i Hi. exact (G i j Hi Hj).
Qed.
Print Assumptions C36_charge_balance.
Example C36_example : let d := small_direction small_roe (TOne (small_trap (1/2))) in
  one_group_direction d 2 /\ one_group_direction no_direction 1 /\
  add_cti small_image d no_direction None = Ok ([[1/2]; [3/32]], the_roe d, the_roe no_direction) /\
  charge [[1/2]; [3/32]] < charge small_image.
Proof.
  intros d. split; [|split; [|split]].
  - split; [reflexivity|right]. do 4 eexists. split; [apply small_setting, small_instant; lra|]. split; [left|]; reflexivity.
  - split; [reflexivity|left; reflexivity].
  - exact small_readout.
  - unfold charge, small_image. cbn. lra.
Qed.

(** ** C37: several trap groups can create charge (1 electron becomes 525/512). *)
Theorem C37_groups_create_charge_refuted : exists (im im' : image R) d pr sr traps,
  shape 2 1 im /\ (forall i j, 0 <= pixel im i j) /\ d_traps d = Some traps /\ instant_traps traps /\
  add_cti im d no_direction None = Ok (im', pr, sr) /\ charge im < charge im'.
Proof.
  exists small_image, [[0]; [525/512]], (injection_direction deep_ccd (ln 4) (Some 1%nat) two_groups).
  do 2 eexists. exists two_groups.
  split; [exact small_shape|]. split; [exact small_nonneg|]. split; [reflexivity|]. split; [exact two_groups_instant|].
  split; [exact two_groups_create|]. unfold charge, small_image. cbn. lra.
Qed.
Print Assumptions C37_groups_create_charge_refuted.

(** ** C38: add_cti returns, and stays inside its arrays (an access outside them is an
    [Err OutOfBounds] in the model). *)
Theorem C38_add_cti_returns im parallel serial rows cols :
  shape rows cols im -> (0 < rows)%nat -> (0 < cols)%nat -> (forall i j, 0 <= pixel im i j) ->
  plain_direction parallel rows -> plain_direction serial cols ->
  exists im', add_cti im parallel serial None = Ok (im', the_roe parallel, the_roe serial) /\
    shape rows cols im' /\ (forall i j, 0 <= pixel im' i j).
Proof. exact (plain_returns im parallel serial rows cols). Qed.
Print Assumptions C38_add_cti_returns.
(** The same for charge injection. *)
Theorem C38_injection_returns im d serial c traps dwell npt rows cols :
  shape rows cols im -> (0 < rows)%nat -> (forall i j, 0 <= pixel im i j) ->
  d_ccd d = Some c -> d_traps d = Some traps -> d_roe d = Some (roe_injection_init dwell npt true true DFloat) -> d_window d = WNone ->
  plain_ccd c -> (ccd_n_phases c <= length dwell)%nat -> instant_traps traps ->
  d_traps serial = None -> columns_ok (selected (d_window serial) cols) cols ->
  let N := injection_transfers npt rows (d_offset d) in (0 < N)%nat ->
  exists im', add_cti im d serial None = Ok (im', roe_injection_init dwell (Some N) true true DFloat, the_roe serial) /\
    shape rows cols im' /\ (forall i j, 0 <= pixel im' i j).
Proof.
  intros H1 H2 H3 H4 H5 H6 H7 H8 H9 H10 H11 H12 N HN.
  destruct (injection_parallel im d serial c traps dwell npt rows cols H1 H2 H3 H4 H5 H6 H7 H8 H9 H10 H11 H12 HN) as (im' & A & B & C & _). eauto.
Qed.
Print Assumptions C38_injection_returns.
(** A two-phase device, two groups of traps in each direction, express = 1. *)
Definition duo_ccd : ccd R := mkCCD [1/2; 1/2] 2 [1; 1] [1; 1] [0; 0] [BList [1; 1]; BList [1; 1]].
Lemma duo_plain : plain_ccd duo_ccd.
Proof.
  split; [reflexivity| |].
  - intros [|[|k]]; unfold share, duo_ccd; cbn; try lra. destruct k; lra.
  - intros k Hk. exists 1, 1. cbn in Hk. split; [|lra].
    destruct k as [|[|k]]; [| |lia]; repeat split; reflexivity.
Qed.
Definition duo_direction (traps : traps_arg R) (force : bool) : direction R :=
  mkDir (Some duo_ccd) (Some (roe_init [1; 1] true true force DFloat)) (Some traps) 1 3 WNone.
Lemma duo_setting n : n <> 2%nat -> plain_setting (duo_direction two_groups true) n duo_ccd two_groups [1; 1] DFloat.
Proof. intros H. split; try reflexivity; [left; reflexivity|exact duo_plain|exact two_groups_instant|]. right. cbn. lia. Qed.
Example C38_example : let d := duo_direction two_groups true in
  plain_direction d 3 /\ exists im', add_cti [[1; 2; 3]; [4; 0; 6]; [0; 1; 2]] d d None = Ok (im', the_roe d, the_roe d).
Proof.
  intros d. assert (H : plain_direction d 3). { split; [reflexivity|right]. do 4 eexists. apply duo_setting. lia. }
  split; [exact H|].
  destruct (C38_add_cti_returns [[1; 2; 3]; [4; 0; 6]; [0; 1; 2]] d d 3 3 ltac:(repeat constructor) ltac:(lia) ltac:(lia)
    ltac:(intros [|[|[|[|i]]]] [|[|[|[|j]]]]; unfold pixel; cbn; lra) H H) as (im' & E & _).
  eauto.
Qed.

(** ** C39: without force_release_away_from_readout, row 0 is never read out. *)
Theorem C39_row_minus_one_refuted im d serial rows cols c traps dwell ef eb dt :
  shape rows cols im -> (0 < rows)%nat -> d_window d = WNone -> selected (d_window serial) cols <> [] ->
  d_ccd d = Some c -> d_traps d = Some traps -> d_roe d = Some (roe_init dwell ef eb false dt) ->
  (2 <= length dwell)%nat -> 0 < nth 0 dwell 0 -> 0 < nth (length dwell - 1) (ccd_fractions c) 0 ->
  forall res, add_cti im d serial None <> Ok res.
Proof. intros. eapply force_false_fails; eassumption. Qed.
Print Assumptions C39_row_minus_one_refuted.
Theorem C39_injection_row_minus_one_refuted im d serial rows cols c traps dwell npt eb :
  shape rows cols im -> (0 < rows)%nat -> d_window d = WNone -> selected (d_window serial) cols <> [] ->
  d_ccd d = Some c -> d_traps d = Some traps -> d_roe d = Some (roe_injection_init dwell npt eb false DFloat) ->
  (2 <= length dwell)%nat -> 0 < nth 0 dwell 0 -> 0 < nth (length dwell - 1) (ccd_fractions c) 0 ->
  (0 < injection_transfers npt rows (d_offset d))%nat ->
  forall res, add_cti im d serial None <> Ok res.
Proof. intros. eapply force_false_injection; eassumption. Qed.
Print Assumptions C39_injection_row_minus_one_refuted.
Theorem C39_pumping_row_minus_one_refuted im d serial rows cols c traps dwell n_pumps ef dt r :
  shape rows cols im -> (0 < rows)%nat -> d_window d = WInt 0 -> selected (d_window serial) cols <> [] ->
  d_ccd d = Some c -> d_traps d = Some traps -> roe_pumping_init dwell n_pumps ef dt = Ok r -> d_roe d = Some r ->
  (4 <= length dwell)%nat -> 0 < nth 0 dwell 0 -> 0 < nth (length dwell / 2 - 1) (ccd_fractions c) 0 ->
  (0 < n_pumps)%nat ->
  forall res, add_cti im d serial None <> Ok res.
Proof. intros. eapply pumping_row_zero; eassumption. Qed.
Print Assumptions C39_pumping_row_minus_one_refuted.
(** The same settings, with and without forcing. *)
Example C39_example : let im := [[1]; [1]; [1]] in let d := duo_direction two_groups in
  (exists im', add_cti im (d true) no_direction None = Ok (im', the_roe (d true), the_roe no_direction)) /\
  forall res, add_cti im (d false) no_direction None <> Ok res.
Proof.
  intros im d. split.
  - destruct (C38_add_cti_returns im (d true) no_direction 3 1 ltac:(repeat constructor) ltac:(lia) ltac:(lia)
      ltac:(intros [|[|[|[|i]]]] [|[|j]]; unfold pixel; cbn; lra)) as (im' & E & _).
    + split; [reflexivity|right]. do 4 eexists. apply duo_setting. lia.
    + split; [reflexivity|left; reflexivity].
    + eauto.
  - apply (C39_row_minus_one_refuted im (d false) no_direction 3 1 duo_ccd two_groups [1; 1] true true DFloat);
      try reflexivity; cbn; try lra; try lia; [repeat constructor|discriminate].
Qed.

(** ** C41: trails only go away from the readout register. *)
Theorem C41_rows_depend_on_earlier_rows_only im parallel serial c traps dwell dt rows cols p im' :
  shape rows cols im -> (0 < rows)%nat -> (forall i j, 0 <= pixel im i j) ->
  plain_setting parallel rows c traps dwell dt -> computes_all parallel rows -> d_window parallel = WNone ->
  d_traps serial = None -> columns_ok (selected (d_window serial) cols) cols -> (p < rows)%nat ->
  add_cti im parallel serial None = Ok (im', the_roe parallel, the_roe serial) ->
  add_cti (firstn (S p) im) parallel serial None = Ok (firstn (S p) im', the_roe parallel, the_roe serial).
Proof. intros H1 H2 H3 H4 H5 H6 H7 H8. exact (cut_readout im parallel serial c traps dwell dt rows cols H1 H2 H3 H4 H5 H6 H7 H8 p im'). Qed.
Print Assumptions C41_rows_depend_on_earlier_rows_only.
(** The first pixel alone gives the first pixel of [small_readout]. *)
Example C41_example : let d := small_direction small_roe (TOne (small_trap (1/2))) in
  add_cti [[1]] d no_direction None = Ok ([[1/2]], the_roe d, the_roe no_direction).
Proof.
  intros d. refine (C41_rows_depend_on_earlier_rows_only small_image d no_direction small_ccd _ _ DFloat 2 1 0 _
    small_shape ltac:(lia) small_nonneg (small_setting _ 2 (small_instant (1/2) ltac:(lra))) (or_introl eq_refl) eq_refl eq_refl small_columns ltac:(lia) small_readout).
Qed.

(** ** C42: nothing to change. *)
Theorem C42_no_traps {F} {num : Num F} (im : image F) parallel serial :
  d_traps parallel = None -> d_traps serial = None ->
  add_cti im parallel serial None = Ok (im, the_roe parallel, the_roe serial).
Proof. intros H1 H2. unfold add_cti. cbn [resolve_time_window bind]. rewrite H1, H2. reflexivity. Qed.
Print Assumptions C42_no_traps.
Theorem C42_no_density_or_no_charge im parallel serial rows cols :
  shape rows cols im -> (0 < rows)%nat -> (0 < cols)%nat -> (forall i j, 0 <= pixel im i j) ->
  plain_direction parallel rows -> plain_direction serial cols ->
  (forall i j, pixel im i j = 0) \/
  ((forall traps, d_traps parallel = Some traps -> no_density traps) /\ (forall traps, d_traps serial = Some traps -> no_density traps)) ->
  add_cti im parallel serial None = Ok (im, the_roe parallel, the_roe serial).
Proof. exact (unchanged_both im parallel serial rows cols). Qed.
Print Assumptions C42_no_density_or_no_charge.
Example C42_example : let d := small_direction small_roe (TOne (small_trap 0)) in
  add_cti small_image d no_direction None = Ok (small_image, the_roe d, the_roe no_direction).
Proof.
  intros d. refine (C42_no_density_or_no_charge small_image d no_direction 2 1 small_shape ltac:(lia) ltac:(lia) small_nonneg _ _ (or_intror (conj _ _))).
  - split; [reflexivity|right]. do 4 eexists. apply small_setting, small_instant. lra.
  - split; [reflexivity|left; reflexivity].
  - intros traps E. injection E as <-. repeat constructor.
  - discriminate.
Qed.

(** ** C43: the watermarks compute the mathematical model. *)
Theorem C43_readout_model im parallel serial c traps dwell dt rows cols :
  shape rows cols im -> (0 < rows)%nat -> (forall i j, 0 <= pixel im i j) ->
  plain_setting parallel rows c traps dwell dt -> computes_all parallel rows -> d_window parallel = WNone ->
  d_traps serial = None -> columns_ok (selected (d_window serial) cols) cols ->
  exists im', add_cti im parallel serial None = Ok (im', the_roe parallel, the_roe serial) /\
  forall i j, (i < rows)%nat -> In (Z.of_nat j) (selected (d_window serial) cols) ->
    pixel im' i j = readout (site_of c (groups_in traps)) (trap_phases c) (timed_steps (the_roe parallel))
                      (full_passes rows (d_offset parallel)) (col_fun im j) (Z.of_nat i).
Proof.
  intros H1 H2 H3 H4 H5 H6 H7 H8. destruct (parallel_readout im parallel serial c traps dwell dt rows cols H1 H2 H3 H4 H5 H6 H7 H8) as (im' & E & _ & _ & _ & G). eauto.
Qed.
Print Assumptions C43_readout_model.
(** One phase: the textbook model. *)
Theorem C43_textbook_model im parallel serial c traps group d dt rows cols j :
  shape rows cols im -> (0 < rows)%nat -> (forall i j, 0 <= pixel im i j) ->
  plain_setting parallel rows c traps [d] dt -> computes_all parallel rows -> d_window parallel = WNone ->
  d_traps serial = None -> columns_ok (selected (d_window serial) cols) cols ->
  0 < d -> ccd_n_phases c = 1%nat -> 0 < share c 0 -> groups_in traps = [group] ->
  In (Z.of_nat j) (selected (d_window serial) cols) ->
  exists im', add_cti im parallel serial None = Ok (im', the_roe parallel, the_roe serial) /\
    column_of im' j = textbook (map (thinned (share c 0)) group) (depth (nth 0 (ccd_full_well c) 1) (nth 0 (ccd_fill_power c) 1)) d
                        (d_offset parallel) (column_of im j).
Proof. exact (textbook_readout im parallel serial c traps group d dt rows cols j). Qed.
Print Assumptions C43_textbook_model.
(** Charge injection: all rows in every pass. *)
Theorem C43_injection_model im d serial c traps dwell npt rows cols :
  shape rows cols im -> (0 < rows)%nat -> (forall i j, 0 <= pixel im i j) ->
  d_ccd d = Some c -> d_traps d = Some traps -> d_roe d = Some (roe_injection_init dwell npt true true DFloat) -> d_window d = WNone ->
  plain_ccd c -> (ccd_n_phases c <= length dwell)%nat -> instant_traps traps ->
  d_traps serial = None -> columns_ok (selected (d_window serial) cols) cols ->
  let N := injection_transfers npt rows (d_offset d) in (0 < N)%nat ->
  let E := passes_for N (d_express d) in let x := INR N / INR E in
  exists im', add_cti im d serial None = Ok (im', roe_injection_init dwell (Some N) true true DFloat, the_roe serial) /\
  forall i j, (i < rows)%nat -> In (Z.of_nat j) (selected (d_window serial) cols) ->
    pixel im' i j = readout (site_of c (groups_in traps)) (trap_phases c) (timed_steps (the_roe d))
      (injection_passes rows E (fun i => overlap (INR i * x) (INR (S i) * x) 0 (INR (rows + d_offset d)))) (col_fun im j) (Z.of_nat i).
Proof.
  intros H1 H2 H3 H4 H5 H6 H7 H8 H9 H10 H11 H12 N HN E x.
  destruct (injection_parallel im d serial c traps dwell npt rows cols H1 H2 H3 H4 H5 H6 H7 H8 H9 H10 H11 H12 HN) as (im' & A & _ & _ & _ & G). eauto.
Qed.
Print Assumptions C43_injection_model.
Example C43_example :
  textbook [thinned 1 (small_trap (1/2))] small_well (ln 2) 0 [1; 0] = [1/2; 3/32] /\
  let d := small_direction small_roe (TOne (small_trap (1/2))) in
  add_cti small_image d no_direction None = Ok ([[1/2]; [3/32]], the_roe d, the_roe no_direction).
Proof. split; [exact small_textbook|exact small_readout]. Qed.

(** ** C45: serial clocking. *)
Theorem C45_serial_is_transposed_parallel (im : image R) d rows cols n ef : shape rows cols im -> (0 < rows)%nat -> (0 < cols)%nat ->
  roe_kind_of (the_roe d) = Standard ef ->
  window_ok (selected (d_window d) cols) n -> (n <= cols)%nat ->
  add_cti im no_direction d None =
  match add_cti (transpose im) d no_direction None with
  | Ok (im', pr, sr) => Ok (transpose im', sr, pr)
  | Err e => Err e
  end.
Proof. intros H1 H2 H3 H4. exact (serial_parallel im d rows cols n ef (the_roe d) H1 H2 H3 eq_refl H4). Qed.
Print Assumptions C45_serial_is_transposed_parallel.
Example C45_example : let d := small_direction small_roe (TOne (small_trap (1/2))) in
  add_cti [[1; 0]] no_direction d None = Ok ([[1/2; 3/32]], the_roe no_direction, the_roe d).
Proof.
  intros d. rewrite (C45_serial_is_transposed_parallel [[1; 0]] d 1 2 2 true); try reflexivity; try lia.
  - change (transpose [[1; 0]]) with small_image. unfold d. pose proof small_readout as S. cbv zeta in S. rewrite S. reflexivity.
  - repeat constructor.
  - split; [cbn; repeat constructor; cbn; lia|cbn; auto].
Qed.
(** Charge injection with more transfers than pixels: parallel clocking cuts the transfers
    off after the number of rows, serial clocking does not. *)
Theorem C45_injection_differs_refuted : exists (im : image R) d im1 im2 p1 s1 p2 s2, shape 1 1 im /\
  add_cti im d no_direction None = Ok (im1, p1, s1) /\ add_cti im no_direction d None = Ok (im2, p2, s2) /\
  transpose im = im /\ transpose im1 <> im2.
Proof.
  do 8 eexists. split; [exact dot_shape|]. split; [exact dot_parallel|]. split; [exact dot_serial|]. split; [reflexivity|].
  cbn. intros E. injection E. lra.
Qed.
Print Assumptions C45_injection_differs_refuted.

(** ** C49: empty_traps_for_first_transfers = False.  One group of instant-capture traps,
    express = 0: the total charge can increase. *)
Theorem C49_saving_creates_charge_refuted : exists (im im' : image R) d dwell traps,
  shape 2 1 im /\ (forall i j, 0 <= pixel im i j) /\
  d = small_direction (roe_init dwell false true true DFloat) traps /\ instant_traps traps /\ length (groups_in traps) = 1%nat /\
  add_cti im d no_direction None = Ok (im', the_roe d, the_roe no_direction) /\ charge im < charge im'.
Proof.
  exists small_image, [[7/8]; [5307/32768]], (small_direction saving_roe (TOne (small_trap (1/8)))), [ln 4], (TOne (small_trap (1/8))).
  split; [exact small_shape|]. split; [exact small_nonneg|]. split; [reflexivity|]. split; [apply small_instant; lra|]. split; [reflexivity|].
  split; [exact saving_small|]. unfold charge, small_image. cbn. lra.
Qed.
Print Assumptions C49_saving_creates_charge_refuted.

(** ** C50: charge injection with a row window. *)
Theorem C50_injection_window_fails_refuted im d serial rows cols c traps dwell npt eb force n k :
  shape rows cols im -> (0 < rows)%nat -> selected (d_window serial) cols <> [] ->
  window_ok (selected (d_window d) rows) n -> (length (selected (d_window d) rows) < n)%nat ->
  d_ccd d = Some c -> d_traps d = Some traps -> d_roe d = Some (roe_injection_init dwell npt eb force DFloat) ->
  Exists (Rlt 0) dwell -> 0 < nth k (ccd_fractions c) 0 -> (0 < injection_transfers npt n (d_offset d))%nat ->
  forall res, add_cti im d serial None <> Ok res.
Proof. intros. eapply injection_window_fails; eassumption. Qed.
Print Assumptions C50_injection_window_fails_refuted.
(** All the rows work, the second one alone does not. *)
Example C50_example : let d w := mkDir (Some small_ccd) (Some (roe_injection_init [ln 2] None true true DFloat)) (Some half) 0 0 w in
  (exists res, add_cti small_image (d WNone) no_direction None = Ok res) /\
  forall res, add_cti small_image (d (WInt 1)) no_direction None <> Ok res.
Proof.
  intros d. split.
  - destruct (first_row None 2 eq_refl (or_intror eq_refl)) as (im' & r & E & _). eauto.
  - apply (C50_injection_window_fails_refuted small_image (d (WInt 1)) no_direction 2 1 small_ccd half [ln 2] None true true 2 0);
      try reflexivity; try (cbn; lia).
    + exact small_shape.
    + discriminate.
    + split; [repeat constructor; lia|cbn; auto].
    + constructor. apply ln_pos. lra.
    + cbn. lra.
Qed.
