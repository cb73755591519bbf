(** * Properties C34, C35, C40, C46: what add_cti does to any image, for any kind of trap
    (main.py:36-233, main_utils.pyx:14-264). *)
From Coq Require Import ZArith List Bool Reals Lra Lia.
From Coquelicot Require Import Rcomplements Rbar Hierarchy RInt.
From Verif Require Import Num Py RFacts CCDModel TrapsModel ManagerModel ROEModel ClockModel MainModel Spec SpecROE SpecImage SpecReadout SpecColumn
  ClockFacts MainFacts ImageFacts MainReadoutFacts MainColumnFacts ReadoutExamples.
Import ListNotations.
Open Scope R_scope.

(** ** C34: shape, and untouched pixels. *)
Theorem C34_shape_is_preserved {F} {num : Num F} (im : image F) parallel serial tw im' pr sr rows cols :
  shape rows cols im -> (0 < rows)%nat -> (0 < cols)%nat ->
  add_cti im parallel serial tw = Ok (im', pr, sr) -> shape rows cols im'.
Proof. intros H1 H2 H3 H. exact (proj1 (add_cti_shape_sign im parallel serial tw im' pr sr rows cols H1 H2 H3 H)). Qed.
Print Assumptions C34_shape_is_preserved.

(** Pixel (i, j) keeps its value if neither direction reaches it: there are no traps in
    that direction, or its column is not processed, or its row receives no electrons. *)
Theorem C34_pixels_outside_windows_are_unchanged {F} {num : Num F} (im : image F) parallel serial im' pr sr rows cols i j :
  shape rows cols im -> (0 < rows)%nat -> (0 < cols)%nat ->
  add_cti im parallel serial None = Ok (im', pr, sr) ->
  (d_traps parallel = None \/ ~ In (Z.of_nat j) (selected (d_window serial) cols) \/
   ~ receives (the_roe parallel) (selected (d_window parallel) rows) i) ->
  (d_traps serial = None \/ ~ In (Z.of_nat i) (selected (d_window parallel) rows) \/
   ~ receives (the_roe serial) (selected (d_window serial) cols) j) ->
  pixel im' i j = pixel im i j.
Proof. exact (add_cti_frame im parallel serial im' pr sr rows cols i j). Qed.
Print Assumptions C34_pixels_outside_windows_are_unchanged.

(** Column 0 of a two-column image is read out; column 1 stays. *)
Definition wide_image : image R := [[1; 5]; [0; 7]].
Definition wide_serial : direction R := mkDir None None None 0 0 (WInt 0).
Lemma wide_shape : shape 2 2 wide_image.
Proof. repeat constructor. Qed.
Lemma wide_nonneg i j : 0 <= pixel wide_image i j.
Proof. destruct i as [|[|[|i]]], j as [|[|[|j]]]; unfold pixel, wide_image; cbn; lra. Qed.
Lemma wide_columns : columns_ok (selected (d_window wide_serial) 2) 2.
Proof. split; cbn; [repeat constructor; intros []|]. intros j [<-|[]]. lia. Qed.
Example C34_example : let d := small_direction small_roe (TOne (small_trap (1/2))) in
  exists im', add_cti wide_image d wide_serial None = Ok (im', the_roe d, the_roe wide_serial) /\
    shape 2 2 im' /\ pixel im' 0 1 = 5 /\ pixel im' 1 1 = 7 /\ column_of im' 0 = [1/2; 3/32].
Proof.
  intros d.
  destruct (textbook_readout wide_image d wide_serial small_ccd (TOne (small_trap (1/2))) [small_trap (1/2)] (ln 2) DFloat 2 2 0
              wide_shape ltac:(lia) wide_nonneg (small_setting _ 2 (small_instant (1/2) ltac:(lra))) (or_introl eq_refl) eq_refl eq_refl wide_columns
              (ln_pos 2 ltac:(lra)) eq_refl ltac:(cbn; lra) eq_refl (or_introl eq_refl)) as (im' & E & H).
  exists im'. split; [exact E|]. split; [exact (C34_shape_is_preserved _ _ _ _ _ _ _ 2 2 wide_shape ltac:(lia) ltac:(lia) E)|].
  assert (G : forall i, pixel im' i 1 = pixel wide_image i 1).
  { intros i. apply (C34_pixels_outside_windows_are_unchanged wide_image d wide_serial im' _ _ 2 2 i 1 wide_shape ltac:(lia) ltac:(lia) E); [|left; reflexivity].
    right; left. cbn. lia. }
  split; [rewrite G; reflexivity|]. split; [rewrite G; reflexivity|]. rewrite H. exact small_textbook.
Qed.

(** ** C35: no negative pixels.  For floating-point numbers this says that no pixel compares
    less than zero (it could be NaN). *)
Theorem C35_no_pixel_becomes_negative {F} {num : Num F} (im : image F) parallel serial tw im' pr sr rows cols :
  (n0 <? n0)%num = false ->
  shape rows cols im -> (0 < rows)%nat -> (0 < cols)%nat ->
  add_cti im parallel serial tw = Ok (im', pr, sr) ->
  forall i j, (pixel im i j <? n0)%num = false -> (pixel im' i j <? n0)%num = false.
Proof. intros H0 H1 H2 H3 H. exact (proj2 (add_cti_shape_sign im parallel serial tw im' pr sr rows cols H1 H2 H3 H) H0). Qed.
Print Assumptions C35_no_pixel_becomes_negative.
Theorem C35_no_negative_pixels {F} {num : Num F} (im : image F) parallel serial tw im' pr sr rows cols :
  (n0 <? n0)%num = false ->
  shape rows cols im -> (0 < rows)%nat -> (0 < cols)%nat ->
  add_cti im parallel serial tw = Ok (im', pr, sr) -> not_negative im -> not_negative im'.
Proof. intros H0 H1 H2 H3 H Hn i j. exact (C35_no_pixel_becomes_negative im parallel serial tw im' pr sr rows cols H0 H1 H2 H3 H i j (Hn i j)). Qed.
Print Assumptions C35_no_negative_pixels.
Theorem C35_no_negative_pixels_real (im : image R) parallel serial tw im' pr sr rows cols :
  shape rows cols im -> (0 < rows)%nat -> (0 < cols)%nat ->
  add_cti im parallel serial tw = Ok (im', pr, sr) ->
  (forall i j, 0 <= pixel im i j) -> forall i j, 0 <= pixel im' i j.
Proof.
  intros H1 H2 H3 H Hn. apply nonneg_iff.
  refine (C35_no_negative_pixels im parallel serial tw im' pr sr rows cols _ H1 H2 H3 H (proj2 (nonneg_iff im) Hn)).
  rnum. apply Rltb_false. lra.
Qed.
Print Assumptions C35_no_negative_pixels_real.
(** Charge injection with two trap groups, which take more than there is. *)
Example C35_example : exists im' pr sr, add_cti small_image (injection_direction deep_ccd (ln 4) (Some 1%nat) two_groups) no_direction None = Ok (im', pr, sr) /\
  pixel im' 0 0 = 0.
Proof. do 3 eexists. split; [exact two_groups_create|reflexivity]. Qed.

(** ** C40: columns are independent. *)
Theorem C40_columns_are_independent {F} {num : Num F} (im : image F) parallel serial tw im' pr sr rows cols j :
  shape rows cols im -> (0 < rows)%nat -> roe_empty_between (the_roe parallel) = true ->
  d_traps serial = None -> NoDup (selected (d_window serial) cols) -> In (Z.of_nat j) (selected (d_window serial) cols) ->
  add_cti im parallel serial tw = Ok (im', pr, sr) ->
  add_cti (one_column (column_of im j)) parallel no_direction tw =
    Ok (one_column (column_of im' j), pr, the_roe no_direction).
Proof. exact (add_cti_columns im parallel serial tw im' pr sr rows cols j). Qed.
Print Assumptions C40_columns_are_independent.
Example C40_example : exists im' pr sr, add_cti wide_image (small_direction small_roe (TOne (small_trap (1/2)))) no_direction None = Ok (im', pr, sr) /\
  column_of im' 0 = [1/2; 3/32].
Proof.
  set (d := small_direction small_roe _).
  destruct (plain_returns wide_image d no_direction 2 2 wide_shape ltac:(lia) ltac:(lia) wide_nonneg) as (im' & E & _).
  - split; [reflexivity|right]. do 4 eexists. apply small_setting, small_instant. lra.
  - split; [reflexivity|left; reflexivity].
  - exists im', (the_roe d), (the_roe no_direction). split; [exact E|].
    assert (G := C40_columns_are_independent wide_image d no_direction None im' _ _ 2 2 0 wide_shape ltac:(lia) eq_refl eq_refl ltac:(cbn; repeat constructor; cbn; lia) (or_introl eq_refl) E).
    change (one_column (column_of wide_image 0)) with small_image in G. unfold d in G. pose proof small_readout as S. cbv zeta in S. rewrite S in G. injection G as G.
    destruct (C34_shape_is_preserved _ _ _ _ _ _ _ 2 2 wide_shape ltac:(lia) ltac:(lia) E) as [L _].
    destruct im' as [|r0 [|r1 [|]]]; try discriminate. cbn in *. injection G as <- <-. reflexivity.
Qed.

(** ** C46: one call does not influence the next, except through charge injection. *)
Theorem C46_calls_are_independent {F} {num : Num F} (im1 im2 : image F) parallel serial tw1 tw2 im' pr sr :
  add_cti im1 parallel serial tw1 = Ok (im', pr, sr) ->
  (forall npt, roe_kind_of (the_roe parallel) <> Injection npt) -> (forall npt, roe_kind_of (the_roe serial) <> Injection npt) ->
  pr = the_roe parallel /\ sr = the_roe serial /\
  add_cti im2 (keep_roe parallel pr) (keep_roe serial sr) tw2 = add_cti im2 parallel serial tw2.
Proof.
  intros H Hp Hs. destruct (add_cti_keeps_roe _ _ _ _ _ _ _ H) as [Gp Gs]. rewrite (Gp Hp), (Gs Hs). split; [reflexivity|]. split; [reflexivity|].
  f_equal; unfold keep_roe, the_roe; [destruct parallel as [c [r|] t e o w]|destruct serial as [c [r|] t e o w]]; reflexivity.
Qed.
Print Assumptions C46_calls_are_independent.
Example C46_example : exists im' pr sr, add_cti small_image (small_direction small_roe half) no_direction None = Ok (im', pr, sr).
Proof. do 3 eexists. exact small_readout. Qed.

(** A charge-injection ROE that first met an image of one row treats an image of two rows
    differently from a fresh one: 1/2 instead of 1/4 electrons in its first pixel. *)
Theorem C46_injection_remembers_refuted : exists (im1 im2 : image R) d im' pr sr im2a pra sra im2b prb srb,
  add_cti im1 d no_direction None = Ok (im', pr, sr) /\
  add_cti im2 d no_direction None = Ok (im2a, pra, sra) /\
  add_cti im2 (keep_roe d pr) no_direction None = Ok (im2b, prb, srb) /\
  im2b <> im2a.
Proof.
  set (d := injection_direction small_ccd (ln 2) None half).
  destruct (injection_parallel dot_image d no_direction small_ccd half [ln 2] None 1 1 dot_shape ltac:(lia) dot_nonneg eq_refl eq_refl eq_refl eq_refl
             small_plain (le_n 1) (small_instant (1/2) ltac:(lra)) eq_refl small_columns ltac:(cbn; lia)) as (im' & E1 & _).
  destruct (first_row None 2 eq_refl (or_intror eq_refl)) as (im2a & ra & E2 & P2).
  destruct (first_row (Some 1%nat) 1 eq_refl (or_introl eq_refl)) as (im2b & rb & E3 & P3).
  exists dot_image, small_image, d, im', (roe_injection_init [ln 2] (Some 1%nat) true true DFloat), (the_roe no_direction), im2a, ra, (the_roe no_direction), im2b, rb, (the_roe no_direction).
  split; [exact E1|]. split; [exact E2|]. split; [exact E3|]. intros ->. cbn in P2, P3. lra.
Qed.
Print Assumptions C46_injection_remembers_refuted.
