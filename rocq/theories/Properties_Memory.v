(** * Property C83: the compiled loops and their arrays (arcticpy/main_utils.pyx and
    trap_managers_utils.pyx, compiled without bounds checks). *)
From Coq Require Import ZArith List Bool Reals Lra Lia.
From Verif Require Import Num Py RFacts CCDModel TrapsModel ManagerModel ROEModel ClockModel MainModel Spec SpecImage SpecHistory SpecMemory
  CCDFacts NotchFacts ClockFacts MainFacts ShapeFacts MainReadoutFacts SlowExamples ReadoutExamples OverfullExample MemoryFacts MemoryExample Properties_Histories.
Import ListNotations.

(** C83: whatever the numbers are (as long as none is above zero and equal to it), no call of
    add_cti or remove_cti reads or writes outside its arrays, if the pixels of the windows are
    in the image (and not the first if electrons may go towards the readout register), the
    readout objects come from their constructors and have a phase for each of the CCD's, no
    cloud without charge has a volume, and no group is headed by a trap whose capture takes
    time.  The image, the number of phases and steps, the trap groups, express, offset, the
    time window and what is kept between columns are arbitrary; other exceptions may happen. *)
Theorem C83_unchecked_accesses_stay_inside {F} {num : Num F} (im : image F) parallel serial time_window rows cols :
  (forall x : F, (n0 <? x)%num = true -> (x =? n0)%num = false) ->
  shape rows cols im -> (0 < rows)%nat -> (0 < cols)%nat -> kept_inside parallel rows -> kept_inside serial cols ->
  add_cti im parallel serial time_window <> Err OutOfBounds.
Proof. intros H. exact (add_cti_safe H im parallel serial time_window rows cols). Qed.
Print Assumptions C83_unchecked_accesses_stay_inside.

Theorem C83_correction_stays_inside {F} {num : Num F} (im : image F) iterations parallel serial time_window rows cols :
  (forall x : F, (n0 <? x)%num = true -> (x =? n0)%num = false) ->
  shape rows cols im -> (0 < rows)%nat -> (0 < cols)%nat -> kept_inside parallel rows -> kept_inside serial cols ->
  remove_cti im iterations parallel serial time_window <> Err OutOfBounds.
Proof. intros H. exact (remove_cti_safe H im iterations parallel serial time_window rows cols). Qed.
Print Assumptions C83_correction_stays_inside.

Open Scope R_scope.
(** Over the real numbers both conditions on numbers hold for every physical well. *)
Lemma real_positive (x : R) : (n0 <? x)%num = true -> (x =? n0)%num = false.
Proof. rnum. intros H. apply Rltb_true in H. apply Reqb_false. lra. Qed.
Theorem C83_real_wells_need_charge (c : ccd R) : real_wells c -> no_cloud_without_charge c.
Proof.
  intros HW phase n v. unfold well_fill. rnum. destruct (Reqb n 0) eqn:E; [intros H; injection H as <-; intros L; apply Rltb_true in L; lra|].
  destruct (nth_error (ccd_notch c) phase) as [e|] eqn:E1; [|discriminate]. destruct (nth_error (ccd_fill_power c) phase) as [b|] eqn:E2; [|discriminate].
  destruct (nth_error (ccd_full_well c) phase) as [f|] eqn:E3; [|discriminate]. cbn [of_option bind]. destruct (Reqb (f - e) 0) eqn:E4; [discriminate|].
  destruct (HW phase e b f E1 E2 E3) as [He Hb].
  destruct (_ && _)%bool; [discriminate|]. intros H L. injection H as <-. apply Rltb_true in L. apply Rltb_true. apply Rnot_le_lt. intros Hn.
  assert (HF : (n - e) / (f - e) <= 0) by (apply frac_le_0; lra). unfold set_min_max in L. rnum.
  destruct (Rltb ((n - e) / (f - e)) 0) eqn:E5.
  - rewrite Rpow_py_0 in L by lra. lra.
  - apply Rltb_false in E5. replace ((n - e) / (f - e)) with 0 in L by lra. destruct (Rltb 1 0) eqn:E6; [apply Rltb_true in E6; lra|]. rewrite Rpow_py_0 in L by lra. lra.
Qed.
Print Assumptions C83_real_wells_need_charge.

(** Parallel: three phases, release in both directions, two groups (the second with a slow trap
    after an instant one), express 2, offset 3, traps kept between columns.  Serial: trap pumping
    in four steps. *)
Definition three_phases : ccd R := mkCCD [1 / 4; 1 / 2; 1 / 4] 3 [100; 200; 100] [1; 1 / 2; 1] [0; 10; 0] (repeat (BList [100; 200; 100]) 3).
Definition rich_parallel : direction R :=
  mkDir (Some three_phases) (Some (roe_init [1; 2; 3] false false false DFloat)) (Some (TNested [[small_trap 1]; [half_trap; slow_trap 10]])) 2 3 (WRange [1; 2]%Z).
Definition pump : roe R := make_roe (Pumping 7 true) [1; 1; 1; 1] DInt true false 2.
Definition rich_serial : direction R := mkDir (Some small_ccd) (Some pump) (Some (TOne half_trap)) 3 0 (WInt 1).
Example rich_parallel_inside : kept_inside rich_parallel 3.
Proof.
  constructor.
  - exists 3%nat. split; [apply (fresh_roe [1; 2; 3])|]. intros c E. injection E as <-. cbn. lia.
  - intros i [<-|[<-|[]]]; cbn; lia.
  - intros c E. injection E as <-. apply C83_real_wells_need_charge. intros [|[|[|ph]]] e b f; cbn; intros H1 H2 H3; [..|destruct ph; discriminate]; injection H1 as <-; injection H2 as <-; injection H3 as <-; lra.
  - intros traps t l E H. injection E as <-. inversion H as [| |g l' H' E1 E2]; subst. destruct H' as [H'|[H'|[]]]; injection H' as <- _; discriminate.
Qed.
Example rich_serial_inside : kept_inside rich_serial 2.
Proof.
  constructor.
  - exists 2%nat. split; [apply (fresh_pumping [1; 1; 1; 1] 7 true DInt pump); reflexivity|]. intros c E. injection E as <-. cbn. lia.
  - intros i [<-|[]]; cbn; lia.
  - intros c E. injection E as <-. apply C83_real_wells_need_charge. intros [|ph] e b f; cbn; intros H1 H2 H3; [|destruct ph; discriminate]; injection H1 as <-; injection H2 as <-; injection H3 as <-; lra.
  - intros traps t l E H. injection E as <-. inversion H; subst. discriminate.
Qed.
Example rich_call_inside (im : image R) time_window : shape 3 2 im -> add_cti im rich_parallel rich_serial time_window <> Err OutOfBounds.
Proof. intros H. apply (C83_unchecked_accesses_stay_inside im rich_parallel rich_serial time_window 3 2 real_positive H ltac:(lia) ltac:(lia) rich_parallel_inside rich_serial_inside). Qed.

(** With release towards the readout register, clocking the first pixel reads outside the image:
    the third of three phases takes its electrons from the pixel before. *)
Definition third_phase : ccd R := mkCCD [0; 0; 1] 3 [1; 1; 1] [1; 1; 1] [0; 0; 0] (repeat (BList [1; 1; 1]) 3).
Definition both_ways : direction R := mkDir (Some third_phase) (Some (roe_init [1; 1; 1] true true false DFloat)) (Some (TOne half_trap)) 0 0 WNone.
Theorem C83_first_pixel_stays_inside_refuted :
  exists im, shape 1 1 im /\ fresh (the_roe both_ways) 3 /\ real_wells third_phase /\ add_cti im both_ways no_direction None = Err OutOfBounds.
Proof.
  exists [[1]]. split; [split; [reflexivity|repeat constructor]|]. split; [exact (fresh_roe [1; 1; 1] true true false DFloat)|]. split.
  - intros [|[|[|ph]]] e b f; cbn; intros H1 H2 H3; [..|destruct ph; discriminate]; injection H1 as <-; injection H2 as <-; injection H3 as <-; lra.
  - assert (EE : express_and_monitor (the_roe both_ways) [0%Z] 0 0 (Some [0%Z]) = Ok (the_roe both_ways, [[1]], [[true]])).
    { unfold express_and_monitor. cbn [the_roe both_ways d_roe roe_init make_roe roe_kind_of roe_dtype]. unfold standard_express, n_pixels_of_window. cbn [py_max list_max_Z bind].
      change (Z.to_nat (0 + 1)) with 1%nat. cbn [Z.ltb Z.compare bind]. unfold standard_full_matrix. cbn -[plain_entry max_multiplier clip]. 
      unfold plain_entry, max_multiplier, nofN. rnum. cbn. unfold clip. rnum. decide_R. cbn [negb]. decide_R.
      replace (1 - 0 * (1 / 1)) with 1 by lra. decide_R. replace (1 - 0) with 1 by lra. decide_R. reflexivity. }
    assert (EP : phases_with_traps third_phase = [2%nat]) by (unfold phases_with_traps; cbn; rnum; decide_R; reflexivity).
    assert (ES : steps_with_dwell (the_roe both_ways) = [(0%nat, 1); (1%nat, 1); (2%nat, 1)]) by (unfold steps_with_dwell; cbn; rnum; decide_R; reflexivity).
    unfold add_cti. cbn [no_direction both_ways d_traps d_window d_offset length n_columns resolve_window resolve_time_window bind]. 
    change (py_range 0 (Z.of_nat 1)) with [0%Z]. change (py_range 0 (Z.of_nat (1 + 0))) with [0%Z].
    unfold clock_direction. cbn [both_ways d_ccd d_express d_offset]. unfold clock_charge_in_one_direction. change (mkDir _ _ _ _ _ _) with both_ways. rewrite EE. cbn [bind].
    change (save_matrix (the_roe both_ways) [[1]]) with (@Ok (list (list bool)) [[false]]). cbn [bind].
    destruct (atm_init (TOne half_trap) (max_n_transfers (the_roe both_ways) (length [[1]]) (length [1])) third_phase) as [a|e] eqn:EA; [|discriminate EA]. clear EA. cbn [bind].
    assert (EN : exists n, n_padding (the_roe both_ways) = Ok n) by (eexists; reflexivity). destruct EN as [n EN]. rewrite EN. cbn [bind combine map zip_cells].
    replace (clock_columns _ _ _ _ _ _) with (@Err (image R * all_managers R) OutOfBounds); [reflexivity|].
    unfold clock_columns. cbn [foldM]. unfold clock_one_column. rewrite (shape_n_columns (1 + n) 1) by (lia || (apply pad_shape; [split; [reflexivity|repeat constructor]|lia])).
    cbn [Z.leb Z.ltb Z.of_nat Pos.of_succ_nat Z.compare andb]. unfold clock_column. cbn [foldM fst snd]. unfold clock_pass_rows. cbn [length seq combine foldM]. unfold clock_cell. cbn [negb nth_error].
    unfold clock_one_row. rewrite ES, EP. cbn [foldM]. reflexivity.
Qed.
Print Assumptions C83_first_pixel_stays_inside_refuted.

(** A trap whose capture takes time can use up its watermarks: seven pixels of one column past
    one species, of which the last needs a row after the fifteen that were allocated. *)
Definition overrun : direction R := mkDir (Some wide_ccd) (Some (roe_init [ln 4] true true true DFloat)) (Some (TOne (slow_trap 10000))) 0 0 WNone.
Theorem C83_slow_traps_stay_inside_refuted :
  exists im, shape 7 1 im /\ (forall i j, 0 <= pixel im i j) /\ real_wells wide_ccd /\ physical (slow_trap 10000) /\
    add_cti im overrun no_direction None = Err OutOfBounds.
Proof.
  assert (HS : shape 7 1 overrun_image) by (split; [reflexivity|repeat constructor]).
  exists overrun_image. split; [exact HS|]. split.
  { intros [|[|[|[|[|[|[|i]]]]]]] [|[|j]]; cbn; try lra; destruct i; cbn; try lra. }
  split. { intros [|ph] e b f; cbn; intros H1 H2 H3; [|destruct ph; discriminate]; injection H1 as <-; injection H2 as <-; injection H3 as <-; lra. }
  split. { constructor; cbn; try lra; reflexivity. }
  assert (K : single_phase overrun 7 wide_ccd 1 [slow_trap 10000] (ln 4) false).
  { constructor; try reflexivity; try lra.
    - exists (TOne (slow_trap 10000)). auto.
    - discriminate.
    - exists true, DFloat. reflexivity.
    - apply ln_pos. lra.
    - left. reflexivity. }
  pose proof (C64_readout_by_manager_histories overrun_image overrun no_direction wide_ccd 1 [slow_trap 10000] (ln 4) false 7 1 HS ltac:(lia) K eq_refl eq_refl) as H. cbv zeta in H.
  replace (columns_past _ _ _ _ _ _) with (@Err (list (list R)) OutOfBounds) in H; [exact H|].
  change (map (column_of overrun_image) (seq 0 1)) with [column_of overrun_image 0]. rewrite overrun_column. cbn [columns_past]. unfold column_past.
  change (length (map Q2R overrun_rows)) with 7%nat. change (d_offset overrun) with 0%nat. cbn [before reading bind]. rewrite overrun_history. reflexivity.
Qed.
Print Assumptions C83_slow_traps_stay_inside_refuted.

(** The condition on the windows matters for columns as well: a call that returns for all the
    columns goes outside the image when the first column it is asked for is not in it. *)
Theorem C83_columns_outside_stay_inside_refuted {F} {num : Num F} (im : image F) parallel traps serial window time_window rows cols j js res :
  shape rows cols im -> (0 < rows)%nat -> d_traps parallel = Some traps -> d_traps serial = None -> d_window serial = WNone ->
  selected window cols = j :: js -> (j < 0 \/ Z.of_nat cols <= j)%Z ->
  add_cti im parallel serial time_window = Ok res ->
  add_cti im parallel (mkDir (d_ccd serial) (d_roe serial) None (d_express serial) (d_offset serial) window) time_window = Err OutOfBounds.
Proof.
  intros Hs Hr Ht Hn Hw Hsel Hj. unfold add_cti. cbn [d_traps d_window d_roe]. rewrite Ht, Hn, Hw, !(shape_n_columns rows cols im) by assumption.
  assert (E : resolve_window window cols = j :: js) by (rewrite resolve_selected; exact Hsel).
  rewrite E. destruct (resolve_time_window _ _ _ _) as [[tw sc]|e]; cbn [bind]; [|discriminate]. unfold clock_direction.
  destruct (d_ccd parallel) as [c|]; [|destruct (express_and_monitor _ _ _ _ _) as [[[r em] mon]|e]; cbn [bind]; [destruct (save_matrix r em); discriminate|discriminate]].
  unfold clock_charge_in_one_direction. destruct (express_and_monitor _ _ _ _ _) as [[[r em] mon]|e]; cbn [bind]; [|discriminate].
  destruct (save_matrix r em) as [sav|e]; cbn [bind]; [|discriminate]. destruct (atm_init _ _ _) as [a|e]; cbn [bind]; [|discriminate].
  destruct (n_padding r) as [n|e]; cbn [bind]; [|discriminate]. intros _. unfold clock_columns. cbn [foldM]. unfold clock_one_column.
  rewrite (shape_n_columns (rows + n) cols) by (try lia; now apply pad_shape).
  destruct ((0 <=? j) && (j <? Z.of_nat cols))%Z eqn:B; [|reflexivity]. apply andb_true_iff in B as [B1 B2]. apply Z.leb_le in B1. apply Z.ltb_lt in B2. lia.
Qed.
Print Assumptions C83_columns_outside_stay_inside_refuted.
(** One column, and a window of the second. *)
Example C83_example_columns : let d := small_direction small_roe (TOne (small_trap (1 / 2))) in
  add_cti small_image d (mkDir None None None 0 0 (WInt 1)) None = Err OutOfBounds.
Proof.
  intros d. destruct (plain_returns small_image d no_direction 2 1 small_shape ltac:(lia) ltac:(lia) small_nonneg) as (im' & E & _).
  - split; [reflexivity|right]. do 4 eexists. apply small_setting, small_instant. lra.
  - split; [reflexivity|left; reflexivity].
  - refine (C83_columns_outside_stay_inside_refuted small_image d _ no_direction (WInt 1) None 2 1 1 [] _ small_shape _ _ _ _ _ _ E); try reflexivity; lia.
Qed.
