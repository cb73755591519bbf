(** * Property C137: time windows whose ends are not whole numbers, or lie before the readout
    (roe.py:430-458; test_main.py:776-835). *)
From Coq Require Import ZArith List Bool Reals Lra Lia.
From Verif Require Import Num Py RFacts CCDModel TrapsModel ManagerModel ROEModel ClockModel MainModel SignedModel EndsModel Spec SpecROE SpecImage SpecReadout SpecEnds
  WmFacts ArrayFacts CutFacts InstantFacts ClockFacts MainFacts ShapeFacts ColumnFacts
  ROEClockFacts ROEMatrixFacts ROEExpressFacts ROEKindFacts ReadoutFacts ReadoutImage ReadoutForced ReadoutFull ReadoutSpecFacts MainReadoutFacts MainColumnFacts
  ReadoutExamples NegativeExample ExpressFacts EndsFacts EndsSerialFacts.
Import ListNotations.
Open Scope R_scope.

Lemma express_usable ef dt window n_pixels express offset em mon : window_ok window n_pixels ->
  standard_express ef dt window express offset None = @Ok (matrix R * bmatrix) (em, mon) -> ~ bad_express ef n_pixels express.
Proof. intros Hw H Hb. rewrite (standard_express_bad ef dt window n_pixels express offset Hw None Hb) in H. discriminate. Qed.

(** Times that are whole numbers do what the range does, in every kind of call. *)
Theorem C137_whole_times_are_the_range (im : image R) parallel serial (w : list Z) :
  add_cti_times im parallel serial (map IZR w) = add_cti im parallel serial (Some w).
Proof. apply add_whole. Qed.
Print Assumptions C137_whole_times_are_the_range.

(** A window of times keeps the transfers between its first time and ONE PAST its last. *)
Theorem C137_a_window_ends_one_transfer_past_its_last_time ef dt window n_pixels express offset times first final em0 mon0 em mon :
  window_ok window n_pixels -> from_to times first final -> 0 <= first -> first <= final + 1 ->
  standard_express ef dt window express offset None = Ok (em0, mon0) ->
  standard_express_times ef dt window express offset times = Ok (em, mon) ->
  mon = mon0 /\ exists E, rect E (length window) em0 /\ rect E (length window) em /\
  forall i k, (i < E)%nat -> (k < length window)%nat ->
    entry em i k = overlap (transfers_before em0 i k) (transfers_before em0 (S i) k) first (final + 1).
Proof.
  intros Hw He Ha Hab H0 H1. pose proof (express_usable _ _ _ _ _ _ _ _ Hw H0) as Hb.
  destruct (times_matrix ef dt window n_pixels express offset Hw Hb times first final He) as (_ & em0' & mon' & em' & E0 & E1 & _).
  rewrite H0 in E0. injection E0 as <- <-. rewrite H1 in E1. injection E1 as <- <-. split; [reflexivity|].
  destruct (times_overlap ef dt window n_pixels express offset Hw Hb times first final em0 mon em He Ha Hab H0 H1) as (E & _ & R0 & R1 & _ & H).
  exists E. auto.
Qed.
Print Assumptions C137_a_window_ends_one_transfer_past_its_last_time.

(** Windows that each start where the one before ends, one transfer past its last time, add up. *)
Theorem C137_successive_windows_add_up ef dt window n_pixels express offset stops ems em0 mon0 :
  window_ok window n_pixels -> rising_from 0 stops -> INR (n_pixels + offset) <= List.last stops 0 ->
  standard_express ef dt window express offset None = Ok (em0, mon0) ->
  Forall2 (fun times em => standard_express_times ef dt window express offset times = Ok (em, mon0)) (spans_from 0 stops) ems ->
  forall i k, (i < length em0)%nat -> (k < length window)%nat ->
    Rsum (map (fun em => entry em i k) ems) = entry em0 i k.
Proof.
  intros Hw Hr Hl H0 HF i k Hi Hk. pose proof (express_usable _ _ _ _ _ _ _ _ Hw H0) as Hb.
  destruct (times_matrix ef dt window n_pixels express offset Hw Hb [0; 0] 0 0 (ends_two 0 0)) as (E & em0' & mon' & _ & E0 & _ & HE & R0 & _ & _ & Ht & Hmono & _).
  rewrite H0 in E0. injection E0 as <- <-. assert (HiE : (i < E)%nat) by (destruct R0; lia).
  set (x := transfers_before em0 i k). set (y := transfers_before em0 (S i) k).
  assert (Hxy : x <= y) by (apply Hmono; auto).
  assert (Hup : forall e d, (e + d <= E)%nat -> transfers_before em0 e k <= transfers_before em0 (e + d) k).
  { intros e. induction d as [|d IH]; intros Hd; [rewrite Nat.add_0_r; lra|]. eapply Rle_trans; [apply IH; lia|]. rewrite Nat.add_succ_r. apply Hmono; [lia|exact Hk]. }
  assert (Hx0 : 0 <= x) by (apply (Hup 0%nat i); lia).
  assert (Hy : y <= List.last stops 0).
  { destruct (nth_error window k) as [w|] eqn:Ek; [|apply nth_error_None in Ek; lia].
    eapply Rle_trans; [|exact Hl]. apply Rle_trans with (transfers em0 k).
    - unfold transfers. replace (length em0) with (S i + (E - S i))%nat by (destruct R0; lia). apply Hup. lia.
    - rewrite (Ht k w Ek), plus_INR. destruct Hw as [Hw _]. rewrite Forall_forall in Hw. specialize (Hw w (nth_error_In _ _ Ek)).
      assert (IZR w + 1 <= INR n_pixels); [|lra]. rewrite INR_IZR_INZ, <- (plus_IZR w 1). apply IZR_le. lia. }
  assert (G : forall stops a ems, 0 <= a -> rising_from a stops ->
    Forall2 (fun times em => standard_express_times ef dt window express offset times = Ok (em, mon0)) (spans_from a stops) ems ->
    Rsum (map (fun em => entry em i k) ems) = overlap x y a (List.last stops a)).
  { clear Hr Hl HF Hy. intros st. induction st as [|b st IH]; intros a es Ha Hr HF; cbn [spans_from] in HF; inversion HF as [|tm em tms es' H1 HF' Q1 Q2]; subst.
    - cbn. unfold overlap, Rmin, Rmax. rle_cases; lra.
    - destruct Hr as [Hab Hr]. cbn [map]. unfold Rsum. cbn [fold_right]. change (fold_right Rplus 0) with Rsum. rewrite (IH b es') by (auto; lra).
      destruct (times_overlap ef dt window n_pixels express offset Hw Hb [a; b - 1] a (b - 1) em0 mon0 em (ends_two _ _) Ha ltac:(lra) H0 H1) as (E' & _ & R0' & _ & _ & Hent).
      rewrite Hent by (auto; destruct R0, R0'; lia). fold x y. replace (b - 1 + 1) with b by lra.
      assert (Hlast : b <= List.last st b). { clear - Hr. revert b Hr. induction st as [|c st IH]; intros b Hr; [cbn; lra|]. destruct Hr as [H1 H2]. specialize (IH c H2).
        replace (List.last (c :: st) b) with (List.last st c); [lra|]. destruct st; [reflexivity|]. cbn [List.last]. clear. revert r. induction st; intros; [reflexivity|]. cbn. apply IHst. }
      rewrite (overlap_split x y a b (List.last st b)) by (auto; lra). f_equal. destruct st as [|c st]; [reflexivity|]. cbn [List.last]. clear. revert c. induction st; intros; [reflexivity|]. cbn. apply IHst. }
  rewrite (G stops 0 ems) by (auto; lra). rewrite overlap_all by lra. unfold x, y. cbn [transfers_before]. lra.
Qed.
Print Assumptions C137_successive_windows_add_up.

(** The windows of test_main.py:804 and 819, [0, 0.25] and [0.25, 1], share an end: the
    transfers from it to one past it are then counted twice. *)
Theorem C137_windows_that_share_an_end_add_up_refuted ef dt window n_pixels express offset a b c em0 em1 em2 em3 mon0 :
  window_ok window n_pixels -> 0 <= a <= b -> b <= c ->
  standard_express ef dt window express offset None = Ok (em0, mon0) ->
  standard_express_times ef dt window express offset [a; b] = Ok (em1, mon0) ->
  standard_express_times ef dt window express offset [b; c] = Ok (em2, mon0) ->
  standard_express_times ef dt window express offset [a; c] = Ok (em3, mon0) ->
  forall k w, nth_error window k = Some w -> b <= IZR w + INR offset ->
  transfers em1 k + transfers em2 k = transfers em3 k + 1.
Proof.
  intros Hw Hab Hbc H0 H1 H2 H3 k w Ek Hlate. pose proof (express_usable _ _ _ _ _ _ _ _ Hw H0) as Hb.
  rewrite (times_transfers ef dt window n_pixels express offset Hw Hb [a; b] a b em0 mon0 em1 (ends_two _ _) H0 H1 k w Ek).
  rewrite (times_transfers ef dt window n_pixels express offset Hw Hb [b; c] b c em0 mon0 em2 (ends_two _ _) H0 H2 k w Ek).
  rewrite (times_transfers ef dt window n_pixels express offset Hw Hb [a; c] a c em0 mon0 em3 (ends_two _ _) H0 H3 k w Ek).
  rewrite !times_clip_eq by lra. unfold Rmin, Rmax. rle_cases; lra.
Qed.
Print Assumptions C137_windows_that_share_an_end_add_up_refuted.

(** A window that starts [early] before the readout adds as many transfers to every pixel's. *)
Theorem C137_a_window_adds_no_transfers_refuted ef dt window n_pixels express offset times early final em0 mon0 em :
  window_ok window n_pixels -> from_to times (- early) final -> 0 < early -> INR (n_pixels + offset) <= final + 1 ->
  standard_express ef dt window express offset None = Ok (em0, mon0) ->
  standard_express_times ef dt window express offset times = Ok (em, mon0) ->
  forall k w, nth_error window k = Some w ->
  transfers em0 k = IZR w + 1 + INR offset /\ transfers em k = transfers em0 k + early.
Proof.
  intros Hw He Hearly Hf H0 H1 k w Ek. pose proof (express_usable _ _ _ _ _ _ _ _ Hw H0) as Hb.
  destruct (times_matrix ef dt window n_pixels express offset Hw Hb times (- early) final He) as (_ & em0' & mon' & _ & E0 & _ & _ & _ & _ & _ & Ht & _).
  rewrite H0 in E0. injection E0 as <- <-. specialize (Ht k w Ek). split; [exact Ht|]. rewrite Ht.
  rewrite (times_transfers ef dt window n_pixels express offset Hw Hb times (- early) final em0 mon0 em He H0 H1 k w Ek).
  destruct Hw as [Hw _]. rewrite Forall_forall in Hw. specialize (Hw w (nth_error_In _ _ Ek)). rewrite plus_INR in Hf.
  assert (IZR w + 1 <= INR n_pixels) by (rewrite INR_IZR_INZ, <- (plus_IZR w 1); apply IZR_le; lia). assert (0 <= IZR w) by (apply IZR_le; lia). pose proof (pos_INR offset).
  rewrite times_clip_eq by lra. rewrite Rmax_right, Rmin_right by lra. lra.
Qed.
Print Assumptions C137_a_window_adds_no_transfers_refuted.
(** ... also as a range, such as range(-3, rows + offset). *)
Theorem C137_a_range_adds_no_transfers_refuted ef dt window n_pixels express offset early stop em0 mon0 em :
  window_ok window n_pixels -> (0 < early)%Z -> (Z.of_nat (n_pixels + offset) <= stop)%Z ->
  standard_express ef dt window express offset None = Ok (em0, mon0) ->
  standard_express ef dt window express offset (Some (py_range (- early) stop)) = Ok (em, mon0) ->
  forall k w, nth_error window k = Some w ->
  transfers em0 k = IZR w + 1 + INR offset /\ transfers em k = transfers em0 k + IZR early.
Proof.
  intros Hw Hearly Hstop H0 H1. rewrite <- standard_whole in H1.
  apply (C137_a_window_adds_no_transfers_refuted ef dt window n_pixels express offset (map IZR (py_range (- early) stop)) (IZR early) (IZR (stop - 1)) em0 mon0 em); auto.
  - unfold py_range. replace (Z.to_nat (stop - - early)) with (S (Z.to_nat (stop + early - 1))) by lia. cbn [seq map].
    exists (map IZR (map (fun k => (- early + Z.of_nat k)%Z) (seq 1 (Z.to_nat (stop + early - 1))))). split.
    + f_equal. rewrite <- opp_IZR. f_equal. lia.
    + destruct (Z.to_nat (stop + early - 1)) as [|n] eqn:En.
      * cbn. f_equal. lia.
      * rewrite seq_S, !map_app. cbn [map]. rewrite app_comm_cons, last_last. f_equal. lia.
  - apply IZR_lt, Hearly.
  - rewrite minus_IZR, INR_IZR_INZ. apply IZR_le in Hstop. lra.
Qed.
Print Assumptions C137_a_range_adds_no_transfers_refuted.

(** The call itself, with parallel clocking, the default ROE and any times: it returns an
    image of the same shape without negative pixels, and does the transfers of that matrix. *)
Theorem C137_readout_between_two_times (im : image R) parallel serial c traps dwell dt rows cols times first final :
  shape rows cols im -> (0 < rows)%nat -> (forall i j, 0 <= pixel im i j) ->
  plain_setting parallel rows c traps dwell dt -> d_window parallel = WNone -> d_traps serial = None ->
  columns_ok (selected (d_window serial) cols) cols -> from_to times first final ->
  exists em mon im', standard_express_times true dt (selected WNone rows) (d_express parallel) (d_offset parallel) times = Ok (em, mon) /\
  add_cti_times im parallel serial times = Ok (im', the_roe parallel, the_roe serial) /\
  shape rows cols im' /\ (forall i j, 0 <= pixel im' i j) /\
  (forall i j, ~ In (Z.of_nat j) (selected (d_window serial) cols) -> pixel im' i j = pixel im i j) /\
  forall i j, (i < rows)%nat -> In (Z.of_nat j) (selected (d_window serial) cols) ->
    pixel im' i j = readout (site_of c (groups_in traps)) (trap_phases c) (timed_steps (the_roe parallel))
                      (cells_at (selected WNone rows) em mon) (col_fun im j) (Z.of_nat i).
Proof. cbn [selected]. rewrite <- py_range_0. apply times_readout. Qed.
Print Assumptions C137_readout_between_two_times.

(** ... and with charge injection. *)
Theorem C137_charge_injection_between_two_times npt window n_pixels express offset times first final n em0 mon0 n' em mon :
  window_ok window n_pixels -> from_to times first final -> 0 <= first -> first <= final + 1 ->
  injection_express npt DFloat window express offset None = Ok (n, em0, mon0) ->
  injection_express_times npt DFloat window express offset times = Ok (n', em, mon) ->
  n' = n /\ mon = mon0 /\ rect (length em0) n_pixels em0 /\ rect (length em0) n_pixels em /\
  forall i k, (i < length em0)%nat -> (k < n_pixels)%nat ->
    entry em i k = overlap (transfers_before em0 i k) (transfers_before em0 (S i) k) first (final + 1).
Proof. apply injection_times_overlap. Qed.
Print Assumptions C137_charge_injection_between_two_times.

(** The serial register reads out the rows that reach it between the two times ... *)
Theorem C137_serial_rows_between_two_times (im : image R) parallel serial times first final top bottom :
  from_to times first final -> d_traps parallel = None -> (0 <= top)%Z -> (0 <= bottom)%Z ->
  py_index (selected (d_window parallel) (length im)) 0 = Ok top -> py_index (selected (d_window parallel) (length im)) (-1) = Ok bottom ->
  let offset := INR (d_offset parallel) in
  0 <= final - offset \/ final - offset <= -1 ->
  exists rows, (forall i, In i rows <-> row_read top bottom offset first final i) /\
  add_cti_times im parallel serial times = add_cti im (with_rows rows parallel) serial None.
Proof.
  intros Ht Hp H0 H1 E0 E1 offset Hf. destruct (serial_rows times first final _ (d_offset parallel) top bottom Ht E0 E1 H0 H1) as (rows & E & A & _).
  exists rows. split; [now apply A|now apply serial_only].
Qed.
Print Assumptions C137_serial_rows_between_two_times.
(** ... but [int] rounds towards zero: in the last transfer before the first row arrives, the first row is read out too.
    Of two windows [[0; b - 1]] and [[b; final]] with [0 < b < 1], both read it out. *)
Theorem C137_no_row_is_read_out_before_it_arrives_refuted (im : image R) parallel serial times first final bottom :
  from_to times first final -> d_traps parallel = None -> (0 <= bottom)%Z ->
  py_index (selected (d_window parallel) (length im)) 0 = Ok 0%Z -> py_index (selected (d_window parallel) (length im)) (-1) = Ok bottom ->
  let offset := INR (d_offset parallel) in
  first - offset < 1 -> -1 < final - offset < 0 ->
  (forall i, ~ row_read 0 bottom offset first final i) /\
  exists rows, (forall i, In i rows <-> i = 0%Z) /\
  add_cti_times im parallel serial times = add_cti im (with_rows rows parallel) serial None.
Proof.
  intros Ht Hp H1 E0 E1 offset Ha Hf. split.
  - intros i [[K1 _] [_ K2]]. apply IZR_le in K1. unfold offset in *. lra.
  - destruct (serial_rows times first final _ (d_offset parallel) 0 bottom Ht E0 E1 ltac:(lia) H1) as (rows & E & _ & A).
    exists rows. split; [|now apply serial_only]. intros i. rewrite (A Hf i). unfold offset in Ha. tauto.
Qed.
Print Assumptions C137_no_row_is_read_out_before_it_arrives_refuted.

(** ** A single pixel *)
Definition one_pixel : image R := [[1]].
Lemma one_shape : shape 1 1 one_pixel.
Proof. split; [reflexivity|repeat constructor]. Qed.
Lemma one_nonneg i j : 0 <= pixel one_pixel i j.
Proof. unfold pixel, one_pixel. destruct i as [|[|i]], j as [|[|j]]; cbn; rnum; lra. Qed.
Definition one_call (density : R) : direction R := small_direction small_roe (TOne (small_trap density)).
Lemma one_matrix : @standard_express R _ true DFloat (py_range 0 1) 0 0 None = Ok ([[1]], [[true]]).
Proof.
  unfold standard_express. change (n_pixels_of_window (py_range 0 1)) with (@Ok nat 1%nat). cbn [bind]. rewrite dark_matrix.
  unfold select_columns, positive_mask, restrict_time_span. unfold py_range. change (Z.to_nat (1 - 0)) with 1%nat. cbn. rnum. replace (Rltb 0 1) with true by (symmetry; apply Rltb_true; lra). reflexivity.
Qed.
Lemma one_pixel_between density first final : 0 <= density <= 1 -> 0 <= first -> first <= final + 1 ->
  add_cti_times one_pixel (one_call density) no_direction [first; final]
    = Ok ([[1 - density * overlap 0 1 first (final + 1)]], small_roe, the_roe no_direction).
Proof.
  intros Ha H0 H1. set (x := overlap 0 1 first (final + 1)). assert (Hd : 0 < ln 2) by (apply ln_pos; lra).
  assert (Hx : 0 <= x <= 1) by (destruct (overlap_bounds 0 1 first (final + 1) ltac:(lra)); unfold x; lra).
  destruct (times_readout one_pixel (one_call density) no_direction small_ccd (TOne (small_trap density)) [ln 2] DFloat 1 1 [first; final] first final)
    as (em & mon & im' & E1 & E2 & Hs & Hp & _ & Hi); auto.
  - exact one_shape.
  - exact one_nonneg.
  - apply small_setting, small_instant. lra.
  - exact small_columns.
  - apply ends_two.
  - change (py_range 0 (Z.of_nat 1)) with (py_range 0 1) in *. cbn [one_call small_direction d_express d_offset] in E1.
    assert (Hw : window_ok (py_range 0 1) 1) by (apply (window_ok_range 1); lia).
    assert (Hb : ~ bad_express true 1 0) by (intros (_ & H & _); lia).
    assert (Em : mon = [[true]]).
    { destruct (times_matrix true DFloat (py_range 0 1) 1 0 0 Hw Hb [first; final] first final (ends_two _ _)) as (_ & em0' & mon' & em' & Q0 & Q1 & _).
      rewrite one_matrix in Q0. injection Q0 as <- <-. rewrite E1 in Q1. injection Q1 as _ ->. reflexivity. }
    subst mon. destruct (times_overlap true DFloat (py_range 0 1) 1 0 0 Hw Hb [first; final] first final [[1]] [[true]] em (ends_two _ _) H0 H1 one_matrix E1) as (E & _ & R0 & R1 & _ & Hent).
    assert (E = 1%nat) by (destruct R0 as [L _]; cbn in L; lia). subst E. change (length (py_range 0 1)) with 1%nat in *.
    specialize (Hent 0%nat 0%nat ltac:(lia) ltac:(lia)). 
    assert (B0 : transfers_before [[1]] 0 0 = 0) by reflexivity. assert (B1 : transfers_before [[1]] 1 0 = 1) by (cbn; unfold entry; cbn; lra).
    rewrite B0, B1 in Hent. fold x in Hent.
    assert (Hem : em = [[x]]). { destruct R1 as [L F]. destruct em as [|[|e [|? ?]] [|? ?]]; try discriminate; inversion F as [|? ? Q]; try discriminate. unfold entry in Hent. cbn in Hent. subst e. reflexivity. }
    subst em. rewrite E2. change (the_roe (one_call density)) with small_roe. do 3 f_equal. apply one_row; [exact Hs|].
    rewrite (Hi 0%nat 0%nat ltac:(lia) (or_introl eq_refl)). change (the_roe (one_call density)) with (built (Standard true) [ln 2] DFloat true true).
    rewrite small_phases, roe_steps by exact Hd. unfold readout. change (cells_at (py_range 0 1) [[x]] [[true]]) with [[(0%Z, x, false)]].
    cbn [fold_left transfer_pass]. rewrite one_cell. cbn zeta. cbn [fst snd].
    change (site_of small_ccd (groups_in (TOne (small_trap density))) 0) with (mkSite [[thinned 1 (small_trap density)]] small_well).
    set (c0 := col_fun one_pixel 0). change (Z.of_nat 0) with 0%Z. assert (A0 : c0 0%Z = 1) by reflexivity. rewrite A0.
    change (all_empty (site_of small_ccd (groups_in (TOne (small_trap density)))) 0%nat) with [empty_profile].
    unfold site_net. cbn [site_groups site_well combine map]. unfold Rsum. cbn [fold_right].
    destruct (flat_step small_well density (ln 2) 0 (1/2) 1 0 1 empty_profile (flat_empty 1) exp_ln2) as [E3 _]; try lra; [apply small_well_at; lra|].
    rewrite E3. apply give_at; [rewrite A0; lra|nra].
Qed.

(** The claim of that test, for an image of one pixel: running the two windows from the same
    image and adding up the changes gives the readout in one go.  It does not. *)
Theorem C137_the_split_of_the_test_refuted density split :
  0 < density <= 1 -> 0 <= split < 1 ->
  let d := one_call density in exists first_half second_half in_one,
  add_cti_times one_pixel d no_direction [0; split] = Ok ([[first_half]], small_roe, the_roe no_direction) /\
  add_cti_times one_pixel d no_direction [split; 1] = Ok ([[second_half]], small_roe, the_roe no_direction) /\
  add_cti one_pixel d no_direction None = Ok ([[in_one]], small_roe, the_roe no_direction) /\
  in_one - 1 = - density /\ (first_half + second_half - 1) - 1 = - density * (2 - split).
Proof.
  intros Ha Hs d. exists (1 - density), (1 - density * (1 - split)), (1 - density).
  assert (O1 : overlap 0 1 0 (split + 1) = 1) by (unfold overlap, Rmin, Rmax; rle_cases; lra).
  assert (O2 : overlap 0 1 split (1 + 1) = 1 - split) by (unfold overlap, Rmin, Rmax; rle_cases; lra).
  split; [unfold d; rewrite one_pixel_between by lra; rewrite O1, Rmult_1_r; reflexivity|].
  split; [unfold d; rewrite one_pixel_between by lra; rewrite O2; reflexivity|].
  split; [|split; lra].
  pose proof (add_cti_parallel_windowed one_pixel d no_direction (TOne (small_trap density)) None 1 eq_refl eq_refl eq_refl eq_refl ltac:(lia) I) as W0.
  pose proof (add_cti_parallel_windowed one_pixel d no_direction (TOne (small_trap density)) (Some (0, 1)%Z) 1 eq_refl eq_refl eq_refl eq_refl ltac:(lia) ltac:(cbn; lia)) as W1.
  cbn [tw_arg option_map] in W0, W1. rewrite W0. change (used_window None 1 (d_offset d)) with (used_window (Some (0, 1)%Z) 1 (d_offset d)). rewrite <- W1.
  rewrite <- add_whole. change (map IZR (py_range 0 1)) with [0]. 
  assert (E : add_cti_times one_pixel d no_direction [0] = add_cti_times one_pixel d no_direction [0; 0]) by reflexivity.
  rewrite E. unfold d. rewrite one_pixel_between by lra.
  replace (overlap 0 1 0 (0 + 1)) with 1 by (unfold overlap, Rmin, Rmax; rle_cases; lra). rewrite Rmult_1_r. reflexivity.
Qed.
Print Assumptions C137_the_split_of_the_test_refuted.

(** The hypotheses of the theorems above hold for the test's image of 20 rows. *)
Example C137_example : window_ok (py_range 0 20) 20 /\ from_to [0; 1/4] 0 (1/4) /\ from_to [1/4; 1] (1/4) 1 /\
  rising_from 0 [1/4; 20] /\ spans_from 0 [1/4; 20] = [[0; 1/4 - 1]; [1/4; 20 - 1]] /\ INR (20 + 0) <= List.last [1/4; 20] 0 /\
  (exists em mon, @standard_express R _ false DFloat (py_range 0 20) 2 0 None = Ok (em, mon)) /\
  nth_error (py_range 0 20) 5 = Some 5%Z /\ 1/4 <= IZR 5 + INR 0.
Proof.
  split; [apply (window_ok_range 20); lia|]. split; [apply ends_two|]. split; [apply ends_two|]. split; [cbn; lra|]. split; [reflexivity|].
  split; [change (INR (20 + 0)) with (INR 20); rewrite INR_IZR_INZ; cbn [List.last]; apply IZR_le; lia|].
  split; [|split; [reflexivity|cbn; lra]].
  destruct (times_matrix false DFloat (py_range 0 20) 20 2 0 (window_ok_range 20 ltac:(lia)) ltac:(intros (H & _); discriminate) [0; 0] 0 0 (ends_two _ _)) as (_ & em0 & mon & _ & E0 & _).
  exists em0, mon. exact E0.
Qed.
(** Charge injection through 20 rows; and an image of 20 rows without parallel traps, whose windows end in
    the row 0 and before it. *)
Example C137_injection_example : exists em0 mon0 em mon, window_ok (py_range 0 20) 20 /\
  injection_express None DFloat (py_range 0 20) 2 0 None = @Ok (nat * matrix R * bmatrix) (20%nat, em0, mon0) /\
  injection_express_times None DFloat (py_range 0 20) 2 0 [1/4; 1/2] = Ok (20%nat, em, mon) /\ length em0 = 2%nat.
Proof.
  do 4 eexists. split; [apply window_ok_range; lia|]. split; [reflexivity|]. split; reflexivity.
Qed.
Example C137_serial_example : let im := repeat [1; 2; 3] 20 in
  py_index (selected (d_window (@no_direction R)) (length im)) 0 = Ok 0%Z /\ py_index (selected (d_window (@no_direction R)) (length im)) (-1) = Ok 19%Z /\
  d_traps (@no_direction R) = None /\ 0 <= 1/4 - INR (d_offset (@no_direction R)) /\ -1 < (1/4 - 1) - INR (d_offset (@no_direction R)) < 0 /\
  row_read 0 19 (INR (d_offset (@no_direction R))) 0 (1/4) 0.
Proof. cbv zeta. split; [reflexivity|]. split; [reflexivity|]. split; [reflexivity|]. unfold row_read. cbn. repeat split; try lra; lia. Qed.
