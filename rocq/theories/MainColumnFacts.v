(** * Parallel readout of single columns: causality, and the textbook model. *)
From Coq Require Import ZArith List Bool Reals Lra Lia FinFun.
From Coquelicot Require Import Rcomplements Rbar Hierarchy RInt.
From Verif Require Import Num Py RFacts CCDModel TrapsModel ManagerModel ROEModel ClockModel MainModel Spec SpecROE SpecImage SpecReadout SpecColumn
  WmFacts ArrayFacts CutFacts InstantFacts ClockFacts MainFacts ShapeFacts ColumnFacts
  ROEClockFacts ROEMatrixFacts ROEExpressFacts ROEKindFacts ReadoutFacts ReadoutImage ReadoutForced ReadoutFull ReadoutInjection ReadoutSpecFacts ReadoutColumnFacts MainReadoutFacts.
Import ListNotations.
Open Scope R_scope.

(** ** Causality (C41) *)
Lemma firstn_shape rows cols (im : image R) n : shape rows cols im -> (n <= rows)%nat -> shape n cols (firstn n im).
Proof.
  intros [L FA] Hn. split; [rewrite firstn_length; lia|]. apply Forall_forall. intros r Hr. rewrite Forall_forall in FA. apply FA.
  rewrite <- (firstn_skipn n im). apply in_or_app. left. exact Hr.
Qed.
Lemma firstn_pixel (im : image R) n i j : (i < n)%nat -> pixel (firstn n im) i j = pixel im i j.
Proof. intros H. unfold pixel. rewrite nth_firstn' by exact H. reflexivity. Qed.
Lemma firstn_pixel_nonneg (im : image R) n i j : (forall i j, 0 <= pixel im i j) -> 0 <= pixel (firstn n im) i j.
Proof.
  intros H. destruct (lt_dec i n) as [Hi|Hi]; [rewrite firstn_pixel by exact Hi; apply H|]. unfold pixel.
  rewrite (nth_overflow (firstn n im)) by (rewrite firstn_length; lia). destruct j; cbn; rnum; lra.
Qed.
Lemma plain_shorter d rows n c traps dwell dt : plain_setting d rows c traps dwell dt -> computes_all d rows -> (n <= rows)%nat ->
  plain_setting d n c traps dwell dt /\ computes_all d n.
Proof.
  intros [] Hall Hn. unfold computes_all in *. split; [|lia]. constructor; try assumption. lia.
Qed.

Section Parallel.
Context (im : image R) (parallel serial : direction R) (c : ccd R) (traps : traps_arg R) (dwell : list R) (dt : dtype) (rows cols : nat).
Hypothesis Hs : shape rows cols im.
Hypothesis Hr : (0 < rows)%nat.
Hypothesis Hp : forall i j, 0 <= pixel im i j.
Hypothesis Hps : plain_setting parallel rows c traps dwell dt.
Hypothesis Hall : computes_all parallel rows.
Hypothesis Hw : d_window parallel = WNone.
Hypothesis Hser : d_traps serial = None.
Hypothesis Hcols : columns_ok (selected (d_window serial) cols) cols.

Lemma cut_readout p im' : (p < rows)%nat -> add_cti im parallel serial None = Ok (im', the_roe parallel, the_roe serial) ->
  add_cti (firstn (S p) im) parallel serial None = Ok (firstn (S p) im', the_roe parallel, the_roe serial).
Proof.
  intros Hlt E. destruct (parallel_readout im parallel serial c traps dwell dt rows cols Hs Hr Hp Hps Hall Hw Hser Hcols) as (im1 & E1 & S1 & P1 & O1 & I1).
  assert (im1 = im') as -> by congruence. clear E1.
  destruct (plain_shorter parallel rows (S p) c traps dwell dt Hps Hall ltac:(lia)) as [Hps2 Hall2].
  destruct (parallel_readout (firstn (S p) im) parallel serial c traps dwell dt (S p) cols) as (im2 & E2 & S2 & P2 & O2 & I2); auto; try lia.
  - apply (firstn_shape rows); [exact Hs|lia].
  - intros i j. apply firstn_pixel_nonneg, Hp.
  - rewrite E2. do 3 f_equal. apply (image_ext (S p) cols); [exact S2|apply (firstn_shape rows); [exact S1|lia]|].
    intros i j Hi Hj. rewrite firstn_pixel by exact Hi. destruct (in_dec Z.eq_dec (Z.of_nat j) (selected (d_window serial) cols)) as [G|G].
    + rewrite I2, I1 by (auto; lia). symmetry. apply (readout_causal _ _ _ rows (d_offset parallel) p); [lia| | |lia].
      * intros d es k Hd Hk. rewrite (plain_roe _ _ _ _ _ _ Hps) in Hd. apply (electrode_ok dwell dt k d es); [|exact Hd].
        apply trap_phases_lt in Hk. pose proof (ps_phases _ _ _ _ _ _ Hps). lia.
      * intros z Hz. unfold col_fun. rewrite firstn_pixel by lia. reflexivity.
    + rewrite O2, O1 by exact G. apply firstn_pixel, Hi.
Qed.

End Parallel.

(** ** The textbook model (C43) *)
Lemma column_image rows cols (im : image R) j : shape rows cols im -> column_of im j = image_of 0 rows (col_fun im j).
Proof.
  intros [L _]. unfold column_of, image_of. apply (nth_ext _ _ 0 0); rewrite !map_length, ?seq_length; [exact L|]. intros i Hi.
  rewrite (nth_indep (map (fun row => nth j row n0) im) 0 ((fun row : list R => nth j row n0) [])) by (rewrite map_length; exact Hi).
  rewrite (map_nth (fun row : list R => nth j row n0)).
  rewrite (nth_indep (map _ (seq 0 rows)) 0 ((fun i => col_fun im j (Z.of_nat i)) 0%nat)) by (rewrite map_length, seq_length; lia).
  rewrite (map_nth (fun i => col_fun im j (Z.of_nat i))), seq_nth by lia. unfold col_fun. rewrite Nat2Z.id. reflexivity.
Qed.
Lemma one_step d : 0 < d -> forall dt, timed_steps (built (Standard true) [d] dt true true) = [(d, [mkRP true 0%Z [0%Z] [1]])].
Proof.
  intros Hd dt. unfold timed_steps. cbn [built make_roe roe_dwell_times roe_clock_sequence length].
  cbn -[Rlt_dec]. destruct (Rlt_dec 0 d); [reflexivity|contradiction].
Qed.
Lemma one_phase c : ccd_n_phases c = 1%nat -> 0 < share c 0 -> trap_phases c = [0%nat].
Proof. intros H Hs. unfold trap_phases. rewrite H. cbn [seq filter]. destruct (Rlt_dec 0 (share c 0)); [reflexivity|contradiction]. Qed.

Lemma textbook_readout im parallel serial c traps group d dt rows cols j :
  shape rows cols im -> (0 < rows)%nat -> (forall i j, 0 <= pixel im i j) ->
  plain_setting parallel rows c traps [d] dt -> computes_all parallel rows -> d_window parallel = WNone ->
  d_traps serial = None -> columns_ok (selected (d_window serial) cols) cols ->
  0 < d -> ccd_n_phases c = 1%nat -> 0 < share c 0 -> groups_in traps = [group] ->
  In (Z.of_nat j) (selected (d_window serial) cols) ->
  exists im', add_cti im parallel serial None = Ok (im', the_roe parallel, the_roe serial) /\
    column_of im' j = textbook (map (thinned (share c 0)) group) (depth (nth 0 (ccd_full_well c) 1) (nth 0 (ccd_fill_power c) 1)) d
                        (d_offset parallel) (column_of im j).
Proof.
  intros Hs Hr Hp Hps Hall Hw Hser Hcols Hd Hph Hsh Hg Hj.
  destruct (parallel_readout im parallel serial c traps [d] dt rows cols Hs Hr Hp Hps Hall Hw Hser Hcols) as (im' & E & S1 & P1 & O1 & I1).
  exists im'. split; [exact E|]. rewrite (column_image rows cols im' j S1), (column_image rows cols im j Hs).
  assert (Good : good_site (site_of c (groups_in traps) 0)).
  { apply (plain_sites parallel c traps [d] dt rows Hps). rewrite one_phase by assumption. left. reflexivity. }
  rewrite <- (readout_textbook (site_of c (groups_in traps)) (map (thinned (share c 0)) group) _ d ltac:(rewrite Hg; reflexivity) Good Hd rows (d_offset parallel)) by (intros z; apply Hp).
  unfold image_of. apply map_ext_in. intros i Hi. apply in_seq in Hi. unfold col_fun at 1. rewrite Nat2Z.id, I1 by (auto; lia).
  rewrite one_phase by assumption. rewrite (plain_roe _ _ _ _ _ _ Hps), one_step by exact Hd. reflexivity.
Qed.

(** ** Serial readout is parallel readout of the transposed image (C45) *)
Lemma serial_parallel (im : image R) d rows cols n ef r : shape rows cols im -> (0 < rows)%nat -> (0 < cols)%nat ->
  the_roe d = r -> roe_kind_of r = Standard ef ->
  window_ok (selected (d_window d) cols) n -> (n <= cols)%nat ->
  add_cti im no_direction d None =
  match add_cti (transpose im) d no_direction None with
  | Ok (im', pr, sr) => Ok (transpose im', sr, pr)
  | Err e => Err e
  end.
Proof.
  intros Hs Hr Hc HR HK Hwin Hn. pose proof (transpose_shape rows cols im Hs Hr) as Ht.
  unfold add_cti. rewrite (shape_columns rows cols im Hs Hr), (shape_columns cols rows _ Ht Hc). pose proof (proj1 Hs) as ->. pose proof (proj1 Ht) as ->.
  cbn [no_direction d_window d_traps d_offset resolve_window resolve_time_window bind]. rewrite resolve_selected.
  destruct (d_traps d) as [traps|]; [|cbn [bind]; rewrite (transpose_twice rows cols) by assumption; reflexivity].
  assert (E : clock_direction (transpose im) d (the_roe d) traps (selected (d_window d) cols) (py_range 0 (Z.of_nat rows)) None =
              clock_direction (transpose im) d (the_roe d) traps (selected (d_window d) cols) (py_range 0 (Z.of_nat rows)) (Some (py_range 0 (Z.of_nat (cols + d_offset d))))).
  { assert (Ee : express_and_monitor (the_roe d) (selected (d_window d) cols) (d_express d) (d_offset d) None =
                 express_and_monitor (the_roe d) (selected (d_window d) cols) (d_express d) (d_offset d) (Some (py_range 0 (Z.of_nat (cols + d_offset d))))).
    { unfold express_and_monitor. rewrite HR, HK. rewrite (window_whole ef _ (selected (d_window d) cols) n _ (d_offset d) Hwin (Z.of_nat (cols + d_offset d))) by lia. reflexivity. }
    unfold clock_direction. destruct (d_ccd d) as [c|]; unfold clock_charge_in_one_direction; rewrite Ee; reflexivity. }
  rewrite E. clear E. destruct (clock_direction _ _ _ _ _ _ _) as [[im1 r1]|e]; reflexivity.
Qed.

(** ** Charge injection *)
Lemma injection_parallel im d serial c traps dwell npt rows cols :
  shape rows cols im -> (0 < rows)%nat -> (forall i j, 0 <= pixel im i j) ->
  d_ccd d = Some c -> d_traps d = Some traps -> d_roe d = Some (roe_injection_init dwell npt true true DFloat) -> d_window d = WNone ->
  plain_ccd c -> (ccd_n_phases c <= length dwell)%nat -> instant_traps traps ->
  d_traps serial = None -> columns_ok (selected (d_window serial) cols) cols ->
  let N := injection_transfers npt rows (d_offset d) in (0 < N)%nat ->
  let E := passes_for N (d_express d) in let x := INR N / INR E in
  exists im', add_cti im d serial None = Ok (im', roe_injection_init dwell (Some N) true true DFloat, the_roe serial) /\
  shape rows cols im' /\ (forall i j, 0 <= pixel im' i j) /\
  (forall i j, ~ In (Z.of_nat j) (selected (d_window serial) cols) -> pixel im' i j = pixel im i j) /\
  forall i j, (i < rows)%nat -> In (Z.of_nat j) (selected (d_window serial) cols) ->
    pixel im' i j = readout (site_of c (groups_in traps)) (trap_phases c) (timed_steps (the_roe d))
      (injection_passes rows E (fun i => overlap (INR i * x) (INR (S i) * x) 0 (INR (rows + d_offset d)))) (col_fun im j) (Z.of_nat i).
Proof.
  intros Hs Hr Hp Ec Et Er Ew Hc Hph Hi Hser [Hnd Hrange] N HN E x.
  rewrite (add_cti_only_parallel im d serial traps Et Hser). rewrite (shape_columns rows cols im Hs Hr), !resolve_selected, Ew. pose proof (proj1 Hs) as ->.
  cbn [selected]. rewrite <- py_range_0. unfold clock_direction. rewrite Ec. unfold the_roe at 1 3. rewrite Er.
  destruct (injection_readout im c dwell traps (groups_in traps) npt (d_express d) (d_offset d) (selected (d_window serial) cols) (Some (0%Z, Z.of_nat (rows + d_offset d))) rows cols
    Hs Hr Hp Hc Hph (groups_normalised _ Hi) (proj2 Hi) Hrange Hnd HN) as (im' & G1 & G2 & G3 & G4); [cbn; lia|].
  exists im'. split.
  - change (roe_injection_init dwell npt true true DFloat) with (built (Injection npt) dwell DFloat true true). unfold whole. cbn [tw_arg option_map] in G1. rewrite G1. reflexivity.
  - split; [exact G2|]. split; [|split; [exact G3|]].
    + apply nonneg_iff. destruct (clocking_ok _ _ _ _ _ _ _ _ _ _ _ _ _ Hs Hr G1) as [_ _ _ HS]. intros i0 j0. apply HS; [|apply nonneg_iff, Hp]. rnum. apply Rltb_false. lra.
    + intros i j Hi' Hj. rewrite (G4 i j Hi' Hj). cbn [tw_part]. rewrite <- INR_IZR_INZ. unfold the_roe. rewrite Er. reflexivity.
Qed.
Lemma injection_serial im d parallel c traps dwell npt rows cols :
  shape rows cols im -> (0 < rows)%nat -> (0 < cols)%nat -> (forall i j, 0 <= pixel im i j) ->
  d_ccd d = Some c -> d_traps d = Some traps -> d_roe d = Some (roe_injection_init dwell npt true true DFloat) -> d_window d = WNone ->
  plain_ccd c -> (ccd_n_phases c <= length dwell)%nat -> instant_traps traps ->
  d_traps parallel = None -> d_window parallel = WNone ->
  let N := injection_transfers npt cols (d_offset d) in (0 < N)%nat ->
  let E := passes_for N (d_express d) in let x := INR N / INR E in
  exists im', add_cti im parallel d None = Ok (im', the_roe parallel, roe_injection_init dwell (Some N) true true DFloat) /\
  shape rows cols im' /\
  forall i j, (i < rows)%nat -> (j < cols)%nat ->
    pixel im' i j = readout (site_of c (groups_in traps)) (trap_phases c) (timed_steps (the_roe d))
      (injection_passes cols E (fun i => INR (S i) * x - INR i * x)) (col_fun (transpose im) i) (Z.of_nat j).
Proof.
  intros Hs Hr Hcl Hp Ec Et Er Ew Hc Hph Hi Hpar Hwp N HN E x.
  pose proof (transpose_shape rows cols im Hs Hr) as Ht.
  unfold add_cti. rewrite (shape_columns rows cols im Hs Hr), Ew, Hwp, Hpar, Et. pose proof (proj1 Hs) as ->. cbn [resolve_window resolve_time_window bind].
  assert (Er' : the_roe d = built (Injection npt) dwell DFloat true true) by (unfold the_roe; rewrite Er; reflexivity).
  unfold clock_direction. rewrite Ec, Er'.
  destruct (injection_readout (transpose im) c dwell traps (groups_in traps) npt (d_express d) (d_offset d) (py_range 0 (Z.of_nat rows)) None cols rows
    Ht Hcl) as (im' & G1 & G2 & G3 & G4); auto.
  - intros i j. rewrite (transpose_pixel_all rows cols) by assumption. apply Hp.
  - apply groups_normalised, Hi.
  - apply Hi.
  - apply range_in_range.
  - apply py_range_nodup.
  - exact I.
  - cbn [tw_arg option_map] in G1. rewrite G1. cbn [bind].
    exists (transpose im'). split; [reflexivity|]. split; [apply transpose_shape; assumption|]. intros i j Hi' Hj.
    rewrite (transpose_pixel_all cols rows) by assumption. rewrite G4 by (auto; apply py_range_in; lia). reflexivity.
Qed.
