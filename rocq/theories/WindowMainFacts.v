(** * add_cti for a window of rows. *)
From Coq Require Import ZArith List Bool Reals Lra Lia FinFun.
From Coquelicot Require Import Rcomplements Rbar Hierarchy RInt.
From Verif Require Import Num Py RFacts CCDModel TrapsModel ManagerModel ROEModel ClockModel MainModel Spec SpecROE SpecImage SpecReadout SpecColumn SpecWindow
  WmFacts ArrayFacts CutFacts InstantFacts ClockFacts MainFacts ShapeFacts ColumnFacts
  ROEClockFacts ROEMatrixFacts ROEExpressFacts ROEKindFacts ReadoutFacts ReadoutImage ReadoutForced ReadoutFull ReadoutSpecFacts ReadoutColumnFacts MainReadoutFacts
  MainColumnFacts WindowFacts.
Import ListNotations.
Open Scope R_scope.

Lemma site_depths c groups k : plain_ccd c -> (k < ccd_n_phases c)%nat -> Forall instant_group groups -> depths (site_of c groups k).
Proof.
  intros Hc Hk Hg. destruct (site_good c groups k Hc Hg Hk) as [[S0 S1] _]. split; [exact S0|]. intros n.
  destruct (Rlt_le_dec 0 n) as [L|L]; [specialize (S1 n L); lra|]. cbn [site_of site_well]. unfold depth. destruct (Rle_dec n 0); lra.
Qed.

(** ** Windows *)
Lemma range_split a b : (a <= b)%nat -> py_range 0 (Z.of_nat b) = py_range 0 (Z.of_nat a) ++ py_range (Z.of_nat a) (Z.of_nat b).
Proof.
  intros H. unfold py_range. rewrite !Z.sub_0_r, !Nat2Z.id. replace (Z.to_nat (Z.of_nat b - Z.of_nat a)) with (b - a)%nat by lia.
  replace b with (a + (b - a))%nat at 1 by lia. rewrite seq_app, map_app. f_equal. cbn [Nat.add]. generalize (b - a)%nat as n. clear. intros n.
  rewrite <- (Nat.add_0_r a) at 1. generalize 0%nat as s. induction n as [|n IH]; intros s; [reflexivity|]. cbn [seq map]. f_equal; [lia|]. rewrite <- Nat.add_succ_r. apply IH.
Qed.
Lemma cells_app w1 w2 : forall (e1 e2 : list R) m1 m2 s1 s2, length e1 = length w1 -> length m1 = length w1 -> length s1 = length w1 ->
  cells_of (w1 ++ w2) (e1 ++ e2) (m1 ++ m2) (s1 ++ s2) = cells_of w1 e1 m1 s1 ++ cells_of w2 e2 m2 s2.
Proof.
  induction w1 as [|w w1 IH]; intros [|e e1] e2 [|m m1] m2 [|s s1] s2 H1 H2 H3; try discriminate; [reflexivity|].
  cbn [length] in *. unfold cells_of in *. cbn [app combine flat_map]. rewrite IH by lia. now rewrite app_assoc.
Qed.
Lemma cells_in window : forall e m s x, In x (cells_of window e m s) -> In (row_of x) window.
Proof.
  intros e m s x H. unfold cells_of in H. apply in_flat_map in H as ([row [mu [mo sa]]] & H1 & H2). destruct mo; [|contradiction]. destruct H2 as [<-|[]]. eapply in_combine_l, H1.
Qed.
Lemma cells_unsaved window e m {A} (l : list A) x : In x (cells_of window e m (map (fun _ => false) l)) -> unsaved x.
Proof.
  intros H. unfold cells_of in H. apply in_flat_map in H as ([row [mu [mo sa]]] & H1 & H2). destruct mo; [|contradiction]. destruct H2 as [<-|[]]. cbn.
  apply in_combine_r, in_combine_r, in_combine_r in H1. apply in_map_iff in H1 as (y & <- & _). reflexivity.
Qed.

(** The passes for rows [a] to [b] are part of those for the rows up to [b]. *)
Lemma window_matrices dt express offset tw a b em mon em0 mon0 : (a < b)%nat -> (express = 0%nat \/ S express <> b) -> tw_ok tw ->
  standard_express true dt (py_range (Z.of_nat a) (Z.of_nat b)) express offset (tw_arg tw) = Ok (em, mon) ->
  standard_express true dt (py_range 0 (Z.of_nat b)) express offset (tw_arg tw) = Ok (em0, mon0) ->
  em = map (skipn a) em0 /\ mon = map (skipn a) mon0 /\ exists E, rect E b em0 /\ rect E b mon0.
Proof.
  intros Hab He Htw H1 H2. assert (Hw : window_ok (py_range (Z.of_nat a) (Z.of_nat b)) b).
  { split; [apply Forall_forall; intros x Hx; apply py_range_in in Hx; lia|apply py_range_in; lia]. }
  assert (Hb : ~ bad_express true b express) by (intros (_ & B1 & B2); lia).
  destruct (standard_express_ok true dt _ b express offset Hw tw Hb Htw) as (E & em' & mon' & E1 & R1 & R2 & F1 & V1).
  destruct (standard_express_ok true dt _ b express offset (window_ok_range b ltac:(lia)) tw Hb Htw) as (E' & em0' & mon0' & E2 & R3 & R4 & F2 & V2).
  rewrite H1 in E1. injection E1 as <- <-. rewrite H2 in E2. injection E2 as <- <-.
  assert (E' = E) by (rewrite <- (proj1 (fm_rect _ _ _ F1)), <- (proj1 (fm_rect _ _ _ F2)); reflexivity). subst E'.
  rewrite py_range_length in R1, R2, R3, R4. rewrite Z.sub_0_r, Nat2Z.id in R3, R4. replace (Z.to_nat (Z.of_nat b - Z.of_nat a)) with (b - a)%nat in R1, R2 by lia.
  assert (V : forall i k, (i < E)%nat -> (k < b - a)%nat -> entry em i k = entry em0 i (a + k) /\ bentry mon i k = bentry mon0 i (a + k)).
  { intros i k Hi Hk. destruct (V1 i k (Z.of_nat a + Z.of_nat k)%Z Hi ltac:(apply py_range_nth_error; lia)) as [A1 A2].
    destruct (V2 i (a + k)%nat (Z.of_nat a + Z.of_nat k)%Z Hi) as [B1 B2]; [rewrite py_range_nth_error by lia; f_equal; lia|]. rewrite A1, A2, B1, B2. split; reflexivity. }
  split; [|split; [|exists E; auto]].
  - destruct R1 as [L1 W1], R3 as [L3 W3]. apply (nth_ext _ _ [] []); [rewrite map_length; unfold matrix in *; lia|]. intros i Hi. unfold matrix in *. rewrite L1 in Hi.
    rewrite (nth_map_d _ _ i [] []) by lia. rewrite Forall_forall in W1, W3. assert (l1 : length (nth i em []) = (b - a)%nat) by (apply W1, nth_In; lia).
    apply (nth_ext _ _ 0 0); [rewrite skipn_length; rewrite (W3 (nth i em0 [])) by (apply nth_In; lia); exact l1|]. intros k Hk. rewrite l1 in Hk. rewrite nth_skipn'. apply (V i k Hi Hk).
  - destruct R2 as [L1 W1], R4 as [L3 W3]. apply (nth_ext _ _ [] []); [rewrite map_length; lia|]. intros i Hi. rewrite L1 in Hi.
    rewrite (nth_map_d _ _ i [] []) by lia. rewrite Forall_forall in W1, W3. assert (l1 : length (nth i mon []) = (b - a)%nat) by (apply W1, nth_In; lia).
    apply (nth_ext _ _ false false); [rewrite skipn_length; rewrite (W3 (nth i mon0 [])) by (apply nth_In; lia); exact l1|]. intros k Hk. rewrite l1 in Hk. rewrite nth_skipn'. apply (V i k Hi Hk).
Qed.
Definition pass_cells (window : list Z) (em : matrix R) (mon : list (list bool)) : list (list (Z * R * bool)) :=
  map (fun '(e, m) => cells_of window e m (map (fun _ => false) e)) (combine em mon).
Lemma pass_pairs a b E em0 mon0 : (a < b)%nat -> rect E b em0 -> rect E b mon0 -> exists pairs,
  Forall (fun '(before, after) => Forall (fun x => (0 <= row_of x < Z.of_nat a)%Z /\ unsaved x) before /\ Forall (fun x => (Z.of_nat a <= row_of x)%Z /\ unsaved x) after) pairs /\
  pass_cells (py_range (Z.of_nat a) (Z.of_nat b)) (map (skipn a) em0) (map (skipn a) mon0) = map snd pairs /\
  pass_cells (py_range 0 (Z.of_nat b)) em0 mon0 = map (fun '(before, after) => before ++ after) pairs.
Proof.
  intros Hab [L1 W1] [L2 W2]. unfold matrix in *. clear L1 L2.
  exists (map (fun '(e, m) => (cells_of (py_range 0 (Z.of_nat a)) (firstn a e) (firstn a m) (map (fun _ => false) (firstn a e)),
    cells_of (py_range (Z.of_nat a) (Z.of_nat b)) (skipn a e) (skipn a m) (map (fun _ => false) (skipn a e)))) (combine em0 mon0)).
  unfold pass_cells. revert mon0 W2. induction W1 as [|e em0 He _ IH]; intros [|m mon0] W2; try (split; [constructor|split; reflexivity]). apply Forall_cons_iff in W2 as [Hm W2'].
  destruct (IH mon0 W2') as (I1 & I2 & I3). cbn [map combine] in *. split; [|split].
  - constructor; [|exact I1]. split; apply Forall_forall; intros x Hx; (split; [|eapply cells_unsaved, Hx]); apply cells_in, py_range_in in Hx; lia.
  - f_equal. exact I2.
  - f_equal; [|exact I3]. rewrite (range_split a b) by lia. rewrite <- (firstn_skipn a e) at 1 2. rewrite <- (firstn_skipn a m) at 1. rewrite map_app. apply cells_app.
    + rewrite firstn_length, py_range_length. lia.
    + rewrite firstn_length, py_range_length. lia.
    + rewrite map_length, firstn_length, py_range_length. lia.
Qed.

(** ** Blank rows *)
Lemma blank_pixel a im i j : pixel (blank a im) i j = if Nat.ltb i a then 0 else pixel im i j.
Proof.
  unfold blank, pixel. destruct (Nat.ltb_spec i a) as [L|L].
  - destruct (Nat.lt_ge_cases i (length im)) as [H|H].
    + rewrite app_nth1 by (rewrite map_length, firstn_length; lia). rewrite (nth_map_d _ _ i [] []) by (rewrite firstn_length; lia). generalize (nth i (firstn a im) []) as r. clear. intros r.
      revert j. induction r as [|x r IH]; intros [|j]; try reflexivity. apply IH.
    + rewrite (nth_overflow (_ ++ _)); [destruct j; reflexivity|]. rewrite app_length, map_length, firstn_length, skipn_length. lia.
  - destruct (Nat.le_gt_cases a (length im)) as [H|H].
    + rewrite app_nth2 by (rewrite map_length, firstn_length; lia). rewrite map_length, firstn_length, nth_skipn'. f_equal. f_equal. lia.
    + rewrite (nth_overflow (_ ++ _)), (nth_overflow im); [reflexivity|lia|]. rewrite app_length, map_length, firstn_length, skipn_length. lia.
Qed.
Lemma blank_shape rows cols a im : shape rows cols im -> shape rows cols (blank a im).
Proof.
  intros [L W]. unfold blank. split; [rewrite app_length, map_length, firstn_length, skipn_length; lia|]. apply Forall_app. rewrite <- (firstn_skipn a im) in W. apply Forall_app in W as [W1 W2]. split; [|exact W2].
  apply Forall_map. eapply Forall_impl; [|exact W1]. cbn. intros r Hr. rewrite map_length. exact Hr.
Qed.

Section Main.
Context (im : image R) (parallel serial : direction R) (c : ccd R) (traps : traps_arg R) (dwell : list R) (dt : dtype) (rows cols a b : nat).
Hypothesis Hs : shape rows cols im.
Hypothesis Hp : forall i j, 0 <= pixel im i j.
Hypothesis Hab : (a < b)%nat.
Hypothesis Hb : (b <= rows)%nat.
Hypothesis Hps : plain_setting parallel b c traps dwell dt.
Hypothesis Hser : d_traps serial = None.
Hypothesis Hcols : columns_ok (selected (d_window serial) cols) cols.
Let columns := selected (d_window serial) cols.
Let tw := Some (0, Z.of_nat (rows + d_offset parallel))%Z.
Let reads := readout (site_of c (groups_in traps)) (trap_phases c) (timed_steps (the_roe parallel)).

Lemma tw_fine : tw_ok tw. Proof. unfold tw. cbn. lia. Qed.
Lemma range_call im0 s w : shape rows cols im0 -> (forall i j, 0 <= pixel im0 i j) -> (s < b)%nat -> selected w rows = py_range (Z.of_nat s) (Z.of_nat b) ->
  exists im' em mon, add_cti im0 (with_window parallel w) serial None = Ok (im', the_roe parallel, the_roe serial) /\
  standard_express true dt (py_range (Z.of_nat s) (Z.of_nat b)) (d_express parallel) (d_offset parallel) (tw_arg tw) = Ok (em, mon) /\
  shape rows cols im' /\ (forall i j, ~ In (Z.of_nat j) columns -> pixel im' i j = pixel im0 i j) /\
  forall i j, (i < rows)%nat -> In (Z.of_nat j) columns ->
    pixel im' i j = reads (pass_cells (py_range (Z.of_nat s) (Z.of_nat b)) em mon) (col_fun im0 j) (Z.of_nat i).
Proof.
  intros Hs0 Hp0 Hsb Hw. destruct Hcols as [Hnd Hrange]. assert (Hr : (0 < rows)%nat) by lia.
  rewrite (add_cti_only_parallel im0 (with_window parallel w) serial traps (ps_traps _ _ _ _ _ _ Hps) Hser).
  rewrite (shape_columns rows cols im0 Hs0 Hr), !resolve_selected. pose proof (proj1 Hs0) as ->. cbn [with_window d_window d_offset]. rewrite Hw.
  change (the_roe (with_window parallel w)) with (the_roe parallel). unfold reads. rewrite (plain_roe _ _ _ _ _ _ Hps). unfold clock_direction. cbn [with_window d_ccd d_express d_offset].
  rewrite (ps_ccd _ _ _ _ _ _ Hps).
  destruct (standard_readout im0 c dwell dt traps (groups_in traps) (d_express parallel) (d_offset parallel) (py_range (Z.of_nat s) (Z.of_nat b)) b columns tw rows cols)
    as (im' & em & mon & E1 & E2 & E3 & E4 & E5); auto.
  - exact (ps_plain _ _ _ _ _ _ Hps).
  - exact (ps_phases _ _ _ _ _ _ Hps).
  - apply groups_normalised, (ps_instant _ _ _ _ _ _ Hps).
  - apply (ps_instant _ _ _ _ _ _ Hps).
  - split; [apply Forall_forall; intros x Hx; apply py_range_in in Hx; lia|apply py_range_in; lia].
  - exact tw_fine.
  - exact (ps_express _ _ _ _ _ _ Hps).
  - exists im', em, mon. change (tw_arg tw) with (whole rows (d_offset parallel)) in E2. fold columns. rewrite E2. cbn [bind]. split; [reflexivity|]. auto.
Qed.

Lemma forward_electrodes d es k : In (d, es) (timed_steps (the_roe parallel)) -> In k (trap_phases c) -> forward (electrode es k).
Proof.
  rewrite (plain_roe _ _ _ _ _ _ Hps). intros H Hk. apply (electrode_ok dwell dt k d es); [|exact H]. apply trap_phases_lt in Hk. pose proof (ps_phases _ _ _ _ _ _ Hps). lia.
Qed.
Lemma deep_sites k : In k (trap_phases c) -> depths (site_of c (groups_in traps) k).
Proof. intros Hk. apply site_depths; [exact (ps_plain _ _ _ _ _ _ Hps)|apply trap_phases_lt, Hk|apply (ps_instant _ _ _ _ _ _ Hps)]. Qed.

Lemma window_result w w0 : selected w rows = py_range (Z.of_nat a) (Z.of_nat b) -> selected w0 rows = py_range 0 (Z.of_nat b) -> exists im1 im0,
  add_cti im (with_window parallel w) serial None = Ok (im1, the_roe parallel, the_roe serial) /\
  add_cti (blank a im) (with_window parallel w0) serial None = Ok (im0, the_roe parallel, the_roe serial) /\
  shape rows cols im1 /\ shape rows cols im0 /\
  forall i j, (i < rows)%nat -> pixel im1 i j = if Nat.ltb i a then pixel im i j else pixel im0 i j.
Proof.
  intros Hw Hw0. assert (Hbp : forall i j, 0 <= pixel (blank a im) i j) by (intros i j; rewrite blank_pixel; destruct (Nat.ltb i a); [lra|apply Hp]).
  destruct (range_call im a w Hs Hp Hab Hw) as (im1 & em & mon & C1 & X1 & S1 & O1 & V1).
  destruct (range_call (blank a im) 0 w0 (blank_shape _ _ _ _ Hs) Hbp ltac:(lia) Hw0) as (im0 & em0 & mon0 & C0 & X0 & S0 & O0 & V0).
  destruct (window_matrices dt (d_express parallel) (d_offset parallel) tw a b em mon em0 mon0 Hab (ps_express _ _ _ _ _ _ Hps) tw_fine X1 X0) as (-> & -> & E & R1 & R2).
  destruct (pass_pairs a b E em0 mon0 Hab R1 R2) as (pairs & P1 & P2 & P3).
  exists im1, im0. split; [exact C1|]. split; [exact C0|]. split; [exact S1|]. split; [exact S0|]. intros i j Hi.
  destruct (in_dec Z.eq_dec (Z.of_nat j) columns) as [Hj|Hj].
  - rewrite (V1 i j Hi Hj), (V0 i j Hi Hj). change (Z.of_nat 0) with 0%Z. rewrite P2, P3. destruct (Nat.ltb_spec i a) as [L|L].
    + unfold reads. rewrite <- (readout_after_only (site_of c (groups_in traps)) (trap_phases c) (timed_steps (the_roe parallel)) (Z.of_nat a) forward_electrodes (map snd pairs)); [unfold col_fun; now rewrite Nat2Z.id| |lia].
      apply Forall_map. eapply Forall_impl; [|exact P1]. intros [x y] [_ H]. cbn [snd]. eapply Forall_impl; [|exact H]. cbn. tauto.
    + apply (readout_window (site_of c (groups_in traps)) (trap_phases c) (timed_steps (the_roe parallel)) (Z.of_nat a) forward_electrodes deep_sites pairs P1 (col_fun im j) (col_fun (blank a im) j)); [| |lia].
      * intros z Hz. unfold col_fun. rewrite blank_pixel. destruct (Nat.ltb_spec (Z.to_nat z) a); [lia|reflexivity].
      * split; intros z; [apply Hbp|]. intros Hz. unfold col_fun. rewrite blank_pixel. destruct (Nat.ltb_spec (Z.to_nat z) a) as [L1|L1]; [reflexivity|lia].
  - rewrite (O1 i j Hj), (O0 i j Hj), blank_pixel. destruct (Nat.ltb i a); reflexivity.
Qed.

(** Rows after the window: they do not matter when every transfer is computed. *)
Lemma later_rows im0 w0 : shape rows cols im0 -> (forall i j, 0 <= pixel im0 i j) -> computes_all parallel rows -> selected w0 rows = py_range 0 (Z.of_nat b) ->
  exists im1 im2, add_cti im0 (with_window parallel w0) serial None = Ok (im1, the_roe parallel, the_roe serial) /\
  add_cti im0 (with_window parallel WNone) serial None = Ok (im2, the_roe parallel, the_roe serial) /\
  forall i j, (i < b)%nat -> pixel im1 i j = pixel im2 i j.
Proof.
  intros Hs0 Hp0 Hall Hw0. destruct (range_call im0 0 w0 Hs0 Hp0 ltac:(lia) Hw0) as (im1 & em & mon & C1 & X1 & S1 & O1 & V1).
  assert (Hall' : computes_all parallel b) by (unfold computes_all in *; lia).
  destruct (express_all true dt (py_range 0 (Z.of_nat b)) b (d_express parallel) (d_offset parallel) (window_ok_range b ltac:(lia)) (tw_arg tw) Hall') as (em' & mon' & E & H1 & H2 & H3).
  { right. exists (Z.of_nat (rows + d_offset parallel)). split; [reflexivity|lia]. }
  change (Z.of_nat 0) with 0%Z in X1. rewrite X1 in E. injection E as <- <-. rewrite py_range_length, Z.sub_0_r, Nat2Z.id in H1, H2.
  assert (Hcells : pass_cells (py_range 0 (Z.of_nat b)) em mon = full_passes b (d_offset parallel)).
  { unfold pass_cells. rewrite py_range_0. apply full_cells; [exact H1|exact H2|]. intros e k Hlt Hk. destruct (H3 e k (Z.of_nat k) Hlt) as [G1 G2].
    - rewrite py_range_nth_error by lia. f_equal.
    - rewrite G1, G2. destruct (Z.leb_spec (Z.of_nat e) (Z.of_nat k + Z.of_nat (d_offset parallel))), (Nat.leb_spec e (k + d_offset parallel)); try lia; auto. }
  assert (Hps' : plain_setting (with_window parallel WNone) rows c traps dwell dt).
  { destruct Hps. constructor; try assumption. cbn [with_window d_express]. unfold computes_all in Hall. lia. }
  destruct (parallel_readout im0 (with_window parallel WNone) serial c traps dwell dt rows cols Hs0 ltac:(lia) Hp0 Hps' Hall eq_refl Hser Hcols) as (im2 & C2 & S2 & _ & O2 & V2).
  exists im1, im2. split; [exact C1|]. split; [exact C2|]. intros i j Hi. destruct (in_dec Z.eq_dec (Z.of_nat j) columns) as [Hj|Hj].
  - rewrite (V1 i j ltac:(lia) Hj), (V2 i j ltac:(lia) Hj). change (Z.of_nat 0) with 0%Z. rewrite Hcells. symmetry.
    pose proof (readout_causal (site_of c (groups_in traps)) (trap_phases c) (timed_steps (the_roe parallel)) rows (d_offset parallel) (b - 1) (col_fun im0 j) (col_fun im0 j) ltac:(lia) forward_electrodes (fun z _ => eq_refl)) as Hcut.
    replace (S (b - 1)) with b in Hcut by lia. apply Hcut. lia.
  - now rewrite (O1 i j Hj), (O2 i j Hj).
Qed.
Lemma window_of_all w : computes_all parallel rows -> selected w rows = py_range (Z.of_nat a) (Z.of_nat b) -> exists im1 im0,
  add_cti im (with_window parallel w) serial None = Ok (im1, the_roe parallel, the_roe serial) /\
  add_cti (blank a im) (with_window parallel WNone) serial None = Ok (im0, the_roe parallel, the_roe serial) /\
  shape rows cols im1 /\
  forall i j, (i < b)%nat -> pixel im1 i j = if Nat.ltb i a then pixel im i j else pixel im0 i j.
Proof.
  intros Hall Hw. assert (Hbp : forall i j, 0 <= pixel (blank a im) i j) by (intros i j; rewrite blank_pixel; destruct (Nat.ltb i a); [lra|apply Hp]).
  destruct (window_result w (WRange (py_range 0 (Z.of_nat b))) Hw eq_refl) as (im1 & im0 & C1 & C0 & S1 & S0 & V).
  destruct (later_rows (blank a im) (WRange (py_range 0 (Z.of_nat b))) (blank_shape _ _ _ _ Hs) Hbp Hall eq_refl) as (im3 & im2 & C3 & C2 & V2).
  rewrite C0 in C3. injection C3 as <-. exists im1, im2. split; [exact C1|]. split; [exact C2|]. split; [exact S1|]. intros i j Hi. rewrite (V i j ltac:(lia)), (V2 i j Hi). reflexivity.
Qed.
End Main.
