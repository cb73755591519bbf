(** * Offsets: pixels between the image and the readout register. *)
From Coq Require Import ZArith List Bool Reals Lra Lia FinFun.
From Coquelicot Require Import Rcomplements Rbar Hierarchy RInt.
From Verif Require Import Num Py RFacts CCDModel TrapsModel ManagerModel ROEModel ClockModel MainModel Spec SpecROE SpecImage SpecReadout SpecColumn SpecWindow
  WmFacts ArrayFacts CutFacts InstantFacts ClockFacts MainFacts ShapeFacts ColumnFacts
  ROEClockFacts ROEMatrixFacts ROEExpressFacts ROEKindFacts ReadoutFacts ReadoutImage ReadoutForced ReadoutFull ReadoutSpecFacts ReadoutColumnFacts MainReadoutFacts
  MainColumnFacts WindowFacts WindowMainFacts.
Import ListNotations.
Open Scope R_scope.

Lemma full_matrix_offset ef dt rows k o express : (0 < rows)%nat -> (express = 0%nat \/ (S express < rows)%nat \/ (k + rows <= express)%nat) ->
  @standard_full_matrix R _ ef dt rows express (k + o) = standard_full_matrix ef dt (k + rows) express o.
Proof.
  intros Hr He. unfold standard_full_matrix. replace (rows + (k + o))%nat with (k + rows + o)%nat by lia.
  set (E := express_used (k + rows + o) express) in *.
  assert (HE : (S E < rows)%nat \/ (k + rows <= E)%nat).
  { unfold E, express_used. destruct (Nat.eqb_spec express 0); lia. }
  cbn zeta. destruct ef; cbn [andb].
  - destruct HE as [HE|HE].
    + rewrite (proj2 (Nat.ltb_lt E rows)), (proj2 (Nat.ltb_lt E (k + rows))), (proj2 (Nat.ltb_lt E (rows - 1))), (proj2 (Nat.ltb_lt E (k + rows - 1))) by lia. replace (rows - 1 + (k + o))%nat with (k + rows - 1 + o)%nat by lia. reflexivity.
    + rewrite (proj2 (Nat.ltb_ge E rows)), (proj2 (Nat.ltb_ge E (k + rows))) by lia. rewrite (proj2 (Nat.ltb_ge E rows)), (proj2 (Nat.ltb_ge E (k + rows))) by lia. replace (rows + (k + o))%nat with (k + rows + o)%nat by lia. reflexivity.
  - replace (rows + (k + o))%nat with (k + rows + o)%nat by lia. reflexivity.
Qed.

Lemma offset_matrices dt express o k rows tw em mon em0 mon0 : (0 < rows)%nat -> (express = 0%nat \/ (S express < rows)%nat \/ (k + rows <= express)%nat) -> tw_ok tw ->
  standard_express true dt (py_range 0 (Z.of_nat rows)) express (k + o) (tw_arg tw) = Ok (em, mon) ->
  standard_express true dt (py_range 0 (Z.of_nat (k + rows))) express o (tw_arg tw) = Ok (em0, mon0) ->
  em = map (skipn k) em0 /\ mon = map (skipn k) mon0 /\ exists E, rect E (k + rows) em0 /\ rect E (k + rows) mon0.
Proof.
  intros Hr He Htw H1 H2.
  assert (Hb : ~ bad_express true rows express) by (intros (_ & B1 & B2); lia).
  assert (Hb' : ~ bad_express true (k + rows) express) by (intros (_ & B1 & B2); lia).
  destruct (standard_express_ok true dt _ rows express (k + o) (window_ok_range rows Hr) tw Hb Htw) as (E & em' & mon' & E1 & R1 & R2 & F1 & V1).
  destruct (standard_express_ok true dt _ (k + rows) express o (window_ok_range (k + rows) ltac:(lia)) tw Hb' Htw) as (E' & em0' & mon0' & E2 & R3 & R4 & F2 & V2).
  rewrite H1 in E1. injection E1 as <- <-. rewrite H2 in E2. injection E2 as <- <-. cbn zeta in *. rewrite (full_matrix_offset true dt rows k o express Hr He) in F1, V1.
  assert (E' = E) by (rewrite <- (proj1 (fm_rect _ _ _ F1)), <- (proj1 (fm_rect _ _ _ F2)); reflexivity). subst E'.
  rewrite py_range_length, Z.sub_0_r, Nat2Z.id in R1, R2, R3, R4.
  assert (V : forall i j, (i < E)%nat -> (j < rows)%nat -> entry em i j = entry em0 i (k + j) /\ bentry mon i j = bentry mon0 i (k + j)).
  { intros i j Hi Hj. destruct (V1 i j (Z.of_nat j) Hi) as [A1 A2]; [rewrite py_range_nth_error by lia; f_equal|].
    destruct (V2 i (k + j)%nat (Z.of_nat (k + j)) Hi) as [B1 B2]; [rewrite py_range_nth_error by lia; f_equal; lia|]. rewrite A1, A2, B1, B2, !Nat2Z.id.
    replace (k + o + j)%nat with (o + (k + j))%nat by lia. split; reflexivity. }
  split; [|split; [|exists E; auto]].
  - destruct R1 as [L1 W1], R3 as [L3 W3]. apply (nth_ext _ _ [] []); [rewrite map_length; unfold matrix in *; lia|]. intros i Hi. unfold matrix in *. rewrite L1 in Hi.
    rewrite (nth_map_d _ _ i [] []) by lia. rewrite Forall_forall in W1, W3. assert (l1 : length (nth i em []) = rows) by (apply W1, nth_In; lia).
    apply (nth_ext _ _ 0 0); [rewrite skipn_length; rewrite (W3 (nth i em0 [])) by (apply nth_In; lia); lia|]. intros j Hj. rewrite l1 in Hj. rewrite nth_skipn'. apply (V i j Hi Hj).
  - destruct R2 as [L1 W1], R4 as [L3 W3]. apply (nth_ext _ _ [] []); [rewrite map_length; lia|]. intros i Hi. rewrite L1 in Hi.
    rewrite (nth_map_d _ _ i [] []) by lia. rewrite Forall_forall in W1, W3. assert (l1 : length (nth i mon []) = rows) by (apply W1, nth_In; lia).
    apply (nth_ext _ _ false false); [rewrite skipn_length; rewrite (W3 (nth i mon0 [])) by (apply nth_In; lia); lia|]. intros j Hj. rewrite l1 in Hj. rewrite nth_skipn'. apply (V i j Hi Hj).
Qed.
Lemma shift_cells k : forall window e m s, cells_of (map (fun z => (z + k)%Z) window) e m s = map (shift_cell k) (cells_of window e m s).
Proof.
  unfold cells_of. induction window as [|w window IH]; intros [|e es] [|m ms] [|s ss]; try reflexivity. cbn [map combine flat_map]. rewrite map_app, IH. destruct m; reflexivity.
Qed.
Lemma shift_range k n : py_range (Z.of_nat k) (Z.of_nat (k + n)) = map (fun z => (z + Z.of_nat k)%Z) (py_range 0 (Z.of_nat n)).
Proof.
  unfold py_range. replace (Z.to_nat (Z.of_nat (k + n) - Z.of_nat k)) with n by lia. rewrite Z.sub_0_r, Nat2Z.id, map_map. apply map_ext. intros i. lia.
Qed.
Lemma shift_passes k n em mon : pass_cells (py_range (Z.of_nat k) (Z.of_nat (k + n))) em mon = map (map (shift_cell (Z.of_nat k))) (pass_cells (py_range 0 (Z.of_nat n)) em mon).
Proof. unfold pass_cells. rewrite map_map, shift_range. apply map_ext. intros [e m]. apply shift_cells. Qed.

Lemma before_pixel k cols im i j : pixel (rows_before k cols im) i j = if Nat.ltb i k then 0 else pixel im (i - k) j.
Proof.
  unfold rows_before, pixel. destruct (Nat.ltb_spec i k) as [L|L].
  - rewrite app_nth1 by (rewrite repeat_length; lia). assert (N : forall (x : list R) n m, (m < n)%nat -> nth m (repeat x n) [] = x) by (intros x n; induction n as [|n IH]; intros [|m] Hm; try lia; [reflexivity|apply IH; lia]). rewrite N by exact L. apply nth_repeat.
  - rewrite app_nth2 by (rewrite repeat_length; lia). now rewrite repeat_length.
Qed.
Lemma before_shape k rows cols im : shape rows cols im -> shape (k + rows) cols (rows_before k cols im).
Proof.
  intros [L W]. unfold rows_before. split; [rewrite app_length, repeat_length; lia|]. apply Forall_app. split; [|exact W]. apply Forall_forall. intros r Hr. apply repeat_spec in Hr as ->. apply repeat_length.
Qed.

Lemma with_offset_setting d n rows rows' c traps dwell dt : plain_setting d rows c traps dwell dt -> (d_express d = 0%nat \/ S (d_express d) <> rows') ->
  plain_setting (with_offset d n) rows' c traps dwell dt.
Proof. intros [] H. constructor; assumption. Qed.

Lemma offset_is_rows im parallel serial c traps dwell dt rows cols k o :
  shape rows cols im -> (0 < rows)%nat -> (forall i j, 0 <= pixel im i j) ->
  plain_setting parallel rows c traps dwell dt -> d_window parallel = WNone ->
  (d_express parallel = 0%nat \/ (S (d_express parallel) < rows)%nat \/ (k + rows <= d_express parallel)%nat) ->
  d_traps serial = None -> columns_ok (selected (d_window serial) cols) cols ->
  exists im1 im2,
  add_cti im (with_offset parallel (k + o)) serial None = Ok (im1, the_roe parallel, the_roe serial) /\
  add_cti (rows_before k cols im) (with_offset parallel o) serial None = Ok (im2, the_roe parallel, the_roe serial) /\
  shape rows cols im1 /\ shape (k + rows) cols im2 /\
  (forall i j, (i < k)%nat -> pixel im2 i j = 0) /\
  forall i j, (i < rows)%nat -> pixel im2 (k + i) j = pixel im1 i j.
Proof.
  intros Hs Hr Hp Hps Hw He Hser Hcols.
  assert (Hps1 : plain_setting (with_offset parallel (k + o)) rows c traps dwell dt) by (eapply with_offset_setting; [exact Hps|lia]).
  assert (Hps2 : plain_setting (with_offset parallel o) (k + rows) c traps dwell dt) by (eapply with_offset_setting; [exact Hps|lia]).
  set (imk := rows_before k cols im). assert (Hsk : shape (k + rows) cols imk) by (apply before_shape, Hs).
  assert (Hpk : forall i j, 0 <= pixel imk i j) by (intros i j; unfold imk; rewrite before_pixel; destruct (Nat.ltb i k); [lra|apply Hp]).
  destruct (range_call (with_offset parallel (k + o)) serial c traps dwell dt rows cols 0 rows Hr ltac:(lia) Hps1 Hser Hcols im 0 WNone Hs Hp Hr ltac:(cbn [selected]; rewrite <- py_range_0; reflexivity)) as (im1 & em & mon & C1 & X1 & S1 & O1 & V1).
  destruct (range_call (with_offset parallel o) serial c traps dwell dt (k + rows) cols 0 (k + rows) ltac:(lia) ltac:(lia) Hps2 Hser Hcols imk 0 WNone Hsk Hpk ltac:(lia) ltac:(cbn [selected]; rewrite <- py_range_0; reflexivity)) as (im2 & em0 & mon0 & C2 & X2 & S2 & O2 & V2).
  assert (W1 : with_window (with_offset parallel (k + o)) WNone = with_offset parallel (k + o)) by (unfold with_window, with_offset; cbn; rewrite Hw; reflexivity).
  assert (W2 : with_window (with_offset parallel o) WNone = with_offset parallel o) by (unfold with_window, with_offset; cbn; rewrite Hw; reflexivity).
  rewrite W1 in C1. rewrite W2 in C2. cbn [with_offset d_express d_offset] in X1, X2.
  replace (k + rows + o)%nat with (rows + (k + o))%nat in X2 by lia. change (Z.of_nat 0) with 0%Z in *.
  destruct (offset_matrices dt (d_express parallel) o k rows (Some (0, Z.of_nat (rows + (k + o)))%Z) em mon em0 mon0 Hr He ltac:(cbn; lia) X1 X2) as (Eem & Emon & E & R1 & R2).
  exists im1, im2. split; [exact C1|]. split; [exact C2|]. split; [exact S1|]. split; [exact S2|].
  assert (Hfw := forward_electrodes (with_offset parallel o) c traps dwell dt (k + rows) 0 (k + rows) ltac:(lia) ltac:(lia) Hps2). assert (Hdp := deep_sites (with_offset parallel o) c traps dwell dt (k + rows) Hps2).
  change (the_roe (with_offset parallel o)) with (the_roe parallel) in *. change (the_roe (with_offset parallel (k + o))) with (the_roe parallel) in *.
  assert (Hmain : forall j, In (Z.of_nat j) (selected (d_window serial) cols) ->
    (forall z, (Z.of_nat k <= z)%Z -> readout (site_of c (groups_in traps)) (trap_phases c) (timed_steps (the_roe parallel)) (pass_cells (py_range 0 (Z.of_nat rows)) em mon) (col_fun im j) (z - Z.of_nat k)%Z =
      readout (site_of c (groups_in traps)) (trap_phases c) (timed_steps (the_roe parallel)) (pass_cells (py_range 0 (Z.of_nat (k + rows))) em0 mon0) (col_fun imk j) z) /\
    forall z, (0 <= z < Z.of_nat k)%Z -> readout (site_of c (groups_in traps)) (trap_phases c) (timed_steps (the_roe parallel)) (pass_cells (py_range 0 (Z.of_nat (k + rows))) em0 mon0) (col_fun imk j) z = 0).
  { intros j _. destruct (pass_pairs k (k + rows) E em0 mon0 ltac:(lia) R1 R2) as (pairs & P1 & P2 & P3). rewrite <- Eem, <- Emon in P2.
    set (g := fun z => col_fun im j (z - Z.of_nat k)%Z).
    destruct (readout_window (site_of c (groups_in traps)) (trap_phases c) (timed_steps (the_roe parallel)) (Z.of_nat k) Hfw Hdp pairs P1 g (col_fun imk j)) as [G1 G2].
    - intros z Hz. unfold g, col_fun, imk. rewrite before_pixel. destruct (Nat.ltb_spec (Z.to_nat z) k); [lia|]. f_equal. lia.
    - split; intros z; [apply Hpk|]. intros Hz. unfold col_fun, imk. rewrite before_pixel. destruct (Nat.ltb_spec (Z.to_nat z) k); [reflexivity|lia].
    - rewrite P3. split; [|apply G2]. intros z Hz. rewrite <- (G1 z Hz), <- P2, shift_passes.
      pose proof (readout_shift (site_of c (groups_in traps)) (trap_phases c) (timed_steps (the_roe parallel)) (Z.of_nat k) (pass_cells (py_range 0 (Z.of_nat rows)) em mon) (col_fun im j) g) as Sh.
      rewrite <- Sh; [f_equal; lia|]. intros y. unfold g. f_equal. lia. }
  split.
  - intros i j Hi. destruct (in_dec Z.eq_dec (Z.of_nat j) (selected (d_window serial) cols)) as [Hj|Hj].
    + rewrite (V2 i j ltac:(lia) Hj). apply (Hmain j Hj). lia.
    + rewrite (O2 i j Hj). unfold imk. rewrite before_pixel. destruct (Nat.ltb_spec i k); [reflexivity|lia].
  - intros i j Hi. destruct (in_dec Z.eq_dec (Z.of_nat j) (selected (d_window serial) cols)) as [Hj|Hj].
    + rewrite (V2 (k + i)%nat j ltac:(lia) Hj), (V1 i j Hi Hj). rewrite <- (proj1 (Hmain j Hj)) by lia. f_equal. lia.
    + rewrite (O2 (k + i)%nat j Hj), (O1 i j Hj). unfold imk. rewrite before_pixel. destruct (Nat.ltb_spec (k + i) k); [lia|]. f_equal. lia.
Qed.
