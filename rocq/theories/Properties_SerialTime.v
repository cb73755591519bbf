(** * C45: a time window leaves only some rows for serial readout. *)
From Coq Require Import ZArith List Bool Reals Lra Lia.
From Verif Require Import Num Py RFacts CCDModel TrapsModel ManagerModel ROEModel ClockModel MainModel Spec SpecROE SpecImage SpecReadout
  ClockFacts MainFacts ShapeFacts ColumnFacts ROEExpressFacts ROEMatrixFacts ROEKindFacts ReadoutForced ReadoutInjection ReadoutFull MainReadoutFacts MainColumnFacts ReadoutExamples.
Import ListNotations.
Open Scope R_scope.

(** Row [i] with offset [o] reaches the register in transfer [i + o].  Of the rows from [p] to just before
    [q], those that reach it in the transfers from [a] to just before [b]. *)
Definition rows_reaching (p q a b o : nat) : list Z := map Z.of_nat (filter (fun i => (a <=? i + o)%nat && (i + o <? b)%nat) (seq p (q - p))).

Lemma filter_none {A} f (l : list A) : (forall x, In x l -> f x = false) -> filter f l = [].
Proof. induction l as [|x l IH]; intros H; cbn; [reflexivity|]. rewrite (H x (or_introl eq_refl)). apply IH. intros y Hy. apply H. now right. Qed.
Lemma filter_every {A} f (l : list A) : (forall x, In x l -> f x = true) -> filter f l = l.
Proof. induction l as [|x l IH]; intros H; cbn; [reflexivity|]. rewrite (H x (or_introl eq_refl)). f_equal. apply IH. intros y Hy. apply H. now right. Qed.
Lemma range_seq lo hi : py_range (Z.of_nat lo) (Z.of_nat hi) = map Z.of_nat (seq lo (hi - lo)).
Proof.
  unfold py_range. replace (Z.to_nat (Z.of_nat hi - Z.of_nat lo)) with (hi - lo)%nat by lia. replace (seq lo (hi - lo)) with (seq (lo + 0) (hi - lo)) by now rewrite Nat.add_0_r.
  generalize (hi - lo)%nat. intros n. generalize 0%nat. induction n as [|n IH]; intros k; [reflexivity|]. cbn [seq map]. f_equal; [lia|]. rewrite IH. do 2 f_equal. lia.
Qed.
Lemma rows_reaching_range p q a b o : (p < q)%nat -> (a < b)%nat ->
  py_range (Z.max (Z.of_nat p) (Z.of_nat a - Z.of_nat o)) (Z.min (Z.of_nat q - 1) (Z.of_nat b - 1 - Z.of_nat o) + 1) = rows_reaching p q a b o.
Proof.
  intros Hpq Hab. unfold rows_reaching. set (lo := Nat.max p (a - o)). set (hi := Nat.min q (b - o)).
  destruct (le_lt_dec hi lo) as [H|H].
  - unfold py_range. replace (Z.to_nat _) with 0%nat by lia. cbn [seq map]. rewrite filter_none; [reflexivity|].
    intros i Hi. apply in_seq in Hi. destruct (Nat.leb_spec a (i + o)), (Nat.ltb_spec (i + o) b); try reflexivity. lia.
  - replace (Z.max _ _) with (Z.of_nat lo) by lia. replace (Z.min _ _ + 1)%Z with (Z.of_nat hi) by lia. rewrite range_seq. f_equal.
    replace (q - p)%nat with ((lo - p) + ((hi - lo) + (q - hi)))%nat by lia. rewrite !seq_app, !filter_app.
    replace (p + (lo - p))%nat with lo by lia. replace (lo + (hi - lo))%nat with hi by lia.
    rewrite (filter_none _ (seq p _)), (filter_none _ (seq hi _)), (filter_every _ (seq lo _)); [now rewrite app_nil_r| | |]; intros i Hi; apply in_seq in Hi;
      destruct (Nat.leb_spec a (i + o)), (Nat.ltb_spec (i + o) b); try reflexivity; lia.
Qed.

(** The readout of the serial traps is then parallel readout of the transposed image, in the columns
    that these rows have become.  The rest of the image stays as it is. *)
Theorem C45_serial_readout_of_the_rows_in_time (im : image R) parallel serial rows cols n ef p q a b : shape rows cols im -> (0 < rows)%nat -> (0 < cols)%nat ->
  roe_kind_of (the_roe serial) = Standard ef -> window_ok (selected (d_window serial) cols) n -> (n <= cols)%nat ->
  d_traps parallel = None -> selected (d_window parallel) rows = map Z.of_nat (seq p (q - p)) -> (p < q)%nat -> (a < b)%nat ->
  add_cti im parallel serial (Some (map Z.of_nat (seq a (b - a)))) =
  match add_cti (transpose im) serial (mkDir (d_ccd parallel) (d_roe parallel) None 0 0 (WRange (rows_reaching p q a b (d_offset parallel)))) None with
  | Ok (im', pr, sr) => Ok (transpose im', sr, pr)
  | Err e => Err e
  end.
Proof.
  intros Hs Hr Hc HK Hwin Hn Et Ew Hpq Hab. pose proof (transpose_shape rows cols im Hs Hr) as Ht.
  unfold add_cti. rewrite (shape_columns rows cols im Hs Hr), (shape_columns cols rows _ Ht Hc). pose proof (proj1 Hs) as ->. pose proof (proj1 Ht) as ->.
  rewrite (resolve_selected (d_window parallel)), (resolve_selected (d_window serial)), Ew, Et, <- !range_seq. cbn [d_window d_traps d_offset resolve_window resolve_time_window].
  rewrite !py_range_first, !py_range_last by lia. cbn [bind]. rewrite rows_reaching_range by assumption.
  set (L := rows_reaching p q a b (d_offset parallel)).
  destruct (d_traps serial) as [traps|]; [|cbn [bind]; rewrite (transpose_twice rows cols) by assumption; reflexivity].
  assert (E : clock_direction (transpose im) serial (the_roe serial) traps (selected (d_window serial) cols) L None =
              clock_direction (transpose im) serial (the_roe serial) traps (selected (d_window serial) cols) L (Some (py_range 0 (Z.of_nat (cols + d_offset serial))))).
  { assert (Ee : express_and_monitor (the_roe serial) (selected (d_window serial) cols) (d_express serial) (d_offset serial) None =
                 express_and_monitor (the_roe serial) (selected (d_window serial) cols) (d_express serial) (d_offset serial) (Some (py_range 0 (Z.of_nat (cols + d_offset serial))))).
    { unfold express_and_monitor. rewrite HK. rewrite (window_whole ef _ (selected (d_window serial) cols) n _ (d_offset serial) Hwin (Z.of_nat (cols + d_offset serial))) by lia. reflexivity. }
    unfold clock_direction. destruct (d_ccd serial) as [c|]; unfold clock_charge_in_one_direction; rewrite Ee; reflexivity. }
  rewrite E. clear E. destruct (clock_direction _ _ _ _ _ _ _) as [[im1 r1]|e]; reflexivity.
Qed.
Print Assumptions C45_serial_readout_of_the_rows_in_time.
(** Without parallel arguments the time window is simply the window of rows. *)
Theorem C45_time_window_alone_selects_rows (im : image R) serial rows cols n ef a b : shape rows cols im -> (0 < cols)%nat ->
  roe_kind_of (the_roe serial) = Standard ef -> window_ok (selected (d_window serial) cols) n -> (n <= cols)%nat -> (a < b <= rows)%nat ->
  add_cti im no_direction serial (Some (map Z.of_nat (seq a (b - a)))) =
  match add_cti (transpose im) serial (mkDir None None None 0 0 (WRange (map Z.of_nat (seq a (b - a))))) None with
  | Ok (im', pr, sr) => Ok (transpose im', sr, pr)
  | Err e => Err e
  end.
Proof.
  intros Hs Hc HK Hwin Hn Hab. rewrite (C45_serial_readout_of_the_rows_in_time im no_direction serial rows cols n ef 0 rows a b); try assumption; try lia; try reflexivity; [|cbn; now rewrite Nat.sub_0_r].
  replace (rows_reaching 0 rows a b (d_offset (no_direction (F := R)))) with (map Z.of_nat (seq a (b - a))); [reflexivity|].
  rewrite <- range_seq, <- rows_reaching_range by lia. cbn [d_offset no_direction]. f_equal; lia.
Qed.
Print Assumptions C45_time_window_alone_selects_rows.
(** The middle one of three rows. *)
Example C45_time_example : let d := small_direction small_roe (TOne (small_trap (1/2))) in
  shape 3 2 [[1; 0]; [1; 0]; [1; 0]] /\ roe_kind_of (the_roe d) = Standard true /\ window_ok (selected (d_window d) 2) 2 /\
  add_cti [[1; 0]; [1; 0]; [1; 0]] no_direction d (Some [1%Z]) = Ok ([[1; 0]; [1/2; 3/32]; [1; 0]], the_roe no_direction, the_roe d).
Proof.
  intros d. assert (Sh : shape 3 2 [[1; 0]; [1; 0]; [1; 0]]) by (split; [reflexivity|repeat constructor]).
  assert (Hwin : window_ok (selected (d_window d) 2) 2) by (split; [cbn; repeat constructor; cbn; lia|cbn; auto]).
  split; [exact Sh|]. split; [reflexivity|]. split; [exact Hwin|].
  change [1%Z] with (map Z.of_nat (seq 1 (2 - 1))). rewrite (C45_time_window_alone_selects_rows _ d 3 2 2 true); try reflexivity; try lia; try assumption.
  set (p := mkDir (F := R) None None None 0 0 (WRange (map Z.of_nat (seq 1 (2 - 1))))). set (tall := transpose [[1; 0]; [1; 0]; [1; 0]]). assert (Et : tall = [[1; 1; 1]; [0; 0; 0]]) by reflexivity. clearbody tall. subst tall.
  assert (Hset : plain_setting d 2 small_ccd (TOne (small_trap (1/2))) [ln 2] DFloat) by (apply small_setting, small_instant; lra).
  assert (St : shape 2 3 [[1; 1; 1]; [0; 0; 0]]) by (split; [reflexivity|repeat constructor]).
  assert (Nt : forall i j, 0 <= pixel [[1; 1; 1]; [0; 0; 0]] i j).
  { intros i j. unfold pixel. destruct i as [|[|[|i]]]; destruct j as [|[|[|[|j]]]]; cbn; lra. }
  assert (Hc : columns_ok (selected (d_window p) 3) 3) by (split; [repeat constructor; cbn; tauto|intros x [<-|[]]; cbn; lia]).
  destruct (textbook_readout [[1; 1; 1]; [0; 0; 0]] d p small_ccd (TOne (small_trap (1/2))) [small_trap (1/2)] (ln 2) DFloat 2 3 1) as (im' & E & H); auto.
  - left; reflexivity.
  - apply ln_pos; lra.
  - unfold share; cbn; lra.
  - left; reflexivity.
  - destruct (parallel_readout [[1; 1; 1]; [0; 0; 0]] d p small_ccd (TOne (small_trap (1/2))) [ln 2] DFloat 2 3 St ltac:(lia) Nt Hset ltac:(left; reflexivity) eq_refl eq_refl Hc) as (im2 & E2 & [L F] & _ & O & _).
    assert (im2 = im') as -> by congruence. rewrite E. change (column_of [[1; 1; 1]; [0; 0; 0]] 1) with [1; 0] in H. change (d_offset d) with 0%nat in H. change (share small_ccd 0) with 1 in H.
    change (depth (nth 0 (ccd_full_well small_ccd) 1) (nth 0 (ccd_fill_power small_ccd) 1)) with small_well in H. cbn [map] in H. rewrite small_textbook in H.
    assert (Out : forall i j, j <> 1%nat -> pixel im' i j = pixel [[1; 1; 1]; [0; 0; 0]] i j) by (intros i j Hj; apply O; intros [Q|[]]; cbn in Q; lia).
    pose proof (Out 0%nat 0%nat ltac:(lia)). pose proof (Out 0%nat 2%nat ltac:(lia)). pose proof (Out 1%nat 0%nat ltac:(lia)). pose proof (Out 1%nat 2%nat ltac:(lia)). clear E E2 O Out.
    destruct im' as [|r1 [|r2 [|? ?]]]; try discriminate. apply Forall_cons_iff in F as [F1 F]. apply Forall_cons_iff in F as [F2 _].
    destruct r1 as [|x1 [|x2 [|x3 [|? ?]]]]; try discriminate. destruct r2 as [|y1 [|y2 [|y3 [|? ?]]]]; try discriminate.
    unfold pixel in *. cbn in *. injection H as -> ->. subst. reflexivity.
Qed.
