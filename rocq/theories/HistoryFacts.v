(** * Readouts with a single phase, in terms of the history of one trap manager. *)
From Coq Require Import ZArith List Bool Reals Lra Lia FunctionalExtensionality.
From Verif Require Import Num Py RFacts CCDModel TrapsModel ManagerModel ROEModel ClockModel MainModel Spec SpecROE SpecImage SpecReadout SpecHistory
  ClockFacts MainFacts ShapeFacts ColumnFacts ROEClockFacts ROEMatrixFacts ROEExpressFacts ROEKindFacts ReadoutForced ReadoutFull MainReadoutFacts.
Import ListNotations.
Open Scope R_scope.

Lemma upd_app_at {A} (pre : list A) x rest y : upd (pre ++ x :: rest) (length pre) y = pre ++ y :: rest.
Proof. induction pre as [|z pre IH]; [reflexivity|]. cbn [app length upd]. rewrite IH. reflexivity. Qed.
Lemma foldM_ext_in {A S} (f g : S -> A -> result S) l s : (forall a s, In a l -> f s a = g s a) -> foldM f l s = foldM g l s.
Proof.
  revert s. induction l as [|a l IH]; intros s H; [reflexivity|]. cbn [foldM]. rewrite (H a s (or_introl eq_refl)).
  destruct (g s a); [|reflexivity]. cbn [bind]. apply IH. intros b t Hb. apply H. right. exact Hb.
Qed.
Lemma combine_seq_app {A} (l1 l2 : list A) s : combine (seq s (length (l1 ++ l2))) (l1 ++ l2) =
  combine (seq s (length l1)) l1 ++ combine (seq (s + length l1) (length l2)) l2.
Proof.
  revert s. induction l1 as [|x l1 IH]; intros s; cbn [length app seq combine].
  - rewrite Nat.add_0_r. reflexivity.
  - rewrite IH. replace (S s + length l1)%nat with (s + S (length l1))%nat by lia. reflexivity.
Qed.
Lemma bind_assoc {A B C} (m : result A) (f : A -> result B) (g : B -> result C) : bind (bind m f) g = bind m (fun a => bind (f a) g).
Proof. destruct m; reflexivity. Qed.
Lemma bind_ext {A B} (m : result A) (f g : A -> result B) : (forall a, f a = g a) -> bind m f = bind m g.
Proof. intros H. destruct m; [apply H|reflexivity]. Qed.

(** ** The response of a manager *)
Lemma past_length fill d : forall l m l' m', past_manager fill d m l = Ok (l', m') -> length l' = length l.
Proof.
  induction l as [|n l IH]; intros m l' m' E; cbn [past_manager] in E; [injection E as <- _; reflexivity|].
  apply bind_ok in E as ([net m1] & _ & E). apply bind_ok in E as ([l1 m2] & E2 & E). injection E as <- <-. cbn [length]. f_equal. eapply IH; exact E2.
Qed.
Lemma past_keeps fill d : forall l m l' m', mshape m -> past_manager fill d m l = Ok (l', m') -> keeps m m'.
Proof.
  induction l as [|n l IH]; intros m l' m' H E; cbn [past_manager] in E; [injection E as _ <-; apply keeps_refl, H|].
  apply bind_ok in E as ([net m1] & E1 & E). apply bind_ok in E as ([l1 m2] & E2 & E). injection E as _ <-.
  pose proof (manager_step_shape _ _ _ _ _ _ H E1) as K. eapply keeps_trans; [exact K|]. eapply IH; [eapply keeps_shape; exact K|exact E2].
Qed.
Lemma past_nonneg fill d : forall l m l' m', past_manager fill d m l = Ok (l', m') -> Forall (fun x => 0 <= x) l'.
Proof.
  induction l as [|n l IH]; intros m l' m' E; cbn [past_manager] in E; [injection E as <- _; constructor|].
  apply bind_ok in E as ([net m1] & _ & E). apply bind_ok in E as ([l1 m2] & E2 & E). injection E as <- <-. constructor; [apply Rmax_l|eapply IH; exact E2].
Qed.

Section Single.
Context (c : ccd R) (fraction d : R) (k : roe_kind) (force between : bool) (dt : dtype) (rows : nat).
Hypothesis Hfr : ccd_fractions c = [fraction].
Hypothesis Hpos : 0 < fraction.
Hypothesis Hd : 0 < d.
Let r := make_roe k [d] dt between force 1.
Let fill : filling R := fun n => well_fill c 0 false n.

Lemma single_sequence : roe_clock_sequence r = [[mkRP true 0%Z [0%Z] [1]]].
Proof. unfold r, make_roe. cbn [roe_clock_sequence length]. unfold generate_clock_sequence. destruct force; reflexivity. Qed.
Lemma single_steps : steps_with_dwell r = [(0%nat, d)].
Proof. unfold steps_with_dwell, r, make_roe. cbn [roe_dwell_times length seq combine filter]. rnum. rewrite (proj2 (Rltb_true 0 d) Hd). reflexivity. Qed.
Lemma single_phases : phases_with_traps c = [0%nat].
Proof. unfold phases_with_traps. rewrite Hfr. cbn [length seq combine filter]. rnum. rewrite (proj2 (Rltb_true 0 fraction) Hpos). reflexivity. Qed.

Lemma single_row pre x rest m : 
  clock_one_row c r (Z.of_nat (length pre)) 1 (pre ++ x :: rest, [[m]]) =
  do '(net, m') <- manager_step m x fill d; Ok (pre ++ Rmax 0 (x + net) :: rest, [[m']]).
Proof.
  assert (Hl : (0 <= Z.of_nat (length pre) + 0 < Z.of_nat (length (pre ++ x :: rest)))%Z) by (rewrite app_length; cbn [length]; lia).
  unfold clock_one_row. rewrite single_steps, single_phases, single_sequence. cbn [foldM nth_error of_option bind].
  unfold clock_one_phase. cbn [nth_error of_option bind rp_capture rp_high].
  rewrite (cy_index_get _ _ 0 Hl). cbn [bind]. rewrite Z.add_0_r, Nat2Z.id, nth_middle.
  cbn [step_groups]. fold fill. rnum. rewrite Rmult_1_r. destruct (manager_step m x fill d) as [[net m']|e]; [|reflexivity]. cbn [bind].
  replace (Reqb 1 0) with false by (symmetry; apply Reqb_false; lra).
  cbn [rp_release rp_fraction combine foldM write_back]. rewrite (cy_index_get _ _ 0 Hl). cbn [bind]. rewrite (cy_upd_get _ _ _ Hl). cbn [bind].
  rewrite Z.add_0_r, Nat2Z.id, nth_middle, upd_app_at. cbn [upd]. do 4 f_equal. rnum.
  replace (x + (0 + net) * 1 * 1) with (x + net) by ring.
  destruct (Rltb (x + net) 0) eqn:E; [apply Rltb_true in E; rewrite Rmax_left by lra|apply Rltb_false in E; rewrite Rmax_right by lra]; reflexivity.
Qed.

(** The cells of a pass in which the first [lo] rows are skipped. *)
Definition cells_past (lo n : nat) : list (R * bool * bool) := repeat (0, false, false) lo ++ repeat (1, true, false) n.

Let window := map Z.of_nat (seq 0 rows).
Lemma with_data_twice a d1 d2 : with_data (F := R) (with_data a d1) d2 = with_data a d2.
Proof. reflexivity. Qed.
Lemma window_at i : (i < rows)%nat -> nth_error window i = Some (Z.of_nat i).
Proof. intros H. unfold window. rewrite nth_error_map, (nth_error_nth' _ 0%nat) by (rewrite seq_length; exact H). rewrite seq_nth by exact H. reflexivity. Qed.
Lemma single_cells : forall rest pre a m, (length pre + length rest <= rows)%nat -> atm_data a = [[m]] ->
  foldM (clock_cell c r window) (combine (seq (length pre) (length rest)) (repeat (1, true, false) (length rest))) (pre ++ rest, a) =
  do '(l, m') <- past_manager fill d m rest; Ok (pre ++ l, with_data a [[m']]).
Proof.
  induction rest as [|x rest IH]; intros pre a m Hl Ha; cbn [length seq repeat combine foldM past_manager].
  - cbn [bind]. destruct a as [da sa ia pa]. cbn [atm_data] in Ha. subst. reflexivity.
  - cbn [length] in Hl. unfold clock_cell at 1. cbn [negb]. rewrite window_at by lia. rewrite Ha, single_row.
    destruct (manager_step m x fill d) as [[net m1]|e]; [|reflexivity]. cbn [bind].
    replace (pre ++ Rmax 0 (x + net) :: rest) with ((pre ++ [Rmax 0 (x + net)]) ++ rest) by (rewrite <- app_assoc; reflexivity).
    replace (S (length pre)) with (length (pre ++ [Rmax 0 (x + net)])) by (rewrite app_length; cbn [length]; lia).
    rewrite (IH _ _ m1) by (try reflexivity; rewrite app_length; cbn [length]; lia).
    destruct (past_manager fill d m1 rest) as [[l m2]|e]; [|reflexivity]. cbn [bind]. rewrite with_data_twice, <- app_assoc. reflexivity.
Qed.
Lemma skipped_cells : forall n s st, foldM (clock_cell c r window) (combine (seq s n) (repeat (0, false, false) n)) st = Ok st.
Proof. induction n as [|n IH]; intros s [col a]; [reflexivity|]. cbn [seq repeat combine foldM clock_cell negb bind]. apply IH. Qed.
Lemma single_pass pre rest a m : (length pre + length rest <= rows)%nat -> atm_data a = [[m]] ->
  clock_pass_rows c r window (cells_past (length pre) (length rest)) (pre ++ rest, a) =
  do '(l, m') <- past_manager fill d m rest; Ok (pre ++ l, with_data a [[m']]).
Proof.
  intros Hl Ha. unfold clock_pass_rows, cells_past. rewrite combine_seq_app, foldM_app, !repeat_length, skipped_cells. cbn [bind Nat.add].
  apply single_cells; assumption.
Qed.

(** ** A column *)
Context (m0 : manager R).
Hypothesis Hm0 : mshape m0.
(** The managers that every pass starts from, whatever is in them now. *)
Definition starts_from (m : manager R) (a : all_managers R) : Prop := restored a = [[m]] /\ aok [[m0]] a.
Lemma single_shapes : Forall (Forall mshape) [[m0]]. Proof. constructor; [constructor; [exact Hm0|constructor]|constructor]. Qed.
Lemma single_keeps m : dkeeps [[m0]] [[m]] <-> keeps m0 m.
Proof.
  split; intros H.
  - inversion H as [|? ? ? ? H1 _]; subst. inversion H1; subst. assumption.
  - constructor; [constructor; [exact H|constructor]|constructor].
Qed.
Lemma starts_keep m a m' : starts_from m a -> keeps m0 m' -> starts_from m (with_data (atm_restore a) [[m']]).
Proof.
  intros [H1 H2] K. pose proof (restore_ok [[m0]] a single_shapes H2) as [R1 R2].
  split.
  - rewrite <- restore_restored in H1. unfold restored in *. cbn [with_data atm_saved atm_data]. destruct (atm_saved (atm_restore a)); [exact H1|].
    rewrite <- H1. apply single_keeps in K. rewrite (emptied_keeps [[m0]] [[m']] single_shapes K). symmetry. apply emptied_keeps; [apply single_shapes|exact R1].
  - split; [apply single_keeps, K|exact R2].
Qed.
Lemma starts_shape m a : starts_from m a -> keeps m0 m.
Proof. intros [H1 H2]. apply single_keeps. rewrite <- H1. apply restored_keeps; [apply single_shapes|exact H2]. Qed.

Definition a_pass (st : list R * all_managers R) (cells : list (R * bool * bool)) := clock_pass_rows c r window cells (fst st, atm_restore (snd st)).
Lemma whole_pass m a pre rest : starts_from m a -> (length pre + length rest <= rows)%nat ->
  match past_manager fill d m rest with
  | Ok (l, m') => exists a', a_pass (pre ++ rest, a) (cells_past (length pre) (length rest)) = Ok (pre ++ l, a') /\
                    atm_data a' = [[m']] /\ starts_from m a' /\ length l = length rest /\ keeps m0 m'
  | Err e => a_pass (pre ++ rest, a) (cells_past (length pre) (length rest)) = Err e
  end.
Proof.
  intros Ha Hl. unfold a_pass. cbn [fst snd]. rewrite (single_pass pre rest _ m Hl) by (rewrite restore_data; apply Ha).
  destruct (past_manager fill d m rest) as [[l m']|e] eqn:E; [|reflexivity]. cbn [bind].
  pose proof (starts_shape m a Ha) as K. pose proof (past_keeps _ _ _ _ _ _ (keeps_shape _ _ K) E) as K'. pose proof (keeps_trans _ _ _ K K') as K2.
  exists (with_data (atm_restore a) [[m']]). split; [reflexivity|]. split; [reflexivity|]. split; [apply starts_keep; assumption|]. split; [eapply past_length; exact E|exact K2].
Qed.

Lemma reading_passes m : forall n pre rest last a, starts_from m a -> atm_data a = [[last]] -> (length pre + length rest <= rows)%nat -> length rest = n ->
  match reading (past_manager fill d) m n last rest with
  | Ok (l, m') => exists a', foldM a_pass (map (fun lo => cells_past lo (length pre + n - lo)) (seq (length pre) n)) (pre ++ rest, a) = Ok (pre ++ l, a') /\
                    atm_data a' = [[m']] /\ starts_from m a' /\ length l = length rest
  | Err e => foldM a_pass (map (fun lo => cells_past lo (length pre + n - lo)) (seq (length pre) n)) (pre ++ rest, a) = Err e
  end.
Proof.
  induction n as [|n IH]; intros pre rest last a Ha Hlast Hl Hn; cbn [reading seq map foldM].
  - destruct rest; [|discriminate]. exists a. rewrite app_nil_r. auto.
  - pose proof (whole_pass m a pre rest Ha Hl) as W. replace (length pre + S n - length pre)%nat with (length rest) by lia.
    destruct (past_manager fill d m rest) as [[l m']|e] eqn:E; [|rewrite W; reflexivity].
    destruct W as (a' & -> & W2 & W3 & W4 & W5). cbn [bind]. destruct l as [|x l]; [cbn [length] in W4; lia|]. cbn [length] in W4.
    specialize (IH (pre ++ [x]) l m' a' W3 W2). rewrite app_length in IH. cbn [length] in IH. specialize (IH ltac:(lia) ltac:(lia)).
    replace (S (length pre)) with (length pre + 1)%nat by lia. replace (pre ++ x :: l) with ((pre ++ [x]) ++ l) by (rewrite <- app_assoc; reflexivity).
    replace (length pre + S n)%nat with (length pre + 1 + n)%nat by lia.
    destruct (reading (past_manager fill d) m n m' l) as [[l2 s2]|e]; cbn [bind]; [|exact IH].
    destruct IH as (a2 & I1 & I2 & I3 & I4). exists a2. rewrite I1, <- app_assoc. split; [reflexivity|]. split; [exact I2|]. split; [exact I3|]. cbn [length]. lia.
Qed.
Lemma before_passes m : forall n packets last a, starts_from m a -> atm_data a = [[last]] -> (length packets <= rows)%nat ->
  match before (past_manager fill d) m n last packets with
  | Ok (l, m') => exists a', foldM a_pass (repeat (cells_past 0 (length packets)) n) (packets, a) = Ok (l, a') /\
                    atm_data a' = [[m']] /\ starts_from m a' /\ length l = length packets
  | Err e => foldM a_pass (repeat (cells_past 0 (length packets)) n) (packets, a) = Err e
  end.
Proof.
  induction n as [|n IH]; intros packets last a Ha Hlast Hl; cbn [before repeat foldM].
  - exists a. auto.
  - pose proof (whole_pass m a [] packets Ha Hl) as W. cbn [length app] in W.
    destruct (past_manager fill d m packets) as [[l m']|e] eqn:E; [|rewrite W; reflexivity].
    destruct W as (a' & -> & W2 & W3 & W4 & _). cbn [bind]. rewrite <- W4. specialize (IH l m' a' W3 W2 ltac:(lia)).
    destruct (before (past_manager fill d) m n m' l) as [[l2 s2]|e]; exact IH.
Qed.

(** The passes of a readout with an offset, every transfer computed. *)
Definition passes_past (offset : nat) : list (list (R * bool * bool)) :=
  map (fun e => cells_past (e - offset) (rows - (e - offset))) (seq 0 (rows + offset)).
Lemma passes_split offset : passes_past offset =
  repeat (cells_past 0 rows) offset ++ map (fun lo => cells_past lo (rows - lo)) (seq 0 rows).
Proof.
  unfold passes_past. rewrite Nat.add_comm, seq_app, map_app. f_equal.
  - apply nth_ext with (d := cells_past 0 rows) (d' := cells_past 0 rows); [rewrite map_length, seq_length, repeat_length; reflexivity|].
    intros i Hi. rewrite map_length, seq_length in Hi. rewrite nth_repeat.
    rewrite (nth_indep _ _ ((fun e => cells_past (e - offset) (rows - (e - offset))) 0%nat)) by (rewrite map_length, seq_length; exact Hi).
    rewrite (map_nth (fun e => cells_past (e - offset) (rows - (e - offset)))), seq_nth by exact Hi. replace (0 + i - offset)%nat with 0%nat by lia. rewrite Nat.sub_0_r. reflexivity.
  - cbn [Nat.add]. replace (seq offset rows) with (map (Nat.add offset) (seq 0 rows)).
    + rewrite map_map. apply map_ext. intros e. replace (offset + e - offset)%nat with e by lia. reflexivity.
    + clear. revert offset. induction rows as [|n IH]; intros o; [reflexivity|]. cbn [seq map]. rewrite Nat.add_0_r. f_equal. rewrite <- seq_shift, map_map.
      rewrite <- (IH (S o)). apply map_ext. intros e. lia.
Qed.
Lemma single_column m a offset packets : starts_from m a -> atm_data a = [[m]] -> length packets = rows ->
  match column_past (past_manager fill d) m offset packets with
  | Ok (l, m') => exists a', clock_column c r window (passes_past offset) (packets, a) = Ok (l, a') /\
                    atm_data a' = [[m']] /\ starts_from m a' /\ length l = rows
  | Err e => clock_column c r window (passes_past offset) (packets, a) = Err e
  end.
Proof.
  intros Ha Hm Hl. unfold clock_column. change (fun st cells => clock_pass_rows c r window cells (fst st, atm_restore (snd st))) with a_pass.
  rewrite passes_split, foldM_app. unfold column_past.
  pose proof (before_passes m offset packets m a Ha Hm ltac:(lia)) as B. rewrite Hl in B.
  destruct (before (past_manager fill d) m offset m packets) as [[l s]|e]; [|rewrite B; reflexivity].
  destruct B as (a1 & -> & B2 & B3 & B4). cbn [bind].
  pose proof (reading_passes m rows [] l s a1 B3 B2 ltac:(cbn [length]; lia) ltac:(lia)) as Q. cbn [length app Nat.add] in Q. rewrite Hl.
  destruct (reading (past_manager fill d) m rows s l) as [[l2 s2]|e]; [|exact Q].
  destruct Q as (a2 & Q1 & Q2 & Q3 & Q4). exists a2. split; [exact Q1|]. split; [exact Q2|]. split; [exact Q3|lia].
Qed.

(** ** All columns *)
Hypothesis Hempty : empty_all_traps m0 = m0.
Lemma single_end m a m' : starts_from m a -> atm_data a = [[m']] ->
  let m1 := if negb between then m' else m0 in
  starts_from m1 (end_of_column r a) /\ atm_data (end_of_column r a) = [[m1]].
Proof.
  intros [H1 [H2 H3]] Hm. unfold end_of_column. change (roe_empty_between r) with between. rewrite Hm in H2. apply single_keeps in H2.
  assert (Hem : empty_all_traps m' = m0) by (rewrite (keeps_empty m0 m' Hm0 H2); exact Hempty).
  destruct between; cbn [negb].
  - unfold atm_empty, atm_save. cbn [atm_data]. rewrite Hm. cbn [map]. rewrite Hem. split; [|reflexivity].
    assert (K : dkeeps [[m0]] [[m0]]) by (apply single_keeps, keeps_refl, Hm0).
    split; [reflexivity|]. split; [exact K|]. cbn. intros x Hx. injection Hx as <-. exact K.
  - unfold atm_save. cbn [atm_data]. rewrite Hm. split; [|reflexivity].
    assert (K : dkeeps [[m0]] [[m']]) by (apply single_keeps; exact H2).
    split; [reflexivity|]. split; [cbn [atm_data]; exact K|]. cbn. intros x Hx. injection Hx as <-. exact K.
Qed.
Lemma single_columns offset cols : forall n j im m a, shape rows cols im -> (0 < rows)%nat -> (j + n <= cols)%nat ->
  starts_from m a -> atm_data a = [[m]] ->
  match columns_past (past_manager fill d) (negb between) m0 m offset (map (column_of im) (seq j n)) with
  | Ok outs => exists im' a', clock_columns c r window (map Z.of_nat (seq j n)) (passes_past offset) (im, a) = Ok (im', a') /\
                 shape rows cols im' /\ length outs = n /\
                 (forall i, (i < n)%nat -> column_of im' (j + i) = nth i outs []) /\
                 (forall q, (q < cols)%nat -> (q < j \/ j + n <= q)%nat -> column_of im' q = column_of im q)
  | Err e => clock_columns c r window (map Z.of_nat (seq j n)) (passes_past offset) (im, a) = Err e
  end.
Proof.
  induction n as [|n IH]; intros j im m a Hs Hr Hj Ha Hm; cbn [seq map columns_past].
  - exists im, a. split; [reflexivity|]. split; [exact Hs|]. split; [reflexivity|]. split; [intros; lia|reflexivity].
  - unfold clock_columns. cbn [foldM]. unfold clock_one_column at 1 3. rewrite (shape_n_columns rows cols im Hs Hr).
    replace ((0 <=? Z.of_nat j) && (Z.of_nat j <? Z.of_nat cols))%Z with true by (symmetry; apply andb_true_intro; split; [apply Z.leb_le|apply Z.ltb_lt]; lia).
    rewrite Nat2Z.id. change (get_column im j) with (column_of im j).
    pose proof (single_column m a offset (column_of im j) Ha Hm ltac:(rewrite column_length; apply Hs)) as C.
    destruct (column_past (past_manager fill d) m offset (column_of im j)) as [[out s]|e]; [|rewrite C; reflexivity].
    destruct C as (a1 & -> & C2 & C3 & C4). cbn [bind].
    destruct (single_end m a1 s C3 C2) as [E1 E2].
    pose proof (set_column_shape rows cols im j out Hs C4) as Hs1.
    specialize (IH (S j) (set_column im j out) _ _ Hs1 Hr ltac:(lia) E1 E2). unfold clock_columns in IH.
    rewrite (map_ext_in (column_of (set_column im j out)) (column_of im)) in IH
      by (intros q Hq; apply in_seq in Hq; apply (set_column_other rows cols); auto; lia).
    destruct (columns_past (past_manager fill d) (negb between) m0 (if negb between then s else m0) offset (map (column_of im) (seq (S j) n))) as [outs|e];
      cbn [bind]; [|exact IH].
    destruct IH as (im' & a' & I1 & I2 & I3 & I4 & I5). exists im', a'. split; [exact I1|]. split; [exact I2|]. split; [cbn [length]; lia|]. split.
    + intros [|i] Hi; cbn [nth].
      * rewrite Nat.add_0_r, I5 by lia. apply (set_column_same rows cols); auto. lia.
      * rewrite <- I4 by lia. f_equal. lia.
    + intros q Hq Hqj. rewrite I5 by lia. apply (set_column_other rows cols); auto. lia.
Qed.
End Single.

(** ** add_cti *)
Lemma row_cells : forall n lo s (a : list R) (b f : list bool), length a = n -> length b = n -> length f = n ->
  (forall i, (i < n)%nat -> nth i a 0 = if Nat.leb lo (s + i) then 1 else 0) ->
  (forall i, (i < n)%nat -> nth i b false = Nat.leb lo (s + i)) ->
  (forall i, (i < n)%nat -> nth i f false = false) -> (lo <= s + n)%nat ->
  zip_cells a b f = cells_past (lo - s) (n - (lo - s)).
Proof.
  induction n as [|n IH]; intros lo s a b f La Lb Lf Ha Hb Hf Hlo; destruct a as [|x a], b as [|y b], f as [|z f]; try discriminate.
  - replace (lo - s)%nat with 0%nat by lia. reflexivity.
  - cbn [length] in *. unfold zip_cells. cbn [combine map]. fold (zip_cells a b f).
    rewrite (IH lo (S s) a b f); try lia.
    + pose proof (Ha 0%nat ltac:(lia)) as A0. pose proof (Hb 0%nat ltac:(lia)) as B0. pose proof (Hf 0%nat ltac:(lia)) as F0. cbn [nth] in A0, B0, F0. rewrite Nat.add_0_r in A0, B0. subst x y z.
      destruct (Nat.leb_spec lo s) as [H|H].
      * replace (lo - s)%nat with 0%nat by lia. replace (lo - S s)%nat with 0%nat by lia. rewrite !Nat.sub_0_r. reflexivity.
      * replace (lo - s)%nat with (S (lo - S s)) by lia. reflexivity.
    + intros i Hi. specialize (Ha (S i) ltac:(lia)). cbn [nth] in Ha. rewrite Ha. replace (s + S i)%nat with (S s + i)%nat by lia. reflexivity.
    + intros i Hi. specialize (Hb (S i) ltac:(lia)). cbn [nth] in Hb. rewrite Hb. f_equal. lia.
    + intros i Hi. apply (Hf (S i)). lia.
Qed.
Lemma single_matrix rows offset (em : matrix R) mon : (0 < rows)%nat -> rect (rows + offset) rows em -> rect (rows + offset) rows mon ->
  (forall e k, (e < rows + offset)%nat -> (k < rows)%nat ->
     entry em e k = (if Nat.leb e (k + offset) then 1 else 0) /\ bentry mon e k = Nat.leb e (k + offset)) ->
  map (fun '(e, (m, s)) => zip_cells e m s) (combine em (combine mon (map (map (fun _ => false)) em))) = passes_past rows offset.
Proof.
  intros Hr [Le He] [Lm Hm] H. unfold passes_past, matrix in *.
  rewrite (map_ext _ (fun '(x, y) => (fun e (ms : list bool * list bool) => zip_cells e (fst ms) (snd ms)) x y)) by (intros [e [m s]]; reflexivity).
  apply (combine_nth_eq (fun e (ms : list bool * list bool) => zip_cells e (fst ms) (snd ms)) [] ([], [])).
  - exact Le.
  - rewrite combine_length, map_length. lia.
  - intros e Hlt. cbn [Nat.add]. rewrite combine_nth by (rewrite map_length; lia). cbn [fst snd]. rewrite Forall_forall in He, Hm.
    assert (L1 : length (nth e em []) = rows) by (apply He, nth_In; lia). assert (L2 : length (nth e mon []) = rows) by (apply Hm, nth_In; lia).
    assert (En : nth e (map (map (fun _ : R => false)) em) [] = map (fun _ : R => false) (nth e em [])) by exact (map_nth (map (fun _ : R => false)) em [] e). rewrite En.
    rewrite (row_cells rows (e - offset) 0); rewrite ?Nat.sub_0_r; auto; try lia.
    + rewrite map_length. exact L1.
    + intros i Hi. destruct (H e i Hlt Hi) as [H1 _]. unfold entry in H1. rewrite H1. cbn [Nat.add].
      destruct (Nat.leb_spec e (i + offset)), (Nat.leb_spec (e - offset) i); try reflexivity; lia.
    + intros i Hi. destruct (H e i Hlt Hi) as [_ H2]. unfold bentry in H2. rewrite H2. cbn [Nat.add].
      destruct (Nat.leb_spec e (i + offset)), (Nat.leb_spec (e - offset) i); try reflexivity; lia.
    + intros i Hi. clear. revert i. induction (nth e em []) as [|x l IH]; intros [|i]; try reflexivity. apply IH.
Qed.
Lemma groups_one traps (group : list (trap R)) : groups_in traps = [group] -> group <> [] -> normalise_traps traps = Ok [group].
Proof.
  intros H Hn. destruct traps as [t|l|l]; cbn [groups_in] in H.
  - injection H as <-. reflexivity.
  - injection H as <-. destruct l; [contradiction|reflexivity].
  - subst l. destruct group; [contradiction|reflexivity].
Qed.

Lemma history_readout im parallel serial c fraction group dwell keep rows cols :
  shape rows cols im -> (0 < rows)%nat -> single_phase parallel rows c fraction group dwell keep ->
  d_traps serial = None -> d_window serial = WNone ->
  let empty := empty_manager fraction group rows in
  match columns_past (past_manager (fun n => well_fill c 0 false n) dwell) keep empty empty (d_offset parallel) (map (column_of im) (seq 0 cols)) with
  | Ok outs => exists im', add_cti im parallel serial None = Ok (im', the_roe parallel, the_roe serial) /\ shape rows cols im' /\
                 length outs = cols /\ forall j, (j < cols)%nat -> column_of im' j = nth j outs []
  | Err e => add_cti im parallel serial None = Err e
  end.
Proof.
  intros Hs Hr [Hccd Hfr Hph Hpos (traps & Htr & Hg) Hgr (force & dt & Hroe) Hd Hw Hex] Hst Hsw empty.
  rewrite (add_cti_only_parallel im parallel serial traps Htr Hst), Hw, Hsw, (shape_columns rows cols im Hs Hr). pose proof (proj1 Hs) as Hlen. rewrite Hlen.
  cbn [resolve_window]. unfold clock_direction. rewrite Hccd. unfold the_roe at 1. rewrite Hroe.
  set (r := make_roe (Standard true) [dwell] dt (negb keep) force 1).
  replace (roe_init [dwell] true (negb keep) force dt) with r by reflexivity.
  replace (the_roe parallel) with r by (unfold the_roe; rewrite Hroe; reflexivity).
  unfold clock_charge_in_one_direction. destruct (express_all_range true dt rows (d_express parallel) (d_offset parallel) Hr Hex) as (em & mon & Eex & H1 & H2 & H3).
  unfold express_and_monitor. cbn [r make_roe roe_kind_of roe_dtype]. rewrite Eex. cbn [bind]. fold r.
  change (save_matrix r em) with (Ok (map (map (fun _ : R => false)) em)). cbn [bind].
  assert (Ne : max_n_transfers r (length em) match em with [] => 0%nat | row :: _ => length row end = rows).
  { unfold max_n_transfers. cbn [r make_roe roe_kind_of]. unfold r. rewrite (single_steps dwell (Standard true) force (negb keep) dt Hd). cbn [length]. destruct em as [|row em].
    - destruct H1 as [H1 _]. cbn [length] in H1. lia.
    - destruct H1 as [_ H1]. inversion H1; subst. lia. }
  rewrite Ne.
  assert (Ea : atm_init traps rows c = Ok (mkATM [[empty]] None 0 0)).
  { unfold atm_init. rewrite (groups_one traps group Hg Hgr), Hph. cbn [bind seq mapM]. rewrite Hfr. cbn [nth_error of_option].
    destruct group as [|t g]; [contradiction|]. cbn [kind_of_group bind]. unfold empty, empty_manager, manager_init, kind_for. cbn [m_kind m_traps m_wm length].
    do 5 f_equal. unfold zero_row. cbn [length]. f_equal. destruct (t_class t); cbn [n_watermarks_per_transfer]; lia. }
  rewrite Ea. cbn [bind].
  assert (En : n_padding r = Ok 0%nat) by (unfold n_padding, r, make_roe, generate_clock_sequence; cbn [roe_pixels]; destruct force; reflexivity).
  rewrite En. cbn [bind]. rewrite (single_matrix rows (d_offset parallel) em mon Hr H1 H2 H3).
  assert (Ep : pad im 0 = im) by (unfold pad; cbn [repeat]; apply app_nil_r). rewrite Ep, !py_range_0.
  assert (Hm0 : mshape empty).
  { unfold mshape, empty, empty_manager. cbn [m_traps m_wm]. rewrite map_length. split; [reflexivity|]. apply Forall_forall. intros x Hx. apply repeat_spec in Hx. subst. cbn. apply repeat_length. }
  assert (Hem : empty_all_traps empty = empty).
  { rewrite (empty_eq empty Hm0). unfold empty, empty_manager. cbn [m_traps m_wm m_kind]. rewrite map_length, repeat_length. reflexivity. }
  assert (Hk0 : dkeeps [[empty]] [[empty]]) by (apply dkeeps_refl; constructor; [constructor; [exact Hm0|constructor]|constructor]).
  pose proof (single_columns c fraction dwell (Standard true) force (negb keep) dt rows Hfr Hpos Hd empty Hm0 Hem (d_offset parallel) cols cols 0 im empty (mkATM [[empty]] None 0 0) Hs Hr ltac:(lia)) as C.
  fold r in C. rewrite negb_involutive in C. specialize (C ltac:(split; [cbn; rewrite Hem; reflexivity|split; [exact Hk0|discriminate]]) eq_refl).
  destruct (columns_past _ keep empty empty (d_offset parallel) (map (column_of im) (seq 0 cols))) as [outs|e].
  - destruct C as (im' & a' & C1 & C2 & C3 & C4 & _). rewrite C1. cbn [bind]. exists im'.
    split; [|split; [exact C2|split; [exact C3|exact C4]]]. unfold unpad. rewrite Nat.sub_0_r, firstn_all. reflexivity.
  - rewrite C. reflexivity.
Qed.
