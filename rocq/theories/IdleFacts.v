(** * Readouts in which nothing happens: no time passes, or no phase has traps. *)
From Coq Require Import ZArith List Bool Lia.
From Verif Require Import Num Py CCDModel TrapsModel ManagerModel ROEModel ClockModel MainModel SpecImage SpecIdle ClockFacts MainFacts.
Import ListNotations.
Open Scope num_scope.

Section Idle.
Context {F : Type} {num : Num F}.

Lemma filter_none l : never_positive l -> forall s, filter (fun '(_, x) => n0 <? x) (combine (seq s (length l)) l) = [].
Proof. induction 1 as [|x l Hx _ IH]; intros s; [reflexivity|]. cbn [length seq combine filter]. rewrite Hx. apply IH. Qed.
Lemma idle_row c r row mult st : never_positive (ccd_fractions c) \/ never_positive (roe_dwell_times r) -> clock_one_row c r row mult st = Ok st.
Proof.
  intros [H|H]; unfold clock_one_row.
  - unfold phases_with_traps. rewrite (filter_none _ H). cbn [map foldM]. induction (steps_with_dwell r) as [|[s d] l IH]; [reflexivity|exact IH].
  - unfold steps_with_dwell. rewrite (filter_none _ H). reflexivity.
Qed.
Section Loops.
Context (c : ccd F) (r : roe F) (window : list Z).
Hypothesis H : never_positive (ccd_fractions c) \/ never_positive (roe_dwell_times r).
Lemma idle_cell st cell : exists a', clock_cell c r window st cell = Ok (fst st, a').
Proof.
  destruct st as [column a], cell as [i [[mult monitor] save]]. cbn [fst]. unfold clock_cell. destruct monitor; cbn [negb]; [|eauto].
  destruct (nth_error window i) as [row|].
  - rewrite idle_row by exact H. cbn [bind]. eauto.
  - destruct (steps_with_dwell r) eqn:E1, (phases_with_traps c) eqn:E2; cbn [bind]; eauto. exfalso.
    destruct H as [K|K]; [unfold phases_with_traps in E2|unfold steps_with_dwell in E1]; rewrite (filter_none _ K) in *; discriminate.
Qed.
Lemma idle_pass cells : forall st, exists a', clock_pass_rows c r window cells st = Ok (fst st, a').
Proof.
  unfold clock_pass_rows. induction (combine (seq 0 (length cells)) cells) as [|x l IH]; intros [column a]; cbn [foldM fst]; [eauto|].
  destruct (idle_cell (column, a) x) as (a1 & ->). cbn [bind fst]. apply (IH (column, a1)).
Qed.
Lemma idle_column passes : forall st, exists a', clock_column c r window passes st = Ok (fst st, a').
Proof.
  unfold clock_column. induction passes as [|p l IH]; intros [column a]; cbn [foldM fst snd]; [eauto|].
  destruct (idle_pass p (column, atm_restore a)) as (a1 & ->). cbn [bind fst]. apply (IH (column, a1)).
Qed.
Lemma set_same rows cols (im : image F) j : shape rows cols im -> set_column im j (get_column im j) = im.
Proof.
  intros [_ Hs]. unfold set_column, get_column. clear rows. induction Hs as [|row im _ _ IH]; [reflexivity|]. cbn [map combine]. rewrite IH. f_equal.
  clear. revert j. induction row as [|x row IH]; intros [|j]; try reflexivity. cbn [upd nth]. rewrite IH. reflexivity.
Qed.
Lemma idle_columns columns passes rows cols : forall (im : image F) a, shape rows cols im -> (0 < rows)%nat ->
  (forall j, In j columns -> 0 <= j < Z.of_nat cols)%Z ->
  exists a', clock_columns c r window columns passes (im, a) = Ok (im, a').
Proof.
  unfold clock_columns. induction columns as [|j columns IH]; intros im a Hs Hr Hj; cbn [foldM]; [eauto|].
  unfold clock_one_column at 1. rewrite (shape_n_columns rows cols im Hs Hr).
  replace ((0 <=? j) && (j <? Z.of_nat cols))%Z with true by (symmetry; apply andb_true_intro; specialize (Hj j (or_introl eq_refl)); split; [apply Z.leb_le|apply Z.ltb_lt]; lia).
  destruct (idle_column passes (get_column im (Z.to_nat j), a)) as (a1 & ->). cbn [bind fst]. rewrite (set_same rows cols) by exact Hs.
  apply IH; auto. intros q Hq. apply Hj. right. exact Hq.
Qed.
Lemma idle_columns_ok columns passes rows cols : forall (im im' : image F) a a', shape rows cols im -> (0 < rows)%nat ->
  clock_columns c r window columns passes (im, a) = Ok (im', a') -> im' = im.
Proof.
  unfold clock_columns. induction columns as [|j columns IH]; intros im im' a a' Hs Hr E; cbn [foldM] in E; [injection E as <- _; reflexivity|].
  unfold clock_one_column at 1 in E. destruct (idle_column passes (get_column im (Z.to_nat j), a)) as (a1 & E1). rewrite E1 in E. cbn [bind fst] in E.
  rewrite (set_same rows cols) in E by exact Hs. destruct (_ && _)%Z; cbn [bind] in E; [|discriminate]. eapply IH; eauto.
Qed.
End Loops.

Lemma same_dwell r w e o tw r' em mon : express_and_monitor (F := F) r w e o tw = Ok (r', em, mon) -> roe_dwell_times r' = roe_dwell_times r.
Proof.
  unfold express_and_monitor. destruct (roe_kind_of r); intros E; apply bind_ok in E as (x & _ & E); [destruct x as [? ?]|destruct x as [[? ?] ?]|destruct x as [? ?]];
    injection E as <- _ _; reflexivity.
Qed.
Lemma unpad_pad_same (im : image F) k : unpad (pad im k) k = im.
Proof. unfold unpad, pad. rewrite app_length, repeat_length. replace (length im + k - k)%nat with (length im) by lia. rewrite firstn_app, Nat.sub_diag, firstn_all. cbn. apply app_nil_r. Qed.
Lemma idle_direction (im im' : image F) d traps wr wc tw r' rows cols : shape rows cols im -> (0 < rows)%nat -> idle d ->
  clock_direction im d (the_roe d) traps wr wc tw = Ok (im', r') -> im' = im.
Proof.
  intros Hs Hr Hi E. unfold clock_direction in E. destruct (d_ccd d) as [c|] eqn:Ec.
  - unfold clock_charge_in_one_direction in E.
    apply bind_ok in E as ([[r1 em] mon] & E1 & E). apply bind_ok in E as (sav & E2 & E). apply bind_ok in E as (a & E3 & E). apply bind_ok in E as (n & E4 & E).
    apply bind_ok in E as ([im2 a2] & E5 & E). injection E as <- _.
    assert (Hi' : never_positive (ccd_fractions c) \/ never_positive (roe_dwell_times r1)).
    { destruct Hi as [K|K]; [left; apply K; exact Ec|right; rewrite (same_dwell _ _ _ _ _ _ _ _ E1); exact K]. }
    pose proof (idle_columns_ok c r1 wr Hi' _ _ (rows + n) cols _ _ _ _ (pad_shape rows cols im n Hs Hr) ltac:(lia) E5) as ->. apply unpad_pad_same.
  - apply bind_ok in E as ([[r1 em] mon] & E1 & E). apply bind_ok in E as (sav & E2 & E). discriminate.
Qed.
Lemma idle_unchanged (im : image F) parallel serial tw im' pr sr rows cols :
  shape rows cols im -> (0 < rows)%nat -> (0 < cols)%nat -> idle parallel -> idle serial ->
  add_cti im parallel serial tw = Ok (im', pr, sr) -> im' = im.
Proof.
  intros Hs Hr Hc Hp Hq E. unfold add_cti in E. apply bind_ok in E as ([w cs] & _ & E). apply bind_ok in E as ([im1 r1] & E1 & E). apply bind_ok in E as ([im2 r2] & E2 & E).
  injection E as <- _ _.
  assert (H1 : im1 = im).
  { destruct (d_traps parallel); [exact (idle_direction _ _ _ _ _ _ _ _ rows cols Hs Hr Hp E1)|injection E1 as <- _; reflexivity]. }
  subst im1. destruct (d_traps serial) as [t|]; [|injection E2 as <- _; reflexivity].
  apply bind_ok in E2 as ([im3 r3] & E3 & E2). injection E2 as <- _.
  rewrite (idle_direction _ _ _ _ _ _ _ _ cols rows (transpose_shape rows cols im Hs Hr) Hc Hq E3). apply (transpose_twice rows cols im Hs Hr Hc).
Qed.
End Idle.
