(** * Columns are clocked independently, for every kind of number, trap and setting. *)
From Coq Require Import ZArith List Bool Lia.
From Verif Require Import Num Py CCDModel TrapsModel ManagerModel ROEModel ClockModel SpecImage ClockFacts ShapeFacts.
Import ListNotations.

Lemma Forall2_upd {A B} (R : A -> B -> Prop) l l' i a b : Forall2 R l l' -> nth_error l i = Some a -> R a b ->
  Forall2 R l (upd l' i b).
Proof.
  intros H. revert i. induction H as [|x y l l' Hxy H IH]; intros [|i] Hi HR; cbn in *; try discriminate.
  - injection Hi as ->. constructor; auto.
  - constructor; auto.
Qed.
Lemma Forall2_nth_r {A B} (R : A -> B -> Prop) l l' i b : Forall2 R l l' -> nth_error l' i = Some b ->
  exists a, nth_error l i = Some a /\ R a b.
Proof.
  intros H. revert i. induction H as [|x y l l' Hxy H IH]; intros [|i] Hi; cbn in *; try discriminate.
  - injection Hi as ->. eauto.
  - apply IH, Hi.
Qed.
Lemma Forall2_diag {A} (R : A -> A -> Prop) l : Forall (fun x => R x x) l -> Forall2 R l l.
Proof. induction 1; constructor; auto. Qed.

Section Columns.
Context {F : Type} {num : Num F}.
Implicit Types (im : image F) (r : roe F) (col : list F) (a : all_managers F) (d : list (list (manager F))).

(** The managers [d] differ from [d0] only in the contents of their arrays. *)
Definition dkeeps d0 d : Prop := Forall2 (Forall2 keeps) d0 d.
Definition emptied d : list (list (manager F)) := map (map empty_all_traps) d.

Lemma emptied_keeps d0 d : Forall (Forall mshape) d0 -> dkeeps d0 d -> emptied d = emptied d0.
Proof.
  intros Hs H. unfold emptied. induction H as [|x y d0 d Hxy H IH]; [reflexivity|]. inversion Hs as [|? ? Hx Hd]; subst.
  cbn [map]. rewrite IH by exact Hd. f_equal. clear - Hx Hxy. induction Hxy as [|m m' x y Hm H IH]; [reflexivity|].
  inversion Hx; subst. cbn [map]. rewrite IH by assumption. f_equal. apply keeps_empty; assumption.
Qed.
Lemma keeps_emptied m m' : mshape m -> keeps m m' -> keeps m (empty_all_traps m').
Proof.
  intros Hm H. rewrite (keeps_empty m m' Hm H). pose proof (empty_eq m Hm) as E. split; [rewrite E; reflexivity|]. split; [rewrite E; reflexivity|].
  pose proof (empty_shape m Hm) as Hs. unfold mshape in Hs. rewrite E in Hs |- *. cbn [m_traps m_wm] in *. rewrite repeat_length in Hs. exact Hs.
Qed.
Lemma dkeeps_emptied d0 d : Forall (Forall mshape) d0 -> dkeeps d0 d -> dkeeps d0 (emptied d).
Proof.
  intros Hs H. unfold emptied. induction H as [|x y d0 d Hxy H IH]; [constructor|]. inversion Hs as [|? ? Hx Hd]; subst.
  cbn [map]. constructor; [|apply IH, Hd]. clear - Hx Hxy. induction Hxy as [|m m' x y Hm H IH]; [constructor|].
  inversion Hx; subst. cbn [map]. constructor; [apply keeps_emptied; assumption|apply IH; assumption].
Qed.
Lemma dkeeps_refl d : Forall (Forall mshape) d -> dkeeps d d.
Proof.
  intros H. apply Forall2_diag. eapply Forall_impl; [|exact H]. intros g Hg. apply Forall2_diag.
  eapply Forall_impl; [|exact Hg]. intros m. apply keeps_refl.
Qed.

Lemma step_groups_keeps g0 g n_free fill dwell acc t g' : Forall2 keeps g0 g ->
  step_groups g n_free fill dwell acc = Ok (t, g') -> Forall2 keeps g0 g'.
Proof.
  intros H. revert acc t g'. induction H as [|m m' g0 g Hm H IH]; intros acc t g' E; cbn [step_groups] in E.
  - injection E as _ <-. constructor.
  - apply bind_ok in E as ([net m1] & E1 & E). apply bind_ok in E as ([tot ms] & E2 & E). injection E as _ <-.
    constructor; [|eapply IH; exact E2]. eapply keeps_trans; [exact Hm|]. eapply manager_step_shape; [|exact E1].
    eapply keeps_shape; exact Hm.
Qed.
Lemma clock_one_phase_keeps c dwell rps row mult d0 col d phase col' d' : dkeeps d0 d ->
  clock_one_phase c dwell rps row mult (col, d) phase = Ok (col', d') -> dkeeps d0 d'.
Proof.
  intros H E. unfold clock_one_phase in E. apply bind_ok in E as (rp & _ & E). apply bind_ok in E as (ch & _ & E).
  apply bind_ok in E as (g & Eg & E). apply bind_ok in E as ([net g'] & Es & E).
  destruct (nth_error d phase) as [g1|] eqn:En; [|discriminate]. injection Eg as ->.
  destruct (Forall2_nth_r _ _ _ _ _ H En) as (g0 & E0 & Hg).
  assert (HU : dkeeps d0 (upd d phase g')) by (eapply Forall2_upd; [exact H|exact E0|eapply step_groups_keeps; eauto]).
  destruct (mult =? n0)%num; [injection E as _ <-; exact HU|].
  apply bind_ok in E as (col1 & _ & E). injection E as _ <-. exact HU.
Qed.
Lemma clock_one_row_keeps c r row mult d0 st st' : dkeeps d0 (snd st) ->
  clock_one_row c r row mult st = Ok st' -> dkeeps d0 (snd st').
Proof.
  unfold clock_one_row. apply (foldM_inv (fun s => dkeeps d0 (snd s))).
  intros s [step dwell] s' _ Hs E. revert s s' Hs E. apply (foldM_inv (fun s => dkeeps d0 (snd s))).
  intros s phase s' _ Hs E. apply bind_ok in E as (rps & _ & E). destruct s as [col d], s' as [col' d'].
  eapply clock_one_phase_keeps; eauto.
Qed.

(** What [restore] would bring back. *)
Definition restored a : list (list (manager F)) :=
  match atm_saved a with None => emptied (atm_data a) | Some d => d end.
Definition aok d0 a : Prop := dkeeps d0 (atm_data a) /\ (forall d, atm_saved a = Some d -> dkeeps d0 d).
Lemma restored_keeps d0 a : Forall (Forall mshape) d0 -> aok d0 a -> dkeeps d0 (restored a).
Proof. intros Hs [H1 H2]. unfold restored. destruct (atm_saved a) as [d|]; [apply H2; reflexivity|apply dkeeps_emptied; assumption]. Qed.
Lemma restore_data a : atm_data (atm_restore a) = restored a.
Proof. unfold atm_restore, restored. destruct (atm_saved a); reflexivity. Qed.
Lemma emptied_twice d : emptied (emptied d) = emptied d.
Proof.
  unfold emptied. rewrite map_map. apply map_ext. intros g. rewrite map_map. apply map_ext. intros m. apply empty_twice.
Qed.
Lemma restore_restored a : restored (atm_restore a) = restored a.
Proof.
  unfold atm_restore, restored. destruct (atm_saved a); [reflexivity|]. apply emptied_twice.
Qed.
Lemma restore_ok d0 a : Forall (Forall mshape) d0 -> aok d0 a -> aok d0 (atm_restore a).
Proof.
  intros Hs Ha. pose proof (restored_keeps d0 a Hs Ha) as HR. destruct Ha as [H1 H2]. split; [rewrite restore_data; exact HR|].
  unfold atm_restore. destruct (atm_saved a) as [d|] eqn:E; cbn; [|discriminate]. intros d' Hd. injection Hd as <-. auto.
Qed.

(** States that behave alike within a pass, and between passes. *)
Definition alike d0 (s t : list F * all_managers F) : Prop :=
  fst s = fst t /\ aok d0 (snd s) /\ aok d0 (snd t) /\ restored (snd s) = restored (snd t).
Definition alike_data d0 (s t : list F * all_managers F) : Prop :=
  alike d0 s t /\ atm_data (snd s) = atm_data (snd t).

Lemma clock_cell_alike c r window d0 s t cell s' : Forall (Forall mshape) d0 -> alike_data d0 s t ->
  clock_cell c r window s cell = Ok s' -> exists t', clock_cell c r window t cell = Ok t' /\ alike_data d0 s' t'.
Proof.
  intros Hs Hst E. pose proof Hst as ((Hc & [A1 A2] & [B1 B2] & HR) & Hd). destruct s as [col a], t as [col2 b], cell as [ri [[mult mo] sv]].
  cbn [fst snd] in *. subst col2. unfold clock_cell in *. destruct mo; cbn [negb] in *.
  2: { injection E as <-. exists (col, b). auto. }
  apply bind_ok in E as ([col' d'] & E & E2). injection E2 as <-.
  exists (col', if sv then atm_save (with_data b d') else with_data b d').
  assert (Hk : dkeeps d0 d').
  { destruct (nth_error window ri).
    - apply (clock_one_row_keeps _ _ _ _ d0) in E; [exact E|exact A1].
    - destruct (steps_with_dwell r); [injection E as _ <-; exact A1|]. destruct (phases_with_traps c); [injection E as _ <-; exact A1|discriminate]. }
  split.
  - rewrite <- Hd, E. reflexivity.
  - destruct sv.
    + split; [split; [reflexivity|]|reflexivity]. cbn [snd]. split; [|split; [|reflexivity]].
      * split; [exact Hk|]. cbn. intros d1 H1. injection H1 as <-. exact Hk.
      * split; [exact Hk|]. cbn. intros d1 H1. injection H1 as <-. exact Hk.
    + split; [split; [reflexivity|]|reflexivity]. cbn [snd]. split; [split; [exact Hk|exact A2]|]. split; [split; [exact Hk|exact B2]|].
      unfold restored, with_data in *. cbn. destruct (atm_saved a) as [da|] eqn:Ea, (atm_saved b) as [db|] eqn:Eb.
      * exact HR.
      * rewrite HR. change (map (map empty_all_traps) d') with (emptied d'). rewrite (emptied_keeps d0 d') by assumption. apply emptied_keeps; assumption.
      * rewrite <- HR. change (map (map empty_all_traps) d') with (emptied d'). rewrite (emptied_keeps d0 d') by assumption. symmetry. apply emptied_keeps; assumption.
      * reflexivity.
Qed.
Lemma clock_column_alike c r window passes d0 s t s' : Forall (Forall mshape) d0 -> alike d0 s t ->
  clock_column c r window passes s = Ok s' -> exists t', clock_column c r window passes t = Ok t' /\ alike d0 s' t'.
Proof.
  intros Hs. unfold clock_column. apply (foldM_rel (alike d0)). clear s t s'. intros s t cells s' _ H E.
  destruct (foldM_rel (alike_data d0) (clock_cell c r window) (clock_cell c r window) (combine (seq 0 (length cells)) cells)
    (fun s t x s' _ => clock_cell_alike c r window d0 s t x s' Hs) (fst s, atm_restore (snd s)) (fst t, atm_restore (snd t)) s') as (t' & Et & Ht).
  - destruct H as (Hc & Ha & Hb & HR). split; [split; [exact Hc|]|].
    + cbn [snd]. split; [apply restore_ok; assumption|]. split; [apply restore_ok; assumption|]. rewrite !restore_restored. exact HR.
    + cbn [snd]. rewrite !restore_data. exact HR.
  - exact E.
  - exists t'. split; [exact Et|apply Ht].
Qed.
Lemma alike_refl d0 col a : aok d0 a -> alike d0 (col, a) (col, a).
Proof. intros H. split; [reflexivity|]. auto. Qed.

(** Ready for a new column. *)
Definition fresh d0 a : Prop := aok d0 a /\ restored a = emptied d0.
Lemma fresh_end d0 r a : Forall (Forall mshape) d0 -> roe_empty_between r = true -> aok d0 a -> fresh d0 (end_of_column r a).
Proof.
  intros Hs He [H1 H2]. unfold end_of_column. rewrite He. assert (HK : dkeeps d0 (emptied (atm_data a))) by (apply dkeeps_emptied; assumption).
  split; [split|].
  - exact HK.
  - cbn. intros d Hd. injection Hd as <-. exact HK.
  - cbn. apply emptied_keeps; assumption.
Qed.
Lemma fresh_alike d0 a b col : fresh d0 a -> fresh d0 b -> alike d0 (col, a) (col, b).
Proof. intros [A1 A2] [B1 B2]. split; [reflexivity|]. cbn [snd]. rewrite A2, B2. auto. Qed.

Lemma clock_columns_each c r window passes d0 rows cols columns im a im' a' :
  Forall (Forall mshape) d0 -> roe_empty_between r = true -> shape rows cols im -> (0 < rows)%nat -> fresh d0 a -> NoDup columns ->
  clock_columns c r window columns passes (im, a) = Ok (im', a') ->
  forall j b, In (Z.of_nat j) columns -> fresh d0 b -> (j < cols)%nat /\
    exists b', clock_column c r window passes (column_of im j, b) = Ok (column_of im' j, b').
Proof.
  intros Hs He Hsh Hr Hf Hnd E j b Hj Hb. revert im a Hsh Hf E. induction columns as [|j0 columns IH]; intros im a Hsh Hf E; [destruct Hj|].
  inversion Hnd as [|? ? Hn0 Hnd']; subst. unfold clock_columns in E. cbn [foldM] in E. apply bind_ok in E as ([im1 a1] & E1 & E).
  unfold clock_one_column in E1. destruct (_ && _)%bool eqn:Eb; [|discriminate].
  apply andb_prop in Eb as [Eb1 Eb2]. apply Z.leb_le in Eb1. apply Z.ltb_lt in Eb2.
  rewrite (shape_n_columns rows cols im Hsh Hr) in Eb2.
  apply bind_ok in E1 as ([col a2] & E1 & E2). injection E2 as <- <-.
  rewrite get_column_of in E1. pose proof (co_length _ _ _ _ (clock_column_ok _ _ _ _ _ _ E1)) as Hl. cbn [fst] in Hl.
  rewrite column_length in Hl. assert (Hl' : length col = rows) by (destruct Hsh; congruence).
  destruct (clock_column_alike c r window passes d0 _ (column_of im (Z.to_nat j0), b) _ Hs (fresh_alike d0 a b _ Hf Hb) E1) as ([colb b'] & Et & Ht).
  destruct Ht as (Hc & Ha2 & _ & _). cbn [fst snd] in Hc, Ha2. subst colb.
  pose proof (set_column_shape rows cols im (Z.to_nat j0) col Hsh Hl') as Hsh1.
  destruct Hj as [->|Hj].
  - split; [lia|]. rewrite Nat2Z.id in *. exists b'. rewrite Et. repeat f_equal.
    pose proof (clock_columns_ok _ _ _ _ _ _ _ _ _ _ _ Hsh1 Hr E) as Hio.
    rewrite <- (set_column_same rows cols im j col Hsh Hl') by lia.
    apply nth_ext with (d := n0) (d' := n0).
    + rewrite !column_length. destruct Hsh1 as [H1 _]. destruct (io_shape _ _ _ _ _ _ _ Hio) as [H2 _]. congruence.
    + intros i _. rewrite !column_nth. symmetry. apply (io_columns _ _ _ _ _ _ _ Hio). exact Hn0.
  - destruct (Nat.eq_dec (Z.to_nat j0) j) as [Ee|Ne].
    + exfalso. apply Hn0. rewrite <- Ee in Hj. rewrite Z2Nat.id in Hj by lia. exact Hj.
    + destruct (IH Hnd' Hj _ _ Hsh1 (fresh_end d0 r a2 Hs He Ha2) E) as (Hjc & b2 & Eb2').
      split; [exact Hjc|]. exists b2. rewrite (set_column_other rows cols) in Eb2'; auto.
Qed.
(** The other direction: if every column can be clocked, so can the image. *)
Lemma clock_columns_all c r window passes d0 rows cols columns im a :
  Forall (Forall mshape) d0 -> roe_empty_between r = true -> shape rows cols im -> (0 < rows)%nat -> fresh d0 a -> NoDup columns ->
  (forall j, In j columns -> (0 <= j < Z.of_nat cols)%Z /\ exists b s', fresh d0 b /\
     clock_column c r window passes (column_of im (Z.to_nat j), b) = Ok s') ->
  exists s', clock_columns c r window columns passes (im, a) = Ok s'.
Proof.
  intros Hs He Hsh Hr Hf Hnd HA. revert im a Hsh Hf HA. induction columns as [|j0 columns IH]; intros im a Hsh Hf HA; [eexists; reflexivity|].
  inversion Hnd as [|? ? Hn0 Hnd']; subst. unfold clock_columns. cbn [foldM]. unfold clock_one_column at 1.
  destruct (HA j0 (or_introl eq_refl)) as (Hj0 & b & s' & Hb & Es).
  rewrite (shape_n_columns rows cols im Hsh Hr).
  replace ((0 <=? j0) && (j0 <? Z.of_nat cols))%Z with true by (symmetry; apply andb_true_intro; split; [apply Z.leb_le|apply Z.ltb_lt]; lia).
  destruct (clock_column_alike c r window passes d0 _ (column_of im (Z.to_nat j0), a) _ Hs (fresh_alike d0 b a _ Hb Hf) Es) as ([col a2] & Et & Ht).
  rewrite get_column_of, Et. cbn [bind].
  pose proof (co_length _ _ _ _ (clock_column_ok _ _ _ _ _ _ Et)) as Hl. cbn [fst] in Hl. rewrite column_length in Hl.
  assert (Hl' : length col = rows) by (destruct Hsh; congruence).
  apply IH; [exact Hnd'|apply set_column_shape; assumption|apply fresh_end; [assumption|assumption|apply Ht]|].
  intros j Hj. destruct (HA j (or_intror Hj)) as (Hj' & b2 & s2 & Hb2 & Es2). split; [exact Hj'|]. exists b2, s2. split; [exact Hb2|].
  rewrite (set_column_other rows cols); auto; [lia|]. intros Ee. apply Hn0. assert (j0 = j) by lia. subst. exact Hj.
Qed.

(** ** One-column images *)
Lemma one_column_shape col : shape (length col) 1 (one_column col).
Proof. unfold one_column. split; [apply map_length|]. apply Forall_forall. intros x Hx. apply in_map_iff in Hx as (y & <- & _). reflexivity. Qed.
Lemma column_one col : column_of (one_column col) 0 = col.
Proof. unfold column_of, one_column. rewrite map_map. cbn. apply map_id. Qed.
Lemma pad_column rows cols im n j : shape rows cols im -> (0 < rows)%nat -> (j < cols)%nat ->
  column_of (pad im n) j = column_of im j ++ repeat n0 n.
Proof.
  intros Hs Hr Hj. unfold pad, column_of. rewrite map_app. f_equal. rewrite (shape_n_columns rows cols im Hs Hr).
  induction n as [|n IH]; [reflexivity|]. cbn [repeat map]. rewrite IH. f_equal. apply nth_repeat_d. exact Hj.
Qed.
Lemma pad_one col n : (0 < length col)%nat -> pad (one_column col) n = one_column (col ++ repeat n0 n).
Proof.
  intros H. unfold pad, one_column. rewrite map_app. f_equal. destruct col; [cbn in H; lia|]. cbn [map n_columns length].
  induction n as [|n IH]; [reflexivity|]. cbn [repeat map] in *. rewrite IH. reflexivity.
Qed.
Lemma set_column_one col col' : length col' = length col -> set_column (one_column col) 0 col' = one_column col'.
Proof.
  unfold set_column, one_column. revert col'. induction col as [|x l IH]; intros [|y l'] H; cbn in *; try discriminate; [reflexivity|].
  f_equal. apply IH. lia.
Qed.
Lemma unpad_column im n j : column_of (unpad im n) j = firstn (length im - n) (column_of im j).
Proof. unfold unpad, column_of. rewrite firstn_map. reflexivity. Qed.
Lemma unpad_one col n : unpad (one_column col) n = one_column (firstn (length col - n) col).
Proof. unfold unpad, one_column. rewrite map_length, firstn_map. reflexivity. Qed.

Lemma atm_init_fresh traps N c a : atm_init traps N c = Ok a -> Forall (Forall mshape) (atm_data a) /\ fresh (atm_data a) a.
Proof.
  intros E. unfold atm_init in E. apply bind_ok in E as (groups & Eg & E). apply bind_ok in E as (d & Ed & E). injection E as <-. cbn [atm_data].
  assert (Hs : Forall (Forall mshape) d).
  { eapply mapM_Forall; [exact Ed|]. intros phase g _ E. eapply mapM_Forall; [exact E|]. intros gr m _ Em.
    apply bind_ok in Em as (k & _ & Em). apply bind_ok in Em as (fr & _ & Em). injection Em as <-.
    unfold mshape. cbn [m_traps m_wm manager_init]. rewrite map_length. split; [reflexivity|]. apply Forall_forall. intros x Hx.
    assert (Ex : x = zero_row (length gr)) by (destruct Hx as [<-|Hx]; [reflexivity|apply repeat_spec in Hx; exact Hx]).
    rewrite Ex. cbn. apply repeat_length. }
  split; [exact Hs|]. split; [split; [apply dkeeps_refl, Hs|cbn; discriminate]|reflexivity].
Qed.

(** C40. *)
Lemma columns_independent im c r traps express offset window columns tw im' r' rows cols :
  shape rows cols im -> (0 < rows)%nat -> roe_empty_between r = true -> NoDup columns ->
  clock_charge_in_one_direction im c r traps express offset window columns tw = Ok (im', r') ->
  forall j, In (Z.of_nat j) columns ->
  clock_charge_in_one_direction (one_column (column_of im j)) c r traps express offset window [0%Z] tw =
    Ok (one_column (column_of im' j), r').
Proof.
  intros Hsh Hr He Hnd E j Hj. unfold clock_charge_in_one_direction in *.
  apply bind_ok in E as ([[r1 em] mon] & E1 & E). rewrite E1. cbn [bind].
  apply bind_ok in E as (sav & E2 & E). rewrite E2. cbn [bind]. apply bind_ok in E as (a & E3 & E). rewrite E3. cbn [bind].
  apply bind_ok in E as (n & E4 & E). rewrite E4. cbn [bind]. apply bind_ok in E as ([im1 a1] & E5 & E). injection E as <- <-.
  set (passes := map _ _) in *. destruct (atm_init_fresh _ _ _ _ E3) as [Hs Hf].
  destruct (express_same_clock _ _ _ _ _ _ _ _ E1) as (_ & _ & _ & Heb). rewrite He in Heb.
  pose proof (pad_shape rows cols im n Hsh Hr) as Hps.
  destruct (clock_columns_each _ _ _ _ _ _ _ _ _ _ _ _ Hs Heb Hps ltac:(lia) Hf Hnd E5 j a Hj Hf) as (Hjc & b' & Ec).
  assert (Hlc : length (column_of im j) = rows) by (rewrite column_length; apply Hsh).
  pose proof (clock_columns_ok _ _ _ _ _ _ _ _ _ _ _ Hps ltac:(lia) E5) as Hio.
  destruct (io_shape _ _ _ _ _ _ _ Hio) as [Hl1 _].
  rewrite pad_one by lia. unfold clock_columns. cbn [foldM]. unfold clock_one_column.
  rewrite (shape_n_columns _ _ _ (one_column_shape _)) by (rewrite app_length; lia). cbn [Z.leb Z.ltb Z.compare andb Z.of_nat].
  change (Z.to_nat 0) with 0%nat.
  rewrite get_column_of, column_one, <- (pad_column rows cols im n j Hsh Hr Hjc), Ec. cbn [bind].
  rewrite set_column_one, unpad_one, unpad_column by (rewrite !column_length, Hl1; destruct Hps; congruence).
  rewrite column_length. reflexivity.
Qed.
Lemma columns_suffice im c r traps express offset window columns tw rows cols :
  shape rows cols im -> (0 < rows)%nat -> roe_empty_between r = true -> NoDup columns -> columns <> [] ->
  (forall j, In j columns -> (0 <= j < Z.of_nat cols)%Z /\ exists res,
     clock_charge_in_one_direction (one_column (column_of im (Z.to_nat j))) c r traps express offset window [0%Z] tw = Ok res) ->
  exists res, clock_charge_in_one_direction im c r traps express offset window columns tw = Ok res.
Proof.
  intros Hsh Hr He Hnd Hne HA. unfold clock_charge_in_one_direction in *.
  assert (Hex : exists r1 em mon sav a n, express_and_monitor r window express offset tw = Ok (r1, em, mon) /\
    save_matrix r1 em = Ok sav /\ atm_init traps (max_n_transfers r1 (length em) match em with [] => 0%nat | row :: _ => length row end) c = Ok a /\
    n_padding r1 = Ok n).
  { destruct columns as [|j0 l]; [congruence|]. destruct (HA j0 (or_introl eq_refl)) as (_ & res & E).
    apply bind_ok in E as ([[r1 em] mon] & E1 & E). apply bind_ok in E as (sav & E2 & E). apply bind_ok in E as (a & E3 & E).
    apply bind_ok in E as (n & E4 & E). exists r1, em, mon, sav, a, n. auto. }
  destruct Hex as (r1 & em & mon & sav & a & n & E1 & E2 & E3 & E4). rewrite E1. cbn [bind]. rewrite E2. cbn [bind]. rewrite E3. cbn [bind]. rewrite E4. cbn [bind].
  set (passes := map _ _) in *. destruct (atm_init_fresh _ _ _ _ E3) as [Hs Hf].
  destruct (express_same_clock _ _ _ _ _ _ _ _ E1) as (_ & _ & _ & Heb). rewrite He in Heb.
  pose proof (pad_shape rows cols im n Hsh Hr) as Hps.
  destruct (clock_columns_all c r1 window passes (atm_data a) (rows + n) cols columns (pad im n) a Hs Heb Hps ltac:(lia) Hf Hnd) as ([im1 a1] & E5).
  - intros j Hj. destruct (HA j Hj) as (Hjc & res & E). split; [exact Hjc|].
    rewrite E1 in E. cbn [bind] in E. rewrite E2 in E. cbn [bind] in E. rewrite E3 in E. cbn [bind] in E. rewrite E4 in E. cbn [bind] in E.
    fold passes in E. apply bind_ok in E as ([imj aj] & E & _). 
    assert (Hlc : length (column_of im (Z.to_nat j)) = rows) by (rewrite column_length; apply Hsh).
    rewrite pad_one in E by lia. unfold clock_columns in E. cbn [foldM] in E. apply bind_ok in E as (s1 & E & _). unfold clock_one_column in E.
    rewrite (shape_n_columns _ _ _ (one_column_shape _)) in E by (rewrite app_length; lia). cbn [Z.leb Z.ltb Z.compare andb Z.of_nat] in E.
    change (Z.to_nat 0) with 0%nat in E. rewrite get_column_of, column_one, <- (pad_column rows cols im n (Z.to_nat j) Hsh Hr) in E by lia.
    apply bind_ok in E as (s2 & E & _). exists a, s2. split; [exact Hf|exact E].
  - rewrite E5. eexists. reflexivity.
Qed.
End Columns.
