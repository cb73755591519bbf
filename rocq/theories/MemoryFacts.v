(** * The compiled loops stay inside their arrays, for every kind of number. *)
From Coq Require Import ZArith List Bool Reals Lia.
From Verif Require Import Num Py CCDModel TrapsModel ManagerModel ROEModel ClockModel MainModel SpecImage SpecROE SpecMemory ClockFacts MainFacts ShapeFacts ROEClockFacts.
Import ListNotations.

Definition safe {A} (x : result A) : Prop := x <> Err OutOfBounds.
Lemma safe_ok {A} (a : A) : safe (Ok a).
Proof. discriminate. Qed.
Lemma safe_bind {A B} (x : result A) (k : A -> result B) : safe x -> (forall a, x = Ok a -> safe (k a)) -> safe (bind x k).
Proof. unfold safe. destruct x as [a|e]; cbn; intros H1 H2; [apply H2; reflexivity|congruence]. Qed.
Lemma safe_foldM {A S} (I : S -> Prop) (f : S -> A -> result S) l :
  (forall s a, In a l -> I s -> safe (f s a)) -> (forall s a s', In a l -> I s -> f s a = Ok s' -> I s') ->
  forall s, I s -> safe (foldM f l s).
Proof.
  intros H1 H2. induction l as [|a l IH]; intros s HI; [apply safe_ok|]. cbn [foldM]. apply safe_bind; [apply H1; [left; reflexivity|exact HI]|].
  intros s' E. apply IH; [intros; apply H1; [right|]; assumption|intros s0 a0 s1 Ha; apply H2; right; exact Ha|]. exact (H2 s a s' (or_introl eq_refl) HI E).
Qed.
Lemma safe_mapM {A B} (f : A -> result B) l : (forall a, In a l -> safe (f a)) -> safe (mapM f l).
Proof.
  induction l as [|a l IH]; intros H; [apply safe_ok|]. cbn [mapM]. apply safe_bind; [apply H; left; reflexivity|]. intros b _.
  apply safe_bind; [apply IH; intros; apply H; right; assumption|]. intros; apply safe_ok.
Qed.
Lemma safe_of_option {A} e (o : option A) : e <> OutOfBounds -> safe (of_option e o).
Proof. intros H. destruct o; unfold safe; cbn; congruence. Qed.
Lemma safe_py_index {A} (l : list A) i : safe (py_index l i).
Proof. unfold py_index. destruct (_ && _)%bool; [apply safe_of_option|]; discriminate. Qed.
Lemma safe_cy_index {A} (l : list A) i : (0 <= i < Z.of_nat (length l))%Z -> safe (cy_index l i).
Proof.
  intros H. unfold cy_index. replace ((0 <=? i) && (i <? Z.of_nat (length l)))%Z%bool with true by (symmetry; apply andb_true_intro; split; [apply Z.leb_le|apply Z.ltb_lt]; lia).
  destruct (nth_error l (Z.to_nat i)) eqn:E; [discriminate|]. apply nth_error_None in E. lia.
Qed.

Ltac case_if := match goal with |- safe (if ?b then _ else _) => destruct b end.

Section Memory.
Context {F : Type} {num : Num F}.
Hypothesis positive_not_zero : forall x : F, (n0 <? x)%num = true -> (x =? n0)%num = false.

(** ** One manager *)
Lemma find_true_bound l i : find_true l = Some i -> (i < length l)%nat.
Proof. revert i. induction l as [|[|] l IH]; cbn; intros i H; [discriminate|injection H as <-; lia|]. destruct (find_true l) as [j|]; [|discriminate]. injection H as <-. specialize (IH j eq_refl). lia. Qed.
Lemma max_index_bound (w : list (F * list F)) : (0 <= max_watermark_index w)%Z -> (max_watermark_index w + 1 < Z.of_nat (length w))%Z.
Proof.
  unfold max_watermark_index, first_zero_volume, np_argmax. destruct (find_true _) as [i|] eqn:E; [|lia].
  apply find_true_bound in E. rewrite map_length in E. lia.
Qed.
Lemma max_index_low (w : list (F * list F)) : (-1 <= max_watermark_index w)%Z.
Proof. unfold max_watermark_index. lia. Qed.
Lemma index_loop_low cloud (w : list (F * list F)) i t ix : (0 <= i)%Z -> (0 <= ix)%Z -> (0 <= snd (index_above_loop cloud w i t ix))%Z.
Proof. revert i t ix. induction w as [|r w IH]; intros i t ix Hi Hx; [exact Hx|]. cbn. apply IH; [lia|]. destruct (_ <=? _)%num; lia. Qed.
Lemma index_low cloud (w : list (F * list F)) m : (cloud =? n0)%num = false -> (-1 <= m)%Z -> (0 <= index_above_cloud cloud w m)%Z.
Proof.
  intros H Hm. unfold index_above_cloud. rewrite H. unfold cy_index_above. pose proof (index_loop_low cloud w 0 n0 (Z.of_nat (length w))) as L.
  destruct (index_above_loop cloud w 0 n0 (Z.of_nat (length w))) as [t ix]. cbn [snd] in L. destruct (_ <? _)%num; lia.
Qed.
Lemma update_safe (w : list (F * list F)) cloud index : (0 <= index)%Z -> (index + 1 < Z.of_nat (length w))%Z -> safe (cy_update_volumes w cloud index).
Proof.
  intros H1 H2. unfold cy_update_volumes. replace ((0 <=? index) && (index + 1 <? Z.of_nat (length w)))%Z%bool with true; [discriminate|].
  symmetry. apply andb_true_intro. split; [apply Z.leb_le|apply Z.ltb_lt]; lia.
Qed.
Lemma split_safe (w : list (F * list F)) cloud m :
  ((n0 <? cloud)%num = true -> (index_above_cloud cloud w (max_watermark_index w) <= max_watermark_index w)%Z) ->
  safe (slow_split w w cloud (index_above_cloud cloud w (max_watermark_index w)) m).
Proof.
  intros H. unfold slow_split. destruct (n0 <? cloud)%num eqn:E; [|apply safe_ok]. destruct (negb _); [|apply safe_ok]. cbn [andb].
  specialize (H eq_refl). pose proof (index_low cloud w (max_watermark_index w) (positive_not_zero _ E) (max_index_low w)) as L.
  pose proof (max_index_bound w ltac:(lia)) as B.
  apply safe_bind; [apply update_safe; lia|]. intros w' _. apply safe_bind; [apply update_safe; lia|]. intros; apply safe_ok.
Qed.
Definition prompt (m : manager F) : Prop := m_kind m <> KSlow.
Definition charge_needed (fill : filling F) : Prop := forall n v, fill n = Ok v -> (n0 <? v)%num = true -> (n0 <? n)%num = true.
Lemma not_enough_safe (m : manager F) w wi e : safe (not_enough m w wi e).
Proof. unfold not_enough. destruct (m_kind m); discriminate. Qed.
Lemma collapse_copy_safe v n (w wc : list (F * list F)) : safe (collapse_with_copy v n w wc).
Proof. unfold collapse_with_copy. destruct (Nat.leb _ _); [discriminate|]. unfold zero_over_zero. destruct (_ =? _)%num, nnan; discriminate. Qed.
Lemma captured_safe m n fill : charge_needed fill -> (forall x, safe (fill x)) -> safe (n_electrons_captured m n fill).
Proof.
  intros HC HF. unfold n_electrons_captured. apply safe_bind; [apply HF|]. intros cloud Ec.
  destruct ((max_watermark_index (m_wm m) =? -1)%Z && (n0 <? n)%num)%bool eqn:E1.
  - apply safe_bind; [|intros []; intros; apply safe_ok]. unfold instant_first_capture. cbv zeta. case_if; [apply safe_ok|]. case_if; [|apply safe_ok].
    apply safe_bind; [apply not_enough_safe|]. intros; apply safe_ok.
  - apply safe_bind.
    + destruct (_ || _)%bool eqn:E2.
      * apply safe_bind; [|intros [[]]; intros; apply safe_ok]. apply split_safe. intros Hc. apply orb_true_iff in E2 as [E2|E2]; [apply Z.leb_le, E2|].
        rewrite E2 in E1. cbn [andb] in E1. rewrite (HC _ _ Ec Hc) in E1. discriminate.
      * unfold new_top_watermark. case_if; discriminate.
    + intros [w wi] _. cbv zeta. apply safe_bind; [apply collapse_copy_safe|]. intros [w2 wi2] _. case_if; [apply safe_ok|].
      apply safe_bind; [|intros []; intros; apply safe_ok]. case_if; [|apply safe_ok]. apply safe_bind; [apply not_enough_safe|]. intros; apply safe_ok.
Qed.
Lemma captured_kind m n fill net m' : n_electrons_captured m n fill = Ok (net, m') -> m_kind m' = m_kind m.
Proof.
  unfold n_electrons_captured. intros E. apply bind_ok in E as (cloud & _ & E). destruct (_ && _)%bool.
  - apply bind_ok in E as ([? ?] & _ & E). injection E as _ <-. reflexivity.
  - apply bind_ok in E as ([? ?] & _ & E). apply bind_ok in E as ([? ?] & _ & E). destruct (_ =? _)%num; [injection E as _ <-; reflexivity|].
    apply bind_ok in E as ([? ?] & _ & E). injection E as _ <-. reflexivity.
Qed.
Lemma prompt_step m n fill d : prompt m -> manager_step m n fill d = instant_step m n fill d.
Proof. unfold prompt, manager_step. destruct (m_kind m); congruence. Qed.
Lemma step_safe m n fill d : prompt m -> charge_needed fill -> (forall x, safe (fill x)) -> safe (manager_step m n fill d).
Proof.
  intros HM HC HF. rewrite prompt_step by exact HM. unfold instant_step. destruct (n_electrons_released m d) as [rel m1].
  apply safe_bind; [apply captured_safe; assumption|]. intros []; intros; apply safe_ok.
Qed.
Lemma step_prompt m n fill d net m' : prompt m -> manager_step m n fill d = Ok (net, m') -> prompt m'.
Proof.
  intros HM E. rewrite prompt_step in E by exact HM. unfold instant_step in E. destruct (n_electrons_released m d) as [rel m1] eqn:ER.
  apply bind_ok in E as ([? ?] & E & E'). injection E' as _ <-. apply captured_kind in E. unfold prompt. rewrite E. injection ER as _ <-. exact HM.
Qed.
Lemma groups_safe gs n fill d acc : Forall prompt gs -> charge_needed fill -> (forall x, safe (fill x)) -> safe (step_groups gs n fill d acc).
Proof.
  intros HG HC HF. revert acc. induction HG as [|m gs HM HG IH]; intros acc; [apply safe_ok|]. cbn [step_groups].
  apply safe_bind; [apply step_safe; assumption|]. intros [net m'] _. apply safe_bind; [apply IH|]. intros []; intros; apply safe_ok.
Qed.
Lemma groups_prompt gs n fill d acc t gs' : Forall prompt gs -> step_groups gs n fill d acc = Ok (t, gs') -> Forall prompt gs'.
Proof.
  intros HG. revert acc t gs'. induction HG as [|m gs HM HG IH]; intros acc t gs' E; cbn [step_groups] in E; [injection E as _ <-; constructor|].
  apply bind_ok in E as ([net m'] & E1 & E). apply bind_ok in E as ([t' gs1] & E2 & E). injection E as _ <-. constructor; [exact (step_prompt _ _ _ _ _ _ HM E1)|exact (IH _ _ _ E2)].
Qed.

(** ** The wells *)
Lemma well_safe (c : ccd F) phase n : safe (well_fill c phase false n).
Proof.
  unfold well_fill. destruct (_ =? _)%num; [apply safe_ok|].
  repeat (apply safe_bind; [first [apply safe_of_option; discriminate|apply safe_ok]|intros ? _]). 
  repeat match goal with |- safe (if ?b then _ else _) => destruct b end; try discriminate.
Qed.

(** ** One pixel *)
Definition all_prompt (data : list (list (manager F))) : Prop := Forall (Forall prompt) data.
Definition column_safe (L : nat) (st : list F * list (list (manager F))) : Prop := length (fst st) = L /\ all_prompt (snd st).
Lemma Forall_upd {A} (P : A -> Prop) l i x : Forall P l -> P x -> Forall P (upd l i x).
Proof. intros H Hx. revert i. induction H; intros [|i]; cbn; constructor; auto. Qed.
Lemma write_safe L row net mult t (col : list F) : length col = L -> (0 <= row + fst t < Z.of_nat L)%Z -> safe (write_back col row net mult t).
Proof.
  intros HL Ht. destruct t as [p f]. cbn [fst] in Ht. unfold write_back. apply safe_bind; [apply safe_cy_index; lia|]. intros old _.
  rewrite cy_upd_get by lia. apply safe_ok.
Qed.
Lemma write_length row net mult t (col col' : list F) : write_back col row net mult t = Ok col' -> length col' = length col.
Proof. unfold write_back. destruct t as [p f]. intros E. apply bind_ok in E as (old & _ & E). apply cy_upd_ok in E as [_ ->]. apply upd_len. Qed.
(** The row and the pixels reached from it are inside a column of length [L]. *)
Definition reached_inside (L : nat) (row : Z) (rp : roe_phase F) : Prop :=
  forall d, In d (rp_capture rp :: rp_release rp) -> (0 <= row + d < Z.of_nat L)%Z.
Lemma phase_keeps c d rps row mult L st phase st' : column_safe L st -> clock_one_phase c d rps row mult st phase = Ok st' -> column_safe L st'.
Proof.
  destruct st as [col data]. intros [H1 H2] E. cbn [fst snd] in *. unfold clock_one_phase in E.
  apply bind_ok in E as (rp & _ & E). apply bind_ok in E as (ch & _ & E). apply bind_ok in E as (gs & Eg & E). apply bind_ok in E as ([net gs'] & Es & E).
  assert (HG : Forall prompt gs). { destruct (nth_error data phase) eqn:En; [|discriminate]. injection Eg as <-. exact (proj1 (Forall_forall _ _) H2 _ (nth_error_In _ _ En)). }
  pose proof (Forall_upd _ _ phase _ H2 (groups_prompt _ _ _ _ _ _ _ HG Es)) as HD. destruct (_ =? _)%num; [injection E as <-; split; assumption|].
  apply bind_ok in E as (col' & E & E'). injection E' as <-. split; [|exact HD]. cbn [fst].
  apply (foldM_inv (fun c => length c = L)) in E; [exact E| |exact H1]. intros s a s' _ Hs Ea. rewrite (write_length _ _ _ _ _ _ Ea). exact Hs.
Qed.
Lemma phase_safe c d rps row mult L st phase rp : no_cloud_without_charge c -> column_safe L st -> nth_error rps phase = Some rp -> reached_inside L row rp ->
  safe (clock_one_phase c d rps row mult st phase).
Proof.
  intros HC HS Hr HI. destruct st as [col data]. destruct HS as [H1 H2]. cbn [fst snd] in *. unfold clock_one_phase. rewrite Hr. cbn [of_option bind].
  apply safe_bind. { apply safe_cy_index. rewrite H1. apply HI. left; reflexivity. } intros ch _.
  destruct (nth_error data phase) as [gs|] eqn:En; [|discriminate]. cbn [of_option bind].
  apply safe_bind. { apply groups_safe; [exact (proj1 (Forall_forall _ _) H2 _ (nth_error_In _ _ En))|intros n v; apply HC|intros; apply well_safe]. }
  intros [net gs'] _. destruct (_ =? _)%num; [apply safe_ok|]. apply safe_bind; [|intros; apply safe_ok].
  apply (safe_foldM (fun c => length c = L)); [| |exact H1].
  - intros s [p f] Ha Hs. apply (write_safe L); [exact Hs|]. cbn [fst]. apply HI. right. exact (in_combine_l _ _ _ _ Ha).
  - intros s a s' _ Hs Ea. rewrite (write_length _ _ _ _ _ _ Ea). exact Hs.
Qed.
(** The readout object has entries for all steps and for [phases] phases, and from [row] on it
    reaches no further than the column goes. *)
Definition clock_inside (r : roe F) (phases L : nat) (row : Z) : Prop :=
  forall step, (step < length (roe_dwell_times r))%nat -> exists rps, nth_error (roe_clock_sequence r) step = Some rps /\ (phases <= length rps)%nat /\ Forall (reached_inside L row) rps.
Lemma in_phases (c : ccd F) phase : In phase (phases_with_traps c) -> (phase < length (ccd_fractions c))%nat.
Proof. unfold phases_with_traps. intros H. apply in_map_iff in H as ([i f] & <- & H). apply filter_In in H as [H _]. apply in_combine_l in H. apply in_seq in H. cbn. lia. Qed.
Lemma in_steps (r : roe F) step d : In (step, d) (steps_with_dwell r) -> (step < length (roe_dwell_times r))%nat.
Proof. unfold steps_with_dwell. intros H. apply filter_In in H as [H _]. apply in_combine_l in H. apply in_seq in H. lia. Qed.
Lemma row_keeps c r row mult L st st' : column_safe L st -> clock_one_row c r row mult st = Ok st' -> column_safe L st'.
Proof.
  intros H E. apply (foldM_inv (column_safe L)) in E; [exact E| |exact H]. intros s [step d] s' _ Hs E1.
  apply (foldM_inv (column_safe L)) in E1; [exact E1| |exact Hs]. intros s1 ph s2 _ Hs1 E2. apply bind_ok in E2 as (rps & _ & E2). exact (phase_keeps _ _ _ _ _ _ _ _ _ Hs1 E2).
Qed.
Lemma row_safe c r row mult L st : no_cloud_without_charge c -> clock_inside r (length (ccd_fractions c)) L row -> column_safe L st -> safe (clock_one_row c r row mult st).
Proof.
  intros HC HR HS. apply (safe_foldM (column_safe L)); [| |exact HS].
  - intros s [step d] Ha Hs. destruct (HR step (in_steps _ _ _ Ha)) as (rps & E & Hl & Hi). apply (safe_foldM (column_safe L)); [| |exact Hs].
    + intros s1 ph Hp Hs1. rewrite E. cbn [of_option bind]. apply in_phases in Hp. destruct (nth_error rps ph) as [rp|] eqn:En; [|apply nth_error_None in En; lia].
      apply (phase_safe c d rps row mult L s1 ph rp HC Hs1 En). exact (proj1 (Forall_forall _ _) Hi _ (nth_error_In _ _ En)).
    + intros s1 ph s2 _ Hs1 E2. apply bind_ok in E2 as (rps' & _ & E2). exact (phase_keeps _ _ _ _ _ _ _ _ _ Hs1 E2).
  - intros s [step d] s' _ Hs E1. apply (foldM_inv (column_safe L)) in E1; [exact E1| |exact Hs]. intros s1 ph s2 _ Hs1 E2. apply bind_ok in E2 as (rps & _ & E2). exact (phase_keeps _ _ _ _ _ _ _ _ _ Hs1 E2).
Qed.

(** ** Passes and columns *)
Definition managers_prompt (a : all_managers F) : Prop := all_prompt (atm_data a) /\ match atm_saved a with None => True | Some x => all_prompt x end.
Lemma empty_prompt x : all_prompt x -> all_prompt (map (map empty_all_traps) x).
Proof. unfold all_prompt. intros H. apply Forall_map. eapply Forall_impl; [|exact H]. intros gs Hg. apply Forall_map. eapply Forall_impl; [|exact Hg]. intros m Hm. exact Hm. Qed.
Lemma save_prompt a : managers_prompt a -> managers_prompt (atm_save a).
Proof. intros [H _]. split; exact H. Qed.
Lemma restore_prompt a : managers_prompt a -> managers_prompt (atm_restore a).
Proof. intros [H H']. unfold atm_restore. destruct (atm_saved a); split; cbn; auto. apply empty_prompt, H. Qed.
Lemma atm_empty_prompt a : managers_prompt a -> managers_prompt (atm_empty a).
Proof. intros [H H']. split; [apply empty_prompt, H|exact H']. Qed.
Definition pass_safe (L : nat) (st : list F * all_managers F) : Prop := length (fst st) = L /\ managers_prompt (snd st).
Lemma cell_keeps c r window L st cell st' : pass_safe L st -> clock_cell c r window st cell = Ok st' -> pass_safe L st'.
Proof.
  destruct st as [col a]. intros [H1 [H2 H3]] E. cbn [fst snd] in *. destruct cell as [ri [[mult mon] sav]]. unfold clock_cell in E. destruct (negb mon); [injection E as <-; repeat split; assumption|].
  apply bind_ok in E as ([col' data'] & E & E'). assert (HS : column_safe L (col', data')).
  { destruct (nth_error window ri); [apply (row_keeps _ _ _ _ L) in E; [exact E|split; assumption]|].
    destruct (steps_with_dwell r), (phases_with_traps c); try discriminate; injection E as <- <-; split; assumption. }
  destruct HS as [HS1 HS2]. cbn [fst snd] in *. assert (HM : managers_prompt (with_data a data')) by (split; [exact HS2|exact H3]).
  injection E' as <-. split; [exact HS1|]. cbn [snd]. destruct sav; [apply save_prompt|]; exact HM.
Qed.
Lemma cell_safe c r window L st cell : no_cloud_without_charge c -> (forall row, In row window -> clock_inside r (length (ccd_fractions c)) L row) -> pass_safe L st -> safe (clock_cell c r window st cell).
Proof.
  intros HC HW HS. destruct st as [col a]. destruct HS as [H1 [H2 H3]]. cbn [fst snd] in *. destruct cell as [ri [[mult mon] sav]]. unfold clock_cell. destruct (negb mon); [apply safe_ok|].
  apply safe_bind; [|intros []; intros; apply safe_ok]. destruct (nth_error window ri) as [row|] eqn:E; [apply (row_safe c r row mult L); [exact HC|apply HW; exact (nth_error_In _ _ E)|split; assumption]|].
  destruct (steps_with_dwell r), (phases_with_traps c); discriminate.
Qed.
Lemma column_loop_keeps c r window passes L st st' : pass_safe L st -> clock_column c r window passes st = Ok st' -> pass_safe L st'.
Proof.
  intros H E. apply (foldM_inv (pass_safe L)) in E; [exact E| |exact H]. intros s cells s' _ [Hs1 Hs2] E1. apply (foldM_inv (pass_safe L)) in E1; [exact E1| |split; [exact Hs1|apply restore_prompt, Hs2]].
  intros s1 cell s2 _ Hs3 E2. exact (cell_keeps _ _ _ _ _ _ _ Hs3 E2).
Qed.
Lemma column_loop_safe c r window passes L st : no_cloud_without_charge c -> (forall row, In row window -> clock_inside r (length (ccd_fractions c)) L row) -> pass_safe L st -> safe (clock_column c r window passes st).
Proof.
  intros HC HW HS. apply (safe_foldM (pass_safe L)); [| |exact HS].
  - intros s cells _ [Hs1 Hs2]. apply (safe_foldM (pass_safe L)); [intros; apply (cell_safe c r window L); assumption|intros s1 cell s2 _ Hs3 E2; exact (cell_keeps _ _ _ _ _ _ _ Hs3 E2)|split; [exact Hs1|apply restore_prompt, Hs2]].
  - intros s cells s' _ [Hs1 Hs2] E1. apply (foldM_inv (pass_safe L)) in E1; [exact E1| |split; [exact Hs1|apply restore_prompt, Hs2]]. intros s1 cell s2 _ Hs3 E2. exact (cell_keeps _ _ _ _ _ _ _ Hs3 E2).
Qed.
Definition picture_safe (L cols : nat) (st : image F * all_managers F) : Prop := shape L cols (fst st) /\ managers_prompt (snd st).
Lemma columns_loop_safe c r window columns passes L cols st : (0 < L)%nat -> no_cloud_without_charge c -> (forall row, In row window -> clock_inside r (length (ccd_fractions c)) L row) ->
  (forall j, In j columns -> (0 <= j < Z.of_nat cols)%Z) -> picture_safe L cols st -> safe (clock_columns c r window columns passes st).
Proof.
  intros HL HC HW HJ HS. assert (HP : forall im a j, picture_safe L cols (im, a) -> pass_safe L (get_column im (Z.to_nat j), a)).
  { intros im a j [[H1 _] H2]. split; [cbn [fst]; rewrite get_column_of, column_length; exact H1|exact H2]. }
  apply (safe_foldM (picture_safe L cols)); [| |exact HS].
  - intros [im a] j Hj Hs. unfold clock_one_column. rewrite (shape_n_columns L cols im (proj1 Hs) HL). specialize (HJ j Hj).
    replace ((0 <=? j) && (j <? Z.of_nat cols))%Z%bool with true by (symmetry; apply andb_true_intro; split; [apply Z.leb_le|apply Z.ltb_lt]; lia).
    apply safe_bind; [apply (column_loop_safe c r window passes L); [exact HC|exact HW|apply HP, Hs]|]. intros []; intros; apply safe_ok.
  - intros [im a] j s' _ Hs E. unfold clock_one_column in E. destruct (_ && _)%bool; [|discriminate]. apply bind_ok in E as ([col a'] & E & E'). injection E' as <-.
    apply (column_loop_keeps _ _ _ _ L) in E as [E1 E2]; [|apply HP, Hs]. cbn [fst snd] in *. split; cbn [fst snd]; [apply set_column_shape; [exact (proj1 Hs)|exact E1]|].
    unfold end_of_column. apply save_prompt. destruct (roe_empty_between r); [apply atm_empty_prompt|]; exact E2.
Qed.

(** ** The preparations cannot leave arrays *)
Lemma py_max_safe l : safe (py_max l).
Proof. destruct l; discriminate. Qed.
Lemma py_min_safe l : safe (py_min l).
Proof. destruct l; discriminate. Qed.
Lemma restrict_safe (m : matrix F) tw : safe (restrict_time_span m tw).
Proof. destruct tw as [w|]; [|apply safe_ok]. cbn. apply safe_bind; [apply safe_py_index|]. intros x _. apply safe_bind; [apply safe_py_index|]. intros; apply safe_ok. Qed.
Lemma select_safe {A} offset window (m : list (list A)) : safe (select_columns offset window m).
Proof. apply safe_mapM. intros r _. apply safe_mapM. intros z _. apply safe_py_index. Qed.
Lemma pixels_safe window : safe (n_pixels_of_window window).
Proof. unfold n_pixels_of_window. apply safe_bind; [apply py_max_safe|]. intros m _. destruct (m <? 0)%Z; discriminate. Qed.
Lemma express_safe r window express offset tw : safe (@express_and_monitor F _ r window express offset tw).
Proof.
  unfold express_and_monitor. destruct (roe_kind_of r) as [ef|npt|np ef].
  - apply safe_bind; [|intros []; intros; apply safe_ok]. unfold standard_express. apply safe_bind; [apply pixels_safe|]. intros n _. apply safe_bind; [apply select_safe|]. intros mon _.
    apply safe_bind; [apply restrict_safe|]. intros m _. apply safe_bind; [apply select_safe|]. intros; apply safe_ok.
  - apply safe_bind; [|intros [[]]; intros; apply safe_ok]. unfold injection_express. apply safe_bind; [apply pixels_safe|]. intros n _. destruct (Nat.eqb _ 0); [discriminate|].
    destruct (roe_dtype r); [discriminate|]. apply safe_bind; [apply restrict_safe|]. intros; apply safe_ok.
  - apply safe_bind; [|intros []; intros; apply safe_ok]. unfold pumping_express. destruct (Nat.eqb _ 0); discriminate.
Qed.
Lemma save_matrix_safe r em : safe (@save_matrix F _ r em).
Proof.
  unfold save_matrix. destruct (roe_kind_of r) as [ef|npt|np ef]; [|discriminate|].
  - unfold standard_save. destruct ef; [discriminate|]. destruct (_ && _)%bool; discriminate.
  - unfold pumping_save. destruct (Nat.leb _ _); [discriminate|]. destruct (Nat.eqb _ _); discriminate.
Qed.
Lemma atm_init_safe traps n c : safe (@atm_init F _ traps n c).
Proof.
  unfold atm_init. apply safe_bind. { unfold normalise_traps. destruct traps as [t|[|]|[|]]; discriminate. } intros gs _.
  apply safe_bind; [|intros; apply safe_ok]. apply safe_mapM. intros ph _. apply safe_mapM. intros g _. apply safe_bind; [unfold kind_of_group; destruct g; discriminate|]. intros k _.
  apply safe_bind; [apply safe_of_option; discriminate|]. intros; apply safe_ok.
Qed.
Lemma atm_init_prompt traps n c a : (forall t l, group_in (t :: l) traps -> t_class t <> CTrap) -> @atm_init F _ traps n c = Ok a -> managers_prompt a.
Proof.
  intros HT E. unfold atm_init in E. apply bind_ok in E as (gs & Eg & E). apply bind_ok in E as (data & E & E'). injection E' as <-. split; [|exact I]. cbn [atm_data].
  assert (HG : forall g, In g gs -> group_in g traps).
  { intros g Hg. unfold normalise_traps in Eg. destruct traps as [t|[|x l]|[|x l]]; try discriminate; injection Eg as <-; [destruct Hg as [<-|[]]; constructor|destruct Hg as [<-|[]]; constructor|constructor; exact Hg]. }
  apply (mapM_Forall _ _ _ _ E). intros ph ms _ Em. apply (mapM_Forall _ _ _ _ Em). intros g m Hg E1. apply bind_ok in E1 as (k & Ek & E1). apply bind_ok in E1 as (f & _ & E1). injection E1 as <-.
  unfold prompt. cbn. destruct g as [|t l]; [discriminate|]. cbn in Ek. specialize (HT t l (HG _ Hg)). destruct (t_class t); injection Ek as <-; congruence.
Qed.

(** ** The clock sequence *)
Lemma phase_geometry force n step ph : rp_capture (@clock_phase F _ force n step ph) = rp_capture (@clock_phase R _ force n step ph) /\ rp_release (@clock_phase F _ force n step ph) = rp_release (@clock_phase R _ force n step ph).
Proof. split; reflexivity. Qed.
Lemma pixel_low force N step ph d : (ph < N)%nat -> (step < 2 * N)%nat -> (force = true -> (step < N)%nat) ->
  In d (rp_capture (@clock_phase F _ force (Z.of_nat N) (Z.of_nat step) (Z.of_nat ph)) :: rp_release (@clock_phase F _ force (Z.of_nat N) (Z.of_nat step) (Z.of_nat ph))) -> ((if force then 0 else -1) <= d)%Z.
Proof.
  intros Hp Hs Hf Hd. rewrite (proj1 (phase_geometry force _ _ _)), (proj2 (phase_geometry force _ _ _)) in Hd.
  assert (HN : (0 < N)%nat) by lia.
  assert (Hr : In d (rp_release (@clock_phase R _ force (Z.of_nat N) (Z.of_nat step) (Z.of_nat ph)))).
  { destruct Hd as [<-|Hd]; [apply capture_in_release; assumption|exact Hd]. }
  destruct (Nat.lt_ge_cases step N) as [L|L]; [exact (proj1 (pixels_standard force N step ph HN Hs Hp L d Hr))|].
  destruct force; [specialize (Hf eq_refl); lia|]. apply (release_nearest false N step ph HN Hs Hp) in Hr. apply nearest_iff in Hr. apply closest_iff in Hr; [|lia].
  pose proof (moved_range N step HN Hs) as M. unfold the_shift in Hr. cbn [andb] in Hr. nia.
Qed.
Lemma in_pixels_F (cs : list (list (roe_phase F))) rps rp d : In rps cs -> In rp rps -> In d (rp_capture rp :: rp_release rp) -> In d (generate_pixels_accessed cs).
Proof. intros H1 H2 H3. right. apply in_flat_map. exists rps. split; [exact H1|]. apply in_flat_map. exists rp. split; assumption. Qed.
Lemma pixels_from (cs : list (list (roe_phase F))) d : In d (generate_pixels_accessed cs) -> d = 0%Z \/ exists rps rp, In rps cs /\ In rp rps /\ In d (rp_capture rp :: rp_release rp).
Proof. intros [<-|H]; [left; reflexivity|]. right. apply in_flat_map in H as (rps & H1 & H). apply in_flat_map in H as (rp & H2 & H). exists rps, rp. auto. Qed.
(** The readout objects of the constructors. *)
Lemma fresh_make (r : roe F) phases : fresh r phases -> exists k dwell dt eb, r = make_roe k dwell dt eb (roe_force r) phases /\
  (length dwell <= 2 * phases)%nat /\ (roe_force r = true -> length dwell = phases).
Proof.
  intros H. destruct H as [dwell ef eb force dt|dwell npt eb force dt|dwell np ef dt r E].
  - exists (Standard ef), dwell, dt, eb. repeat split; try reflexivity; lia.
  - exists (Injection npt), dwell, dt, eb. repeat split; try reflexivity; lia.
  - unfold roe_pumping_init in E. destruct (Nat.even (length dwell)) eqn:Ev; [|discriminate]. injection E as <-. exists (Pumping np ef), dwell, dt, true. cbn [roe_force make_roe].
    rewrite Nat.div2_div. apply Nat.even_spec in Ev as [k Ek]. assert (D : (length dwell / 2 = k)%nat) by (rewrite Ek, Nat.mul_comm; apply Nat.div_mul; discriminate).
    repeat split; [rewrite D; lia|discriminate].
Qed.
Lemma fresh_clock (r : roe F) phases rows pad row : fresh r phases -> n_padding r = Ok pad -> ((if roe_force r then 0 else 1) <= row < Z.of_nat rows)%Z ->
  clock_inside r phases (rows + pad) row.
Proof.
  intros HF HP HR. destruct (fresh_make r phases HF) as (k & dwell & dt & eb & E & H1 & H2). set (force := roe_force r) in *.
  assert (Ecs : roe_clock_sequence r = generate_clock_sequence force (length dwell) phases) by (rewrite E; reflexivity).
  assert (Epx : roe_pixels r = generate_pixels_accessed (roe_clock_sequence r)) by (rewrite E; reflexivity).
  assert (Edw : roe_dwell_times r = dwell) by (rewrite E; reflexivity).
  assert (Low : forall rps rp d, In rps (roe_clock_sequence r) -> In rp rps -> In d (rp_capture rp :: rp_release rp) -> ((if force then 0 else -1) <= d)%Z).
  { intros rps rp d Ha Hb Hd. rewrite Ecs in Ha. unfold generate_clock_sequence in Ha. apply in_map_iff in Ha as (step & <- & Hs). apply in_seq in Hs.
    apply in_map_iff in Hb as (ph & <- & Hp). apply in_seq in Hp. apply (pixel_low force phases step ph d); [lia|lia|intros Hf; rewrite <- (H2 Hf); lia|exact Hd]. }
  unfold n_padding in HP. apply bind_ok in HP as (hi & Eh & HP). apply bind_ok in HP as (lo & El & HP). injection HP as <-.
  assert (Hpx : exists l, roe_pixels r = 0%Z :: l) by (rewrite Epx; eexists; reflexivity). destruct Hpx as [l Hpx].
  rewrite Hpx in Eh, El. cbn [py_max py_min] in Eh, El. injection Eh as <-. injection El as <-.
  pose proof (list_max_ge l 0) as [M1 M2]. pose proof (list_min_le l 0) as [m1 m2].
  assert (Lo : ((if force then 0 else -1) <= list_min_Z 0 l)%Z).
  { destruct (list_min_in l 0) as [Z0|Z0]; [rewrite Z0; destruct force; lia|]. set (d := list_min_Z 0 l) in *.
    assert (Hd : In d (generate_pixels_accessed (roe_clock_sequence r))) by (rewrite <- Epx, Hpx; right; exact Z0).
    apply pixels_from in Hd as [->|(rps & rp & Ha & Hb & Hd)]; [destruct force; lia|exact (Low rps rp d Ha Hb Hd)]. }
  intros step Hs. rewrite Edw in Hs. rewrite Ecs. unfold generate_clock_sequence. rewrite nth_error_map_seq by exact Hs. eexists. split; [reflexivity|]. split; [now rewrite map_length, seq_length|].
  apply Forall_forall. intros rp Hrp d Hd.
  assert (Hin : In (map (fun phase => clock_phase force (Z.of_nat phases) (Z.of_nat step) (Z.of_nat phase)) (seq 0 phases)) (roe_clock_sequence r)).
  { rewrite Ecs. unfold generate_clock_sequence. apply in_map_iff. exists step. split; [reflexivity|apply in_seq; lia]. }
  pose proof (Low _ _ _ Hin Hrp Hd) as L1. pose proof (in_pixels_F _ _ _ _ Hin Hrp Hd) as L2. rewrite <- Epx, Hpx in L2.
  assert (Hm : (d <= list_max_Z 0 l)%Z) by (destruct L2 as [<-|L2]; [exact M1|exact (M2 d L2)]).
  destruct force; lia.
Qed.

(** ** Whole calls *)
Lemma fresh_express (r r' : roe F) window ex off tw em mon phases : fresh r phases -> express_and_monitor r window ex off tw = Ok (r', em, mon) -> fresh r' phases /\ roe_force r' = roe_force r.
Proof.
  intros HF E. unfold express_and_monitor in E. destruct HF as [dwell ef eb force dt|dwell npt eb force dt|dwell np ef dt r HR].
  - cbn [roe_kind_of roe_init make_roe] in E. apply bind_ok in E as ([? ?] & _ & E). injection E as <- _ _. split; [constructor|reflexivity].
  - cbn [roe_kind_of roe_injection_init make_roe] in E. apply bind_ok in E as ([[n ?] ?] & _ & E). injection E as <- _ _. split; [|reflexivity].
    exact (fresh_injection dwell (Some n) eb force dt).
  - assert (K : exists a b, roe_kind_of r = Pumping a b). { unfold roe_pumping_init in HR. destruct (Nat.even _); [|discriminate]. injection HR as <-. do 2 eexists; reflexivity. }
    destruct K as (a & b & K). rewrite K in E. apply bind_ok in E as ([? ?] & _ & E). injection E as <- _ _. split; [|reflexivity]. econstructor. exact HR.
Qed.
Lemma clock_safe im c r traps ex off window columns tw rows cols phases :
  shape rows cols im -> (0 < rows)%nat -> fresh r phases -> (length (ccd_fractions c) <= phases)%nat -> no_cloud_without_charge c ->
  (forall t l, group_in (t :: l) traps -> t_class t <> CTrap) ->
  (forall i, In i window -> ((if roe_force r then 0 else 1) <= i < Z.of_nat rows)%Z) -> (forall j, In j columns -> (0 <= j < Z.of_nat cols)%Z) ->
  safe (clock_charge_in_one_direction im c r traps ex off window columns tw).
Proof.
  intros HI H0 HF HP HC HT HW HJ. unfold clock_charge_in_one_direction. apply safe_bind; [apply express_safe|]. intros [[r' em] mon] E. destruct (fresh_express _ _ _ _ _ _ _ _ _ HF E) as [HF' Ef].
  apply safe_bind; [apply save_matrix_safe|]. intros sav _. apply safe_bind; [apply atm_init_safe|]. intros a Ea.
  apply safe_bind. { unfold n_padding. apply safe_bind; [apply py_max_safe|]. intros x _. apply safe_bind; [apply py_min_safe|]. intros; apply safe_ok. }
  intros n En. apply safe_bind; [|intros []; intros; apply safe_ok].
  apply (columns_loop_safe c r' window columns _ (rows + n) cols); [lia|exact HC| |exact HJ|].
  - intros row Hr. rewrite <- Ef in HW. specialize (HW row Hr). pose proof (fresh_clock r' phases rows n row HF' En HW) as HI'. intros step Hs. destruct (HI' step Hs) as (rps & A & B & D). exists rps. split; [exact A|]. split; [lia|exact D].
  - split; [apply pad_shape; assumption|]. exact (atm_init_prompt _ _ _ _ HT Ea).
Qed.
Lemma direction_safe im d traps window columns tw rows cols :
  shape rows cols im -> (0 < rows)%nat -> kept_inside d rows -> d_traps d = Some traps -> window = selected (d_window d) rows -> (forall j, In j columns -> (0 <= j < Z.of_nat cols)%Z) ->
  safe (clock_direction im d (the_roe d) traps window columns tw).
Proof.
  intros HI H0 [(phases & HF & HP) HW HC HT] Ht -> HJ. unfold clock_direction. destruct (d_ccd d) as [c|] eqn:Ec.
  - apply (clock_safe im c _ _ _ _ _ _ _ rows cols phases); auto. intros t l. apply (HT traps t l Ht).
  - apply safe_bind; [apply express_safe|]. intros [[r' em] mon] _. apply safe_bind; [apply save_matrix_safe|]. intros; discriminate.
Qed.
Lemma time_window_inside tw window n off t columns rows : @resolve_time_window tw window n off = Ok (t, columns) ->
  (forall i, In i window -> (0 <= i < Z.of_nat rows)%Z) -> forall j, In j columns -> (0 <= j < Z.of_nat rows)%Z.
Proof.
  intros E HW j Hj. unfold resolve_time_window in E. destruct tw as [w|]; [|injection E as _ <-; apply HW, Hj].
  apply bind_ok in E as (p0 & E0 & E). apply bind_ok in E as (t0 & _ & E). apply bind_ok in E as (p1 & E1 & E). apply bind_ok in E as (t1 & _ & E). injection E as _ <-.
  assert (I : forall i x, py_index window i = Ok x -> In x window).
  { intros i x Hx. unfold py_index in Hx. destruct (_ && _)%bool; [|discriminate]. set (k := if (i <? 0)%Z then _ else _) in Hx. destruct (nth_error window (Z.to_nat k)) eqn:En; [|discriminate]. injection Hx as <-. exact (nth_error_In _ _ En). }
  pose proof (HW _ (I _ _ E0)). pose proof (HW _ (I _ _ E1)). apply in_py_range in Hj. lia.
Qed.
Lemma add_cti_safe im parallel serial tw rows cols : shape rows cols im -> (0 < rows)%nat -> (0 < cols)%nat -> kept_inside parallel rows -> kept_inside serial cols ->
  safe (add_cti im parallel serial tw).
Proof.
  intros HI Hr Hc HP HS. unfold add_cti. destruct HI as [HI1 HI2]. rewrite HI1, (shape_n_columns rows cols im (conj HI1 HI2) Hr), !resolve_selected.
  assert (WP : forall i, In i (selected (d_window parallel) rows) -> (0 <= i < Z.of_nat rows)%Z) by (intros i Hi; pose proof (ki_window _ _ HP i Hi); destruct (roe_force _); lia).
  assert (WS : forall i, In i (selected (d_window serial) cols) -> (0 <= i < Z.of_nat cols)%Z) by (intros i Hi; pose proof (ki_window _ _ HS i Hi); destruct (roe_force _); lia).
  apply safe_bind. { unfold resolve_time_window. destruct tw as [w|]; [|apply safe_ok]. do 4 (apply safe_bind; [apply safe_py_index|intros ? _]). apply safe_ok. }
  intros [t columns] Et. pose proof (time_window_inside _ _ _ _ _ _ rows Et WP) as HCl. apply safe_bind.
  - destruct (d_traps parallel) as [traps|] eqn:Ed; [|apply safe_ok]. apply (direction_safe im parallel traps _ _ _ rows cols (conj HI1 HI2) Hr HP Ed eq_refl WS).
  - intros [im1 pr] E1. apply safe_bind; [|intros []; intros; apply safe_ok]. destruct (d_traps serial) as [traps|] eqn:Ed; [|apply safe_ok]. apply safe_bind; [|intros []; intros; apply safe_ok].
    assert (H1 : shape rows cols im1).
    { destruct (d_traps parallel) as [tp|]; [|injection E1 as <- _; split; assumption]. exact (io_shape _ _ _ _ _ _ _ (clock_direction_ok _ _ _ _ _ _ _ _ _ _ _ (conj HI1 HI2) Hr E1)). }
    exact (direction_safe (transpose im1) serial traps _ columns None cols rows (transpose_shape rows cols im1 H1 Hr) Hc HS Ed eq_refl HCl).
Qed.
(** The objects after a call. *)
Lemma clock_roe_after im d traps window columns tw im' r' phases : fresh (the_roe d) phases ->
  clock_direction im d (the_roe d) traps window columns tw = Ok (im', r') -> fresh r' phases /\ roe_force r' = roe_force (the_roe d).
Proof.
  intros HF E. unfold clock_direction in E. destruct (d_ccd d) as [c|].
  - unfold clock_charge_in_one_direction in E. apply bind_ok in E as ([[r1 em] mon] & E1 & E). destruct (fresh_express _ _ _ _ _ _ _ _ _ HF E1) as [A B].
    apply bind_ok in E as (sav & _ & E). apply bind_ok in E as (a & _ & E). apply bind_ok in E as (k & _ & E). apply bind_ok in E as ([im1 a1] & _ & E). injection E as _ <-. auto.
  - apply bind_ok in E as ([[r1 em] mon] & _ & E). apply bind_ok in E as (? & _ & E). discriminate.
Qed.
Lemma keep_inside d n r : kept_inside d n -> (forall phases, fresh (the_roe d) phases -> fresh r phases) -> roe_force r = roe_force (the_roe d) -> kept_inside (keep_roe d r) n.
Proof.
  intros [(phases & HF & HP) HW HC HT] H1 H2. destruct d as [c [r0|] t e o w]; cbn [keep_roe d_roe d_ccd d_traps d_express d_offset d_window] in *; [|constructor; eauto].
  change (the_roe (mkDir c (Some r0) t e o w)) with r0 in *. constructor; cbn [d_ccd d_traps d_window the_roe d_roe]; auto; [exists phases; split; auto|]. rewrite H2. exact HW.
Qed.
Lemma roes_after im parallel serial tw im' pr sr : add_cti im parallel serial tw = Ok (im', pr, sr) ->
  (forall phases, fresh (the_roe parallel) phases -> fresh pr phases /\ roe_force pr = roe_force (the_roe parallel)) /\
  (forall phases, fresh (the_roe serial) phases -> fresh sr phases /\ roe_force sr = roe_force (the_roe serial)).
Proof.
  intros E. apply add_cti_halves in E as (tw' & columns & im1 & _ & E1 & E2). split; intros phases HF.
  - destruct (d_traps parallel); [|destruct E1 as [_ ->]; auto]. destruct (clock_roe_after _ _ _ _ _ _ _ _ _ HF E1) as (A & B). auto.
  - destruct (d_traps serial); [|destruct E2 as [_ ->]; auto]. destruct E2 as (im2 & E2 & _). destruct (clock_roe_after _ _ _ _ _ _ _ _ _ HF E2) as (A & B). auto.
Qed.
Lemma zip_shape f (a b : image F) rows cols : shape rows cols a -> shape rows cols b -> shape rows cols (image_zip f a b).
Proof.
  intros [A1 A2] [B1 B2]. unfold image_zip. split; [rewrite map_length, combine_length; lia|]. apply Forall_forall. intros l Hl. apply in_map_iff in Hl as ([x y] & <- & Hxy).
  rewrite map_length, combine_length. rewrite (proj1 (Forall_forall _ _) A2 x (in_combine_l _ _ _ _ Hxy)), (proj1 (Forall_forall _ _) B2 y (in_combine_r _ _ _ _ Hxy)). lia.
Qed.
Lemma remove_loop_safe im iterations parallel serial tw estimate rows cols : shape rows cols im -> shape rows cols estimate -> (0 < rows)%nat -> (0 < cols)%nat ->
  kept_inside parallel rows -> kept_inside serial cols -> safe (remove_cti_loop im iterations parallel serial tw estimate).
Proof.
  intros HI. revert parallel serial estimate. induction iterations as [|k IH]; intros parallel serial estimate HE Hr Hc HP HS; [apply safe_ok|]. cbn [remove_cti_loop].
  apply safe_bind; [apply (add_cti_safe _ _ _ _ rows cols); assumption|]. intros [[added pr] sr] E. destruct (roes_after _ _ _ _ _ _ _ E) as [RP RS].
  destruct (add_cti_shape_sign _ _ _ _ _ _ _ rows cols HE Hr Hc E) as [HA _]. pose proof HP as [(pp & Fp & _) _ _ _]. pose proof HS as [(ps & Fs & _) _ _ _].
  apply IH; auto; [apply zip_shape; [exact HE|apply zip_shape; assumption]| |].
  - apply keep_inside; [exact HP|intros; apply RP; assumption|exact (proj2 (RP pp Fp))].
  - apply keep_inside; [exact HS|intros; apply RS; assumption|exact (proj2 (RS ps Fs))].
Qed.
Lemma remove_cti_safe im iterations parallel serial tw rows cols : shape rows cols im -> (0 < rows)%nat -> (0 < cols)%nat -> kept_inside parallel rows -> kept_inside serial cols ->
  safe (remove_cti im iterations parallel serial tw).
Proof. intros HI Hr Hc HP HS. unfold remove_cti. apply safe_bind; [apply (remove_loop_safe _ _ _ _ _ _ rows cols); assumption|]. intros [[]]; intros; apply safe_ok. Qed.
End Memory.
