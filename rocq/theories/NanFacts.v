(** * Proofs about clouds that cannot be compared with any number, and about NaN in doubles. *)
From Coq Require Import ZArith QArith List Bool SpecFloat Lia.
From Verif Require Import Num Py CCDModel TrapsModel ManagerModel ROEModel ClockModel MainModel DoubleNum SpecDouble DoubleFacts.
Import ListNotations.

Section Incomparable.
Context {F : Type} {num : Num F}.
Open Scope num_scope.
Variable x : F.
Hypothesis x_eq : (x =? n0) = false.
Hypothesis x_le : forall t, (x <=? t) = false.
Hypothesis x_lt : forall t, (t <? x) = false.

Lemma incomparable_loop w : forall i total index, snd (index_above_loop x w i total index) = index.
Proof. induction w as [|r w IH]; intros i total index; cbn [index_above_loop]; [reflexivity|]. rewrite x_le. apply IH. Qed.
Lemma incomparable_index w mx : index_above_cloud x w mx = Z.of_nat (length w).
Proof.
  unfold index_above_cloud. rewrite x_eq. unfold cy_index_above. pose proof (incomparable_loop w 0 n0 (Z.of_nat (length w))) as H.
  destruct (index_above_loop x w 0 n0 (Z.of_nat (length w))) as [total index]. cbn [snd] in H. rewrite x_lt. exact H.
Qed.
Lemma find_true_in (l : list bool) : In true l -> exists k, find_true l = Some k /\ (k < length l)%nat.
Proof.
  induction l as [|b l IH]; intros I; [destruct I|]. cbn [find_true]. destruct b; [exists 0%nat; cbn; split; [reflexivity|lia]|].
  destruct I as [I|I]; [discriminate|]. destruct (IH I) as (k & -> & L). exists (S k). cbn. split; [reflexivity|lia].
Qed.
Lemma used_level (level : F * list F) rest : (vol level =? n0) = false -> (exists r, In r rest /\ (vol r =? n0) = true) ->
  (0 <= max_watermark_index (level :: rest) < Z.of_nat (length (level :: rest)))%Z.
Proof.
  intros H (r & I & E). unfold max_watermark_index, first_zero_volume, np_argmax. cbn [map find_true]. rewrite H.
  destruct (find_true_in (map (fun r => vol r =? n0) rest)) as (k & -> & L); [apply in_map_iff; now exists r|]. rewrite map_length in L. cbn [length option_map]. lia.
Qed.
Lemma no_row (w wi : list (F * list F)) v : new_top_watermark w wi v (Z.of_nat (length w)) = Err IndexError.
Proof. unfold new_top_watermark. replace (_ && _)%bool with false; [reflexivity|]. symmetry. apply andb_false_iff. right. apply Z.ltb_ge. lia. Qed.

Lemma captured_incomparable (m : manager F) n fill : fill n = Ok x -> (0 <= max_watermark_index (m_wm m) < Z.of_nat (length (m_wm m)))%Z ->
  n_electrons_captured m n fill = Err IndexError.
Proof.
  intros E H. unfold n_electrons_captured. rewrite E. cbn [bind]. rewrite incomparable_index.
  destruct (Z.eqb_spec (max_watermark_index (m_wm m)) (-1)); [lia|]. cbn [andb orb]. rewrite orb_false_r.
  destruct (Z.leb_spec (Z.of_nat (length (m_wm m))) (max_watermark_index (m_wm m))); [lia|]. now rewrite no_row.
Qed.
Lemma slow_incomparable (m : manager F) n fill dwell probs : fill n = Ok x -> fill_probabilities (m_traps m) dwell = Ok probs ->
  (0 <= max_watermark_index (m_wm m) < Z.of_nat (length (m_wm m)))%Z -> slow_step m n fill dwell = Err IndexError.
Proof.
  intros E P H. unfold slow_step. rewrite E, P. cbn [bind]. rewrite incomparable_index.
  destruct (Z.eqb_spec (max_watermark_index (m_wm m)) (-1)); [lia|]. cbn [andb orb]. rewrite orb_false_r.
  destruct (Z.leb_spec (Z.of_nat (length (m_wm m))) (max_watermark_index (m_wm m))); [lia|]. now rewrite no_row.
Qed.
Lemma slice_shape a b f (w : list (F * list F)) : map vol (map_vals_slice a b f w) = map vol w /\ length (map_vals_slice a b f w) = length w.
Proof.
  unfold map_vals_slice. split; [|rewrite map_length, combine_length, seq_length; lia].
  rewrite map_map. transitivity (map (fun p => vol (snd p)) (combine (seq 0 (length w)) w)).
  - apply map_ext. intros [i r]. destruct (_ && _)%bool; reflexivity.
  - rewrite <- (map_map snd vol). f_equal. generalize 0%nat. induction w as [|r w IH]; intros k; [reflexivity|]. cbn. now rewrite IH.
Qed.
Lemma released_shape (m : manager F) dwell : map vol (m_wm (snd (n_electrons_released m dwell))) = map vol (m_wm m) /\
  length (m_wm (snd (n_electrons_released m dwell))) = length (m_wm m).
Proof. unfold n_electrons_released. cbn [snd with_wm m_wm]. apply slice_shape. Qed.
Lemma max_index_vol (w w' : list (F * list F)) : map vol w = map vol w' -> max_watermark_index w = max_watermark_index w'.
Proof.
  intros E. unfold max_watermark_index, first_zero_volume. rewrite <- (map_map vol (fun v => v =? n0) w), <- (map_map vol (fun v => v =? n0) w'). now rewrite E.
Qed.
Lemma step_incomparable (m : manager F) n fill dwell : (forall r, fill n = Ok x /\ fill (n + r) = Ok x) ->
  (m_kind m = KSlow -> exists probs, fill_probabilities (m_traps m) dwell = Ok probs) ->
  (0 <= max_watermark_index (m_wm m) < Z.of_nat (length (m_wm m)))%Z -> manager_step m n fill dwell = Err IndexError.
Proof.
  intros E P H. unfold manager_step.
  assert (I : instant_step m n fill dwell = Err IndexError).
  { unfold instant_step. pose proof (released_shape m dwell) as [S1 S2]. destruct (n_electrons_released m dwell) as [released m1]. cbn [snd] in *.
    rewrite (captured_incomparable m1 (n + released) fill); [reflexivity|apply E|]. rewrite (max_index_vol _ _ S1), S2. exact H. }
  destruct (m_kind m) eqn:K; [|exact I|exact I]. destruct (P eq_refl) as [probs Hp]. apply (slow_incomparable m n fill dwell probs); [apply (E n)|exact Hp|exact H].
Qed.
End Incomparable.

(** ** NaN *)
Section Nan.
Variable exp_c log_c : double -> double.
Variable pow_c : double -> double -> double.
#[local] Instance num : Num double := DoubleNum exp_c log_c pow_c.
Hypothesis pow_nan : forall y, SFltb dzero y = true -> pow_c S754_nan y = S754_nan.
Open Scope num_scope.
Lemma nan_le t : (S754_nan <=? t) = false.
Proof. destruct t; reflexivity. Qed.
Lemma nan_lt t : (t <? S754_nan) = false.
Proof. destruct t; reflexivity. Qed.
Lemma nan_cloud c phase notch beta full : nth_error (ccd_notch c) phase = Some notch -> nth_error (ccd_fill_power c) phase = Some beta ->
  nth_error (ccd_full_well c) phase = Some full -> SFltb dzero beta = true -> (full - notch =? n0) = false ->
  well_fill c phase false S754_nan = Ok S754_nan.
Proof.
  intros E1 E2 E3 Hb Hr. unfold well_fill. change (S754_nan =? n0) with false. cbv iota. rewrite E1, E2, E3. cbn [of_option bind]. rewrite Hr.
  replace (set_min_max ((S754_nan - notch) / (full - notch)) n0 n1) with S754_nan by (unfold nsub at 1; cbn [num DoubleNum]; destruct (SFsub 53 1024 full notch), notch; reflexivity).
  cbn [neqb num DoubleNum SFeqb SFcompare andb]. cbn [npow]. now rewrite pow_nan.
Qed.
Lemma nan_step (m : manager double) level rest c phase notch beta full dwell :
  m_wm m = level :: rest -> (vol level =? n0) = false -> (exists r, In r rest /\ (vol r =? n0) = true) ->
  (m_kind m = KSlow -> exists probs, fill_probabilities (m_traps m) dwell = Ok probs) ->
  nth_error (ccd_notch c) phase = Some notch -> nth_error (ccd_fill_power c) phase = Some beta ->
  nth_error (ccd_full_well c) phase = Some full -> SFltb dzero beta = true -> (full - notch =? n0) = false ->
  manager_step m S754_nan (fun n => well_fill c phase false n) dwell = Err IndexError.
Proof.
  intros Ew Hl Hr Hp E1 E2 E3 Hb Hf. apply (step_incomparable (num:=num) S754_nan); [reflexivity|exact nan_le|exact nan_lt| |exact Hp|rewrite Ew; now apply used_level].
  intros r. assert (E : well_fill c phase false S754_nan = Ok S754_nan) by (eapply nan_cloud; eassumption). split; [exact E|].
  replace (S754_nan + r) with (S754_nan : double) by (destruct r; reflexivity). exact E.
Qed.
End Nan.
