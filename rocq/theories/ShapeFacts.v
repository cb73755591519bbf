(** * Trap managers keep the shape of their watermark arrays, for every kind of number. *)
From Coq Require Import ZArith List Bool Lia.
From Verif Require Import Num Py CCDModel TrapsModel ManagerModel ClockFacts.
Import ListNotations.

Section Shape.
Context {F : Type} {num : Num F}.
Implicit Types (w : list (F * list F)) (m : manager F).

(** [k] rows for [n] species. *)
Definition wshape (n k : nat) w : Prop := length w = k /\ Forall (fun r => length (snd r) = n) w.

Lemma wshape_upd n k w i r : wshape n k w -> length (snd r) = n -> wshape n k (upd w i r).
Proof.
  intros [H1 H2] Hr. split; [rewrite upd_len; exact H1|]. apply Forall_forall. intros x Hx.
  apply In_nth_error in Hx as (j & Hj). rewrite nth_error_upd in Hj. destruct (_ && _)%bool.
  - injection Hj as <-. exact Hr.
  - rewrite Forall_forall in H2. apply H2. eapply nth_error_In; exact Hj.
Qed.
Lemma upd_beyond {A} (l : list A) i x : (length l <= i)%nat -> upd l i x = l.
Proof. revert i. induction l as [|a l IH]; intros [|i] H; cbn in *; try lia; auto. f_equal. apply IH. lia. Qed.
Lemma wshape_nth n k w i d : wshape n k w -> (i < k)%nat -> length (snd (nth i w d)) = n.
Proof. intros [H1 H2] Hi. rewrite Forall_forall in H2. apply H2, nth_In. lia. Qed.
Lemma wshape_set_vol n k w i v : wshape n k w -> wshape n k (set_vol w i v).
Proof.
  intros H. unfold set_vol. destruct (lt_dec i k) as [Hi|Hi].
  - apply wshape_upd; [exact H|]. cbn [snd]. apply (wshape_nth n k); auto.
  - rewrite upd_beyond by (destruct H; lia). exact H.
Qed.
Lemma wshape_in n k w w' : wshape n k w -> length w' = k -> (forall x, In x w' -> In x w) -> wshape n k w'.
Proof. intros [_ H2] Hl Hin. split; [exact Hl|]. rewrite Forall_forall in *. auto. Qed.
Lemma wshape_roll n k w : wshape n k w -> wshape n k (roll1 w).
Proof.
  intros H. unfold roll1. destruct (rev w) as [|x l] eqn:E.
  - destruct H as [H1 H2]. assert (w = []) by (rewrite <- (rev_involutive w), E; reflexivity). subst w. split; auto.
  - assert (Ew : w = rev l ++ [x]) by (rewrite <- (rev_involutive w), E; reflexivity). 
    apply (wshape_in n k w); [exact H| |].
    + destruct H as [H1 _]. rewrite <- H1, Ew. rewrite app_length. cbn. lia.
    + intros y [->|Hy]; rewrite Ew; apply in_or_app; [right; left; reflexivity|left; exact Hy].
Qed.
Lemma wshape_copy n k q i w : wshape n k w -> (i + q < k)%nat -> wshape n k (copy_rows_up q i w).
Proof.
  revert i w. induction q as [|q IH]; intros i w H Hq; [exact H|]. cbn [copy_rows_up]. apply IH; [|lia].
  apply wshape_upd; [exact H|]. apply (wshape_nth n k); auto. lia.
Qed.
Lemma wshape_update n k w cloud index w' : wshape n k w -> cy_update_volumes w cloud index = Ok w' -> wshape n k w'.
Proof.
  intros H E. unfold cy_update_volumes in E. destruct (_ && _)%bool eqn:Eb; [|discriminate].
  apply andb_prop in Eb as [E1 E2]. apply Z.leb_le in E1. apply Z.ltb_lt in E2. injection E as <-.
  apply wshape_set_vol, wshape_set_vol.
  apply (wshape_copy n k (S (Z.to_nat index)) 0 (roll1 w)); [apply wshape_roll, H|]. destruct H; lia.
Qed.
Lemma wshape_slice n k a b f w : wshape n k w -> (forall fs, length fs = n -> length (f fs) = n) ->
  wshape n k (map_vals_slice a b f w).
Proof.
  intros [H1 H2] Hf. unfold map_vals_slice. split; [rewrite map_length, combine_length, seq_length; lia|].
  apply Forall_forall. intros x Hx. apply in_map_iff in Hx as ([i r] & <- & Hx). apply in_combine_r in Hx.
  rewrite Forall_forall in H2. specialize (H2 r Hx). destruct (_ && _)%bool; [cbn [snd]; apply Hf; exact H2|exact H2].
Qed.
Lemma zip_with_length {A B C} (f : A -> B -> C) a b n : length a = n -> length b = n -> length (zip_with f a b) = n.
Proof. intros. unfold zip_with. rewrite map_length, combine_length. lia. Qed.
Lemma wshape_blend n k e w wi : wshape n k w -> wshape n k wi -> wshape n k (blend e w wi).
Proof.
  intros [H1 H2] [I1 I2]. unfold blend. split; [apply zip_with_length; auto|].
  apply Forall_forall. intros x Hx. unfold zip_with in Hx. apply in_map_iff in Hx as ([r ri] & <- & Hx). cbn [snd].
  pose proof (in_combine_l _ _ _ _ Hx) as Hl. pose proof (in_combine_r _ _ _ _ Hx) as Hr.
  rewrite Forall_forall in *. apply zip_with_length; [apply H2, Hl|apply I2, Hr].
Qed.
Lemma wshape_collapse_rows n k q v values w : wshape n k w -> length values = n -> wshape n k (collapse_rows q v values w).
Proof.
  intros [H1 H2] Hv. unfold collapse_rows. set (z := map _ (combine _ w)).
  assert (Hz : wshape n k z).
  { unfold z. split; [rewrite map_length, combine_length, seq_length; lia|]. apply Forall_forall. intros x Hx.
    apply in_map_iff in Hx as ([i r] & <- & Hx). apply in_combine_r in Hx. rewrite Forall_forall in H2. specialize (H2 r Hx).
    destruct (Nat.ltb i q); [cbn [snd]; rewrite map_length; exact H2|exact H2]. }
  apply wshape_upd; [|exact Hv]. apply (wshape_in n k z); [exact Hz| |].
  - destruct Hz as [Hz _]. rewrite <- Hz. rewrite <- (firstn_skipn (q - 1) z) at 3. rewrite !app_length. lia.
  - intros x Hx. rewrite <- (firstn_skipn (q - 1) z). apply in_app_or in Hx. apply in_or_app. tauto.
Qed.
Lemma wshape_collapse n k filled w : wshape n k w -> wshape n k (collapse filled n w).
Proof.
  intros H. unfold collapse. destruct (Nat.leb _ 1); [exact H|]. apply wshape_collapse_rows; [exact H|apply repeat_length].
Qed.
Lemma wshape_collapse_copy n k filled w wi w' wi' : wshape n k w -> wshape n k wi ->
  collapse_with_copy filled n w wi = Ok (w', wi') -> wshape n k w' /\ wshape n k wi'.
Proof.
  intros H Hi E. unfold collapse_with_copy in E. destruct (Nat.leb _ 1); [injection E as <- <-; auto|].
  apply bind_ok in E as (q & _ & E). injection E as <- <-. split; apply wshape_collapse_rows; auto.
  - apply repeat_length.
  - unfold copy_fill_values. rewrite map_length, seq_length. reflexivity.
Qed.
Lemma wshape_split n k w wi cloud index mx w' wi' mx' : wshape n k w -> wshape n k wi ->
  slow_split w wi cloud index mx = Ok (w', wi', mx') -> wshape n k w' /\ wshape n k wi'.
Proof.
  intros H Hi E. unfold slow_split in E. destruct (_ && _)%bool; [|injection E as <- <- <-; auto].
  apply bind_ok in E as (w1 & E1 & E). apply bind_ok in E as (wi1 & E2 & E). injection E as <- <- <-.
  split; [exact (wshape_update n k w cloud index w1 H E1)|exact (wshape_update n k wi cloud index wi1 Hi E2)].
Qed.
Lemma wshape_new_top n k w wi cloud index w' wi' : wshape n k w -> wshape n k wi ->
  new_top_watermark w wi cloud index = Ok (w', wi') -> wshape n k w' /\ wshape n k wi'.
Proof.
  intros H Hi E. unfold new_top_watermark in E. destruct (_ && _)%bool; [|discriminate]. injection E as <- <-.
  split; apply wshape_set_vol; auto.
Qed.
Lemma wshape_not_enough n k m w wi e w' : wshape n k w -> wshape n k wi -> not_enough m w wi e = Ok w' -> wshape n k w'.
Proof. intros H Hi E. unfold not_enough in E. destruct (m_kind m); try discriminate; injection E as <-; apply wshape_blend; auto. Qed.

(** The same kind, the same traps, and an array of the same shape. *)
Definition mshape m : Prop := wshape (length (m_traps m)) (length (m_wm m)) (m_wm m).
Definition keeps m m' : Prop := m_kind m' = m_kind m /\ m_traps m' = m_traps m /\
  wshape (length (m_traps m)) (length (m_wm m)) (m_wm m').
Lemma keeps_with m w : wshape (length (m_traps m)) (length (m_wm m)) w -> keeps m (with_wm m w).
Proof. intros H. split; [reflexivity|]. split; [reflexivity|exact H]. Qed.
Lemma keeps_shape m m' : keeps m m' -> mshape m'.
Proof. intros (_ & Ht & Hw). unfold mshape. rewrite Ht. destruct Hw as [H1 H2]. rewrite H1. split; auto. Qed.
Lemma keeps_trans m1 m2 m3 : keeps m1 m2 -> keeps m2 m3 -> keeps m1 m3.
Proof.
  intros (A1 & A2 & A3) (B1 & B2 & B3). split; [congruence|]. split; [congruence|]. 
  rewrite A2 in B3. destruct A3 as [A3 _]. rewrite A3 in B3. exact B3.
Qed.
Lemma keeps_refl m : mshape m -> keeps m m.
Proof. intros H. split; [reflexivity|]. split; [reflexivity|exact H]. Qed.

Lemma slow_step_shape m n_free fill dwell net m' : mshape m -> slow_step m n_free fill dwell = Ok (net, m') -> keeps m m'.
Proof.
  intros H E. unfold slow_step in E. apply bind_ok in E as (probs & Ep & E). apply bind_ok in E as (cloud & Ec & E).
  assert (Hp : length probs = length (m_traps m)) by (apply mapM_ok_length in Ep; exact Ep).
  unfold mshape in H. set (n := length (m_traps m)) in *. set (k := length (m_wm m)) in *.
  destruct ((_ =? -1)%Z && _)%bool.
  - apply bind_ok in E as ([net1 w] & E1 & E). injection E as <- <-. apply keeps_with.
    unfold slow_first_capture in E1. fold n k.
    assert (H1 : wshape n k (set_row0 (m_wm m) (cloud, map p_empty probs))) by (apply wshape_upd; [exact H|cbn; rewrite map_length; exact Hp]).
    destruct (_ =? _)%num; [injection E1 as <- <-; exact H1|]. destruct (_ <? _)%num; [|injection E1 as <- <-; exact H1].
    apply bind_ok in E1 as (w' & E1 & E2). injection E2 as <- <-. eapply wshape_not_enough; [exact H1| |exact E1].
    apply wshape_set_vol; exact H.
  - apply bind_ok in E as ([[[n2 w] wi] index] & E1 & E).
    assert (Hw : wshape n k w /\ wshape n k wi).
    { destruct (_ || _)%bool.
      - apply bind_ok in E1 as (o & E1 & E2). injection E2 as <- <- <- <-. unfold slow_cloud_below in E1.
        apply bind_ok in E1 as ([[w1 wi1] mx1] & Ea & E1). apply bind_ok in E1 as (cloud' & _ & E1).
        apply bind_ok in E1 as ([[w3 wi3] mx3] & Eb & E1). injection E1 as <-. cbn [sb_wm sb_wm_initial].
        apply (wshape_split n k) in Ea as [A1 A2]; [|exact H|exact H].
        apply (wshape_split n k) in Eb; [exact Eb| |exact A2].
        apply wshape_slice; [exact A1|]. intros fs Hfs. apply zip_with_length; [exact Hfs|exact Hp].
      - apply bind_ok in E1 as ([w1 wi1] & E1 & E2). injection E2 as <- <- <- <-. apply (wshape_new_top n k) in E1; auto. }
    destruct Hw as [Hw Hwi]. apply bind_ok in E as ([w2 wi2] & E2 & E).
    apply (wshape_collapse_copy n k) in E2 as [H2 H2i]; [| |exact Hwi].
    2: { apply wshape_slice; [exact Hw|]. intros fs Hfs. apply zip_with_length; [exact Hfs|exact Hp]. }
    destruct (_ =? _)%num; [injection E as <- <-; apply keeps_with; exact H2|].
    apply bind_ok in E as ([w3 final3] & E3 & E). injection E as <- <-. apply keeps_with. fold n k. apply wshape_collapse.
    destruct (_ && _)%bool; [|injection E3 as <- <-; exact H2].
    apply bind_ok in E3 as (w' & E3 & E4). injection E4 as <- <-. apply (wshape_not_enough n k) in E3; auto.
Qed.

Lemma released_shape m dwell : mshape m -> keeps m (snd (n_electrons_released m dwell)).
Proof.
  intros H. unfold n_electrons_released. cbn [snd]. apply keeps_with. apply wshape_slice; [exact H|].
  intros fs Hfs. unfold released_values. destruct (m_kind m); [| |rewrite map_length; exact Hfs]; apply zip_with_length; auto.
Qed.
Lemma captured_shape m n_free fill net m' : mshape m -> n_electrons_captured m n_free fill = Ok (net, m') -> keeps m m'.
Proof.
  intros H E. unfold n_electrons_captured in E. apply bind_ok in E as (cloud & Ec & E).
  unfold mshape in H. set (n := length (m_traps m)) in *. set (k := length (m_wm m)) in *.
  destruct ((_ =? -1)%Z && _)%bool.
  - apply bind_ok in E as ([net1 w] & E1 & E). injection E as <- <-. apply keeps_with.
    unfold instant_first_capture in E1. fold n k in E1 |- *.
    set (w0 := set_row0 _ _) in E1.
    assert (H1 : wshape n k w0) by (apply wshape_upd; [exact H|cbn; apply repeat_length]).
    destruct (_ =? _)%num; [injection E1 as <- <-; exact H1|]. destruct (_ <? _)%num; [|injection E1 as <- <-; exact H1].
    apply bind_ok in E1 as (w' & E1 & E2). injection E2 as <- <-. eapply wshape_not_enough; [exact H1| |exact E1].
    apply wshape_set_vol; exact H.
  - apply bind_ok in E as ([w wi] & E1 & E).
    assert (Hw : wshape n k w /\ wshape n k wi).
    { destruct (_ || _)%bool.
      - apply bind_ok in E1 as ([[w1 wi1] mx1] & Ea & E1). injection E1 as <- <-. apply (wshape_split n k) in Ea; auto.
      - apply (wshape_new_top n k) in E1; auto. }
    destruct Hw as [Hw Hwi]. apply bind_ok in E as ([w2 wi2] & E2 & E).
    apply (wshape_collapse_copy n k) in E2 as [H2 H2i]; [| |exact Hwi].
    2: { apply wshape_slice; [exact Hw|]. intros fs Hfs. apply repeat_length. }
    destruct (_ =? _)%num; [injection E as <- <-; apply keeps_with; exact H2|].
    apply bind_ok in E as ([w3 final3] & E3 & E). injection E as <- <-. apply keeps_with. fold n k. apply wshape_collapse.
    destruct (_ && _)%bool; [|injection E3 as <- <-; exact H2].
    apply bind_ok in E3 as (w' & E3 & E4). injection E4 as <- <-. apply (wshape_not_enough n k) in E3; auto.
Qed.
Lemma manager_step_shape m n_free fill dwell net m' : mshape m -> manager_step m n_free fill dwell = Ok (net, m') -> keeps m m'.
Proof.
  intros H E.
  assert (G : instant_step m n_free fill dwell = Ok (net, m') -> keeps m m').
  { clear E. intros E. unfold instant_step in E. pose proof (released_shape m dwell H) as HR.
    destruct (n_electrons_released m dwell) as [rel m1]. cbn [snd] in HR.
    apply bind_ok in E as ([cap m2] & E & E'). injection E' as <- <-. eapply keeps_trans; [exact HR|].
    eapply captured_shape; [eapply keeps_shape; exact HR|exact E]. }
  unfold manager_step in E. destruct (m_kind m); [eapply slow_step_shape; eauto|auto|auto].
Qed.

(** Emptied managers of the same shape are equal. *)
Lemma empty_eq m : mshape m -> empty_all_traps m =
  mkManager (m_kind m) (m_traps m) (repeat (zero_row (length (m_traps m))) (length (m_wm m))).
Proof.
  intros [_ H]. unfold empty_all_traps, with_wm. f_equal. induction (m_wm m) as [|r w IH]; [reflexivity|].
  inversion H as [|? ? H1 H2]; subst. cbn [map length repeat]. rewrite IH by exact H2. f_equal. unfold zero_row. f_equal.
  unfold vals. rewrite <- H1. clear. induction (snd r) as [|x l IH]; [reflexivity|]. cbn. f_equal. exact IH.
Qed.
Lemma keeps_empty m m' : mshape m -> keeps m m' -> empty_all_traps m' = empty_all_traps m.
Proof.
  intros H Hk. rewrite (empty_eq m H), (empty_eq m' (keeps_shape m m' Hk)). destruct Hk as (-> & -> & [-> _]). reflexivity.
Qed.
Lemma empty_shape m : mshape m -> mshape (empty_all_traps m).
Proof.
  intros H. rewrite (empty_eq m H). unfold mshape. cbn [m_traps m_wm]. split; [reflexivity|].
  apply Forall_forall. intros x Hx. apply repeat_spec in Hx. subst. cbn. apply repeat_length.
Qed.
Lemma empty_twice m : empty_all_traps (empty_all_traps m) = empty_all_traps m.
Proof.
  unfold empty_all_traps, with_wm. cbn [m_kind m_traps m_wm]. f_equal. rewrite map_map. apply map_ext. intros [v fs]. cbn [vals snd].
  f_equal. rewrite map_map. reflexivity.
Qed.
Lemma init_shape k traps N : mshape (manager_init k traps N).
Proof.
  unfold mshape, manager_init. cbn [m_traps m_wm]. split; [reflexivity|]. apply Forall_forall. intros x Hx.
  apply repeat_spec in Hx. subst. cbn. apply repeat_length.
Qed.
End Shape.
