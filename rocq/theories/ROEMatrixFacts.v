(** * Facts about express matrices (roe.py:430-583). *)
From Coq Require Import ZArith List Bool Reals Lra Lia.
From Verif Require Import Num Py RFacts ROEModel Spec SpecROE ROEClockFacts.
Import ListNotations.
Open Scope R_scope.

Lemma nofN_INR k : @nofN R _ k = INR k.
Proof. unfold nofN. rnum. rewrite INR_IZR_INZ. reflexivity. Qed.
Lemma INR_S k : INR (S k) = INR k + 1.
Proof. apply S_INR. Qed.
Lemma Rltb_if {A} a b (x y : A) : (if Rltb a b then x else y) = if Rlt_dec a b then x else y.
Proof. unfold Rltb. destruct (Rlt_dec a b); reflexivity. Qed.

(** ** Lists *)
Lemma Rsum_app l l' : Rsum (l ++ l') = Rsum l + Rsum l'.
Proof. unfold Rsum. induction l as [|a l IH]; cbn; [lra|]. rewrite IH. lra. Qed.
Lemma Rsum_cons a l : Rsum (a :: l) = a + Rsum l.
Proof. reflexivity. Qed.
Lemma nth_map_lt {A B} (f : A -> B) l i d d' : (i < length l)%nat -> nth i (map f l) d = f (nth i l d').
Proof. revert i. induction l as [|a l IH]; intros [|i] H; cbn in *; try lia; auto. apply IH. lia. Qed.
Lemma nth_map_seq {A} (f : nat -> A) n i d : (i < n)%nat -> nth i (map f (seq 0 n)) d = f i.
Proof. intros. rewrite (nth_map_lt _ _ _ _ 0%nat) by (rewrite seq_length; lia). rewrite seq_nth by lia. reflexivity. Qed.
Lemma upd_length {A} (l : list A) i x : length (upd l i x) = length l.
Proof. revert i. induction l as [|a l IH]; intros [|i]; cbn; auto. Qed.
Lemma nth_upd_eq {A} (l : list A) i x d : (i < length l)%nat -> nth i (upd l i x) d = x.
Proof. revert i. induction l as [|a l IH]; intros [|i] H; cbn in *; try lia; auto. apply IH. lia. Qed.
Lemma nth_upd_neq {A} (l : list A) i j x d : i <> j -> nth j (upd l i x) d = nth j l d.
Proof. revert i j. induction l as [|a l IH]; intros [|i] [|j] H; cbn in *; try lia; auto. Qed.
Lemma Forall_upd {A} (P : A -> Prop) l i x : Forall P l -> P x -> Forall P (upd l i x).
Proof.
  intros Hl Hx. revert i. induction Hl as [|a l Ha Hl IH]; intros [|i]; cbn; constructor; auto.
Qed.
Lemma Forall_nth_lt {A} (P : A -> Prop) l i d : Forall P l -> (i < length l)%nat -> P (nth i l d).
Proof. intros H Hi. rewrite Forall_forall in H. apply H, nth_In, Hi. Qed.

Lemma row_add_length a b : length a = length b -> length (@row_add R _ a b) = length a.
Proof. intros. unfold row_add. rewrite map_length, combine_length. lia. Qed.
Lemma row_sub_length a b : length a = length b -> length (@row_sub R _ a b) = length a.
Proof. intros. unfold row_sub. rewrite map_length, combine_length. lia. Qed.
Lemma row_add_nth a b j : length a = length b -> nth j (@row_add R _ a b) 0 = nth j a 0 + nth j b 0.
Proof.
  unfold row_add. revert b j. induction a as [|x a IH]; intros [|y b] j H; cbn in *; try lia.
  - destruct j; lra.
  - destruct j as [|j]; [reflexivity|]. apply IH. lia.
Qed.
Lemma row_sub_nth a b j : length a = length b -> nth j (@row_sub R _ a b) 0 = nth j a 0 - nth j b 0.
Proof.
  unfold row_sub. revert b j. induction a as [|x a IH]; intros [|y b] j H; cbn in *; try lia.
  - destruct j; lra.
  - destruct j as [|j]; [reflexivity|]. apply IH. lia.
Qed.

(** ** Column sums *)
Definition col (m : matrix R) j : list R := map (fun r => nth j r 0) m.
Lemma entry_col m i j : (i < length m)%nat -> entry m i j = nth i (col m j) 0.
Proof. intros. unfold entry, col. rewrite (nth_map_lt _ _ _ _ []) by assumption. reflexivity. Qed.
Lemma transfers_before_firstn m i j : (i <= length m)%nat -> transfers_before m i j = Rsum (firstn i (col m j)).
Proof.
  induction i as [|i IH]; intros Hi; [reflexivity|]. cbn [transfers_before].
  rewrite IH by lia. rewrite entry_col by lia.
  assert (Hc : (i < length (col m j))%nat) by (unfold col; rewrite map_length; lia).
  rewrite <- (firstn_skipn i (firstn (S i) (col m j))).
  rewrite firstn_firstn. replace (Nat.min i (S i)) with i by lia.
  rewrite Rsum_app. f_equal. clear -Hc. revert Hc. generalize (col m j). clear.
  intros l. revert i. induction l as [|a l IH]; intros [|i] H; cbn in *; try lia.
  - unfold Rsum; cbn; lra.
  - apply IH. lia.
Qed.
Lemma transfers_sum m j : transfers m j = Rsum (col m j).
Proof.
  unfold transfers. rewrite transfers_before_firstn by lia. f_equal. apply firstn_all2. unfold col. rewrite map_length. lia.
Qed.

(** ** Clipping *)
Lemma clip_eq s x : 0 <= s -> @clip R _ s x = Rmin s (Rmax 0 x).
Proof.
  intros Hs. unfold clip. rnum. unfold Rltb, Rmin, Rmax.
  destruct (Rlt_dec x 0), (Rle_dec 0 x); try lra;
  match goal with |- context [Rlt_dec s ?y] => destruct (Rlt_dec s y), (Rle_dec s y) end; lra.
Qed.

(** Sum of the clipped ramp. *)
Lemma ramp mm i y : 0 <= mm -> 0 <= y ->
  Rmin (INR i * mm) y + @clip R _ mm (y - INR i * mm) = Rmin (INR (S i) * mm) y.
Proof.
  intros Hm Hy. rewrite clip_eq by assumption. rewrite INR_S.
  replace ((INR i + 1) * mm) with (INR i * mm + mm) by ring. set (a := INR i * mm).
  unfold Rmin, Rmax. destruct (Rle_dec a y), (Rle_dec 0 (y - a)), (Rle_dec (a + mm) y);
  try lra; match goal with |- context [Rle_dec mm ?z] => destruct (Rle_dec mm z); lra end.
Qed.

Definition tab (E n : nat) (f : nat -> nat -> R) : matrix R :=
  map (fun e => map (f e) (seq 0 n)) (seq 0 E).
Lemma tab_rect E n f : rect E n (tab E n f).
Proof.
  split; [unfold tab; rewrite map_length, seq_length; reflexivity|].
  apply Forall_forall. intros r Hr. apply in_map_iff in Hr as (e & <- & _). rewrite map_length, seq_length. reflexivity.
Qed.
Lemma tab_entry E n f i j : (i < E)%nat -> (j < n)%nat -> entry (tab E n f) i j = f i j.
Proof. intros. unfold entry, tab. rewrite nth_map_seq by assumption. rewrite nth_map_seq by assumption. reflexivity. Qed.

Lemma plain_tab mm E n : @plain_matrix R _ mm E n = tab E n (plain_entry mm).
Proof. reflexivity. Qed.
Lemma plain_entry_eq mm e j : 0 <= mm -> plain_entry mm e j = Rmin mm (Rmax 0 (INR (S j) - INR e * mm)).
Proof. intros. unfold plain_entry. rewrite !nofN_INR. rnum. apply clip_eq. assumption. Qed.
Lemma plain_before mm E n i j : 0 <= mm -> (i <= E)%nat -> (j < n)%nat ->
  transfers_before (plain_matrix mm E n) i j = Rmin (INR i * mm) (INR (S j)).
Proof.
  intros Hm Hi Hj. pose proof (pos_INR (S j)). induction i as [|i IH].
  - cbn [transfers_before]. cbn [INR]. rewrite Rmult_0_l. rewrite Rmin_left; [reflexivity|assumption].
  - cbn [transfers_before]. rewrite IH by lia. rewrite plain_tab, tab_entry by lia.
    unfold plain_entry. rewrite !nofN_INR. rnum. apply ramp; assumption.
Qed.
Lemma plain_nonneg mm e j : 0 <= mm -> 0 <= plain_entry mm e j <= mm.
Proof.
  intros. rewrite plain_entry_eq by assumption. split; [apply Rmin_glb; [assumption|apply Rmax_l]|apply Rmin_l].
Qed.

(** The multiplier. *)
Lemma mm_ge dt n E : (0 < E)%nat -> 0 <= @max_multiplier R _ dt n E /\ INR n <= INR E * @max_multiplier R _ dt n E.
Proof.
  intros HE. assert (HEr : 0 < INR E) by (apply lt_0_INR; lia). unfold max_multiplier. destruct dt.
  - rewrite nofN_INR. split; [apply pos_INR|]. rewrite <- mult_INR. apply le_INR. unfold ceil_div.
    pose proof (Nat.div_mod (n + E - 1) E ltac:(lia)). pose proof (Nat.mod_upper_bound (n + E - 1) E ltac:(lia)). lia.
  - rewrite !nofN_INR. rnum. split.
    + apply Rmult_le_pos; [apply pos_INR|left; apply Rinv_0_lt_compat; assumption].
    + replace (INR E * (INR n / INR E)) with (INR n) by (field; lra). lra.
Qed.
Lemma mm_ge_1 dt n E : (0 < E <= n)%nat -> 1 <= @max_multiplier R _ dt n E.
Proof.
  intros HE. pose proof (mm_ge dt n E ltac:(lia)) as [H0 H].
  assert (HEr : 0 < INR E) by (apply lt_0_INR; lia). assert (INR E <= INR n) by (apply le_INR; lia).
  assert (0 <= INR E * (max_multiplier dt n E - 1)) by nra.
  destruct (Rle_dec 1 (max_multiplier dt n E)); [assumption|]. nra.
Qed.

(** ** Number of positive entries of a row *)
Definition count (f : nat -> bool) (a n : nat) : nat := length (filter f (seq a n)).
Lemma count_le f g a n : (forall j, (a <= j < a + n)%nat -> g j = true -> f j = true) -> (count g a n <= count f a n)%nat.
Proof.
  unfold count. revert a. induction n as [|n IH]; intros a H; cbn [seq filter length]; [lia|].
  specialize (IH (S a) ltac:(intros; apply H; [lia|assumption])).
  destruct (g a) eqn:Eg; [rewrite (H a ltac:(lia) Eg); cbn; lia|]. destruct (f a); cbn; lia.
Qed.
Lemma count_lt f g a n : (forall j, (a <= j < a + n)%nat -> g j = true -> f j = true) ->
  (exists j, (a <= j < a + n)%nat /\ f j = true /\ g j = false) -> (count g a n < count f a n)%nat.
Proof.
  unfold count. revert a. induction n as [|n IH]; intros a H [j (Hj & Hf & Hg)]; cbn [seq filter]; [lia|].
  destruct (Nat.eq_dec a j) as [<-|Hne].
  - rewrite Hf, Hg. pose proof (count_le f g (S a) n ltac:(intros; apply H; [lia|assumption])) as Hc.
    unfold count in Hc. cbn [length]. lia.
  - specialize (IH (S a) ltac:(intros; apply H; [lia|assumption]) ltac:(exists j; split; [lia|auto])).
    destruct (g a) eqn:Eg; [rewrite (H a ltac:(lia) Eg); cbn; lia|]. destruct (f a); cbn; lia.
Qed.
(** The positive entries of a nondecreasing row are the last ones. *)
Lemma count_up f n j : (forall i i', (i <= i' < n)%nat -> f i = true -> f i' = true) ->
  (j < n - count f 0 n)%nat -> f j = false.
Proof.
  intros Hup. unfold count. 
  assert (G : forall k a, (a + k = n)%nat -> (a <= j)%nat -> (j < n - length (filter f (seq a k)))%nat -> f j = false).
  { induction k as [|k IH]; intros a Ha Haj Hj; [cbn in Hj; lia|].
    destruct (f a) eqn:Ea.
    - exfalso. assert (Hall : length (filter f (seq a (S k))) = S k).
      { clear Hj. assert (G : forall q b, (a <= b)%nat -> (b + q <= n)%nat -> length (filter f (seq b q)) = q).
        { induction q as [|q IHq]; intros b Hb Hq; [reflexivity|]. cbn [seq filter].
          rewrite (Hup a b) by (auto; lia). cbn [length]. rewrite IHq by lia. reflexivity. }
        apply G; lia. }
      lia.
    - cbn [seq filter] in Hj. rewrite Ea in Hj. destruct (Nat.eq_dec a j) as [<-|]; [assumption|].
      apply (IH (S a)); lia. }
  intros Hj. apply (G n 0%nat); lia.
Qed.

Lemma n_positive_plain mm e n : @n_positive R _ (map (plain_entry mm e) (seq 0 n)) = count (fun j => Rltb 0 (plain_entry mm e j)) 0 n.
Proof.
  unfold n_positive, count. generalize (seq 0 n). intros l. induction l as [|a l IH]; [reflexivity|].
  cbn [map filter]. rnum. destruct (Rltb 0 (plain_entry mm e a)); cbn [length]; rewrite IH; reflexivity.
Qed.
Lemma n_positive_le r : (@n_positive R _ r <= length r)%nat.
Proof. unfold n_positive. induction r as [|a r IH]; cbn [filter length]; [lia|]. destruct (n0 <? a)%num; cbn [length]; lia. Qed.
Lemma plain_positive mm e j : 0 < mm -> Rltb 0 (plain_entry mm e j) = true <-> INR e * mm < INR (S j).
Proof.
  intros Hm. rewrite Rltb_true, plain_entry_eq by lra. split.
  - intros H. destruct (Rlt_dec (INR e * mm) (INR (S j))); [assumption|].
    rewrite (Rmax_left 0) in H by lra. rewrite Rmin_right in H by lra. lra.
  - intros H. apply Rmin_glb_lt; [lra|]. rewrite Rmax_right; lra.
Qed.
Lemma plain_npos_decreasing mm e e' n : 1 <= mm -> (e < e')%nat ->
  (0 < n_positive (map (plain_entry mm e') (seq 0 n)))%nat ->
  (n_positive (map (plain_entry mm e') (seq 0 n)) < n_positive (map (plain_entry mm e) (seq 0 n)))%nat.
Proof.
  intros Hm He. rewrite !n_positive_plain. intros Hpos.
  assert (Hee : INR e + 1 <= INR e') by (rewrite <- INR_S; apply le_INR; lia).
  assert (Hw : exists j', (j' < n)%nat /\ INR e' * mm < INR (S j')).
  { unfold count in Hpos. destruct (filter _ (seq 0 n)) as [|j' l] eqn:Ef; [cbn in Hpos; lia|].
    assert (Hin : In j' (filter (fun j => Rltb 0 (plain_entry mm e' j)) (seq 0 n))) by (rewrite Ef; left; auto).
    apply filter_In in Hin as [Hin Hp]. apply in_seq in Hin. exists j'. split; [lia|]. apply plain_positive in Hp; lra. }
  destruct Hw as (j' & Hj' & Hw).
  apply count_lt.
  - intros j _ H. apply plain_positive in H; [|lra]. apply plain_positive; [lra|]. nra.
  - (* the integer just above e * mm *)
    pose proof (archimed (INR e * mm)) as [A1 A2]. set (u := up (INR e * mm)) in *.
    assert (Hu : (0 < u)%Z). { apply lt_IZR. pose proof (pos_INR e). nra. }
    exists (Z.to_nat (u - 1)). 
    assert (EI : INR (S (Z.to_nat (u - 1))) = IZR u).
    { rewrite INR_IZR_INZ. f_equal. lia. }
    assert (Hle : IZR u <= INR e' * mm) by nra.
    split; [|split].
    + assert (S (Z.to_nat (u - 1)) < S j')%nat by (apply INR_lt; lra). lia.
    + apply plain_positive; [lra|]. rewrite EI. lra.
    + apply not_true_is_false. intros H. apply plain_positive in H; [|lra]. rewrite EI in H. lra.
Qed.

(** ** Inserting the separate first transfers *)
Definition insert_row (big m : matrix R) (row : list R) : matrix R :=
  match nth_error big (n_positive row) with
  | Some (h :: t) => upd m (n_positive row) (h :: row_add t row)
  | _ => m
  end.
Lemma insert_small_fold big small : insert_small big small = fold_left (insert_row big) small big.
Proof. reflexivity. Qed.

Definition head0 (r : list R) := nth 0 r 0.
(** A row of [big] with a row of [small] added one column to the right. *)
Definition shifted (b row : list R) : list R := match b with h :: t => h :: row_add t row | [] => [] end.
Lemma shifted_length b row n : length b = S n -> length row = n -> length (shifted b row) = S n.
Proof. destruct b; cbn; intros; [lia|]. rewrite row_add_length; lia. Qed.
Lemma shifted_nth b row n j : length b = S n -> length row = n ->
  nth j (shifted b row) 0 = nth j b 0 + match j with O => 0 | S j' => nth j' row 0 end.
Proof.
  destruct b as [|h t]; cbn [length]; intros H H'; [lia|]. destruct j as [|j]; cbn [shifted nth]; [lra|].
  apply row_add_nth. lia.
Qed.
Lemma insert_row_eq big m row n : rect (S n) (S n) big -> length row = n ->
  insert_row big m row = upd m (n_positive row) (shifted (nth (n_positive row) big []) row).
Proof.
  intros [Hb1 Hb2] Hr. unfold insert_row. pose proof (n_positive_le row).
  rewrite (nth_error_nth' big []) by lia.
  pose proof (Forall_nth_lt _ _ (n_positive row) [] Hb2 ltac:(lia)) as Hl. cbn beta in Hl.
  destruct (nth (n_positive row) big []) as [|h t]; [cbn in Hl; lia|]. reflexivity.
Qed.

Lemma upd_self {A} (l : list A) i d : (i < length l)%nat -> upd l i (nth i l d) = l.
Proof. revert i. induction l as [|a l IH]; intros [|i] H; cbn in *; try lia; [reflexivity|]. f_equal. apply IH. lia. Qed.
Lemma Rsum_upd l i x : (i < length l)%nat -> Rsum (upd l i x) = Rsum l - nth i l 0 + x.
Proof.
  revert i. induction l as [|a l IH]; intros [|i] H; cbn [length upd nth] in *; try lia; rewrite !Rsum_cons; [lra|].
  rewrite IH by lia. lra.
Qed.
Lemma col_upd m i r j : col (upd m i r) j = upd (col m j) i (nth j r 0).
Proof. revert i. induction m as [|a m IH]; intros [|i]; cbn; auto. f_equal. apply IH. Qed.

Section Insert.
Context (n : nat) (big : matrix R).
Hypothesis Hbig : rect (S n) (S n) big.

Lemma insert_fold small : Forall (fun r => length r = n /\ Forall (Rle 0) r) small ->
  forall m, rect (S n) (S n) m -> nth 0 m [] = nth 0 big [] ->
  (forall r, In r small -> nth (n_positive r) m [] = nth (n_positive r) big []) ->
  NoDup (filter (fun k => negb (Nat.eqb k 0)) (map (@n_positive R _) small)) ->
  let out := fold_left (insert_row big) small m in
  rect (S n) (S n) out /\
  (forall j, Rsum (col out (S j)) = Rsum (col m (S j)) + Rsum (map (fun r => nth j r 0) small)) /\
  Rsum (col out 0) = Rsum (col m 0) /\
  (forall i, (i < S n)%nat -> nth i out [] = nth i m [] \/
     exists r, In r small /\ n_positive r = i /\ nth i out [] = shifted (nth i big []) r).
Proof.
  induction small as [|row small IH]; intros Hs m Hm H0 Hin Hnd; cbn [fold_left].
  { cbn zeta. split; [assumption|]. split; [intros; unfold Rsum; cbn; lra|]. split; auto. }
  inversion Hs as [|? ? [Hrl Hrn] Hs']; subst. cbn [map filter] in Hnd.
  rewrite (insert_row_eq big m row (length row) Hbig eq_refl).
  set (n := length row) in *. set (i := n_positive row) in *.
  pose proof (n_positive_le row) as Hi. fold i n in Hi. destruct Hm as [Hm1 Hm2].
  pose proof Hbig as [Hb1 Hb2].
  pose proof (Forall_nth_lt _ _ i [] Hb2 ltac:(lia)) as Hbl. cbn beta in Hbl.
  pose proof (Hin row (or_introl eq_refl)) as Hmi. fold i in Hmi.
  assert (Hm' : rect (S n) (S n) (upd m i (shifted (nth i big []) row))).
  { split; [rewrite upd_length; assumption|]. apply Forall_upd; [assumption|]. eapply shifted_length; eauto. }
  (* a row without positive entries changes nothing *)
  assert (Hz : i = 0%nat -> shifted (nth i big []) row = nth i big []).
  { intros Ei. apply (nth_ext _ _ 0 0).
    - rewrite (shifted_length _ _ n) by auto. lia.
    - intros k Hk. rewrite (shifted_nth _ _ n) by auto. destruct k as [|k]; [lra|].
      assert (Hzero : nth k row 0 = 0).
      { destruct (lt_dec k n) as [Hkn|Hkn]; [|rewrite nth_overflow by (fold n; lia); reflexivity].
        pose proof (Forall_nth_lt _ _ k 0 Hrn Hkn) as Hge.
        destruct (Rle_lt_or_eq_dec _ _ Hge) as [Hlt|E]; [exfalso|auto].
        assert (Hin' : In (nth k row 0) (filter (fun x => Rltb 0 x) row)).
        { apply filter_In. split; [apply nth_In; exact Hkn|]. apply Rltb_true; exact Hlt. }
        unfold i, n_positive in Ei. rnum. destruct (filter (fun x => Rltb 0 x) row); [destruct Hin'|cbn in Ei; lia]. }
      rewrite Hzero. lra. }
  assert (H0' : nth 0 (upd m i (shifted (nth i big []) row)) [] = nth 0 big []).
  { destruct (Nat.eq_dec i 0) as [E|E].
    - rewrite Hz by exact E. rewrite E. rewrite nth_upd_eq by lia. reflexivity.
    - rewrite nth_upd_neq by exact E. exact H0. }
  assert (Hnd' : NoDup (filter (fun k => negb (Nat.eqb k 0)) (map (@n_positive R _) small))).
  { destruct (negb (Nat.eqb i 0)); [inversion Hnd; assumption|assumption]. }
  assert (Hin' : forall r, In r small -> nth (n_positive r) (upd m i (shifted (nth i big []) row)) [] = nth (n_positive r) big []).
  { intros r Hr. destruct (Nat.eq_dec i (n_positive r)) as [E|E].
    - destruct (Nat.eq_dec i 0) as [E0|E0].
      + replace (n_positive r) with 0%nat by lia. exact H0'.
      + exfalso. destruct (Nat.eqb_spec i 0) as [|_]; [contradiction|]. cbn [negb] in Hnd.
        inversion Hnd as [|? ? Hni _]; subst. apply Hni. apply filter_In. split.
        * rewrite E. apply in_map. exact Hr.
        * destruct (Nat.eqb_spec i 0); [contradiction|reflexivity].
    - rewrite nth_upd_neq by exact E. apply Hin. right. exact Hr. }
  destruct (IH Hs' _ Hm' H0' Hin' Hnd') as (R1 & R2 & R3 & R4).
  cbn zeta. split; [exact R1|]. 
  assert (Hcl : forall j, nth i (col m j) 0 = nth j (nth i big []) 0).
  { intros j. unfold col. rewrite (nth_map_lt _ _ _ _ []) by lia. rewrite Hmi. reflexivity. }
  split; [|split].
  - intros j. rewrite R2. rewrite col_upd. rewrite Rsum_upd by (unfold col; rewrite map_length; lia).
    rewrite Hcl. rewrite (shifted_nth _ _ n) by auto. cbn [map]. rewrite Rsum_cons. lra.
  - rewrite R3. rewrite col_upd. rewrite Rsum_upd by (unfold col; rewrite map_length; lia).
    rewrite Hcl. rewrite (shifted_nth _ _ n) by auto. lra.
  - intros k Hk. destruct (R4 k Hk) as [E|(r & Hr & Er & E)].
    + destruct (Nat.eq_dec i k) as [<-|Hne].
      * right. exists row. split; [left; reflexivity|]. split; [reflexivity|]. rewrite E. apply nth_upd_eq. lia.
      * left. rewrite E. apply nth_upd_neq. exact Hne.
    + right. exists r. split; [right; exact Hr|]. auto.
Qed.
End Insert.

(** The reversed identity. *)
Lemma flipud_tab n : @flipud_identity R _ n = tab n n (fun i j => if Nat.eqb (i + j + 1) n then 1 else 0).
Proof. reflexivity. Qed.
Lemma Rsum_single n k : (k < n)%nat -> forall g, Rsum (map (fun i => if Nat.eqb i k then g i else 0) (seq 0 n)) = g k.
Proof.
  intros Hk g.
  assert (G : forall q a, Rsum (map (fun i => if Nat.eqb i k then g i else 0) (seq a q)) = if (Nat.leb a k && Nat.ltb k (a + q))%bool then g k else 0).
  { induction q as [|q IH]; intros a; cbn [seq map].
    - destruct (Nat.leb_spec a k), (Nat.ltb_spec k (a + 0)); cbn [andb]; try reflexivity; lia.
    - rewrite Rsum_cons, IH. destruct (Nat.eqb_spec a k) as [->|Hne].
      + destruct (Nat.leb_spec (S k) k); [lia|]. destruct (Nat.leb_spec k k); [|lia].
        destruct (Nat.ltb_spec k (k + S q)); [|lia]. cbn [andb]. lra.
      + destruct (Nat.leb_spec (S a) k), (Nat.leb_spec a k); try lia; cbn [andb]; [|lra].
        destruct (Nat.ltb_spec k (S a + q)), (Nat.ltb_spec k (a + S q)); try lia; lra. }
  rewrite G. destruct (Nat.leb_spec 0 k); [|lia]. destruct (Nat.ltb_spec k (0 + n)); [|lia]. reflexivity.
Qed.
Lemma flipud_sum n j : (j < n)%nat -> Rsum (col (@flipud_identity R _ n) j) = 1.
Proof.
  intros Hj. unfold flipud_identity, col. rewrite map_map.
  rewrite (map_ext_in _ (fun i => if Nat.eqb i (n - 1 - j) then 1 else 0)).
  - apply (Rsum_single n (n - 1 - j)%nat ltac:(lia) (fun _ => 1)).
  - intros i Hi. apply in_seq in Hi. rewrite nth_map_seq by assumption. rnum.
    destruct (Nat.eqb_spec (i + j + 1) n), (Nat.eqb_spec i (n - 1 - j)); try lia; reflexivity.
Qed.

(** What is known of the full matrix, for every express and dtype. *)
Record full_matrix (m : matrix R) (E n : nat) : Prop := {
  fm_rect : rect E n m;
  fm_rows : (0 < E)%nat;
  fm_nonneg : Forall (Forall (Rle 0)) m;
  fm_transfers : forall j, (j < n)%nat -> transfers m j = INR (S j)
}.

Lemma plain_full dt n E : (0 < E)%nat -> full_matrix (plain_matrix (max_multiplier dt n E) E n) E n.
Proof.
  intros HE. pose proof (mm_ge dt n E HE) as [Hm0 Hm]. split.
  - rewrite plain_tab. apply tab_rect.
  - exact HE.
  - apply Forall_forall. intros r Hr. apply in_map_iff in Hr as (e & <- & _).
    apply Forall_forall. intros x Hx. apply in_map_iff in Hx as (j & <- & _). apply plain_nonneg. exact Hm0.
  - intros j Hj. unfold transfers. 
    assert (El : length (@plain_matrix R _ (max_multiplier dt n E) E n) = E) by (rewrite plain_tab; apply tab_rect).
    rewrite El. rewrite plain_before by (auto; lia).
    apply Rmin_right. assert (INR (S j) <= INR n) by (apply le_INR; lia). lra.
Qed.

Lemma insert_full dt n E : (0 < E <= n)%nat ->
  let m := insert_small (flipud_identity (S n)) (plain_matrix (max_multiplier dt n E) E n) in
  full_matrix m (S n) (S n) /\
  (forall i, (i < S n)%nat -> entry m i (n - i) = 1 /\ forall j, (j < n - i)%nat -> entry m i j = 0).
Proof.
  intros HE m. set (mm := @max_multiplier R _ dt n E) in *.
  pose proof (mm_ge dt n E ltac:(lia)) as [Hm0 Hm]. pose proof (mm_ge_1 dt n E HE) as Hm1. fold mm in Hm0, Hm, Hm1.
  pose proof (plain_full dt n E ltac:(lia)) as [P1 P2 P3 P4]. fold mm in P1, P3, P4.
  assert (Hb : rect (S n) (S n) (@flipud_identity R _ (S n))) by (rewrite flipud_tab; apply tab_rect).
  assert (Hs : Forall (fun r => length r = n /\ Forall (Rle 0) r) (@plain_matrix R _ mm E n)).
  { apply Forall_forall. intros r Hr. split.
    - destruct P1 as [_ P1]. rewrite Forall_forall in P1. apply P1, Hr.
    - rewrite Forall_forall in P3. apply P3, Hr. }
  assert (Hnd : NoDup (filter (fun k => negb (Nat.eqb k 0)) (map (@n_positive R _) (@plain_matrix R _ mm E n)))).
  { unfold plain_matrix. rewrite map_map.
    assert (G : forall q a, NoDup (filter (fun k => negb (Nat.eqb k 0)) (map (fun e => @n_positive R _ (map (plain_entry mm e) (seq 0 n))) (seq a q))) /\
       forall k, In k (filter (fun k => negb (Nat.eqb k 0)) (map (fun e => @n_positive R _ (map (plain_entry mm e) (seq 0 n))) (seq a q))) ->
         exists e, (a <= e)%nat /\ k = @n_positive R _ (map (plain_entry mm e) (seq 0 n)) /\ (0 < k)%nat).
    { induction q as [|q IH]; intros a; cbn [seq map filter].
      - split; [constructor|intros k []].
      - destruct (IH (S a)) as [I1 I2].
        destruct (Nat.eqb_spec (n_positive (map (plain_entry mm a) (seq 0 n))) 0) as [E0|E0]; cbn [negb].
        + split; [exact I1|]. intros k Hk. destruct (I2 k Hk) as (e & He & Ek). exists e. split; [lia|exact Ek].
        + split.
          * constructor; [|exact I1]. intros Hk. destruct (I2 _ Hk) as (e & He & Ek & Hpos).
            rewrite Ek in Hpos.
            pose proof (plain_npos_decreasing mm a e n Hm1 ltac:(lia) Hpos). lia.
          * intros k [<-|Hk]; [exists a; split; [lia|]; split; [reflexivity|lia]|].
            destruct (I2 k Hk) as (e & He & Ek). exists e. split; [lia|exact Ek]. }
    apply (G E 0%nat). }
  destruct (insert_fold n _ Hb _ Hs _ Hb eq_refl (fun r _ => eq_refl) Hnd) as (R1 & R2 & R3 & R4).
  unfold m. rewrite insert_small_fold. set (out := fold_left _ _ _) in *.
  assert (Hrow : forall i, (i < S n)%nat -> exists extra, length extra = n /\ Forall (Rle 0) extra /\
      nth i out [] = shifted (nth i (flipud_identity (S n)) []) extra /\
      forall c, (c < n - i)%nat -> nth c extra 0 = 0).
  { intros i Hi. destruct (R4 i Hi) as [E0|(r & Hr & Er & E0)].
    - exists (repeat 0 n). split; [apply repeat_length|]. split; [apply Forall_forall; intros x Hx; apply repeat_spec in Hx; lra|].
      split; [|intros; apply nth_repeat].
      rewrite E0. destruct Hb as [Hb1 Hb2]. pose proof (Forall_nth_lt _ _ i [] Hb2 ltac:(lia)) as Hbl. cbn beta in Hbl.
      apply (nth_ext _ _ 0 0); [rewrite (shifted_length _ _ n); [lia|lia|apply repeat_length]|].
      intros k Hk. rewrite (shifted_nth _ _ n) by (auto; apply repeat_length). destruct k; [lra|]. rewrite nth_repeat. lra.
    - exists r. rewrite Forall_forall in Hs. destruct (Hs r Hr) as [Hl Hn]. split; [exact Hl|]. split; [exact Hn|].
      split; [exact E0|]. unfold plain_matrix in Hr. apply in_map_iff in Hr as (e & <- & _).
      intros c Hc. rewrite nth_map_seq by lia. rewrite <- Er in Hc. rewrite n_positive_plain in Hc.
      assert (Hf : Rltb 0 (plain_entry mm e c) = false).
      { refine (count_up (fun j => Rltb 0 (plain_entry mm e j)) n c _ Hc).
        intros i1 i2 H12 H1. apply plain_positive in H1; [|lra]. apply plain_positive; [lra|].
        assert (INR (S i1) <= INR (S i2)) by (apply le_INR; lia). lra. }
      apply Rltb_false in Hf. pose proof (plain_nonneg mm e c Hm0). lra. }
  assert (Hent : forall i j, (i < S n)%nat -> (j < S n)%nat -> exists x, 0 <= x /\
      entry out i j = (if Nat.eqb (i + j + 1) (S n) then 1 else 0) + x /\ ((j <= n - i)%nat -> x = 0)).
  { intros i j Hi Hj. destruct (Hrow i Hi) as (extra & Hl & Hn & Hout & Hzero).
    pose proof (Forall_nth_lt _ _ i [] (proj2 Hb) ltac:(destruct Hb; lia)) as Hbl. cbn beta in Hbl.
    exists (match j with O => 0 | S j' => nth j' extra 0 end). split; [|split].
    - destruct j as [|j]; [lra|]. destruct (lt_dec j n) as [H|H]; [|rewrite nth_overflow by lia; lra].
      apply (Forall_nth_lt _ _ j 0 Hn). lia.
    - unfold entry. rewrite Hout. rewrite (shifted_nth _ _ n) by auto.
      f_equal. rewrite flipud_tab. fold (entry (tab (S n) (S n) (fun i j => if Nat.eqb (i + j + 1) (S n) then 1 else 0)) i j).
      rewrite tab_entry by assumption. reflexivity.
    - intros Hle. destruct j as [|j]; [reflexivity|]. apply Hzero. lia. }
  split.
  - split; [exact R1|lia| |].
    + apply Forall_forall. intros r Hr. apply In_nth with (d := []) in Hr as (i & Hi & <-).
      destruct R1 as [Hl1 Hl2]. pose proof (Forall_nth_lt _ _ i [] Hl2 Hi) as Hlr. cbn beta in Hlr.
      apply Forall_forall. intros x Hx. apply In_nth with (d := 0) in Hx as (j & Hj & <-).
      destruct (Hent i j ltac:(lia) ltac:(lia)) as (y & Hy & He & _). unfold entry in He. rewrite He.
      destruct (Nat.eqb _ _); lra.
    + intros j Hj. rewrite transfers_sum. destruct j as [|j].
      * rewrite R3. rewrite flipud_sum by lia. reflexivity.
      * rewrite R2. rewrite flipud_sum by lia.
        rewrite (INR_S (S j)). rewrite <- (P4 j) by lia. rewrite transfers_sum. unfold col. lra.
  - intros i Hi. split.
    + destruct (Hent i (n - i)%nat Hi ltac:(lia)) as (x & _ & He & Hx). rewrite He, Hx by lia.
      replace (i + (n - i) + 1)%nat with (S n) by lia. rewrite Nat.eqb_refl. lra.
    + intros j Hj. destruct (Hent i j Hi ltac:(lia)) as (x & _ & He & Hx). rewrite He, Hx by lia.
      destruct (Nat.eqb_spec (i + j + 1) (S n)); [lia|lra].
Qed.
