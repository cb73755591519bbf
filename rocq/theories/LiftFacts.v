(** * Maps of columns, applied to every column or every row of an image. *)
From Coq Require Import ZArith List Bool Reals Lra Lia.
From Verif Require Import Num Py RFacts CCDModel TrapsModel ManagerModel ROEModel ClockModel MainModel Spec SpecImage SpecReadout SpecColumn SpecRecovery ClockFacts MainFacts OrderFacts TameFacts MainReadoutFacts RecoverImageFacts PhaseOrderFacts.
Import ListNotations.
Open Scope R_scope.

(** The pixels of an image are numbered row by row.  [pre l] are the pixels in front of pixel
    [l] in the same line (row or column). *)
Section Lift.
Context (G : list R -> list R) (gain : R) (HG : tame gain 0 0 G).
Context (pre : nat -> list nat) (cols : nat) (lines : nat -> list (list nat)).
Hypothesis Hpre : forall l i, In i (pre l) -> (i < l)%nat.
Hypothesis Hcols : (0 < cols)%nat.
Hypothesis Hlines : forall n, Forall (fun L => forall p l q, L = p ++ l :: q -> pre l = p) (lines n).
Hypothesis Hsum : forall n (h : nat -> R), Rsum (map h (seq 0 (n * cols))) = Rsum (map (fun L => Rsum (map h L)) (lines n)).
Definition at_ (x : list R) (i : nat) : R := nth i x 0.
Definition line_at (l : nat) (x : list R) : list R := map (at_ x) (pre l) ++ [at_ x l].
Definition lift (x : list R) : list R := map (fun l => last (G (line_at l x)) 0) (seq 0 (length x)).
Lemma at_ordered y x i : Forall2 Rle y x -> at_ y i <= at_ x i.
Proof. intros H. unfold at_. revert i. induction H as [|a b y x Hab H IH]; intros [|i]; cbn; try lra. apply IH. Qed.
Lemma line_ordered y x l : Forall2 Rle y x -> Forall2 Rle (line_at l y) (line_at l x).
Proof. intros H. unfold line_at. apply Forall2_app; [apply Forall2_map_in; intros i _; now apply at_ordered|]. constructor; [now apply at_ordered|constructor]. Qed.
Lemma last_ordered : forall y x : list R, Forall2 Rle y x -> last y 0 <= last x 0.
Proof. intros y x H. induction H as [|a b y x Hab H IH]; [cbn; lra|]. destruct H as [|a' b' y x Hab' H]; [exact Hab|]. exact IH. Qed.
Lemma lift_last_ordered y x l : Forall2 Rle y x -> last (G (line_at l y)) 0 <= last (G (line_at l x)) 0.
Proof. intros H. apply last_ordered, (tm_mono _ _ _ _ HG). now apply line_ordered. Qed.
Lemma line_sum L x : (forall p l q, L = p ++ l :: q -> pre l = p) -> Rsum (G (map (at_ x) L)) = Rsum (map (fun l => last (G (line_at l x)) 0) L).
Proof.
  induction L as [|l p IH] using rev_ind; intros H.
  - cbn [map]. pose proof (tm_length _ _ _ _ HG []) as E. destruct (G []); [reflexivity|discriminate].
  - rewrite !map_app. cbn [map]. rewrite (tame_snoc HG), !sum_app, IH.
    + f_equal. unfold line_at. rewrite (H p l [] eq_refl). reflexivity.
    + intros p' l' q ->. apply (H p' l' (q ++ [l])). now rewrite <- app_assoc.
Qed.
Lemma lift_tame : tame gain 0 0 lift.
Proof.
  assert (LL : forall p a, last (lift (p ++ [a])) 0 = last (G (map (at_ p) (pre (length p)) ++ [a])) 0).
  { intros p a. unfold lift. rewrite app_length, seq_app, map_app. cbn [length seq map Nat.add]. rewrite last_last. unfold line_at. do 3 f_equal.
    - apply map_ext_in. intros i Hi. unfold at_. rewrite app_nth1; [reflexivity|]. now apply Hpre.
    - f_equal. unfold at_. rewrite app_nth2, Nat.sub_diag by lia. reflexivity. }
  split.
  - intros x. unfold lift. now rewrite map_length, seq_length.
  - intros i x. unfold lift. rewrite firstn_map_seq, firstn_length. apply map_ext_in. intros l Hl. apply in_seq in Hl. do 2 f_equal.
    assert (E : forall k, (k <= l)%nat -> at_ (firstn i x) k = at_ x k).
    { intros k Hk. unfold at_. rewrite <- (firstn_skipn i x) at 2. rewrite app_nth1; [reflexivity|]. rewrite firstn_length. lia. }
    unfold line_at. rewrite (E l) by lia. f_equal. apply map_ext_in. intros k Hk. apply E. apply Hpre in Hk. lia.
  - intros y x H. unfold lift. rewrite (ordered_length _ _ H). apply Forall2_map_in. intros l _. now apply lift_last_ordered.
  - intros y x H. set (n := length x). pose proof (ordered_length _ _ H) as HL. fold n in HL. unfold lift. rewrite HL. fold n.
    set (u := fun l => last (G (line_at l x)) 0). set (v := fun l => last (G (line_at l y)) 0).
    assert (HN : (n <= n * cols)%nat) by nia.
    assert (S1 : Rsum (map u (seq 0 n)) - Rsum (map v (seq 0 n)) <= Rsum (map u (seq 0 (n * cols))) - Rsum (map v (seq 0 (n * cols)))).
    { replace (n * cols)%nat with (n + (n * cols - n))%nat by lia. rewrite seq_app, !map_app, !sum_app.
      assert (Rsum (map v (seq (0 + n) (n * cols - n))) <= Rsum (map u (seq (0 + n) (n * cols - n)))) by (apply Rsum_le; intros l _; now apply lift_last_ordered). lra. }
    assert (S2 : Rsum (map u (seq 0 (n * cols))) - Rsum (map v (seq 0 (n * cols))) <= Rsum (map (at_ x) (seq 0 (n * cols))) - Rsum (map (at_ y) (seq 0 (n * cols)))).
    { rewrite !Hsum. pose proof (Hlines n) as HLn. revert HLn. generalize (lines n) as Ls0. intros Ls0 HLn. induction HLn as [|L Ls HL1 HLs IH]; [cbn; lra|]. cbn [map]. rewrite !Rsum_cons.
      pose proof (line_sum L x HL1) as E1. pose proof (line_sum L y HL1) as E2. fold u in E1. fold v in E2. rewrite <- E1, <- E2.
      assert (O : Forall2 Rle (map (at_ y) L) (map (at_ x) L)) by (apply Forall2_map_in; intros i _; now apply at_ordered).
      pose proof (tm_sum _ _ _ _ HG _ _ O). lra. }
    assert (S3 : forall z, length z = n -> Rsum (map (at_ z) (seq 0 (n * cols))) = Rsum z).
    { intros z Hz. pose proof (total_cols (n * cols) z ltac:(lia)) as E. unfold total in E. rewrite <- E. f_equal. apply map_ext. intros i. unfold at_, col_of. now rewrite Nat2Z.id. }
    rewrite (S3 x eq_refl), (S3 y HL) in S2. lra.
  - intros p a b Hab H0. rewrite !LL. now apply (tm_grow _ _ _ _ HG).
  - intros p b H0. rewrite LL. now apply (tm_floor _ _ _ _ HG).
Qed.
End Lift.

(** ** Columns and rows *)
Section Lines.
Context (cols : nat) (Hcols : (0 < cols)%nat).
Definition above (l : nat) : list nat := map (fun t => (l mod cols + t * cols)%nat) (seq 0 (l / cols)).
Definition left_of (l : nat) : list nat := map (fun t => (l / cols * cols + t)%nat) (seq 0 (l mod cols)).
Lemma div_mod_at i j : (j < cols)%nat -> ((i * cols + j) / cols = i /\ (i * cols + j) mod cols = j)%nat.
Proof.
  intros H. split; [rewrite Nat.add_comm, Nat.div_add by lia; rewrite Nat.div_small; lia|rewrite Nat.add_comm, Nat.mod_add by lia; now apply Nat.mod_small].
Qed.
Lemma above_lt l i : In i (above l) -> (i < l)%nat.
Proof.
  unfold above. intros H. apply in_map_iff in H. destruct H as (t & <- & Ht). apply in_seq in Ht. pose proof (Nat.div_mod l cols ltac:(lia)). pose proof (Nat.mod_upper_bound l cols ltac:(lia)). nia.
Qed.
Lemma left_lt l i : In i (left_of l) -> (i < l)%nat.
Proof.
  unfold left_of. intros H. apply in_map_iff in H. destruct H as (t & <- & Ht). apply in_seq in Ht. pose proof (Nat.div_mod l cols ltac:(lia)). nia.
Qed.
Lemma split_map_seq {A} (h : nat -> A) n s p l q : map h (seq s n) = p ++ l :: q -> l = h (s + length p)%nat /\ p = map h (seq s (length p)) /\ (length p < n)%nat.
Proof.
  revert s p. induction n as [|n IH]; intros s p E; [destruct p; discriminate|]. destruct p as [|a p]; cbn [seq map app length] in *.
  - injection E as E1 E2. rewrite Nat.add_0_r. split; [now symmetry|]. split; [reflexivity|lia].
  - injection E as E1 E2. destruct (IH _ _ E2) as (I1 & I2 & I3). split; [rewrite I1; f_equal; lia|]. split; [|lia]. now rewrite <- I2, E1.
Qed.
Definition column_lines (n : nat) : list (list nat) := map (fun j => map (fun t => (j + t * cols)%nat) (seq 0 n)) (seq 0 cols).
Definition row_lines (n : nat) : list (list nat) := map (fun i => map (fun t => (i * cols + t)%nat) (seq 0 cols)) (seq 0 n).
Lemma column_lines_ok n : Forall (fun L => forall p l q, L = p ++ l :: q -> above l = p) (column_lines n).
Proof.
  apply Forall_forall. intros L HL p l q E. apply in_map_iff in HL. destruct HL as (j & <- & Hj). apply in_seq in Hj. destruct (split_map_seq _ _ _ _ _ _ E) as (E1 & E2 & E3).
  unfold above. subst l. cbn [Nat.add]. rewrite (Nat.add_comm j). destruct (div_mod_at (length p) j ltac:(lia)) as [-> ->]. now symmetry.
Qed.
Lemma row_lines_ok n : Forall (fun L => forall p l q, L = p ++ l :: q -> left_of l = p) (row_lines n).
Proof.
  apply Forall_forall. intros L HL p l q E. apply in_map_iff in HL. destruct HL as (i & <- & Hi). destruct (split_map_seq _ _ _ _ _ _ E) as (E1 & E2 & E3).
  unfold left_of. subst l. cbn [Nat.add]. destruct (div_mod_at i (length p) E3) as [-> ->]. now symmetry.
Qed.
Lemma row_sum n (h : nat -> R) : Rsum (map h (seq 0 (n * cols))) = Rsum (map (fun L => Rsum (map h L)) (row_lines n)).
Proof.
  unfold row_lines. rewrite map_map. induction n as [|n IH]; [reflexivity|]. rewrite Nat.mul_succ_l, seq_app, map_app, sum_app, IH. rewrite seq_S, map_app, sum_app. cbn [map Nat.add]. rewrite Rsum_cons. cbn [Rsum fold_right].
  rewrite Rplus_0_r. f_equal. f_equal. rewrite map_map. clear IH. generalize (n * cols)%nat as o. intros o. rewrite <- (Nat.add_0_r o) at 1. generalize 0%nat as s. generalize cols as m.
  induction m as [|m IH]; intros s; [reflexivity|]. cbn [seq map]. f_equal. rewrite <- Nat.add_succ_r. apply IH.
Qed.
Lemma column_sum n (h : nat -> R) : Rsum (map h (seq 0 (n * cols))) = Rsum (map (fun L => Rsum (map h L)) (column_lines n)).
Proof.
  rewrite row_sum. unfold row_lines, column_lines. rewrite !map_map.
  rewrite (map_ext _ (fun i => Rsum (map (fun j => h (i * cols + j)%nat) (seq 0 cols)))) by (intros i; now rewrite map_map).
  rewrite Rsum_swap. f_equal. apply map_ext. intros j. rewrite map_map. f_equal. apply map_ext. intros i. f_equal. lia.
Qed.
Context (G : list R -> list R) (gain : R) (HG : tame gain 0 0 G).
Definition on_columns : list R -> list R := lift G above.
Definition on_rows : list R -> list R := lift G left_of.
Lemma on_columns_tame : tame gain 0 0 on_columns.
Proof. apply (lift_tame G gain HG above cols column_lines); auto using above_lt, column_lines_ok, column_sum. Qed.
Lemma on_rows_tame : tame gain 0 0 on_rows.
Proof. apply (lift_tame G gain HG left_of cols row_lines); auto using left_lt, row_lines_ok, row_sum. Qed.

(** ** Images *)
Lemma concat_nth : forall (im : image R) rows i j, shape rows cols im -> (i < rows)%nat -> (j < cols)%nat -> nth (i * cols + j) (concat im) 0 = pixel im i j.
Proof.
  induction im as [|r im IH]; intros rows i j [HL HF] Hi Hj; [cbn in HL; lia|]. inversion HF as [|? ? Hr HF']; subst. cbn [concat length] in *. destruct i as [|i].
  - cbn [Nat.mul Nat.add]. rewrite app_nth1 by lia. reflexivity.
  - rewrite app_nth2 by lia. replace (S i * length r + j - length r)%nat with (i * length r + j)%nat by lia.
    rewrite (IH (length im) i j) by (try split; auto; lia). reflexivity.
Qed.
Lemma concat_length (im : image R) rows : shape rows cols im -> length (concat im) = (rows * cols)%nat.
Proof.
  intros [HL HF]. revert rows HL. induction HF as [|r im Hr HF IH]; intros rows HL; cbn [concat length] in *; [now subst|]. rewrite app_length, (IH (length im) eq_refl). lia.
Qed.
Lemma flat_ext rows (x : list R) (im : image R) : shape rows cols im -> length x = (rows * cols)%nat ->
  (forall i j, (i < rows)%nat -> (j < cols)%nat -> nth (i * cols + j) x 0 = pixel im i j) -> concat im = x.
Proof.
  intros Hs Hx H. apply (nth_ext _ _ 0 0); [rewrite (concat_length im rows Hs); now symmetry|]. intros l Hl. rewrite (concat_length im rows Hs) in Hl.
  pose proof (Nat.div_mod l cols ltac:(lia)) as E. pose proof (Nat.mod_upper_bound l cols ltac:(lia)) as Hm.
  assert (Hd : (l / cols < rows)%nat) by (apply Nat.div_lt_upper_bound; lia).
  replace l with (l / cols * cols + l mod cols)%nat by lia. rewrite (concat_nth im rows) by assumption. now rewrite H.
Qed.
Lemma lift_nth (pre : nat -> list nat) (x : list R) l : (l < length x)%nat -> nth l (lift G pre x) 0 = last (G (line_at pre l x)) 0.
Proof.
  intros Hl. unfold lift. rewrite (nth_indep _ 0 (last (G (line_at pre 0 x)) 0)) by (rewrite map_length, seq_length; exact Hl).
  rewrite (map_nth (fun l => last (G (line_at pre l x)) 0)). now rewrite seq_nth.
Qed.
Lemma part_last (y : list R) i : (i < length y)%nat -> last (G (firstn (S i) y)) 0 = nth i (G y) 0.
Proof.
  intros Hi. rewrite (tm_prefix _ _ _ _ HG). rewrite <- (tm_length _ _ _ _ HG) in Hi. generalize dependent (G y). intros z Hz.
  revert i Hz. induction z as [|a z IH]; intros i Hz; [cbn in Hz; lia|]. destruct i as [|i]; [reflexivity|]. cbn [firstn nth].
  rewrite <- (IH i) by (cbn in Hz; lia). destruct z as [|b z]; [cbn in Hz; lia|]. reflexivity.
Qed.
Lemma first_values (y : list R) i : (i < length y)%nat -> map (fun t => nth t y 0) (seq 0 i) ++ [nth i y 0] = firstn (S i) y.
Proof.
  intros Hi. transitivity (firstn (S i) (map (fun t => nth t y 0) (seq 0 (length y)))); [|now rewrite map_nth_seq]. rewrite firstn_map_seq, Nat.min_l by lia. rewrite seq_S, map_app. reflexivity.
Qed.
Lemma columns_flat (im im' : image R) rows : shape rows cols im -> shape rows cols im' ->
  (forall j, (j < cols)%nat -> column_of im' j = G (column_of im j)) -> concat im' = on_columns (concat im).
Proof.
  intros Hs Hs' H. apply (flat_ext rows); [exact Hs'| |].
  - unfold on_columns, lift. rewrite map_length, seq_length. now apply concat_length.
  - intros i j Hi Hj. unfold on_columns. rewrite lift_nth by (rewrite (concat_length im rows Hs); nia). unfold line_at, above, at_.
    destruct (div_mod_at i j Hj) as [-> ->]. rewrite map_map.
    pose proof (column_length im rows cols j Hs) as HL.
    rewrite (map_ext_in _ (fun t => nth t (column_of im j) 0)).
    + rewrite (concat_nth im rows) by assumption. rewrite <- (nth_column im i j), first_values, part_last by lia. rewrite <- (H j Hj). now rewrite nth_column.
    + intros t Ht. apply in_seq in Ht. rewrite (Nat.add_comm j), (concat_nth im rows) by (assumption || lia). now rewrite nth_column.
Qed.
Lemma rows_flat (im im' : image R) rows : shape rows cols im -> shape rows cols im' ->
  (forall i, (i < rows)%nat -> nth i im' [] = G (nth i im [])) -> concat im' = on_rows (concat im).
Proof.
  intros Hs Hs' H. apply (flat_ext rows); [exact Hs'| |].
  - unfold on_rows, lift. rewrite map_length, seq_length. now apply concat_length.
  - intros i j Hi Hj. unfold on_rows. rewrite lift_nth by (rewrite (concat_length im rows Hs); nia). unfold line_at, left_of, at_.
    destruct (div_mod_at i j Hj) as [-> ->]. rewrite map_map.
    assert (HL : length (nth i im []) = cols) by (destruct Hs as [HL HF]; rewrite Forall_forall in HF; apply HF, nth_In; lia).
    rewrite (map_ext_in _ (fun t => nth t (nth i im []) 0)).
    + rewrite (concat_nth im rows) by assumption. change (pixel im i j) with (nth j (nth i im []) 0). rewrite first_values, part_last by lia. now rewrite <- (H i Hi).
    + intros t Ht. apply in_seq in Ht. rewrite (concat_nth im rows) by (assumption || lia). reflexivity.
Qed.
End Lines.
