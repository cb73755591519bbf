(** * Maps of images that leave some columns or rows alone. *)
From Coq Require Import ZArith List Bool Reals Lra Lia.
From Verif Require Import Num Py RFacts CCDModel TrapsModel ManagerModel ROEModel ClockModel MainModel Spec SpecImage SpecReadout SpecColumn SpecRecovery WmFacts ClockFacts MainFacts ROEMatrixFacts OrderFacts TameFacts MainReadoutFacts RecoverImageFacts PhaseOrderFacts LiftFacts SteadyFacts.
Import ListNotations.
Open Scope R_scope.

Lemma sum_at (x : list R) : Rsum (map (at_ x) (seq 0 (length x))) = Rsum x.
Proof. pose proof (total_cols (length x) x (le_n _)) as E. unfold total in E. rewrite <- E. f_equal. apply map_ext. intros i. unfold at_, col_of. now rewrite Nat2Z.id. Qed.
Lemma ordered_at (x y : list R) : Forall2 Rle x y <-> length x = length y /\ forall i, (i < length x)%nat -> at_ x i <= at_ y i.
Proof.
  split.
  - intros H. split; [now apply ordered_length|]. intros i _. now apply at_ordered.
  - revert y. induction x as [|a x IH]; intros [|b y] [HL H]; try discriminate; constructor; [apply (H 0%nat); cbn; lia|]. apply IH. split; [cbn in HL; lia|]. intros i Hi. apply (H (S i)). cbn. lia.
Qed.
Lemma steady_weaken gain big big' F : steady gain big F -> big <= big' -> steady gain big' F.
Proof.
  intros [H1 H2 H3 H4 H5 H6 H7] Hb. split; auto. intros y x H. specialize (H4 y x H). eapply Rle_trans; [exact H4|]. apply Rmult_le_compat_r; [|exact Hb].
  apply ordered_at in H as [HL H]. rewrite <- (sum_at x), <- (sum_at y), HL. assert (Rsum (map (at_ y) (seq 0 (length x))) <= Rsum (map (at_ x) (seq 0 (length x)))); [|lra].
  apply Rsum_le. intros i Hi. apply in_seq in Hi. apply H. lia.
Qed.
Definition mask (sel : nat -> bool) (F : list R -> list R) (x : list R) : list R :=
  map (fun l => if sel l then at_ (F x) l else at_ x l) (seq 0 (length x)).
Lemma mask_length sel F x : length (mask sel F x) = length x.
Proof. unfold mask. now rewrite map_length, seq_length. Qed.
Lemma mask_at sel F x l : (l < length x)%nat -> at_ (mask sel F x) l = if sel l then at_ (F x) l else at_ x l.
Proof. intros H. unfold mask, at_ at 1. rewrite nth_map_seq by exact H. reflexivity. Qed.
Lemma last_at (x : list R) : last x 0 = at_ x (length x - 1).
Proof. unfold at_. induction x as [|a x IH]; [reflexivity|]. destruct x as [|b x]; [reflexivity|]. change (last (a :: b :: x) 0) with (last (b :: x) 0). rewrite IH. cbn [length]. now replace (S (S (length x)) - 1)%nat with (S (S (length x) - 1)) by lia. Qed.
Lemma mask_steady sel gain big F : steady gain big F -> gain <= 1 -> 1 <= big ->
  (forall x z l, length x = length z -> (l < length x)%nat -> sel l = true -> (forall i, (i < length x)%nat -> sel i = true -> at_ x i = at_ z i) -> at_ (F x) l = at_ (F z) l) ->
  steady gain big (mask sel F).
Proof.
  intros H Hg Hb Hind. pose proof H as [H1 H2 H3 H4 H5 H6 H7].
  assert (LL : forall p a, last (mask sel F (p ++ [a])) 0 = if sel (length p) then last (F (p ++ [a])) 0 else a).
  { intros p a. rewrite last_at, mask_length, app_length. cbn [length]. replace (length p + 1 - 1)%nat with (length p) by lia. rewrite mask_at by (rewrite app_length; cbn; lia).
    rewrite last_at, H1, app_length. cbn [length]. replace (length p + 1 - 1)%nat with (length p) by lia. destruct (sel (length p)); [reflexivity|]. unfold at_. rewrite app_nth2, Nat.sub_diag by lia. reflexivity. }
  split.
  - apply mask_length.
  - intros i x. apply (nth_ext _ _ 0 0); [rewrite firstn_length, !mask_length, firstn_length; reflexivity|]. intros l Hl. rewrite mask_length, firstn_length in Hl.
    assert (E : forall z, nth l (firstn i z) 0 = nth l z 0).
    { intros z. rewrite <- (firstn_skipn i z) at 2. destruct (Nat.lt_ge_cases l (length (firstn i z))) as [Hlt|Hge]; [now rewrite app_nth1|]. rewrite (nth_overflow (firstn i z)) by exact Hge.
      rewrite firstn_length in Hge. rewrite nth_overflow; [reflexivity|]. rewrite firstn_skipn. lia. }
    rewrite E. change (at_ (mask sel F (firstn i x)) l = at_ (mask sel F x) l). rewrite !mask_at by (rewrite ?firstn_length; lia). rewrite H2. unfold at_. now rewrite !E.
  - intros y x Hyx. pose proof (H3 y x Hyx) as HF. apply ordered_at in Hyx as [L1 O1]. apply ordered_at in HF as [L2 O2]. apply ordered_at. rewrite !mask_length. split; [exact L1|]. intros i Hi.
    rewrite !mask_at by lia. destruct (sel i); [apply O2; now rewrite H1|now apply O1].
  - intros y x Hyx. pose proof Hyx as Hyx'. apply ordered_at in Hyx' as [L1 O1]. set (n := length x) in *.
    set (z := map (fun l => if sel l then at_ y l else at_ x l) (seq 0 n)).
    assert (Lz : length z = n) by (unfold z; now rewrite map_length, seq_length).
    assert (Az : forall l, (l < n)%nat -> at_ z l = if sel l then at_ y l else at_ x l) by (intros l Hl; unfold z, at_ at 1; rewrite nth_map_seq by exact Hl; reflexivity).
    assert (Hzx : Forall2 Rle z x) by (apply ordered_at; split; [exact Lz|]; rewrite Lz; intros i Hi; rewrite (Az i Hi); destruct (sel i); [apply O1; lia|lra]).
    pose proof (H4 z x Hzx) as Hs. pose proof (H3 z x Hzx) as Ho. apply ordered_at in Ho as [_ Ho]. rewrite H1, Lz in Ho.
    assert (SS : forall u, length u = n -> Rsum u = Rsum (map (at_ u) (seq 0 n))) by (intros u Hu; rewrite <- Hu; symmetry; apply sum_at).
    rewrite (SS (F x)), (SS (F z)), (SS x eq_refl), (SS z Lz) in Hs by (rewrite H1; auto).
    rewrite (SS (mask sel F x)), (SS (mask sel F y)), (SS x eq_refl), (SS y L1) by (rewrite mask_length; auto).
    assert (MM : forall f g : nat -> R, Rsum (map f (seq 0 n)) - Rsum (map g (seq 0 n)) = Rsum (map (fun l => f l - g l) (seq 0 n))).
    { intros f g. assert (E : Rsum (map f (seq 0 n)) = Rsum (map (fun l => (f l - g l) + g l) (seq 0 n))) by (f_equal; apply map_ext; intros l; lra). rewrite E, Rsum_plus. lra. }
    rewrite !MM in Hs. rewrite !MM.
    assert (S1 : Rsum (map (fun l => at_ (mask sel F x) l - at_ (mask sel F y) l) (seq 0 n)) <=
                 Rsum (map (fun l => at_ (F x) l - at_ (F z) l) (seq 0 n)) + Rsum (map (fun l => if sel l then 0 else at_ x l - at_ y l) (seq 0 n))).
    { rewrite <- Rsum_plus. apply Rsum_le. intros l Hl. apply in_seq in Hl. rewrite !mask_at by lia. destruct (sel l) eqn:El.
      - rewrite (Hind y z l) by (try lia; try exact El; intros i Hi Hsel; rewrite Az, Hsel by lia; reflexivity). lra.
      - specialize (Ho l ltac:(lia)). lra. }
    assert (S2 : Rsum (map (fun l => at_ x l - at_ z l) (seq 0 n)) + Rsum (map (fun l => if sel l then 0 else at_ x l - at_ y l) (seq 0 n)) = Rsum (map (fun l => at_ x l - at_ y l) (seq 0 n))).
    { rewrite <- Rsum_plus. apply Rsum_ext. intros l Hl. apply in_seq in Hl. rewrite Az by lia. destruct (sel l); lra. }
    assert (S3 : 0 <= Rsum (map (fun l => if sel l then 0 else at_ x l - at_ y l) (seq 0 n))).
    { apply Rsum_nonneg, Forall_map, Forall_forall. intros l Hl. apply in_seq in Hl. destruct (sel l); [lra|]. specialize (O1 l ltac:(lia)). lra. }
    rewrite <- S2. nra.
  - intros p a b Hab. rewrite !LL. destruct (sel (length p)); [now apply H5|lra].
  - intros p a b Hab H0. rewrite !LL. destruct (sel (length p)); [now apply H6|]. nra.
  - intros p b H0. rewrite LL. destruct (sel (length p)); [now apply H7|exact H0].
Qed.

(** ** Columns and rows *)
Section Lines.
Context (cols : nat) (Hcols : (0 < cols)%nat) (G : list R -> list R) (gain big : R) (HG : steady gain big G) (Hgain : gain <= 1) (Hbig : 1 <= big).
Context (sel : nat -> bool).
Lemma lift_local (pre : nat -> list nat) x z l : (forall i, In i (pre l) -> (i < l)%nat) -> length x = length z -> (l < length x)%nat -> (forall i, In i (l :: pre l) -> at_ x i = at_ z i) ->
  at_ (lift G pre x) l = at_ (lift G pre z) l.
Proof.
  intros Hp HL Hl H. unfold lift, at_. rewrite !nth_map_seq by lia. do 2 f_equal. unfold line_at. rewrite (H l) by now left. f_equal. apply map_ext_in. intros i Hi. apply H. now right.
Qed.
Definition some_columns : list R -> list R := mask (fun l => sel (l mod cols)) (on_columns cols G).
Definition some_rows : list R -> list R := mask (fun l => sel (l / cols)) (on_rows cols G).
Lemma some_columns_steady : steady gain big some_columns.
Proof.
  apply mask_steady; auto; [apply on_columns_steady; auto; lra|]. intros x z l HL Hl Hs H. apply lift_local; auto; [intros i; apply above_lt; exact Hcols|].
  intros i Hi. assert (Hm : (i mod cols = l mod cols)%nat /\ (i <= l)%nat).
  { destruct Hi as [<-|Hi]; [auto|]. split; [|apply (above_lt cols Hcols) in Hi; lia]. unfold above in Hi. apply in_map_iff in Hi as (t & <- & _). rewrite Nat.mod_add by lia. apply Nat.mod_mod. lia. }
  apply H; [lia|]. now rewrite (proj1 Hm).
Qed.
Lemma some_rows_steady : steady gain big some_rows.
Proof.
  apply mask_steady; auto; [apply on_rows_steady; auto; lra|]. intros x z l HL Hl Hs H. apply lift_local; auto; [intros i; apply left_lt; exact Hcols|].
  intros i Hi. assert (Hm : (i / cols = l / cols)%nat /\ (i <= l)%nat).
  { destruct Hi as [<-|Hi]; [auto|]. split; [|apply (left_lt cols Hcols) in Hi; lia]. unfold left_of in Hi. apply in_map_iff in Hi as (t & <- & Ht). apply in_seq in Ht.
    pose proof (Nat.mod_upper_bound l cols ltac:(lia)). exact (proj1 (div_mod_at cols Hcols (l / cols) t ltac:(lia))). }
  apply H; [lia|]. now rewrite (proj1 Hm).
Qed.
Lemma some_columns_flat (im im' : image R) rows : shape rows cols im -> shape rows cols im' ->
  (forall j, (j < cols)%nat -> column_of im' j = if sel j then G (column_of im j) else column_of im j) -> concat im' = some_columns (concat im).
Proof.
  intros Hs Hs' H. apply (flat_ext cols Hcols rows); [exact Hs'| |].
  - unfold some_columns. rewrite mask_length. now apply (concat_length cols Hcols).
  - intros i j Hi Hj. change (nth (i * cols + j) (some_columns (concat im)) 0) with (at_ (some_columns (concat im)) (i * cols + j)). unfold some_columns.
    rewrite mask_at by (rewrite (concat_length cols Hcols im rows Hs); nia). destruct (div_mod_at cols Hcols i j Hj) as [_ ->]. specialize (H j Hj).
    destruct (sel j).
    + unfold on_columns, at_ at 1. rewrite lift_nth by (rewrite (concat_length cols Hcols im rows Hs); nia). unfold line_at, above, at_.
      destruct (div_mod_at cols Hcols i j Hj) as [-> ->]. rewrite map_map.
      pose proof (column_length im rows cols j Hs) as HL.
      rewrite (map_ext_in _ (fun t => nth t (column_of im j) 0)).
      * rewrite (concat_nth cols Hcols im rows) by assumption. rewrite <- (nth_column im i j), (first_values cols Hcols), (steady_part_last cols Hcols G gain big HG) by lia. rewrite <- H. now rewrite nth_column.
      * intros t Ht. apply in_seq in Ht. rewrite (Nat.add_comm j), (concat_nth cols Hcols im rows) by (assumption || lia). now rewrite nth_column.
    + unfold at_. rewrite (concat_nth cols Hcols im rows) by assumption. rewrite <- (nth_column im i j), <- H. now rewrite nth_column.
Qed.
Lemma some_rows_flat (im im' : image R) rows : shape rows cols im -> shape rows cols im' ->
  (forall i, (i < rows)%nat -> nth i im' [] = if sel i then G (nth i im []) else nth i im []) -> concat im' = some_rows (concat im).
Proof.
  intros Hs Hs' H. apply (flat_ext cols Hcols rows); [exact Hs'| |].
  - unfold some_rows. rewrite mask_length. now apply (concat_length cols Hcols).
  - intros i j Hi Hj. change (nth (i * cols + j) (some_rows (concat im)) 0) with (at_ (some_rows (concat im)) (i * cols + j)). unfold some_rows.
    rewrite mask_at by (rewrite (concat_length cols Hcols im rows Hs); nia). destruct (div_mod_at cols Hcols i j Hj) as [-> _]. specialize (H i Hi).
    destruct (sel i).
    + unfold on_rows, at_ at 1. rewrite lift_nth by (rewrite (concat_length cols Hcols im rows Hs); nia). unfold line_at, left_of, at_.
      destruct (div_mod_at cols Hcols i j Hj) as [-> ->]. rewrite map_map.
      assert (HL : length (nth i im []) = cols) by (destruct Hs as [HL HF]; rewrite Forall_forall in HF; apply HF, nth_In; lia).
      rewrite (map_ext_in _ (fun t => nth t (nth i im []) 0)).
      * rewrite (concat_nth cols Hcols im rows) by assumption. change (pixel im i j) with (nth j (nth i im []) 0). rewrite (first_values cols Hcols), (steady_part_last cols Hcols G gain big HG) by lia. now rewrite <- H.
      * intros t Ht. apply in_seq in Ht. rewrite (concat_nth cols Hcols im rows) by (assumption || lia). reflexivity.
    + unfold at_. rewrite (concat_nth cols Hcols im rows) by assumption. unfold pixel. now rewrite H.
Qed.
End Lines.
