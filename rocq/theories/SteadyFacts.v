(** * Maps of columns that keep their order and enlarge differences by a bounded factor at most. *)
From Coq Require Import ZArith List Bool Reals Lra Lia.
From Verif Require Import Num Py RFacts CCDModel TrapsModel ManagerModel ROEModel ClockModel MainModel Spec SpecImage SpecReadout SpecColumn SpecRecovery WmFacts ClockFacts MainFacts OrderFacts TameFacts MainReadoutFacts RecoverImageFacts PhaseOrderFacts LiftFacts.
Import ListNotations.
Open Scope R_scope.

(** As [tame], except that a difference may grow elsewhere by the factor [big]; the response of
    a pixel to itself is still at most its change. *)
Record steady (gain big : R) (F : list R -> list R) : Prop := {
  st_length : forall x, length (F x) = length x;
  st_prefix : forall i x, F (firstn i x) = firstn i (F x);
  st_mono : forall y x, Forall2 Rle y x -> Forall2 Rle (F y) (F x);
  st_sum : forall y x, Forall2 Rle y x -> Rsum (F x) - Rsum (F y) <= big * (Rsum x - Rsum y);
  st_own : forall p a b, b <= a -> last (F (p ++ [a])) 0 - last (F (p ++ [b])) 0 <= a - b;
  st_grow : forall p a b, b <= a -> 0 <= b -> gain * (a - b) <= last (F (p ++ [a])) 0 - last (F (p ++ [b])) 0;
  st_floor : forall p b, 0 <= b -> 0 <= last (F (p ++ [b])) 0
}.
Section One.
Context {gain big : R} {F : list R -> list R} (H : steady gain big F).
Lemma steady_snoc p a : F (p ++ [a]) = F p ++ [last (F (p ++ [a])) 0].
Proof.
  assert (E : F p = firstn (length p) (F (p ++ [a]))).
  { rewrite <- (st_prefix _ _ _ H), firstn_app, Nat.sub_diag, firstn_all. cbn [firstn]. rewrite app_nil_r. reflexivity. }
  assert (L : length (F (p ++ [a])) = S (length p)) by (rewrite (st_length _ _ _ H), app_length; cbn; lia).
  destruct (exists_last (l := F (p ++ [a]))) as (q & z & Eq); [intros E0; rewrite E0 in L; discriminate|].
  rewrite Eq in *. rewrite last_last. rewrite app_length in L. cbn in L.
  rewrite E, firstn_app. replace (length p - length q)%nat with 0%nat by lia. cbn [firstn]. rewrite app_nil_r, firstn_all2 by lia. reflexivity.
Qed.
Lemma steady_step p a b : b <= a -> 0 <= last (F (p ++ [a])) 0 - last (F (p ++ [b])) 0 <= a - b.
Proof.
  intros Hab. split; [|now apply (st_own _ _ _ H)]. assert (O : Forall2 Rle (p ++ [b]) (p ++ [a])) by (apply Forall2_app; [apply ordered_refl|constructor; [lra|constructor]]).
  pose proof (last_ordered _ _ (st_mono _ _ _ H _ _ O)). lra.
Qed.
End One.
Lemma tame_steady gain F : tame gain 0 0 F -> steady gain 1 F.
Proof.
  intros H. constructor; try apply H.
  - intros y x O. rewrite Rmult_1_l. now apply (tm_sum _ _ _ _ H).
  - intros p a b Hab. apply (tame_step H p a b Hab).
Qed.
Lemma steady_id : steady 1 1 (fun x => x). Proof. apply tame_steady, tame_id. Qed.
Lemma steady_compose g1 g2 b1 b2 F G : 0 <= g2 -> 0 <= b2 -> steady g1 b1 F -> steady g2 b2 G -> steady (g1 * g2) (b1 * b2) (fun x => G (F x)).
Proof.
  intros Hg Hb HF HG. constructor.
  - intros x. rewrite (st_length _ _ _ HG), (st_length _ _ _ HF). reflexivity.
  - intros i x. rewrite (st_prefix _ _ _ HF), (st_prefix _ _ _ HG). reflexivity.
  - intros y x O. apply HG, HF, O.
  - intros y x O. pose proof (st_sum _ _ _ HF y x O) as S1. pose proof (st_sum _ _ _ HG _ _ (st_mono _ _ _ HF y x O)) as S2.
    apply (Rmult_le_compat_l b2 _ _ Hb) in S1. lra.
  - intros p a b Hab. rewrite (steady_snoc HF p a), (steady_snoc HF p b). pose proof (steady_step HF p a b Hab). pose proof (steady_step HG (F p) (last (F (p ++ [a])) 0) (last (F (p ++ [b])) 0) ltac:(lra)). lra.
  - intros p a b Hab Hb0. rewrite (steady_snoc HF p a), (steady_snoc HF p b).
    pose proof (steady_step HF p a b Hab). pose proof (st_grow _ _ _ HF p a b Hab Hb0) as G0. pose proof (st_floor _ _ _ HF p b Hb0) as F0.
    pose proof (st_grow _ _ _ HG (F p) (last (F (p ++ [a])) 0) (last (F (p ++ [b])) 0) ltac:(lra) F0).
    pose proof (Rmult_le_compat_l g2 _ _ Hg G0). lra.
  - intros p b Hb0. rewrite (steady_snoc HF p b). apply HG, HF, Hb0.
Qed.
Lemma steady_apart g big F x y : steady g big F -> length x = length y -> apart (F x) (F y) <= big * apart x y.
Proof.
  intros HF E. destruct (highest_ordered x y E) as [O1 O2]. rewrite (highest_apart x y E).
  pose proof (apart_below (F (highest x y)) (F x) (F y) (st_mono _ _ _ HF _ _ O1) (st_mono _ _ _ HF _ _ O2)).
  pose proof (st_sum _ _ _ HF _ _ O1). pose proof (st_sum _ _ _ HF _ _ O2). lra.
Qed.
Lemma steady_injective g big F : steady g big F -> 0 < g -> forall x y, length x = length y -> Forall (Rle 0) x -> Forall (Rle 0) y ->
  F x = F y -> x = y.
Proof.
  intros HF Hg. induction x as [|a x IH] using rev_ind; intros y E Hx Hy EF.
  - destruct y; [reflexivity|discriminate].
  - destruct (exists_last (l := y)) as (q & b & Eq); [intros E0; rewrite E0, app_length in E; cbn in E; lia|].
    rewrite Eq in *. rewrite !app_length in E. cbn in E. apply Forall_app in Hx as [Hx1 Hx2], Hy as [Hy1 Hy2].
    inversion Hx2; inversion Hy2; subst. rewrite (steady_snoc HF x a), (steady_snoc HF q b) in EF.
    apply app_inj_tail in EF as [E1 E2]. assert (x = q) by (apply IH; auto; lia). subst q. f_equal. f_equal.
    destruct (Rle_dec a b).
    + pose proof (st_grow _ _ _ HF x b a ltac:(lra) ltac:(lra)). nra.
    + pose proof (st_grow _ _ _ HF x a b ltac:(lra) ltac:(lra)). nra.
Qed.

Section Converge.
Context (gain big : R) (F : list R -> list R) (H : steady gain big F) (Hbig : 0 <= big) (Hgain : 0 < gain <= 1).
Lemma st_corrected_length im k : length (corrected F im k) = length im.
Proof. induction k; cbn; [reflexivity|]. rewrite plus_list_length; auto. rewrite (st_length _ _ _ H). auto. Qed.
Fixpoint st_last_of (p : nat -> list R) (start : R) (k : nat) : R :=
  match k with O => start | S j => let b := st_last_of p start j in b + (start - last (F (p j ++ [b])) 0) end.
Lemma st_corrected_snoc q im k : let start := im in
  corrected F (q ++ [start]) k = corrected F q k ++ [st_last_of (corrected F q) start k].
Proof.
  cbv zeta. induction k as [|k IH]; [reflexivity|]. cbn [corrected st_last_of]. cbv zeta. rewrite IH, (steady_snoc H).
  rewrite plus_list_snoc; [rewrite last_last; reflexivity|apply st_corrected_length|]. rewrite (st_length _ _ _ H), st_corrected_length. reflexivity.
Qed.
Lemma st_one_correction p b b' e : length p = length e -> 0 < b' -> forall D, Rabs (b - b') <= D -> 0 < D ->
  let b2 := b + (last (F (p ++ [b'])) 0 - last (F (e ++ [b])) 0) in
  Rabs (b2 - b') <= Rabs (b - b') + big * apart e p /\
  Rabs (b2 - b') <= (1 - gain * Rmin 1 ((b' - 0) / D)) * Rabs (b - b') + big * apart e p.
Proof.
  intros El Hb' D HD HD0 b2.
  assert (N : Rabs (last (F (e ++ [b])) 0 - last (F (p ++ [b])) 0) <= big * apart e p).
  { pose proof (steady_apart _ _ _ (e ++ [b]) (p ++ [b]) H ltac:(rewrite !app_length; lia)) as K.
    rewrite (apart_app e p) in K by lia. cbn [apart] in K. rewrite Rminus_eq_0, Rabs_R0 in K.
    rewrite (steady_snoc H e), (steady_snoc H p) in K. rewrite apart_app in K by (rewrite !(st_length _ _ _ H); lia).
    cbn [apart] in K. pose proof (apart_nonneg (F e) (F p)). lra. }
  assert (M : Rabs (b2 - b') <= Rabs ((b - b') - (last (F (p ++ [b])) 0 - last (F (p ++ [b'])) 0)) + big * apart e p).
  { unfold b2. replace (b + (last (F (p ++ [b'])) 0 - last (F (e ++ [b])) 0) - b')
      with (((b - b') - (last (F (p ++ [b])) 0 - last (F (p ++ [b'])) 0)) + - (last (F (e ++ [b])) 0 - last (F (p ++ [b])) 0)) by lra.
    eapply Rle_trans; [apply Rabs_triang|]. rewrite Rabs_Ropp. lra. }
  set (m := Rmin 1 ((b' - 0) / D)).
  assert (Hm : 0 < m <= 1 /\ m * D <= b' - 0).
  { unfold m. assert (0 < (b' - 0) / D) by (apply Rdiv_lt_0_compat; lra). split; [split; [apply Rmin_glb_lt; lra|apply Rmin_l]|].
    pose proof (Rmin_r 1 ((b' - 0) / D)) as K. apply (Rmult_le_compat_r D) in K; [|lra]. field_simplify ((b' - 0) / D * D) in K; lra. }
  assert (Q : Rabs ((b - b') - (last (F (p ++ [b])) 0 - last (F (p ++ [b'])) 0)) <= (1 - gain * m) * Rabs (b - b')).
  { destruct (Rle_dec b' b) as [Hbb|Hbb].
    - pose proof (steady_step H p b b' Hbb). pose proof (st_grow _ _ _ H p b b' Hbb ltac:(lra)).
      rewrite (Rabs_right (b - b')) by lra. rewrite Rabs_right by lra.
      assert (gain * m * (b - b') <= gain * (b - b')) by (apply Rmult_le_compat_r; [lra|]; nra). lra.
    - apply Rnot_le_lt in Hbb. pose proof (steady_step H p b' b ltac:(lra)) as S1.
      rewrite (Rabs_left (b - b')) in * by lra.
      assert (G : gain * m * (b' - b) <= last (F (p ++ [b'])) 0 - last (F (p ++ [b])) 0).
      { destruct (Rle_dec 0 b) as [Ht|Ht].
        - pose proof (st_grow _ _ _ H p b' b ltac:(lra) Ht). assert (gain * m * (b' - b) <= gain * (b' - b)) by (apply Rmult_le_compat_r; [lra|]; nra). lra.
        - pose proof (st_grow _ _ _ H p b' 0 ltac:(lra) ltac:(lra)). pose proof (steady_step H p 0 b ltac:(lra)).
          assert (m * (b' - b) <= b' - 0) by (apply Rle_trans with (m * D); [apply Rmult_le_compat_l; lra|lra]).
          assert (gain * (m * (b' - b)) <= gain * (b' - 0)) by (apply Rmult_le_compat_l; lra). lra. }
      rewrite Rabs_left1 by lra. lra. }
  split; [|lra].
  assert ((1 - gain * m) * Rabs (b - b') <= 1 * Rabs (b - b')) by (apply Rmult_le_compat_r; [apply Rabs_pos|]; nra). lra.
Qed.
Lemma steady_converges : forall x, Forall (Rlt 0) x ->
  exists C r, 0 <= C /\ 0 <= r < 1 /\ forall k, apart (corrected F (F x) k) x <= C * r ^ k.
Proof.
  induction x as [|b' x IH] using rev_ind; intros Hx.
  - exists 0, 0. repeat split; try lra. intros k. assert (E : corrected F (F []) k = []).
    { apply length_zero_iff_nil. rewrite st_corrected_length. apply (st_length _ _ _ H). }
    rewrite E. cbn. lra.
  - apply Forall_app in Hx as [Hx1 Hx2]. inversion Hx2 as [|? ? Hb _]; subst. destruct (IH Hx1) as (C & r & HC & Hr & HIH). clear IH Hx1 Hx2.
    rewrite (steady_snoc H x b'). set (start := last (F (x ++ [b'])) 0).
    set (p := corrected F (F x)) in *. set (b := st_last_of p start).
    assert (Lp : forall k, length x = length (p k)) by (intros k; unfold p; rewrite st_corrected_length, (st_length _ _ _ H); reflexivity).
    assert (HBC : 0 <= big * C) by (apply Rmult_le_pos; assumption).
    assert (B1 : forall k, Rabs (b (S k) - b') <= Rabs (b k - b') + big * C * r ^ k).
    { intros k. destruct (st_one_correction x (b k) b' (p k) (Lp k) Hb (Rabs (b k - b') + 1) ltac:(lra) ltac:(pose proof (Rabs_pos (b k - b')); lra)) as [K _].
      specialize (HIH k). apply (Rmult_le_compat_l big _ _ Hbig) in HIH. unfold b at 1. cbn [st_last_of]. fold b. cbv zeta. unfold start. lra. }
    pose proof (geometric_sum (fun k => Rabs (b k - b')) (big * C) r Hr HBC B1) as B2. cbv beta in B2.
    set (D := Rabs (b 0%nat - b') + big * C / (1 - r) + 1).
    assert (HD : 1 <= D). { unfold D. pose proof (Rabs_pos (b 0%nat - b')). assert (0 <= big * C / (1 - r)) by (apply Rmult_le_pos; [lra|]; left; apply Rinv_0_lt_compat; lra). lra. }
    set (m := Rmin 1 ((b' - 0) / D)).
    assert (Hm : 0 < m <= 1). { unfold m. assert (0 < (b' - 0) / D) by (apply Rdiv_lt_0_compat; lra). split; [apply Rmin_glb_lt; lra|apply Rmin_l]. }
    assert (B3 : forall k, Rabs (b (S k) - b') <= (1 - gain * m) * Rabs (b k - b') + big * C * r ^ k).
    { intros k. destruct (st_one_correction x (b k) b' (p k) (Lp k) Hb D ltac:(specialize (B2 k); unfold D; lra) ltac:(lra)) as [_ K].
      specialize (HIH k). apply (Rmult_le_compat_l big _ _ Hbig) in HIH. unfold b at 1. cbn [st_last_of]. fold b. cbv zeta. unfold start. unfold m. lra. }
    destruct (geometric_decay (fun k => Rabs (b k - b')) (1 - gain * m) (big * C) r) as (C' & s & HC' & Hs & B4); auto; [split; nra|].
    set (t := Rmax r s). assert (Ht : r <= t /\ s <= t /\ t < 1) by (unfold t; repeat split; [apply Rmax_l|apply Rmax_r|apply Rmax_lub_lt; lra]).
    exists (C + C'), t. split; [lra|]. split; [lra|]. intros k.
    rewrite st_corrected_snoc. fold p. fold b. rewrite apart_app by (symmetry; apply Lp). cbn [apart].
    specialize (HIH k). specialize (B4 k). cbv beta in B4.
    assert (r ^ k <= t ^ k) by (apply pow_incr; lra). assert (s ^ k <= t ^ k) by (apply pow_incr; lra).
    assert (C * r ^ k <= C * t ^ k) by (apply Rmult_le_compat_l; lra). assert (C' * s ^ k <= C' * t ^ k) by (apply Rmult_le_compat_l; lra). lra.
Qed.
End Converge.
(** ** On images *)
Section Lift.
Context (G : list R -> list R) (gain big : R) (HG : steady gain big G) (Hbig : 0 <= big).
Context (pre : nat -> list nat) (cols : nat) (lines : nat -> list (list nat)).
Hypothesis Hpre : forall l i, In i (pre l) -> (i < l)%nat.
Hypothesis Hcols : (0 < cols)%nat.
Hypothesis Hlines : forall n, Forall (fun L => forall p l q, L = p ++ l :: q -> pre l = p) (lines n).
Hypothesis Hsum : forall n (h : nat -> R), Rsum (map h (seq 0 (n * cols))) = Rsum (map (fun L => Rsum (map h L)) (lines n)).
Notation line_at := (line_at pre).
Notation lift := (lift G pre).
Lemma steady_last_ordered y x l : Forall2 Rle y x -> last (G (line_at l y)) 0 <= last (G (line_at l x)) 0.
Proof. intros H. apply last_ordered, (st_mono _ _ _ HG). now apply line_ordered. Qed.
Lemma steady_line_sum L x : (forall p l q, L = p ++ l :: q -> pre l = p) -> Rsum (G (map (at_ x) L)) = Rsum (map (fun l => last (G (line_at l x)) 0) L).
Proof.
  induction L as [|l p IH] using rev_ind; intros H.
  - cbn [map]. pose proof (st_length _ _ _ HG []) as E. destruct (G []); [reflexivity|discriminate].
  - rewrite !map_app. cbn [map]. rewrite (steady_snoc HG), !sum_app, IH.
    + f_equal. unfold line_at. rewrite (H p l [] eq_refl). reflexivity.
    + intros p' l' q ->. apply (H p' l' (q ++ [l])). now rewrite <- app_assoc.
Qed.
Lemma lift_steady : steady gain big lift.
Proof.
  assert (LL : forall p a, last (lift (p ++ [a])) 0 = last (G (map (at_ p) (pre (length p)) ++ [a])) 0).
  { intros p a. unfold lift. rewrite app_length, seq_app, map_app. cbn [length seq map Nat.add]. rewrite last_last. unfold line_at. do 3 f_equal.
    - apply map_ext_in. intros i Hi. unfold at_. rewrite app_nth1; [reflexivity|]. now apply Hpre.
    - f_equal. unfold at_. rewrite app_nth2, Nat.sub_diag by lia. reflexivity. }
  split.
  - intros x. unfold lift. now rewrite map_length, seq_length.
  - intros i x. unfold lift. rewrite firstn_map_seq, firstn_length. apply map_ext_in. intros l Hl. apply in_seq in Hl. do 2 f_equal.
    assert (E : forall k, (k <= l)%nat -> at_ (firstn i x) k = at_ x k).
    { intros k Hk. unfold at_. rewrite <- (firstn_skipn i x) at 2. rewrite app_nth1; [reflexivity|]. rewrite firstn_length. lia. }
    unfold line_at. rewrite (E l) by lia. f_equal. apply map_ext_in. intros k Hk. apply E. apply Hpre in Hk. lia.
  - intros y x H. unfold lift. rewrite (ordered_length _ _ H). apply Forall2_map_in. intros l _. now apply steady_last_ordered.
  - intros y x H. set (n := length x). pose proof (ordered_length _ _ H) as HL. fold n in HL. unfold lift. rewrite HL. fold n.
    set (u := fun l => last (G (line_at l x)) 0). set (v := fun l => last (G (line_at l y)) 0).
    assert (HN : (n <= n * cols)%nat) by nia.
    assert (S1 : Rsum (map u (seq 0 n)) - Rsum (map v (seq 0 n)) <= Rsum (map u (seq 0 (n * cols))) - Rsum (map v (seq 0 (n * cols)))).
    { replace (n * cols)%nat with (n + (n * cols - n))%nat by lia. rewrite seq_app, !map_app, !sum_app.
      assert (Rsum (map v (seq (0 + n) (n * cols - n))) <= Rsum (map u (seq (0 + n) (n * cols - n)))) by (apply Rsum_le; intros l _; now apply steady_last_ordered). lra. }
    assert (S2 : Rsum (map u (seq 0 (n * cols))) - Rsum (map v (seq 0 (n * cols))) <= big * (Rsum (map (at_ x) (seq 0 (n * cols))) - Rsum (map (at_ y) (seq 0 (n * cols))))).
    { rewrite !Hsum. pose proof (Hlines n) as HLn. revert HLn. generalize (lines n) as Ls0. intros Ls0 HLn. induction HLn as [|L Ls HL1 HLs IH]; [cbn; lra|]. cbn [map]. rewrite !Rsum_cons.
      pose proof (steady_line_sum L x HL1) as E1. pose proof (steady_line_sum L y HL1) as E2. fold u in E1. fold v in E2. rewrite <- E1, <- E2.
      assert (O : Forall2 Rle (map (at_ y) L) (map (at_ x) L)) by (apply Forall2_map_in; intros i _; now apply at_ordered).
      pose proof (st_sum _ _ _ HG _ _ O). lra. }
    assert (S3 : forall z, length z = n -> Rsum (map (at_ z) (seq 0 (n * cols))) = Rsum z).
    { intros z Hz. pose proof (total_cols (n * cols) z ltac:(lia)) as E. unfold total in E. rewrite <- E. f_equal. apply map_ext. intros i. unfold at_, col_of. now rewrite Nat2Z.id. }
    rewrite (S3 x eq_refl), (S3 y HL) in S2. lra.
  - intros p a b Hab. rewrite !LL. now apply (st_own _ _ _ HG).
  - intros p a b Hab H0. rewrite !LL. now apply (st_grow _ _ _ HG).
  - intros p b H0. rewrite LL. now apply (st_floor _ _ _ HG).
Qed.
End Lift.
Section Lines.
Context (cols : nat) (Hcols : (0 < cols)%nat) (G : list R -> list R) (gain big : R) (HG : steady gain big G) (Hbig : 0 <= big).
Lemma on_columns_steady : steady gain big (on_columns cols G).
Proof. apply (lift_steady G gain big HG (above cols) cols (column_lines cols)); eauto using above_lt, column_lines_ok, column_sum. Qed.
Lemma on_rows_steady : steady gain big (on_rows cols G).
Proof. apply (lift_steady G gain big HG (left_of cols) cols (row_lines cols)); eauto using left_lt, row_lines_ok, row_sum. Qed.
Lemma steady_part_last (y : list R) i : (i < length y)%nat -> last (G (firstn (S i) y)) 0 = nth i (G y) 0.
Proof.
  intros Hi. rewrite (st_prefix _ _ _ HG). rewrite <- (st_length _ _ _ HG) in Hi. generalize dependent (G y). intros z Hz.
  revert i Hz. induction z as [|a z IH]; intros i Hz; [cbn in Hz; lia|]. destruct i as [|i]; [reflexivity|]. cbn [firstn nth].
  rewrite <- (IH i) by (cbn in Hz; lia). destruct z as [|b z]; [cbn in Hz; lia|]. reflexivity.
Qed.
Lemma steady_columns_flat (im im' : image R) rows : shape rows cols im -> shape rows cols im' ->
  (forall j, (j < cols)%nat -> column_of im' j = G (column_of im j)) -> concat im' = on_columns cols G (concat im).
Proof.
  intros Hs Hs' H. apply (flat_ext cols Hcols rows); [exact Hs'| |].
  - unfold on_columns, lift. rewrite map_length, seq_length. now apply (concat_length cols Hcols).
  - intros i j Hi Hj. unfold on_columns. rewrite lift_nth by (rewrite (concat_length cols Hcols im rows Hs); nia). unfold line_at, above, at_.
    destruct (div_mod_at cols Hcols i j Hj) as [-> ->]. rewrite map_map.
    pose proof (column_length im rows cols j Hs) as HL.
    rewrite (map_ext_in _ (fun t => nth t (column_of im j) 0)).
    + rewrite (concat_nth cols Hcols im rows) by assumption. rewrite <- (nth_column im i j), (first_values cols Hcols), steady_part_last by lia. rewrite <- (H j Hj). now rewrite nth_column.
    + intros t Ht. apply in_seq in Ht. rewrite (Nat.add_comm j), (concat_nth cols Hcols im rows) by (assumption || lia). now rewrite nth_column.
Qed.
Lemma steady_rows_flat (im im' : image R) rows : shape rows cols im -> shape rows cols im' ->
  (forall i, (i < rows)%nat -> nth i im' [] = G (nth i im [])) -> concat im' = on_rows cols G (concat im).
Proof.
  intros Hs Hs' H. apply (flat_ext cols Hcols rows); [exact Hs'| |].
  - unfold on_rows, lift. rewrite map_length, seq_length. now apply (concat_length cols Hcols).
  - intros i j Hi Hj. unfold on_rows. rewrite lift_nth by (rewrite (concat_length cols Hcols im rows Hs); nia). unfold line_at, left_of, at_.
    destruct (div_mod_at cols Hcols i j Hj) as [-> ->]. rewrite map_map.
    assert (HL : length (nth i im []) = cols) by (destruct Hs as [HL HF]; rewrite Forall_forall in HF; apply HF, nth_In; lia).
    rewrite (map_ext_in _ (fun t => nth t (nth i im []) 0)).
    + rewrite (concat_nth cols Hcols im rows) by assumption. change (pixel im i j) with (nth j (nth i im []) 0). rewrite (first_values cols Hcols), steady_part_last by lia. now rewrite <- (H i Hi).
    + intros t Ht. apply in_seq in Ht. rewrite (concat_nth cols Hcols im rows) by (assumption || lia). reflexivity.
Qed.
End Lines.
