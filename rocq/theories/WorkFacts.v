(** * Proofs about the number of transfers that are computed (roe.py:460-583). *)
From Coq Require Import ZArith List Bool Reals Lra Lia.
From Verif Require Import Num Py RFacts ROEModel Spec SpecROE SpecWork ROEClockFacts ROEMatrixFacts ROEExpressFacts.
Import ListNotations.
Open Scope R_scope.

Definition ind (x : R) : R := if Rltb 0 x then 1 else 0.
Definition positives (m : matrix R) (j : nat) : R := Rsum (map ind (col m j)).
Lemma ind_plus b x : 0 <= x -> (0 < x -> b = 0) -> ind (b + x) = ind b + ind x.
Proof.
  intros Hx H. destruct (Rle_lt_or_eq_dec _ _ Hx) as [L|<-].
  - rewrite (H L), Rplus_0_l. unfold ind. replace (Rltb 0 0) with false by (symmetry; apply Rltb_false; lra). lra.
  - rewrite Rplus_0_r. unfold ind at 3. replace (Rltb 0 0) with false by (symmetry; apply Rltb_false; lra). lra.
Qed.
Lemma map_upd {A B} (f : A -> B) l i x : map f (upd l i x) = upd (map f l) i (f x).
Proof. revert i. induction l as [|a l IH]; intros [|i]; cbn; try reflexivity. now rewrite IH. Qed.

(** ** Counting in the matrix with separate first transfers *)
Section Insert.
Context (n : nat) (big : matrix R).
Hypothesis Hbig : rect (S n) (S n) big.
Lemma insert_count small : Forall (fun r => length r = n /\ Forall (Rle 0) r) small ->
  (forall r j, In r small -> 0 < nth j r 0 -> nth (S j) (nth (n_positive r) big []) 0 = 0) ->
  forall m, rect (S n) (S n) m -> nth 0 m [] = nth 0 big [] ->
  (forall r, In r small -> nth (n_positive r) m [] = nth (n_positive r) big []) ->
  NoDup (filter (fun k => negb (Nat.eqb k 0)) (map (@n_positive R _) small)) ->
  let out := fold_left (insert_row big) small m in
  (forall j, positives out (S j) = positives m (S j) + Rsum (map (fun r => ind (nth j r 0)) small)) /\ positives out 0 = positives m 0.
Proof.
  induction small as [|row small IH]; intros Hs Hd m Hm H0 Hin Hnd; cbn [fold_left].
  { cbn zeta. split; [intros; unfold Rsum; cbn; lra|reflexivity]. }
  inversion Hs as [|? ? [Hrl Hrn] Hs']; subst. cbn [map filter] in Hnd.
  rewrite (insert_row_eq big m row (length row) Hbig eq_refl).
  set (n := length row) in *. set (i := n_positive row) in *.
  pose proof (n_positive_le row) as Hi. fold i n in Hi. destruct Hm as [Hm1 Hm2].
  pose proof Hbig as [Hb1 Hb2].
  pose proof (Forall_nth_lt _ _ i [] Hb2 ltac:(lia)) as Hbl. cbn beta in Hbl.
  pose proof (Hin row (or_introl eq_refl)) as Hmi. fold i in Hmi.
  assert (Hm' : rect (S n) (S n) (upd m i (shifted (nth i big []) row))).
  { split; [rewrite upd_length; assumption|]. apply Forall_upd; [assumption|]. eapply shifted_length; eauto. }
  assert (Hnn : forall k, 0 <= nth k row 0).
  { intros k. destruct (lt_dec k n) as [Hkn|Hkn]; [exact (Forall_nth_lt _ _ k 0 Hrn Hkn)|rewrite nth_overflow by (fold n; lia); lra]. }
  assert (Hz : i = 0%nat -> shifted (nth i big []) row = nth i big []).
  { intros Ei. apply (nth_ext _ _ 0 0).
    - rewrite (shifted_length _ _ n) by auto. lia.
    - intros k Hk. rewrite (shifted_nth _ _ n) by auto. destruct k as [|k]; [lra|].
      assert (Hzero : nth k row 0 = 0).
      { destruct (lt_dec k n) as [Hkn|Hkn]; [|rewrite nth_overflow by (fold n; lia); reflexivity].
        destruct (Rle_lt_or_eq_dec _ _ (Hnn k)) as [Hlt|E]; [exfalso|auto].
        assert (Hin' : In (nth k row 0) (filter (fun x => Rltb 0 x) row)).
        { apply filter_In. split; [apply nth_In; exact Hkn|]. apply Rltb_true; exact Hlt. }
        unfold i, n_positive in Ei. rnum. destruct (filter (fun x => Rltb 0 x) row); [destruct Hin'|cbn in Ei; lia]. }
      rewrite Hzero. lra. }
  assert (H0' : nth 0 (upd m i (shifted (nth i big []) row)) [] = nth 0 big []).
  { destruct (Nat.eq_dec i 0) as [E|E].
    - rewrite Hz by exact E. rewrite E. rewrite nth_upd_eq by lia. reflexivity.
    - rewrite nth_upd_neq by exact E. exact H0. }
  assert (Hnd' : NoDup (filter (fun k => negb (Nat.eqb k 0)) (map (@n_positive R _) small))).
  { destruct (negb (Nat.eqb i 0)); [inversion Hnd; assumption|assumption]. }
  assert (Hin' : forall r, In r small -> nth (n_positive r) (upd m i (shifted (nth i big []) row)) [] = nth (n_positive r) big []).
  { intros r Hr. destruct (Nat.eq_dec i (n_positive r)) as [E|E].
    - destruct (Nat.eq_dec i 0) as [E0|E0].
      + replace (n_positive r) with 0%nat by lia. exact H0'.
      + exfalso. destruct (Nat.eqb_spec i 0) as [|_]; [contradiction|]. cbn [negb] in Hnd.
        inversion Hnd as [|? ? Hni _]; subst. apply Hni. apply filter_In. split.
        * rewrite E. apply in_map. exact Hr.
        * destruct (Nat.eqb_spec i 0); [contradiction|reflexivity].
    - rewrite nth_upd_neq by exact E. apply Hin. right. exact Hr. }
  destruct (IH Hs' (fun r j Hr => Hd r j (or_intror Hr)) _ Hm' H0' Hin' Hnd') as (R2 & R3). cbn zeta.
  assert (Hcl : forall j, nth i (map ind (col m j)) 0 = ind (nth j (nth i big []) 0)).
  { intros j. rewrite (nth_map_lt _ _ _ _ 0) by (unfold col; rewrite map_length; lia). f_equal. unfold col. rewrite (nth_map_lt _ _ _ _ []) by lia. now rewrite Hmi. }
  assert (Hu : forall j, positives (upd m i (shifted (nth i big []) row)) j = positives m j - ind (nth j (nth i big []) 0) + ind (nth j (shifted (nth i big []) row) 0)).
  { intros j. unfold positives. rewrite col_upd, map_upd, Rsum_upd, Hcl by (rewrite map_length; unfold col; rewrite map_length; lia). reflexivity. }
  split.
  - intros j. rewrite R2, Hu. rewrite (shifted_nth _ _ n) by auto. rewrite ind_plus; [|apply Hnn|apply (Hd row j); left; reflexivity].
    cbn [map]. rewrite Rsum_cons. lra.
  - rewrite R3, Hu. rewrite (shifted_nth _ _ n) by auto. rewrite Rplus_0_r. lra.
Qed.
End Insert.

(** ** Counting in the plain matrix *)
Lemma count_below y mm E : 0 < mm -> 0 < y <= INR E * mm ->
  exists v, Rsum (map (fun e => if Rltb (INR e * mm) y then 1 else 0) (seq 0 E)) = INR v /\ rounded_up (y / mm) v.
Proof.
  intros Hm. induction E as [|E IH]; intros [Hy Hl]; [cbn in Hl; lra|].
  rewrite seq_S, map_app, Rsum_app. cbn [map plus]. replace (Rsum [if Rltb (INR E * mm) y then 1 else 0]) with (if Rltb (INR E * mm) y then 1 else 0) by (unfold Rsum; cbn; lra).
  destruct (Rle_lt_dec y (INR E * mm)) as [L|L].
  - destruct (IH (conj Hy L)) as (v & Ev & Hv). exists v. split; [|exact Hv]. rewrite Ev. replace (Rltb (INR E * mm) y) with false by (symmetry; apply Rltb_false; lra). lra.
  - exists (S E). split.
    + replace (Rltb (INR E * mm) y) with true by (symmetry; apply Rltb_true; lra).
      assert (G : forall q, (q <= E)%nat -> Rsum (map (fun e => if Rltb (INR e * mm) y then 1 else 0) (seq 0 q)) = INR q).
      { induction q as [|q IHq]; intros Hq; [reflexivity|]. rewrite seq_S, map_app, Rsum_app, IHq by lia. cbn [map plus].
        replace (Rltb (INR q * mm) y) with true; [rewrite S_INR; unfold Rsum; cbn; lra|]. symmetry. apply Rltb_true.
        assert (INR q <= INR E) by (apply le_INR; lia). nra. }
      rewrite G, S_INR by lia. reflexivity.
    + unfold rounded_up. rewrite S_INR in *. split; [apply Rmult_lt_reg_r with mm|apply Rmult_le_reg_r with mm]; try lra; unfold Rdiv; rewrite (Rmult_assoc y), Rinv_l by lra; lra.
Qed.
Lemma plain_positives mm E n j : 0 < mm -> (j < n)%nat -> INR n <= INR E * mm ->
  exists v, positives (plain_matrix mm E n) j = INR v /\ rounded_up (INR (S j) / mm) v.
Proof.
  intros Hm Hj HE. destruct (count_below (INR (S j)) mm E Hm) as (v & Ev & Hv).
  { split; [apply lt_0_INR; lia|]. assert (INR (S j) <= INR n) by (apply le_INR; lia). lra. }
  exists v. split; [|exact Hv]. rewrite <- Ev. unfold positives, col, plain_matrix. rewrite !map_map. f_equal. apply map_ext. intros e.
  rewrite nth_map_seq by exact Hj. unfold ind. destruct (Rltb (INR e * mm) (INR (S j))) eqn:L.
  - apply Rltb_true in L. rewrite (proj2 (plain_positive mm e j Hm) L). reflexivity.
  - destruct (Rltb 0 (plain_entry mm e j)) eqn:P; [|reflexivity]. apply (proj1 (plain_positive mm e j Hm)) in P. apply Rltb_false in L. lra.
Qed.

Lemma plain_npos_nodup mm E n : 1 <= mm -> NoDup (filter (fun k => negb (Nat.eqb k 0)) (map (@n_positive R _) (@plain_matrix R _ mm E n))).
Proof.
  intros Hm1. unfold plain_matrix. rewrite map_map.
  assert (G : forall q a, NoDup (filter (fun k => negb (Nat.eqb k 0)) (map (fun e => @n_positive R _ (map (plain_entry mm e) (seq 0 n))) (seq a q))) /\
     forall k, In k (filter (fun k => negb (Nat.eqb k 0)) (map (fun e => @n_positive R _ (map (plain_entry mm e) (seq 0 n))) (seq a q))) ->
       exists e, (a <= e)%nat /\ k = @n_positive R _ (map (plain_entry mm e) (seq 0 n)) /\ (0 < k)%nat).
  { induction q as [|q IH]; intros a; cbn [seq map filter].
    - split; [constructor|intros k []].
    - destruct (IH (S a)) as [I1 I2].
      destruct (Nat.eqb_spec (n_positive (map (plain_entry mm a) (seq 0 n))) 0) as [E0|E0]; cbn [negb].
      + split; [exact I1|]. intros k Hk. destruct (I2 k Hk) as (e & He & Ek). exists e. split; [lia|exact Ek].
      + split.
        * constructor; [|exact I1]. intros Hk. destruct (I2 _ Hk) as (e & He & Ek & Hpos). rewrite Ek in Hpos.
          pose proof (plain_npos_decreasing mm a e n Hm1 ltac:(lia) Hpos). lia.
        * intros k [<-|Hk]; [exists a; split; [lia|]; split; [reflexivity|lia]|].
          destruct (I2 k Hk) as (e & He & Ek). exists e. split; [lia|exact Ek]. }
  apply (G E 0%nat).
Qed.
Lemma flipud_positives n j : (j < n)%nat -> positives (@flipud_identity R _ n) j = 1.
Proof.
  intros Hj. rewrite <- (flipud_sum n j Hj). unfold positives. f_equal. unfold col, flipud_identity. rewrite !map_map. apply map_ext_in. intros i Hi.
  rewrite nth_map_seq by exact Hj. unfold ind. rnum. destruct (Nat.eqb (i + j + 1) n); [replace (Rltb 0 1) with true by (symmetry; apply Rltb_true; lra)|replace (Rltb 0 0) with false by (symmetry; apply Rltb_false; lra)]; reflexivity.
Qed.
Lemma insert_positives dt n E : (0 < E <= n)%nat -> let mm := @max_multiplier R _ dt n E in
  let m := insert_small (flipud_identity (S n)) (plain_matrix mm E n) in
  positives m 0 = 1 /\ forall j, (j < n)%nat -> exists v, positives m (S j) = 1 + INR v /\ rounded_up (INR (S j) / mm) v.
Proof.
  intros HE mm m. pose proof (mm_ge dt n E ltac:(lia)) as [Hm0 Hm]. pose proof (mm_ge_1 dt n E HE) as Hm1. fold mm in Hm0, Hm, Hm1.
  pose proof (plain_full dt n E ltac:(lia)) as [P1 P2 P3 P4]. fold mm in P1, P3, P4.
  assert (Hb : rect (S n) (S n) (@flipud_identity R _ (S n))) by (rewrite flipud_tab; apply tab_rect).
  assert (Hs : Forall (fun r => length r = n /\ Forall (Rle 0) r) (@plain_matrix R _ mm E n)).
  { apply Forall_forall. intros r Hr. split.
    - destruct P1 as [_ P1]. rewrite Forall_forall in P1. apply P1, Hr.
    - rewrite Forall_forall in P3. apply P3, Hr. }
  assert (Hd : forall r j, In r (@plain_matrix R _ mm E n) -> 0 < nth j r 0 -> nth (S j) (nth (n_positive r) (@flipud_identity R _ (S n)) []) 0 = 0).
  { intros r j Hr Hp. rewrite Forall_forall in Hs. destruct (Hs r Hr) as [Hl _]. pose proof (n_positive_le r) as Hle. rewrite Hl in Hle.
    destruct (lt_dec j n) as [Hj|Hj]; [|rewrite nth_overflow in Hp by lia; lra].
    rewrite flipud_tab. fold (entry (tab (S n) (S n) (fun i j => if Nat.eqb (i + j + 1) (S n) then 1 else 0)) (n_positive r) (S j)).
    rewrite tab_entry by lia. destruct (Nat.eqb_spec (n_positive r + S j + 1) (S n)) as [En|]; [exfalso|reflexivity].
    unfold plain_matrix in Hr. apply in_map_iff in Hr as (e & <- & _). rewrite nth_map_seq in Hp by lia. rewrite n_positive_plain in En.
    assert (Hf : Rltb 0 (plain_entry mm e j) = false).
    { refine (count_up (fun j => Rltb 0 (plain_entry mm e j)) n j _ ltac:(lia)).
      intros i1 i2 H12 H1. apply plain_positive in H1; [|lra]. apply plain_positive; [lra|].
      assert (INR (S i1) <= INR (S i2)) by (apply le_INR; lia). lra. }
    apply Rltb_false in Hf. lra. }
  destruct (insert_count n _ Hb _ Hs Hd _ Hb eq_refl (fun r _ => eq_refl) (plain_npos_nodup mm E n Hm1)) as (R2 & R3).
  unfold m. rewrite insert_small_fold. split.
  - rewrite R3. apply flipud_positives. lia.
  - intros j Hj. destruct (plain_positives mm E n j ltac:(lra) Hj Hm) as (v & Ev & Hv). exists v. split; [|exact Hv].
    rewrite R2, flipud_positives by lia. f_equal. rewrite <- Ev. unfold positives, col. now rewrite map_map.
Qed.

(** ** Visits *)
Lemma visits_positives (m : matrix R) E n offset window k w : rect E n m -> nth_error window k = Some w -> (0 <= w)%Z -> (offset + Z.to_nat w < n)%nat ->
  INR (visits (map (pick false offset window) (positive_mask m)) k) = positives m (offset + Z.to_nat w).
Proof.
  intros [_ Hr] Hk Hw Hj. unfold visits, positives, positive_mask, col. rewrite !map_map. induction m as [|r m IH]; [reflexivity|].
  inversion Hr as [|? ? Hl Hr']; subst. cbn [map filter].
  assert (En : nth k (pick false offset window (map (fun x => Rltb 0 x) r)) false = Rltb 0 (nth (offset + Z.to_nat w) r 0)).
  { unfold pick. erewrite nth_error_nth; [|rewrite nth_error_map, Hk; reflexivity]. now rewrite (nth_map_lt _ _ _ _ 0) by lia. }
  rnum. rewrite En, Rsum_cons, <- IH by assumption. unfold ind. destruct (Rltb 0 (nth (offset + Z.to_nat w) r 0)); cbn [length]; [rewrite S_INR|]; lra.
Qed.
Lemma INR_eq_nat a b : INR a = INR b -> a = b.
Proof. apply INR_eq. Qed.

Section Visits.
Context (ef : bool) (dt : dtype) (window : list Z) (n_pixels express offset : nat).
Hypothesis Hw : window_ok window n_pixels.
Lemma standard_monitor tw em mon : ~ bad_express ef n_pixels express -> standard_express ef dt window express offset tw = Ok (em, mon) ->
  mon = map (pick false offset window) (positive_mask (standard_full_matrix ef dt n_pixels express offset)).
Proof.
  intros Hb H. destruct (standard_full_ok ef dt n_pixels express offset (window_pos window n_pixels Hw) Hb) as [E Hf]. unfold standard_express in H. rewrite (window_n_pixels _ _ Hw) in H. cbn [bind] in H.
  pose proof Hf as [F1 F2 F3 F4]. rewrite (select_ok false offset window E (n_pixels + offset)) in H.
  - cbn [bind] in H. destruct (restrict_time_span _ _); [|discriminate]. cbn [bind] in H. destruct (select_columns _ _ _); [|discriminate]. now injection H.
  - apply positive_mask_rect. exact F1.
  - exact (window_in_range window n_pixels offset Hw).
Qed.
Lemma standard_visits tw em mon k w : standard_express ef dt window express offset tw = Ok (em, mon) -> nth_error window k = Some w ->
  let n := (n_pixels + offset)%nat in let t := (Z.to_nat w + 1 + offset)%nat in
  if (ef && Nat.ltb 0 express && Nat.ltb express n_pixels)%bool
  then exists v, visits mon k = S v /\ rounded_up (INR (t - 1) / max_multiplier dt (n - 1) express) v
  else rounded_up (INR t / max_multiplier dt n (express_used n express)) (visits mon k).
Proof.
  intros H Hk n t. assert (Hp := window_pos window n_pixels Hw).
  assert (Hb : ~ bad_express ef n_pixels express).
  { intros Hb. rewrite (standard_express_bad ef dt window n_pixels express offset Hw tw Hb) in H. discriminate. }
  rewrite (standard_monitor tw em mon Hb H). pose proof (proj1 Hw) as Hr. rewrite Forall_forall in Hr. specialize (Hr w (nth_error_In _ _ Hk)).
  destruct (standard_full_ok ef dt n_pixels express offset Hp Hb) as [E [F1 F2 F3 F4]].
  pose proof (visits_positives _ E (n_pixels + offset) offset window k w F1 Hk ltac:(lia) ltac:(lia)) as V.
  destruct (standard_full_cases ef dt n_pixels express offset Hp) as [(H1 & H2 & H3 & Em)|[[H1 _]|[H1 Em]]]; [|contradiction|].
  - rewrite H1. replace (Nat.ltb 0 express) with true by (symmetry; apply Nat.ltb_lt; lia). replace (Nat.ltb express n_pixels) with true by (symmetry; apply Nat.ltb_lt; lia). cbn [andb].
    rewrite Em in V. rewrite H1 in Em. rewrite Em. destruct (insert_positives dt (n_pixels - 1 + offset) express ltac:(lia)) as [I0 I1]. cbv zeta in I0, I1.
    replace (n - 1)%nat with (n_pixels - 1 + offset)%nat by (unfold n; lia).
    destruct (offset + Z.to_nat w)%nat as [|j] eqn:Ej.
    + exists 0%nat. rewrite I0 in V. split; [apply INR_eq_nat; exact V|]. replace (t - 1)%nat with 0%nat by (unfold t; lia). unfold rounded_up. cbn. unfold Rdiv. rewrite Rmult_0_l. lra.
    + destruct (I1 j ltac:(lia)) as (v & Ev & Hv). exists v. rewrite Ev in V. split; [apply INR_eq_nat; rewrite V, S_INR; lra|].
      replace (t - 1)%nat with (S j) by (unfold t; lia). exact Hv.
  - cbv zeta in Em. fold n in Em, V, F1. rewrite Em in V |- *. destruct (express_used_pos n express ltac:(unfold n; lia)) as [U1 U2].
    assert (Hm := mm_ge dt n (express_used n express) U1). pose proof (mm_ge_1 dt n (express_used n express) ltac:(lia)) as Hm1.
    destruct (plain_positives (max_multiplier dt n (express_used n express)) (express_used n express) n (offset + Z.to_nat w) (Rlt_le_trans _ _ _ Rlt_0_1 Hm1) ltac:(unfold n; lia) (proj2 Hm)) as (v & Ev & Hv).
    rewrite Ev in V. apply INR_eq_nat in V. replace (S (offset + Z.to_nat w)) with t in Hv by (unfold t; lia).
    replace (ef && Nat.ltb 0 express && Nat.ltb express n_pixels)%bool with false.
    + rewrite V. exact Hv.
    + destruct H1 as [->|[->|L]]; [reflexivity|destruct ef; reflexivity|]. replace (Nat.ltb express n_pixels) with false by (symmetry; apply Nat.ltb_ge; lia). now rewrite andb_false_r.
Qed.
End Visits.

(** ** All transfers *)
Lemma filter_id_count r : length (filter (fun b : bool => b) r) = fold_right plus 0%nat (map (fun k => if nth k r false then 1 else 0)%nat (seq 0 (length r))).
Proof.
  induction r as [|b r IH]; [reflexivity|]. cbn [filter length seq map fold_right nth]. rewrite <- seq_shift, map_map. cbn [nth]. rewrite <- IH. destruct b; reflexivity.
Qed.
Lemma work_visits E n mon : rect E n mon -> INR (work mon) = Rsum (map (fun k => INR (visits mon k)) (seq 0 n)).
Proof.
  intros [_ H]. revert H. clear E. induction mon as [|r m IH]; intros H.
  - cbn. induction (seq 0 n) as [|a l IH]; [reflexivity|]. cbn [map]. rewrite Rsum_cons, <- IH. cbn. lra.
  - inversion H as [|? ? Hl H']; subst. unfold work. cbn [concat]. rewrite filter_app, app_length, plus_INR. fold (work m). rewrite (IH H').
    rewrite filter_id_count. unfold visits. cbn [filter]. generalize (seq 0 (length r)). induction l as [|k l IHl]; [cbn; lra|].
    cbn [map fold_right]. rewrite !Rsum_cons, plus_INR. destruct (nth k r false); cbn [length]; [rewrite !S_INR; change (INR 0) with 0|change (INR 0) with 0]; lra.
Qed.
Lemma sum_numbers n : Rsum (map INR (seq 0 n)) = INR n * (INR n - 1) / 2.
Proof. induction n as [|n IH]; [cbn; unfold Rsum; cbn; lra|]. rewrite seq_S, map_app, Rsum_app, IH, S_INR. unfold Rsum. cbn [map plus fold_right]. lra. Qed.
Lemma Rsum_between (f g : nat -> R) (c : R) n : (forall k, (k < n)%nat -> g k <= f k < g k + c) -> 0 <= c ->
  Rsum (map g (seq 0 n)) <= Rsum (map f (seq 0 n)) <= Rsum (map g (seq 0 n)) + INR n * c.
Proof.
  intros H Hc. induction n as [|n IH]; [cbn; unfold Rsum; cbn; lra|]. rewrite seq_S, !map_app, !Rsum_app, S_INR.
  specialize (IH (fun k Hk => H k (Nat.lt_lt_succ_r _ _ Hk))). pose proof (H n ltac:(lia)). unfold Rsum in *. cbn [map plus fold_right] in *. lra.
Qed.
Lemma Rsum_linear a b n : Rsum (map (fun k => a + b * INR k) (seq 0 n)) = INR n * a + b * (INR n * (INR n - 1) / 2).
Proof. rewrite <- sum_numbers. induction n as [|n IH]; [cbn; unfold Rsum; cbn; lra|]. rewrite seq_S, !map_app, !Rsum_app, IH, S_INR. unfold Rsum. cbn [map plus fold_right]. lra. Qed.
Lemma rows_nth n k : (k < n)%nat -> nth_error (py_range 0 (Z.of_nat n)) k = Some (Z.of_nat k).
Proof. intros H. rewrite py_range_nth_error by lia. reflexivity. Qed.

Section Work.
Context (ef eb force : bool) (dwell : list R) (n express : nat) (tw : option (list Z)) (r' : roe R) (em : matrix R) (mon : bmatrix).
Hypothesis Hn : (0 < n)%nat.
Hypothesis Hcall : express_and_monitor (roe_init dwell ef eb force DFloat) (py_range 0 (Z.of_nat n)) express 0 tw = Ok (r', em, mon).
Lemma call_standard : standard_express ef DFloat (py_range 0 (Z.of_nat n)) express 0 tw = Ok (em, mon).
Proof.
  unfold express_and_monitor in Hcall. change (roe_kind_of (roe_init dwell ef eb force DFloat)) with (Standard ef) in Hcall. cbn [bind] in Hcall.
  change (roe_dtype (roe_init dwell ef eb force DFloat)) with DFloat in Hcall.
  destruct (standard_express _ _ _ _ _ _) as [[a b]|]; [|discriminate]. cbn [bind] in Hcall. injection Hcall as <- <- <-. reflexivity.
Qed.
Lemma call_rect : exists E, rect E n mon.
Proof.
  pose proof call_standard as H. assert (Hw := window_ok_range n Hn).
  assert (Hb : ~ bad_express ef n express) by (intros Hb; rewrite (standard_express_bad ef DFloat _ n express 0 Hw tw Hb) in H; discriminate).
  destruct (standard_full_ok ef DFloat n express 0 Hn Hb) as [E [F1 _ _ _]]. exists E. rewrite (standard_monitor ef DFloat _ n express 0 Hw tw em mon Hb H).
  pose proof (pick_rect false 0 (py_range 0 (Z.of_nat n)) E _ _ (positive_mask_rect _ _ _ F1)) as P. rewrite py_range_length in P.
  replace (Z.to_nat (Z.of_nat n - 0)) with n in P by lia. exact P.
Qed.
Lemma plain_work K : ef = false \/ express = 0%nat \/ (n <= express)%nat -> K = express_used n express ->
  INR K * (INR n + 1) / 2 <= INR (work mon) <= INR K * (INR n + 1) / 2 + INR n.
Proof.
  intros Hc EK. destruct call_rect as [E HR]. rewrite (work_visits E n mon HR). assert (Hp : 0 < INR n) by (apply lt_0_INR; lia).
  pose proof (express_used_pos n express Hn) as [U1 U2]. assert (HK : 0 < INR K) by (apply lt_0_INR; lia).
  destruct (Rsum_between (fun k => INR (visits mon k)) (fun k => INR K / INR n + INR K / INR n * INR k) 1 n) as [A B].
  - intros k Hk. pose proof (standard_visits ef DFloat _ n express 0 (window_ok_range n Hn) tw em mon k (Z.of_nat k) call_standard (rows_nth n k Hk)) as H. cbv zeta in H.
    replace (ef && Nat.ltb 0 express && Nat.ltb express n)%bool with false in H.
    2: { destruct Hc as [->|[->|L]]; [reflexivity|destruct ef; reflexivity|]. replace (Nat.ltb express n) with false by (symmetry; apply Nat.ltb_ge; lia). now rewrite andb_false_r. }
    rewrite Nat2Z.id, !Nat.add_0_r in H. rewrite <- EK in H. unfold max_multiplier in H. rewrite !nofN_INR in H. unfold rounded_up in H. rnum.
    replace (k + 1)%nat with (S k) in H by lia. rewrite S_INR in H.
    replace ((INR k + 1) / (INR n / INR K)) with (INR K / INR n + INR K / INR n * INR k) in H by (field; lra). lra.
  - lra.
  - rewrite Rsum_linear in A, B. replace (INR n * (INR K / INR n) + INR K / INR n * (INR n * (INR n - 1) / 2)) with (INR K * (INR n + 1) / 2) in A, B by (field; lra). lra.
Qed.
Lemma first_work : ef = true -> (0 < express)%nat -> (S express < n)%nat ->
  INR n + INR express * INR n / 2 <= INR (work mon) <= 2 * INR n + INR express * INR n / 2.
Proof.
  intros He H0 H1. destruct call_rect as [E HR]. rewrite (work_visits E n mon HR). assert (Hp : 0 < INR (n - 1)) by (apply lt_0_INR; lia).
  assert (HK : 0 < INR express) by (apply lt_0_INR; lia). assert (En : INR n = INR (n - 1) + 1) by (replace n with (S (n - 1)) at 1 by lia; apply S_INR).
  destruct (Rsum_between (fun k => INR (visits mon k)) (fun k => 1 + INR express / INR (n - 1) * INR k) 1 n) as [A B].
  - intros k Hk. pose proof (standard_visits ef DFloat _ n express 0 (window_ok_range n Hn) tw em mon k (Z.of_nat k) call_standard (rows_nth n k Hk)) as H. cbv zeta in H.
    rewrite He in H. replace (Nat.ltb 0 express) with true in H by (symmetry; apply Nat.ltb_lt; lia). replace (Nat.ltb express n) with true in H by (symmetry; apply Nat.ltb_lt; lia). cbn [andb] in H.
    destruct H as (v & Ev & H). rewrite Ev. rewrite Nat2Z.id, !Nat.add_0_r in H. replace (k + 1 - 1)%nat with k in H by lia. unfold max_multiplier in H. rewrite !nofN_INR in H. unfold rounded_up in H. rnum.
    rewrite S_INR. replace (INR k / (INR (n - 1) / INR express)) with (INR express / INR (n - 1) * INR k) in H by (field; lra). lra.
  - lra.
  - rewrite Rsum_linear in A, B. rewrite En in A, B |- *. replace (INR express / INR (n - 1) * ((INR (n - 1) + 1) * (INR (n - 1) + 1 - 1) / 2)) with (INR express * (INR (n - 1) + 1) / 2) in A, B by (field; lra). lra.
Qed.
End Work.

Lemma multiplier_per_pass dt N K : (0 < K)%nat -> per_pass dt N K (max_multiplier dt N K).
Proof.
  intros HK. destruct dt; unfold per_pass, max_multiplier; rewrite !nofN_INR; [|reflexivity]. exists (ceil_div N K). split; [reflexivity|].
  assert (0 < INR K) by (apply lt_0_INR; lia). unfold ceil_div, rounded_up. pose proof (Nat.div_mod (N + K - 1) K ltac:(lia)) as D. pose proof (Nat.mod_upper_bound (N + K - 1) K ltac:(lia)) as B.
  set (q := ((N + K - 1) / K)%nat) in *. set (m := ((N + K - 1) mod K)%nat) in *.
  assert (L1 : (N <= K * q)%nat) by lia. assert (L2 : (K * q < N + K)%nat) by lia. apply le_INR in L1. apply lt_INR in L2. rewrite ?mult_INR, ?plus_INR in *.
  split; [apply Rmult_lt_reg_r with (INR K)|apply Rmult_le_reg_r with (INR K)]; try lra; unfold Rdiv; rewrite (Rmult_assoc (INR N)), Rinv_l by lra; lra.
Qed.
Lemma call_is_standard ef eb force dwell dt window express offset tw r' em mon :
  express_and_monitor (roe_init dwell ef eb force dt) window express offset tw = Ok (r', em, mon) ->
  @standard_express R _ ef dt window express offset tw = Ok (em, mon).
Proof.
  intros Hcall. unfold express_and_monitor in Hcall. change (roe_kind_of (roe_init dwell ef eb force dt)) with (Standard ef) in Hcall. cbn [bind] in Hcall.
  change (roe_dtype (roe_init dwell ef eb force dt)) with dt in Hcall.
  destruct (standard_express _ _ _ _ _ _) as [[a b]|]; [|discriminate]. cbn [bind] in Hcall. injection Hcall as <- <- <-. reflexivity.
Qed.
Lemma call_visits ef eb force dwell dt window n_pixels express offset tw r' em mon k w : window_ok window n_pixels ->
  express_and_monitor (roe_init dwell ef eb force dt) window express offset tw = Ok (r', em, mon) -> nth_error window k = Some w ->
  let N := (n_pixels + offset)%nat in let t := (Z.to_nat w + 1 + offset)%nat in
  (ef = true /\ (0 < express < n_pixels)%nat -> exists v x, visits mon k = S v /\ per_pass dt (N - 1) express x /\ rounded_up (INR (t - 1) / x) v) /\
  (ef = false \/ express = 0%nat \/ (n_pixels <= express)%nat -> exists x, per_pass dt N (express_used N express) x /\ rounded_up (INR t / x) (visits mon k)).
Proof.
  intros Hw H Hk N t. apply call_is_standard in H. pose proof (standard_visits ef dt window n_pixels express offset Hw tw em mon k w H Hk) as V. cbv zeta in V. fold N t in V.
  pose proof (window_pos window n_pixels Hw) as Hp. split.
  - intros [-> L]. replace (Nat.ltb 0 express) with true in V by (symmetry; apply Nat.ltb_lt; lia). replace (Nat.ltb express n_pixels) with true in V by (symmetry; apply Nat.ltb_lt; lia).
    cbn [andb] in V. destruct V as (v & Ev & V). exists v, (max_multiplier dt (N - 1) express). split; [exact Ev|]. split; [apply multiplier_per_pass; lia|exact V].
  - intros L. replace (ef && Nat.ltb 0 express && Nat.ltb express n_pixels)%bool with false in V.
    + eexists. split; [apply multiplier_per_pass; apply express_used_pos; unfold N; lia|exact V].
    + symmetry. destruct L as [->|[->|L]]; [reflexivity|destruct ef; reflexivity|]. replace (Nat.ltb express n_pixels) with false by (symmetry; apply Nat.ltb_ge; lia). apply andb_false_r.
Qed.
Lemma rounded_le x v K : rounded_up x v -> x <= INR K -> (v <= K)%nat.
Proof. intros [L _] H. assert (INR v < INR (S K)) by (rewrite S_INR; lra). apply INR_lt in H0. lia. Qed.
Lemma per_pass_covers dt N K x t : (0 < K)%nat -> (0 < N)%nat -> per_pass dt N K x -> (t <= N)%nat -> INR t / x <= INR K.
Proof.
  intros HK HN HP Ht. assert (0 < INR K) by (apply lt_0_INR; lia). assert (0 < INR N) by (apply lt_0_INR; lia). apply le_INR in Ht.
  assert (Hx : INR N / INR K <= x) by (destruct dt; [destruct HP as (m & -> & [_ U]); exact U|rewrite HP; lra]).
  assert (0 < INR N / INR K) by (apply Rdiv_lt_0_compat; lra). apply Rmult_le_reg_r with x; [lra|]. unfold Rdiv at 1. rewrite Rmult_assoc, Rinv_l by lra.
  assert (Hy : INR N / INR K * INR K <= x * INR K) by (apply Rmult_le_compat_r; lra). unfold Rdiv in Hy. rewrite Rmult_assoc, Rinv_l in Hy by lra. lra.
Qed.
Lemma visits_at_most ef eb force dwell dt window n_pixels express offset tw r' em mon k w : window_ok window n_pixels ->
  express_and_monitor (roe_init dwell ef eb force dt) window express offset tw = Ok (r', em, mon) -> nth_error window k = Some w -> (0 < express)%nat ->
  (visits mon k <= express + (if ef then 1 else 0))%nat.
Proof.
  intros Hw H Hk H0. pose proof (call_visits _ _ _ _ _ _ _ _ _ _ _ _ _ _ _ Hw H Hk) as [A B]. cbv zeta in A, B.
  pose proof (proj1 Hw) as Hr. rewrite Forall_forall in Hr. specialize (Hr w (nth_error_In _ _ Hk)).
  destruct (Bool.bool_dec (ef && Nat.ltb express n_pixels)%bool true) as [E|E].
  - apply andb_prop in E as [-> L]. apply Nat.ltb_lt in L. destruct (A (conj eq_refl (conj H0 L))) as (v & x & -> & P & V).
    pose proof (rounded_le _ v express V) as Q. specialize (Q ltac:(eapply per_pass_covers; [| |exact P|]; lia)). lia.
  - destruct B as (x & P & V).
    { apply not_true_is_false in E. apply andb_false_iff in E as [E|E]; [left; exact E|]. right. right. now apply Nat.ltb_ge. }
    pose proof (express_used_pos (n_pixels + offset) express ltac:(lia)) as [U1 U2]. assert (U3 : (express_used (n_pixels + offset) express <= express)%nat).
    { unfold express_used. destruct (Nat.eqb_spec express 0); lia. }
    pose proof (rounded_le _ _ (express_used (n_pixels + offset) express) V ltac:(eapply per_pass_covers; [| |exact P|]; lia)). lia.
Qed.
Lemma call_succeeds ef eb force dwell n express : (0 < n)%nat -> (ef = true -> express <> 0%nat -> S express <> n) ->
  exists em mon, express_and_monitor (roe_init dwell ef eb force DFloat) (py_range 0 (Z.of_nat n)) express 0 None = Ok (roe_init dwell ef eb force DFloat, em, mon).
Proof.
  intros Hn Hb. destruct (standard_express_ok ef DFloat (py_range 0 (Z.of_nat n)) n express 0 (window_ok_range n Hn) None) as (E & em & mon & H & _).
  - intros (B1 & B2 & B3). now apply Hb.
  - exact I.
  - exists em, mon. cbn [tw_arg option_map] in H. transitivity (do '(em0, mon0) <- standard_express ef DFloat (py_range 0 (Z.of_nat n)) express 0 None; Ok (roe_init dwell ef eb force DFloat, em0, mon0)); [reflexivity|].
    rewrite H. reflexivity.
Qed.
