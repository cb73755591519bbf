(** * The array operations of ManagerModel.v on lists of levels. *)
From Coq Require Import ZArith List Bool Reals Lra Lia.
From Verif Require Import Num Py RFacts CCDModel TrapsModel ManagerModel Spec WmFacts.
Import ListNotations.
Open Scope R_scope.

Notation wmk := (wmarks R) (only parsing).

(** ** Generic list facts. *)
Lemma upd_app {A} (a : list A) x b y : upd (a ++ x :: b) (length a) y = a ++ y :: b.
Proof. induction a; cbn; congruence. Qed.
Lemma upd_length {A} (l : list A) i x : length (upd l i x) = length l.
Proof. revert i. induction l; intros [|i]; cbn; auto. Qed.
Lemma nth_app_mid {A} (a : list A) x b d : nth (length a) (a ++ x :: b) d = x.
Proof. induction a; cbn; auto. Qed.
Lemma firstn_app_exact {A} (a b : list A) : firstn (length a) (a ++ b) = a.
Proof. induction a; cbn; congruence. Qed.
Lemma skipn_app_exact {A} (a b : list A) : skipn (length a) (a ++ b) = b.
Proof. induction a; cbn; auto. Qed.
Lemma repeat_snoc {A} (x : A) k : repeat x (S k) = repeat x k ++ [x].
Proof. induction k; [reflexivity|]. cbn [repeat] in *. rewrite IHk at 1. reflexivity. Qed.
Lemma seq_map_combine {A B} (f : nat -> A -> B) (l : list A) :
  forall k, map (fun '(i, x) => f i x) (combine (seq k (length l)) l)
  = match l with [] => [] | x :: l' => f k x :: map (fun '(i, x) => f i x) (combine (seq (S k) (length l')) l') end.
Proof. destruct l; reflexivity. Qed.

Definition idx_map {A B} (f : nat -> A -> B) (k : nat) (l : list A) : list B :=
  map (fun '(i, x) => f i x) (combine (seq k (length l)) l).
Lemma idx_map_cons {A B} (f : nat -> A -> B) k x l : idx_map f k (x :: l) = f k x :: idx_map f (S k) l.
Proof. reflexivity. Qed.
Lemma idx_map_app {A B} (f : nat -> A -> B) k a b :
  idx_map f k (a ++ b) = idx_map f k a ++ idx_map f (k + length a) b.
Proof.
  revert k. induction a; intros; [cbn; now rewrite Nat.add_0_r|].
  cbn [app]. rewrite !idx_map_cons, IHa. cbn [app length]. do 3 f_equal. lia.
Qed.
Lemma idx_map_ext {A B} (f : nat -> A -> B) (g : A -> B) k l :
  (forall i x, (k <= i < k + length l)%nat -> f i x = g x) -> idx_map f k l = map g l.
Proof.
  revert k. induction l; intros k H; [reflexivity|]. rewrite idx_map_cons. cbn [map]. f_equal.
  - apply H. cbn; lia.
  - apply IHl. intros. apply H. cbn; lia.
Qed.

(** ** Highest level in use. *)
Lemma find_true_app a b : Forall (fun x => x = false) a -> find_true (a ++ true :: b) = Some (length a).
Proof. induction 1; cbn; [reflexivity|]. subst. rewrite IHForall. reflexivity. Qed.
Lemma find_true_none a : Forall (fun x => x = false) a -> find_true a = None.
Proof. induction 1; cbn; [reflexivity|]. subst. rewrite IHForall. reflexivity. Qed.
Lemma find_true_Some l i : find_true l = Some i -> forall j, (j < i)%nat -> nth j l true = false.
Proof.
  revert i. induction l as [|[] l IH]; intros i H j Hj; cbn in H; try discriminate.
  - injection H as <-. lia.
  - destruct (find_true l) as [i'|]; cbn in H; [|discriminate]. injection H as <-.
    destruct j; [reflexivity|]. cbn. apply (IH i'); auto. lia.
Qed.

Definition live (l : wmk) : Prop := Forall (fun r => 0 < fst r) l.
Definition nonneg (l : wmk) : Prop := Forall (fun r => 0 <= fst r) l.
Lemma live_nonneg l : live l -> nonneg l.
Proof. apply Forall_impl. intros; lra. Qed.
Lemma nonneg_volume l : nonneg l -> 0 <= volume l.
Proof. intros. unfold volume. now apply Rsum_nonneg, Forall_map. Qed.
Lemma nonneg_zeros (fs : list R) k : nonneg (repeat (0, fs) k).
Proof. apply Forall_forall. intros r H. apply repeat_spec in H. subst; cbn; lra. Qed.
Lemma live_volume_pos l : live l -> l <> [] -> 0 < volume l.
Proof.
  intros Hl Hne. destruct Hl as [|r l Hr Hl]; [congruence|]. rewrite volume_cons.
  pose proof (nonneg_volume l (live_nonneg l Hl)). lra.
Qed.

Lemma first_zero_live l fs k : live l -> first_zero_volume (l ++ repeat (0, fs) (S k)) = length l.
Proof.
  intros Hl. unfold first_zero_volume, np_argmax; rnum. rewrite map_app. cbn [repeat map vol fst].
  destruct (Reqb_spec 0 0) as [_|]; [|lra].
  rewrite find_true_app; [apply map_length|].
  apply Forall_map. eapply Forall_impl; [|exact Hl]. intros r Hr. unfold vol. apply Reqb_false. cbn in *; lra.
Qed.
Lemma max_index_live l fs k : live l ->
  max_watermark_index (l ++ repeat (0, fs) (S k)) = (Z.of_nat (length l) - 1)%Z.
Proof. intros. unfold max_watermark_index. now rewrite first_zero_live. Qed.

(** ** Finding the level above the cloud. *)
Lemma index_loop_below cloud w i tot idx : nonneg w -> tot + volume w < cloud ->
  index_above_loop cloud w i tot idx = (tot + volume w, idx).
Proof.
  intros Hw. revert i tot. induction Hw as [|r w Hr Hw IH]; intros i tot H; cbn [index_above_loop]; rnum.
  - unfold volume, Rsum; cbn. f_equal; ring.
  - rewrite volume_cons in H. pose proof (nonneg_volume w Hw). unfold vol.
    destruct (Rleb_spec cloud (tot + fst r)) as [Hle|Hlt]; [lra|].
    rewrite IH by lra. rewrite volume_cons. f_equal; ring.
Qed.
Lemma index_loop_after cloud w i tot idx : (idx <= i)%Z ->
  index_above_loop cloud w i tot idx = (tot + volume w, idx).
Proof.
  revert i tot. induction w as [|r w IH]; intros i tot H; cbn [index_above_loop]; rnum.
  - unfold volume, Rsum; cbn. f_equal; ring.
  - rewrite volume_cons. unfold vol. replace (if Rleb cloud (tot + fst r) then Z.min idx i else idx) with idx
      by (destruct (Rleb _ _); lia).
    rewrite IH by lia. f_equal; ring.
Qed.
Lemma index_loop_at cloud a r b i tot idx : nonneg a ->
  tot + volume a < cloud <= tot + volume a + fst r ->
  (i + Z.of_nat (length a) <= idx)%Z ->
  index_above_loop cloud (a ++ r :: b) i tot idx
  = (tot + volume (a ++ r :: b), (i + Z.of_nat (length a))%Z).
Proof.
  intros Ha. revert i tot. induction Ha as [|r' a Hr' Ha IH]; intros i tot H Hi.
  - cbn [app index_above_loop]; rnum. unfold volume, Rsum in H; cbn in H. unfold vol.
    destruct (Rleb_spec cloud (tot + fst r)) as [Hle|Hlt]; [|lra].
    rewrite index_loop_after by lia. cbn in Hi. rewrite volume_cons. f_equal; [ring|cbn; lia].
  - cbn [app index_above_loop]; rnum. rewrite volume_cons in H. pose proof (nonneg_volume a Ha). unfold vol.
    destruct (Rleb_spec cloud (tot + fst r')) as [Hle|Hlt]; [lra|].
    cbn [length] in *. rewrite IH by (try lra; lia). rewrite volume_cons. f_equal; [ring|lia].
Qed.

Lemma index_above_zero w mx : index_above_cloud 0 w mx = (-1)%Z.
Proof. unfold index_above_cloud; rnum. destruct (Reqb_spec 0 0); [reflexivity|lra]. Qed.
Lemma index_above_none cloud w mx : nonneg w -> volume w < cloud -> 0 < cloud ->
  index_above_cloud cloud w mx = (mx + 1)%Z.
Proof.
  intros Hw H Hc. unfold index_above_cloud; rnum. destruct (Reqb_spec cloud 0); [lra|].
  unfold cy_index_above. cbn [n0 RNum]. rewrite index_loop_below by (auto; lra). rnum.
  destruct (Rltb_spec (0 + volume w) cloud); [reflexivity|lra].
Qed.
Lemma index_above_at cloud a r b mx : nonneg a -> nonneg b -> 0 < cloud ->
  volume a < cloud <= volume a + fst r ->
  index_above_cloud cloud (a ++ r :: b) mx = Z.of_nat (length a).
Proof.
  intros Ha Hb Hc H. unfold index_above_cloud; rnum. destruct (Reqb_spec cloud 0); [lra|].
  unfold cy_index_above. cbn [n0 RNum]. rewrite index_loop_at by (auto; try lra; rewrite app_length; lia). rnum.
  rewrite volume_app, volume_cons. pose proof (nonneg_volume b Hb).
  destruct (Rltb_spec (0 + (volume a + (fst r + volume b))) cloud); [lra|lia].
Qed.

(** Where a cloud volume falls. *)
Lemma locate l cloud : live l -> 0 < cloud <= volume l ->
  exists a r b, l = a ++ r :: b /\ volume a < cloud <= volume a + fst r.
Proof.
  intros Hl. revert cloud. induction Hl as [|r l Hr Hl IH]; intros cloud H.
  - unfold volume, Rsum in H; cbn in H. lra.
  - destruct (Rle_dec cloud (fst r)) as [Hle|Hgt].
    + exists [], r, l. split; [reflexivity|]. unfold volume at 1 2, Rsum; cbn. lra.
    + rewrite volume_cons in H. destruct (IH (cloud - fst r)) as (a & r' & b & -> & H'); [lra|].
      exists (r :: a), r', b. split; [reflexivity|]. rewrite volume_cons. lra.
Qed.

(** ** Cumulative sums. *)
Lemma value_in_loop v tot rest :
  value_in_cumsum_loop v tot rest = true <-> exists p q, rest = p ++ q /\ v = tot + Rsum p.
Proof.
  revert tot. induction rest as [|x rest IH]; intros tot; cbn [value_in_cumsum_loop]; rnum.
  - rewrite Reqb_true. split.
    + intros ->. exists [], []. split; [reflexivity|]. unfold Rsum; cbn; ring.
    + intros (p & q & E & ->). symmetry in E. apply app_eq_nil in E as [-> _]. unfold Rsum; cbn; ring.
  - destruct (Reqb_spec v tot) as [->|Hne].
    + split; [|auto]. intros _. exists [], (x :: rest). split; [reflexivity|]. unfold Rsum; cbn; ring.
    + rewrite IH. split.
      * intros (p & q & -> & ->). exists (x :: p), q. split; [reflexivity|]. unfold Rsum; cbn; ring.
      * intros ([|y p] & q & E & Ev).
        { exfalso. apply Hne. rewrite Ev. unfold Rsum; cbn; ring. }
        cbn in E. injection E as -> ->. exists p, q. split; [reflexivity|]. rewrite Ev. unfold Rsum; cbn; ring.
Qed.
Lemma value_in_cumsum v arr :
  cy_value_in_cumsum v arr = true <-> exists p q, p <> [] /\ arr = p ++ q /\ v = Rsum p.
Proof.
  destruct arr as [|x arr]; cbn [cy_value_in_cumsum].
  - split; [discriminate|]. intros (p & q & Hp & E & _). symmetry in E. apply app_eq_nil in E as [-> _]. congruence.
  - rewrite value_in_loop. split.
    + intros (p & q & -> & ->). exists (x :: p), q. repeat split; congruence.
    + intros ([|y p] & q & Hp & E & ->); [congruence|]. cbn in E. injection E as -> ->.
      exists p, q. split; [reflexivity|]. reflexivity.
Qed.
Lemma app_eq_app' {A} (a b c d : list A) : a ++ b = c ++ d ->
  (exists e, c = a ++ e /\ b = e ++ d) \/ (exists e, e <> [] /\ a = c ++ e /\ d = e ++ b).
Proof.
  revert c. induction a as [|x a IH]; intros c E.
  - left. exists c. auto.
  - destruct c as [|y c].
    + right. exists (x :: a). repeat split; auto. congruence.
    + cbn in E. injection E as -> E. destruct (IH _ E) as [(e & -> & ->)|(e & He & -> & ->)].
      * left. exists e. auto.
      * right. exists e. auto.
Qed.

Lemma volume_vol (w : wmk) : volume w = Rsum (@map (R * list R) R vol w).
Proof. reflexivity. Qed.
Lemma cumsum_at cloud (a : wmk) r b : nonneg a -> nonneg b ->
  volume a < cloud <= volume a + fst r ->
  cy_value_in_cumsum cloud (map vol (a ++ r :: b)) = true <-> cloud = volume a + fst r.
Proof.
  intros Ha Hb H. rewrite value_in_cumsum. split.
  - intros (p & q & Hp & E & Ev).
    rewrite map_app in E. cbn [map] in E. destruct (app_eq_app' _ _ _ _ (eq_sym E)) as [(e & Ea & Eq)|(e & He & Ep & Eq)].
    + exfalso. assert (volume a = Rsum p + Rsum e).
      { rewrite volume_vol, Ea. apply Rsum_app. }
      assert (0 <= Rsum e).
      { apply Rsum_nonneg. assert (Forall (fun x => 0 <= x) (@map (R * list R) R vol a)) by (apply Forall_map; exact Ha).
        rewrite Ea in H1. now apply Forall_app in H1. }
      lra.
    + destruct e as [|y e]; [congruence|]. cbn in Eq. injection Eq as Ey Eb. subst p.
      rewrite Rsum_app in Ev. rewrite volume_vol in *.
      assert (0 <= Rsum e).
      { apply Rsum_nonneg. assert (Forall (fun x => 0 <= x) (@map (R * list R) R vol b)) by (apply Forall_map; exact Hb).
        rewrite Eb in H0. now apply Forall_app in H0. }
      unfold Rsum in Ev at 2; cbn in Ev. fold (Rsum e) in Ev. unfold vol in Ey. lra.
  - intros ->. exists (map vol a ++ [vol r]), (map vol b). repeat split.
    + intros E. apply app_eq_nil in E as [_ E]. discriminate.
    + rewrite map_app. cbn [map]. now rewrite <- app_assoc.
    + rewrite Rsum_app, <- volume_vol. unfold Rsum; cbn. unfold vol; ring.
Qed.

(** ** Splitting a level. *)
Fixpoint shift (k : nat) (z : wrow R) (w : wmk) : wmk :=
  match k, w with
  | S k', x :: w' => x :: shift k' x w'
  | _, _ => z :: w
  end.
Lemma copy_rows_shift k z w pre : (k <= length w)%nat ->
  copy_rows_up k (length pre) (pre ++ z :: w) = pre ++ shift k z w.
Proof.
  revert z w pre. induction k as [|k IH]; intros z w pre H; [destruct w; reflexivity|].
  destruct w as [|x w]; [cbn in H; lia|]. cbn [copy_rows_up shift].
  replace (nth (S (length pre)) (pre ++ z :: x :: w) (n0, [])) with x.
  2: { symmetry. replace (pre ++ z :: x :: w) with ((pre ++ [z]) ++ x :: w) by now rewrite <- app_assoc.
       replace (S (length pre)) with (length (pre ++ [z])) by (rewrite app_length; cbn; lia). apply nth_app_mid. }
  rewrite upd_app. replace (pre ++ x :: x :: w) with ((pre ++ [x]) ++ x :: w) by now rewrite <- app_assoc.
  replace (S (length pre)) with (length (pre ++ [x])) by (rewrite app_length; cbn; lia).
  rewrite IH by (cbn in H; lia). now rewrite <- app_assoc.
Qed.
Lemma copy_rows_shift0 k z w : (k <= length w)%nat -> copy_rows_up k 0 (z :: w) = shift k z w.
Proof. exact (copy_rows_shift k z w []). Qed.
Lemma shift_at z a r b : shift (S (length a)) z (a ++ r :: b) = a ++ r :: r :: b.
Proof. revert z. induction a as [|x a IH]; intros; [cbn; destruct b; reflexivity|]. cbn [length app]. 
  change (shift (S (S (length a))) z (x :: a ++ r :: b)) with (x :: shift (S (length a)) x (a ++ r :: b)). now rewrite IH. Qed.
Lemma roll1_snoc (w : wmk) z : roll1 (w ++ [z]) = z :: w.
Proof. unfold roll1. rewrite rev_app_distr. cbn. now rewrite rev_involutive. Qed.

Lemma set_vol_at (a : wmk) r b v : set_vol (a ++ r :: b) (length a) v = a ++ (v, snd r) :: b.
Proof. unfold set_vol. rewrite nth_app_mid, upd_app. reflexivity. Qed.

Lemma set_vol_next (a : wmk) x r b v : set_vol (a ++ x :: r :: b) (S (length a)) v = a ++ x :: (v, snd r) :: b.
Proof.
  pose proof (set_vol_at (a ++ [x]) r b v) as H. rewrite app_length, <- !app_assoc in H. cbn [length app] in H.
  replace (length a + 1)%nat with (S (length a)) in H by lia. exact H.
Qed.

Lemma split_at (a : wmk) r b z cloud :
  cy_update_volumes (a ++ r :: b ++ [z]) cloud (Z.of_nat (length a))
  = Ok (a ++ (cloud - volume a, snd r) :: (volume a + fst r - cloud, snd r) :: b).
Proof.
  unfold cy_update_volumes.
  assert (Hb : ((0 <=? Z.of_nat (length a)) && (Z.of_nat (length a) + 1 <? Z.of_nat (length (a ++ r :: b ++ [z]))))%Z = true).
  { apply andb_true_intro; split; [apply Z.leb_le; lia | apply Z.ltb_lt]. rewrite app_length; cbn [length]; rewrite app_length; cbn [length]; lia. }
  rewrite Hb. rewrite Nat2Z.id. rewrite nth_app_mid.
  replace (firstn (S (length a)) (a ++ r :: b ++ [z])) with (a ++ [r]).
  2: { replace (a ++ r :: b ++ [z]) with ((a ++ [r]) ++ b ++ [z]) by now rewrite <- app_assoc.
       replace (S (length a)) with (length (a ++ [r])) by (rewrite app_length; cbn; lia). now rewrite firstn_app_exact. }
  rnum. rewrite fold_left_Rplus.
  replace (a ++ r :: b ++ [z]) with ((a ++ r :: b) ++ [z]) by now rewrite <- app_assoc.
  rewrite roll1_snoc. rewrite copy_rows_shift0 by (rewrite app_length; cbn; lia).
  rewrite shift_at, set_vol_at, set_vol_next.
  rewrite map_app, Rsum_app, volume_vol.
  unfold Rsum at 2 4; cbn. unfold vol.
  do 2 f_equal. f_equal; [|f_equal]; f_equal; ring.
Qed.

(** ** Slices. *)
Definition mapv (f : list R -> list R) (w : wmk) : wmk := map (fun r => (fst r, f (snd r))) w.
Lemma slice_mid (a b c : wmk) f :
  map_vals_slice (length a) (length a + length b) f (a ++ b ++ c) = a ++ mapv f b ++ c.
Proof.
  unfold map_vals_slice.
  change (map _ (combine (seq 0 (length (a ++ b ++ c))) (a ++ b ++ c)))
    with (idx_map (fun i r => if (length a <=? i)%nat && (i <? length a + length b)%nat then (vol r, f (vals r)) else r) 0 (a ++ b ++ c)).
  rewrite !idx_map_app. f_equal; [|f_equal].
  - rewrite (idx_map_ext _ (fun r => r)); [apply map_id|]. intros i x H.
    destruct (Nat.leb_spec (length a) i); [lia|reflexivity].
  - apply idx_map_ext. intros i x H. destruct (Nat.leb_spec (length a) i), (Nat.ltb_spec i (length a + length b)); try lia. reflexivity.
  - rewrite (idx_map_ext _ (fun r => r)); [apply map_id|]. intros i x H.
    destruct (Nat.ltb_spec i (length a + length b)); [lia|]. now rewrite andb_false_r.
Qed.
Lemma slice_pre (b c : wmk) f : map_vals_slice 0 (length b) f (b ++ c) = mapv f b ++ c.
Proof. exact (slice_mid [] b c f). Qed.
Lemma slice_pre_k k (b c : wmk) f : length b = k -> map_vals_slice 0 k f (b ++ c) = mapv f b ++ c.
Proof. intros <-. apply slice_pre. Qed.

(** ** Collapsing. *)
Definition full_row (filled : R) (n : nat) (r : wrow R) : Prop :=
  forall i, (i < n)%nat -> nth i (snd r) 0 = filled.
Lemma fold_min_le ks k : (fold_left Nat.min ks k <= k)%nat /\ Forall (fun x => (fold_left Nat.min ks k <= x)%nat) ks.
Proof.
  revert k. induction ks as [|x ks IH]; intros k; cbn; [auto|].
  destruct (IH (Nat.min k x)) as [H1 H2]. split; [lia|]. constructor; [lia|auto].
Qed.
Lemma collapse_index_le filled n w i : (i < n)%nat ->
  (collapse_index filled n w <= np_argmax (map (fun r => negb (neqb (nth i (vals r) n0) filled)) w))%nat.
Proof.
  intros Hi. unfold collapse_index.
  set (g := fun i => np_argmax (map (fun r => negb (neqb (nth i (vals r) n0) filled)) w)).
  change (match map g (seq 0 n) with [] => 0%nat | k :: ks => fold_left Nat.min ks k end <= g i)%nat.
  assert (Hin : In (g i) (map g (seq 0 n))) by (apply in_map, in_seq; lia).
  destruct (map g (seq 0 n)) as [|k ks]; [destruct Hin|].
  destruct (fold_min_le ks k) as [H1 H2]. destruct Hin as [->|Hin]; [exact H1|].
  rewrite Forall_forall in H2. now apply H2.
Qed.
Lemma np_argmax_lt {A} (f : A -> bool) l j : (j < np_argmax (map f l))%nat -> 
  forall d, f (nth j l d) = false.
Proof.
  unfold np_argmax. intros Hj d. destruct (find_true (map f l)) as [i|] eqn:E; [|lia].
  pose proof (find_true_Some _ _ E j Hj) as H.
  assert (Hl : (j < length (map f l))%nat).
  { destruct (Nat.lt_ge_cases j (length (map f l))); auto. rewrite nth_overflow in H by lia. discriminate. }
  rewrite (nth_indep _ true (f d)) in H by auto. now rewrite map_nth in H.
Qed.
(** Every level below the collapse index is full. *)
Lemma collapse_index_full filled n w j : (j < collapse_index filled n w)%nat ->
  full_row filled n (nth j w (0, [])).
Proof.
  intros Hj i Hi. pose proof (collapse_index_le filled n w i Hi).
  pose proof (np_argmax_lt (fun r => negb (neqb (nth i (vals r) n0) filled)) w j ltac:(lia) (0, [])) as E.
  cbn beta in E. apply negb_false_iff in E. rnum. now apply Reqb_true in E.
Qed.
Lemma find_true_lt l i : find_true l = Some i -> (i < length l)%nat.
Proof.
  revert i. induction l as [|[] l IH]; intros i H; cbn in H; try discriminate.
  - injection H as <-. cbn; lia.
  - destruct (find_true l) as [i'|]; cbn in H; [|discriminate]. injection H as <-. cbn. specialize (IH _ eq_refl). lia.
Qed.
Lemma collapse_index_bound filled n w : w <> [] -> (collapse_index filled n w < length w)%nat.
Proof.
  intros Hw. destruct n as [|n].
  - cbn. destruct w; [congruence|cbn; lia].
  - pose proof (collapse_index_le filled (S n) w 0 ltac:(lia)) as H.
    set (l := map _ w) in H. unfold np_argmax in H. destruct (find_true l) as [i|] eqn:E.
    + apply find_true_lt in E. subst l. rewrite map_length in E. lia.
    + destruct w; [congruence|cbn in *; lia].
Qed.
Lemma firstn_full filled n w : Forall (full_row filled n) (firstn (collapse_index filled n w) w).
Proof.
  destruct w as [|r0 w0]; [rewrite firstn_nil; constructor|].
  set (w := r0 :: w0). pose proof (collapse_index_bound filled n w ltac:(discriminate)).
  apply Forall_forall. intros r Hr. apply (In_nth _ _ (0, [])) in Hr as (j & Hj & <-).
  rewrite firstn_length in Hj. rewrite nth_firstn || idtac.
  replace (nth j (firstn (collapse_index filled n w) w) (0, [])) with (nth j w (0, [])).
  - apply collapse_index_full. lia.
  - rewrite <- (firstn_skipn (collapse_index filled n w) w) at 1. apply app_nth1. rewrite firstn_length. lia.
Qed.
(** The exact index, when every species has an unfilled level somewhere. *)
Lemma argmax_at {A} (f : A -> bool) a b : Forall (fun x => f x = false) a ->
  (exists x, In x b /\ f x = true) -> (length a <= np_argmax (map f (a ++ b)))%nat.
Proof.
  intros Ha (x & Hx & Hfx). apply in_split in Hx as (p & q & ->).
  unfold np_argmax.
  destruct (find_true (map f (a ++ p ++ x :: q))) as [i|] eqn:E.
  - destruct (Nat.lt_ge_cases i (length a)) as [Hlt|]; [exfalso|auto].
    assert (Hi : nth i (map f (a ++ p ++ x :: q)) false = true).
    { clear -E. revert i E. generalize (map f (a ++ p ++ x :: q)). intros l. induction l as [|[] l IH]; intros i H; cbn in H; try discriminate.
      - injection H as <-. reflexivity.
      - destruct (find_true l); cbn in H; [|discriminate]. injection H as <-. cbn. now apply IH. }
    rewrite map_app, app_nth1 in Hi by (rewrite map_length; auto).
    rewrite (nth_indep _ false (f x)), map_nth in Hi by (rewrite map_length; auto).
    rewrite Forall_forall in Ha. rewrite Ha in Hi; [discriminate|]. now apply nth_In.
  - exfalso. rewrite !map_app in E. cbn [map] in E. rewrite Hfx in E.
    rewrite app_assoc in E. clear -E. revert E. generalize (map f a ++ map f p). intros l E.
    induction l as [|[] l IH]; cbn in E; try discriminate. destruct (find_true _); [discriminate|]. now apply IH.
Qed.
Lemma collapse_index_ge filled n a b : (0 < n)%nat -> Forall (full_row filled n) a ->
  (exists z, In z b /\ forall i, (i < n)%nat -> nth i (snd z) 0 <> filled) ->
  (length a <= collapse_index filled n (a ++ b))%nat.
Proof.
  intros Hn Ha (z & Hz & Hzf).
  assert (G : forall i, (i < n)%nat -> (length a <= np_argmax (map (fun r => negb (neqb (nth i (vals r) n0) filled)) (a ++ b)))%nat).
  { intros i Hi. apply argmax_at.
    - eapply Forall_impl; [|exact Ha]. intros r Hr. rnum. apply negb_false_iff, Reqb_true. now apply Hr.
    - exists z. split; auto. rnum. apply negb_true_iff, Reqb_false. now apply Hzf. }
  unfold collapse_index. destruct n as [|n]; [lia|]. cbn [seq map].
  set (g := fun i => np_argmax _) in *. 
  assert (G0 : (length a <= g 0%nat)%nat) by (apply G; lia).
  assert (G1 : Forall (fun x => (length a <= x)%nat) (map g (seq 1 n))).
  { apply Forall_map, Forall_forall. intros i Hi%in_seq. apply G. lia. }
  revert G0. change (np_argmax _) with (g 0%nat). generalize (g 0%nat) as k. 
  induction G1; intros k Hk; cbn; auto. apply IHG1. lia.
Qed.
Lemma argmax_first {A} (f : A -> bool) a x b : f x = true -> 
  (np_argmax (map f (a ++ x :: b)) <= length a)%nat.
Proof.
  intros H. unfold np_argmax. induction a as [|y a IH]; cbn; [rewrite H; lia|].
  destruct (f y); [lia|]. destruct (find_true (map f (a ++ x :: b))); cbn; lia.
Qed.
Lemma collapse_index_at filled n a r b : (0 < n)%nat -> Forall (full_row filled n) a ->
  (exists i, (i < n)%nat /\ nth i (snd r) 0 <> filled) ->
  (exists z, In z b /\ forall i, (i < n)%nat -> nth i (snd z) 0 <> filled) ->
  collapse_index filled n (a ++ r :: b) = length a.
Proof.
  intros Hn Ha (i & Hi & Hr) (z & Hz & Hzf).
  apply Nat.le_antisymm.
  - eapply Nat.le_trans; [apply (collapse_index_le _ _ _ i Hi)|]. apply argmax_first. rnum.
    apply negb_true_iff, Reqb_false. exact Hr.
  - apply collapse_index_ge; auto. exists z. split; [now right|auto].
Qed.

Lemma skipn_len {A} (a b : list A) k : length a = k -> skipn k (a ++ b) = b.
Proof. intros <-. apply skipn_app_exact. Qed.
Lemma firstn_len {A} (a b : list A) k : length a = k -> firstn k (a ++ b) = a.
Proof. intros <-. apply firstn_app_exact. Qed.

Definition zrow_of (r : wrow R) : wrow R := (0, map (fun _ => 0) (snd r)).
Lemma collapse_rows_at (a : wmk) r0 b v vs :
  collapse_rows (S (length a)) v vs (a ++ r0 :: b) = (v, vs) :: b ++ map zrow_of a.
Proof.
  unfold collapse_rows.
  change (map _ (combine (seq 0 (length (a ++ r0 :: b))) (a ++ r0 :: b)))
    with (idx_map (fun i r => if (i <? S (length a))%nat then (n0, map (fun _ => n0) (vals r)) else r) 0 (a ++ r0 :: b)).
  rewrite idx_map_app, idx_map_cons. cbn [Nat.add].
  rewrite (idx_map_ext _ zrow_of 0 a).
  2: { intros i x H. destruct (Nat.ltb_spec i (S (length a))); [reflexivity|lia]. }
  rewrite (idx_map_ext _ (fun r => r) (S (length a)) b), map_id.
  2: { intros i x H. destruct (Nat.ltb_spec i (S (length a))); [lia|reflexivity]. }
  rewrite Nat.sub_succ, Nat.sub_0_r.
  rewrite skipn_len, firstn_len by apply map_length. reflexivity.
Qed.
Lemma zrow_of_len n (r : wrow R) : length (snd r) = n -> zrow_of r = zrow n.
Proof.
  intros <-. unfold zrow_of, zrow. f_equal. destruct r as [v l]. cbn. induction l; cbn; congruence.
Qed.
Definition width (n : nat) (w : wmk) : Prop := Forall (fun r => length (snd r) = n) w.
Lemma map_zrow n a : width n a -> map zrow_of a = repeat (zrow n) (length a).
Proof. induction 1; cbn; [reflexivity|]. rewrite IHForall. f_equal. now apply zrow_of_len. Qed.
