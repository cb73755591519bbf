(** * Facts about time windows and whole express matrices (roe.py:430-622). *)
From Coq Require Import ZArith List Bool Reals Lra Lia.
From Verif Require Import Num Py RFacts ROEModel Spec SpecROE ROEClockFacts ROEMatrixFacts.
Import ListNotations.
Open Scope R_scope.

Ltac rle_cases :=
  repeat match goal with |- context [Rle_dec ?u ?v] =>
    lazymatch u with context [Rle_dec] => fail | _ =>
      lazymatch v with context [Rle_dec] => fail | _ => destruct (Rle_dec u v) end end end.

(** ** Ranges *)
Lemma py_range_length a b : length (py_range a b) = Z.to_nat (b - a).
Proof. unfold py_range. rewrite map_length, seq_length. reflexivity. Qed.
Lemma py_range_nth_error a b k : (k < Z.to_nat (b - a))%nat -> nth_error (py_range a b) k = Some (a + Z.of_nat k)%Z.
Proof. intros. unfold py_range. apply (nth_error_map_seq (fun k => (a + Z.of_nat k)%Z)). assumption. Qed.
Lemma py_range_in a b x : In x (py_range a b) <-> (a <= x < b)%Z.
Proof.
  unfold py_range. rewrite in_map_iff. split.
  - intros (k & <- & Hk). apply in_seq in Hk. lia.
  - intros Hx. exists (Z.to_nat (x - a)). split; [lia|]. apply in_seq. lia.
Qed.
Lemma py_range_first a b : (a < b)%Z -> py_index (py_range a b) 0 = Ok a.
Proof.
  intros H. unfold py_index. rewrite py_range_length. cbn [Z.ltb Z.compare].
  destruct (Z.leb_spec 0 0); [|lia]. destruct (Z.ltb_spec 0 (Z.of_nat (Z.to_nat (b - a)))); [|lia].
  cbn [andb]. rewrite py_range_nth_error by lia. cbn. f_equal. lia.
Qed.
Lemma py_range_last a b : (a < b)%Z -> py_index (py_range a b) (-1) = Ok (b - 1)%Z.
Proof.
  intros H. unfold py_index. rewrite py_range_length. cbn [Z.ltb Z.compare].
  destruct (Z.leb_spec 0 (-1 + Z.of_nat (Z.to_nat (b - a)))); [|lia].
  destruct (Z.ltb_spec (-1 + Z.of_nat (Z.to_nat (b - a))) (Z.of_nat (Z.to_nat (b - a)))); [|lia].
  cbn [andb]. rewrite py_range_nth_error by lia. cbn [of_option]. f_equal. lia.
Qed.
Lemma py_index_ok {A} (l : list A) i : (0 <= i < Z.of_nat (length l))%Z ->
  exists a, nth_error l (Z.to_nat i) = Some a /\ py_index l i = Ok a.
Proof.
  intros H. unfold py_index. destruct (Z.ltb_spec i 0); [lia|].
  destruct (Z.leb_spec 0 i); [|lia]. destruct (Z.ltb_spec i (Z.of_nat (length l))); [|lia]. cbn [andb].
  destruct (nth_error l (Z.to_nat i)) as [a|] eqn:E; [eauto|]. apply nth_error_None in E. lia.
Qed.
Lemma py_index_past {A} (l : list A) i : (Z.of_nat (length l) <= i)%Z -> py_index l i = Err IndexError.
Proof.
  intros H. unfold py_index. destruct (Z.ltb_spec i 0); [lia|].
  destruct (Z.leb_spec 0 i); [|lia]. destruct (Z.ltb_spec i (Z.of_nat (length l))); [lia|]. reflexivity.
Qed.

(** ** mapM *)
Lemma mapM_ok {A B} (f : A -> result B) (g : A -> B) l : (forall a, In a l -> f a = Ok (g a)) -> mapM f l = Ok (map g l).
Proof.
  induction l as [|a l IH]; intros H; cbn [mapM map]; [reflexivity|].
  rewrite H by (left; reflexivity). cbn [bind]. rewrite IH by (intros; apply H; right; assumption). reflexivity.
Qed.
Lemma mapM_err {A B} (f : A -> result B) e l : (forall a, In a l -> (exists b, f a = Ok b) \/ f a = Err e) ->
  (exists a, In a l /\ f a = Err e) -> mapM f l = Err e.
Proof.
  induction l as [|a l IH]; intros H [x [Hx E]]; [destruct Hx|]. cbn [mapM].
  destruct (H a (or_introl eq_refl)) as [[b Eb]|Eb]; rewrite Eb; cbn [bind]; [|reflexivity].
  destruct Hx as [->|Hx]; [congruence|]. rewrite IH; [reflexivity| |eauto].
  intros; apply H; right; assumption.
Qed.

(** ** Selecting columns *)
Definition pick {A} (d : A) offset (window : list Z) (r : list A) : list A :=
  map (fun w => nth (offset + Z.to_nat w) r d) window.
Lemma select_ok {A} (d : A) offset window E n (m : list (list A)) :
  rect E n m -> Forall (fun w => (0 <= w /\ w + Z.of_nat offset < Z.of_nat n)%Z) window ->
  select_columns offset window m = Ok (map (pick d offset window) m).
Proof.
  intros [_ Hm] Hw. unfold select_columns. apply mapM_ok. intros r Hr. rewrite Forall_forall in Hm. specialize (Hm r Hr).
  unfold pick. apply mapM_ok. intros w Hin. rewrite Forall_forall in Hw. specialize (Hw w Hin).
  destruct (py_index_ok (skipn offset r) w) as (a & Ea & Eok); [rewrite skipn_length; lia|].
  rewrite Eok. f_equal. symmetry. apply nth_error_nth.
  rewrite <- Ea. clear. revert r. induction offset as [|o IH]; intros r; [reflexivity|].
  destruct r as [|x r]; [destruct (Z.to_nat w); reflexivity|]. apply IH.
Qed.
Lemma select_err {A} offset window E n (m : list (list A)) :
  rect E n m -> (0 < E)%nat -> Forall (fun w => (0 <= w)%Z) window ->
  (exists w, In w window /\ (Z.of_nat n <= w + Z.of_nat offset)%Z) ->
  select_columns offset window m = Err IndexError.
Proof.
  intros [Hl Hm] HE Hw [w [Hin Hpast]]. unfold select_columns. rewrite Forall_forall in Hm.
  assert (Herr : forall r, In r m -> mapM (py_index (skipn offset r)) window = Err IndexError).
  { intros r Hr. specialize (Hm r Hr). apply mapM_err.
    - intros x Hx. rewrite Forall_forall in Hw. specialize (Hw x Hx).
      destruct (Z.lt_ge_cases x (Z.of_nat (length (skipn offset r)))) as [H|H].
      + left. destruct (py_index_ok (skipn offset r) x ltac:(lia)) as (a & _ & E'). eauto.
      + right. apply py_index_past. exact H.
    - exists w. split; [exact Hin|]. apply py_index_past. rewrite skipn_length.
      rewrite Forall_forall in Hw. specialize (Hw w Hin). lia. }
  destruct m as [|r m]; [cbn in Hl; lia|]. cbn [mapM]. rewrite (Herr r (or_introl eq_refl)). reflexivity.
Qed.
Lemma pick_rect {A} (d : A) offset window E n m : rect E n m -> rect E (length window) (map (pick d offset window) m).
Proof.
  intros [H1 H2]. split; [rewrite map_length; exact H1|]. apply Forall_forall. intros r Hr.
  apply in_map_iff in Hr as (x & <- & _). unfold pick. apply map_length.
Qed.
Lemma pick_entry offset window m i k w : (i < length m)%nat -> nth_error window k = Some w ->
  entry (map (pick 0 offset window) m) i k = entry m i (offset + Z.to_nat w).
Proof.
  intros Hi Hk. unfold entry. rewrite (nth_map_lt _ _ _ _ []) by exact Hi. unfold pick.
  assert (Hlt : (k < length window)%nat) by (apply nth_error_Some; congruence).
  rewrite (nth_map_lt _ _ _ _ 0%Z) by exact Hlt. rewrite (nth_error_nth _ _ _ Hk). reflexivity.
Qed.
Lemma pick_bentry offset window m i k w : (i < length m)%nat -> nth_error window k = Some w ->
  bentry (map (pick false offset window) m) i k = bentry m i (offset + Z.to_nat w).
Proof.
  intros Hi Hk. unfold bentry. rewrite (nth_map_lt _ _ _ _ []) by exact Hi. unfold pick.
  assert (Hlt : (k < length window)%nat) by (apply nth_error_Some; congruence).
  rewrite (nth_map_lt _ _ _ _ 0%Z) by exact Hlt. rewrite (nth_error_nth _ _ _ Hk). reflexivity.
Qed.
Lemma pick_before offset window m i k w : (i <= length m)%nat -> nth_error window k = Some w ->
  transfers_before (map (pick 0 offset window) m) i k = transfers_before m i (offset + Z.to_nat w).
Proof.
  intros Hi Hk. induction i as [|i IH]; [reflexivity|]. cbn [transfers_before]. rewrite IH by lia.
  rewrite (pick_entry _ _ _ _ _ w) by (auto; lia). reflexivity.
Qed.
Lemma pick_Forall {A} (P : A -> Prop) d offset window E n m : rect E n m ->
  Forall (fun w => (0 <= w /\ w + Z.of_nat offset < Z.of_nat n)%Z) window ->
  Forall (Forall P) m -> Forall (Forall P) (map (pick d offset window) m).
Proof.
  intros [_ Hr] Hw Hm. rewrite Forall_forall in *. intros r Hin. apply in_map_iff in Hin as (x & <- & Hx).
  apply Forall_forall. intros y Hy. unfold pick in Hy. apply in_map_iff in Hy as (w & <- & Hiw).
  specialize (Hm x Hx). rewrite Forall_forall in Hm. apply Hm. specialize (Hr x Hx). specialize (Hw w Hiw).
  apply nth_In. lia.
Qed.

(** ** Restricting the time span *)
Section Restrict.
Context (n : nat) (g : R -> R).

Lemma diff_cumsum_entry (m : matrix R) acc prev i j : Forall (fun r => length r = n) m -> length acc = n -> length prev = n ->
  (i < length m)%nat -> (j < n)%nat ->
  entry (diff_rows prev (map (map g) (cumsum_rows acc m))) i j
  = g (nth j acc 0 + transfers_before m (S i) j)
    - match i with O => nth j prev 0 | _ => g (nth j acc 0 + transfers_before m i j) end.
Proof.
  intros Hm. revert acc prev i. induction Hm as [|r m Hr Hm IH]; intros acc prev i Ha Hp Hi Hj; [cbn in Hi; lia|].
  cbn [cumsum_rows map diff_rows].
  assert (Hra : length (@row_add R _ acc r) = n) by (rewrite row_add_length; lia).
  assert (Hgj : nth j (map g (row_add acc r)) 0 = g (nth j acc 0 + nth j r 0)).
  { rewrite (nth_map_lt _ _ _ _ 0) by lia. rewrite row_add_nth by lia. reflexivity. }
  assert (Hshift : forall k, (k <= length m)%nat -> transfers_before (r :: m) (S k) j = nth j r 0 + transfers_before m k j).
  { intros k _. induction k as [|k IHk]; [cbn [transfers_before]; unfold entry; cbn [nth]; lra|].
    change (transfers_before (r :: m) (S (S k)) j) with (transfers_before (r :: m) (S k) j + entry (r :: m) (S k) j).
    rewrite IHk. cbn [transfers_before]. unfold entry. cbn [nth]. lra. }
  destruct i as [|i].
  - unfold entry. cbn [nth]. rewrite row_sub_nth by (rewrite map_length; lia). rewrite Hgj.
    rewrite Hshift by lia. cbn [transfers_before]. do 2 f_equal. lra.
  - unfold entry. cbn [nth]. fold (entry (diff_rows (map g (row_add acc r)) (map (map g) (cumsum_rows (row_add acc r) m))) i j).
    cbn [length] in Hi.
    rewrite IH by (auto; try lia; rewrite map_length; lia).
    rewrite row_add_nth by lia. rewrite !Hshift by lia. destruct i as [|i].
    + rewrite Hgj. cbn [transfers_before]. f_equal; f_equal; lra.
    + f_equal; f_equal; lra.
Qed.
Lemma diff_cumsum_rect (m : matrix R) acc prev : Forall (fun r => length r = n) m -> length acc = n -> length prev = n ->
  rect (length m) n (diff_rows prev (map (map g) (cumsum_rows acc m))).
Proof.
  intros Hm. revert acc prev. induction Hm as [|r m Hr Hm IH]; intros acc prev Ha Hp; [split; [reflexivity|constructor]|].
  cbn [cumsum_rows map diff_rows]. assert (Hra : length (@row_add R _ acc r) = n) by (rewrite row_add_length; lia).
  assert (Hga : length (map g (row_add acc r)) = n) by (rewrite map_length; exact Hra).
  destruct (IH (row_add acc r) (map g (row_add acc r)) Hra Hga) as [I1 I2].
  split; [cbn [length]; rewrite I1; reflexivity|]. constructor; [rewrite row_sub_length; lia|exact I2].
Qed.

Definition windowed (m : matrix R) : matrix R := diff0 (map (map g) (cumsum0 m)).
(** For [g 0 = 0] the first row needs no special treatment. *)
Lemma windowed_eq (m : matrix R) : g 0 = 0 -> Forall (fun r => length r = n) m ->
  windowed m = diff_rows (repeat 0 n) (map (map g) (cumsum_rows (repeat 0 n) m)).
Proof.
  intros Hg Hm. unfold windowed. destruct Hm as [|r m Hr Hm]; [reflexivity|].
  cbn [cumsum0 map diff0 cumsum_rows diff_rows].
  assert (Er : @row_add R _ (repeat 0 n) r = r).
  { apply (nth_ext _ _ 0 0); [rewrite row_add_length; rewrite repeat_length; lia|].
    intros k Hk. rewrite row_add_nth by (rewrite repeat_length; lia). rewrite nth_repeat. lra. }
  rewrite Er. f_equal.
  apply (nth_ext _ _ 0 0); [rewrite row_sub_length; rewrite map_length, ?repeat_length; lia|].
  intros k Hk. rewrite row_sub_nth by (rewrite map_length, repeat_length; lia). rewrite nth_repeat. lra.
Qed.
Lemma windowed_entry (m : matrix R) E i j : g 0 = 0 -> rect E n m -> (i < E)%nat -> (j < n)%nat ->
  entry (windowed m) i j = g (transfers_before m (S i) j) - g (transfers_before m i j).
Proof.
  intros Hg [Hl Hm] Hi Hj. rewrite windowed_eq by assumption.
  rewrite diff_cumsum_entry by (auto; try (rewrite repeat_length; reflexivity); lia).
  rewrite nth_repeat. rewrite Rplus_0_l. destruct i as [|i].
  - cbn [transfers_before]. rewrite Hg. reflexivity.
  - rewrite Rplus_0_l. reflexivity.
Qed.
Lemma windowed_rect (m : matrix R) E : g 0 = 0 -> rect E n m -> rect E n (windowed m).
Proof.
  intros Hg [Hl Hm]. rewrite windowed_eq by assumption. rewrite <- Hl.
  apply diff_cumsum_rect; auto; apply repeat_length.
Qed.
End Restrict.

Definition time_clip (a b : Z) (x : R) : R := @clip R _ (IZR (b - 1 - a + 1)) (x - IZR a).
Lemma time_clip_eq a b x : (a < b)%Z -> time_clip a b x = Rmin (IZR b - IZR a) (Rmax 0 (x - IZR a)).
Proof.
  intros H. unfold time_clip. rewrite clip_eq by (apply IZR_le; lia). f_equal. rewrite <- minus_IZR. f_equal. lia.
Qed.
Lemma time_clip_0 a b : (0 <= a < b)%Z -> time_clip a b 0 = 0.
Proof.
  intros H. assert (0 <= IZR a) by (apply IZR_le; lia). assert (IZR a < IZR b) by (apply IZR_lt; lia).
  rewrite time_clip_eq by lia. rewrite Rmax_left by lra. apply Rmin_right. lra.
Qed.
Lemma restrict_range (m : matrix R) a b : (a < b)%Z -> restrict_time_span m (Some (py_range a b)) = Ok (windowed (time_clip a b) m).
Proof.
  intros H. unfold restrict_time_span. rewrite py_range_first, py_range_last by exact H. cbn [bind]. reflexivity.
Qed.
Lemma time_clip_overlap a b x y : (0 <= a < b)%Z -> x <= y -> time_clip a b y - time_clip a b x = overlap x y (IZR a) (IZR b).
Proof.
  intros H Hxy. assert (0 <= IZR a) by (apply IZR_le; lia). assert (IZR a < IZR b) by (apply IZR_lt; lia).
  rewrite !time_clip_eq by lia. unfold overlap, Rmin, Rmax.
  rle_cases; lra.
Qed.
Lemma overlap_all x y hi : 0 <= x <= y -> y <= hi -> overlap x y 0 hi = y - x.
Proof. intros. unfold overlap. rewrite Rmin_left by lra. rewrite (Rmax_left x) by lra. apply Rmax_right. lra. Qed.
Lemma overlap_bounds x y lo hi : x <= y -> 0 <= overlap x y lo hi <= y - x.
Proof.
  intros. unfold overlap, Rmin, Rmax.
  rle_cases; lra.
Qed.
Lemma overlap_split x y a b c : x <= y -> a <= b <= c -> overlap x y a b + overlap x y b c = overlap x y a c.
Proof.
  intros. unfold overlap, Rmin, Rmax.
  rle_cases; lra.
Qed.

Lemma before_mono m E n i j : rect E n m -> Forall (Forall (Rle 0)) m -> (i < E)%nat ->
  transfers_before m i j <= transfers_before m (S i) j.
Proof.
  intros [Hl Hr] Hm Hi. cbn [transfers_before].
  assert (0 <= entry m i j); [|lra]. unfold entry.
  pose proof (Forall_nth_lt _ _ i [] Hm ltac:(lia)) as Hn. cbn beta in Hn.
  destruct (lt_dec j (length (nth i m []))) as [H|H]; [apply (Forall_nth_lt _ _ j 0 Hn H)|rewrite nth_overflow by lia; lra].
Qed.
Lemma before_nonneg m E n i j : rect E n m -> Forall (Forall (Rle 0)) m -> (i <= E)%nat -> 0 <= transfers_before m i j.
Proof.
  intros Hm Hn. induction i as [|i IH]; intros Hi; [cbn; lra|].
  pose proof (before_mono m E n i j Hm Hn ltac:(lia)). specialize (IH ltac:(lia)). lra.
Qed.
Lemma before_le_all m E n i j : rect E n m -> Forall (Forall (Rle 0)) m -> (i <= E)%nat -> transfers_before m i j <= transfers m j.
Proof.
  intros Hm Hn Hi. destruct Hm as [Hl Hr] eqn:E'. clear E'. unfold transfers. rewrite Hl.
  assert (G : forall k, (i + k <= E)%nat -> transfers_before m i j <= transfers_before m (i + k) j).
  { induction k as [|k IH]; intros Hk; [rewrite Nat.add_0_r; lra|].
    rewrite Nat.add_succ_r. pose proof (before_mono m E n (i + k) j (conj Hl Hr) Hn ltac:(lia)). specialize (IH ltac:(lia)). lra. }
  replace E with (i + (E - i))%nat at 1 by lia. apply G. lia.
Qed.

(** ** The standard matrix *)
Lemma max_in_window window M : py_max window = Ok M -> In M window /\ Forall (fun w => (w <= M)%Z) window.
Proof.
  unfold py_max. destruct window as [|a l]; [discriminate|]. intros H. injection H as <-.
  destruct (list_max_ge l a) as [H1 H2]. split.
  - destruct (list_max_in l a) as [H|H]; [rewrite H; left; reflexivity|right; exact H].
  - constructor; [exact H1|]. apply Forall_forall. exact H2.
Qed.

(** A usable window: not empty, and no negative pixel; [n_pixels] is one more than its largest. *)
Lemma window_n_pixels window n_pixels : window_ok window n_pixels -> n_pixels_of_window window = Ok n_pixels.
Proof.
  intros [Hw Hin]. unfold n_pixels_of_window. destruct (py_max window) as [M|] eqn:EM.
  - cbn [bind]. apply max_in_window in EM as [Hm Hle]. rewrite Forall_forall in *. 
    pose proof (Hle _ Hin). pose proof (Hw _ Hm). cbn beta in *.
    destruct (Z.ltb_spec M 0); [lia|]. f_equal. lia.
  - destruct window; [destruct Hin|discriminate].
Qed.
Lemma window_ok_range n : (0 < n)%nat -> window_ok (py_range 0 (Z.of_nat n)) n.
Proof.
  intros Hn. split.
  - apply Forall_forall. intros w Hw. apply py_range_in in Hw. lia.
  - apply py_range_in. lia.
Qed.

Definition bad_express (ef : bool) (n_pixels express : nat) : Prop :=
  ef = true /\ express <> 0%nat /\ S express = n_pixels.

Lemma express_used_pos n e : (0 < n)%nat -> (0 < express_used n e <= n)%nat.
Proof. intros. unfold express_used. destruct (Nat.eqb_spec e 0); lia. Qed.

(** The shape of the full matrix in the three cases. *)
Lemma standard_full_cases ef dt n_pixels express offset : (0 < n_pixels)%nat ->
  (ef = true /\ express <> 0%nat /\ (express < n_pixels - 1)%nat /\
   standard_full_matrix ef dt n_pixels express offset
   = insert_small (flipud_identity (S (n_pixels - 1 + offset)))
       (plain_matrix (max_multiplier dt (n_pixels - 1 + offset) express) express (n_pixels - 1 + offset)))
  \/ (bad_express ef n_pixels express /\
   standard_full_matrix ef dt n_pixels express offset
   = plain_matrix (max_multiplier dt (n_pixels - 1 + offset) express) express (n_pixels - 1 + offset))
  \/ ((ef = false \/ express = 0%nat \/ (n_pixels <= express)%nat) /\
   let E := express_used (n_pixels + offset) express in
   standard_full_matrix ef dt n_pixels express offset
   = plain_matrix (max_multiplier dt (n_pixels + offset) E) E (n_pixels + offset)).
Proof.
  intros Hn. unfold standard_full_matrix.
  destruct ef; cbn [andb].
  2: { right; right. split; [left; reflexivity|reflexivity]. }
  destruct (Nat.eqb_spec express 0) as [->|He].
  { right; right. split; [right; left; reflexivity|]. unfold express_used; cbn [Nat.eqb].
    destruct (Nat.ltb_spec (n_pixels + offset) n_pixels); [lia|].
    destruct (Nat.ltb_spec (n_pixels + offset) n_pixels); [lia|]. reflexivity. }
  assert (Hu : express_used (n_pixels + offset) express = Nat.min express (n_pixels + offset)).
  { unfold express_used. destruct (Nat.eqb_spec express 0); [contradiction|reflexivity]. }
  destruct (Nat.ltb_spec (express_used (n_pixels + offset) express) n_pixels) as [Hlt|Hge].
  - assert (Eu : express_used (n_pixels + offset) express = express) by lia. rewrite Eu in *.
    destruct (Nat.ltb_spec express (n_pixels - 1)) as [H|H].
    + left. auto.
    + right; left. split; [|reflexivity]. split; [reflexivity|]. split; [exact He|lia].
  - right; right. split; [right; right; lia|]. destruct (Nat.ltb_spec (express_used (n_pixels + offset) express) n_pixels); [lia|]. reflexivity.
Qed.

Lemma standard_full_ok ef dt n_pixels express offset : (0 < n_pixels)%nat -> ~ bad_express ef n_pixels express ->
  exists E, full_matrix (standard_full_matrix ef dt n_pixels express offset) E (n_pixels + offset).
Proof.
  intros Hn Hb. destruct (standard_full_cases ef dt n_pixels express offset Hn) as [(H1 & H2 & H3 & E)|[[H1 _]|[_ E]]].
  - rewrite E. exists (S (n_pixels - 1 + offset)). 
    destruct (insert_full dt (n_pixels - 1 + offset) express ltac:(lia)) as [Hf _].
    replace (n_pixels + offset)%nat with (S (n_pixels - 1 + offset)) by lia. exact Hf.
  - contradiction.
  - cbn zeta in E. rewrite E. eexists. apply plain_full. apply express_used_pos. lia.
Qed.

Lemma positive_mask_rect (m : matrix R) E n : rect E n m -> rect E n (positive_mask m).
Proof.
  intros [H1 H2]. unfold positive_mask. split; [rewrite map_length; exact H1|].
  apply Forall_forall. intros r Hr. apply in_map_iff in Hr as (x & <- & Hx). rewrite map_length.
  rewrite Forall_forall in H2. apply H2, Hx.
Qed.
Lemma positive_mask_entry (m : matrix R) E n i j : rect E n m -> (i < E)%nat -> (j < n)%nat ->
  bentry (positive_mask m) i j = Rltb 0 (entry m i j).
Proof.
  intros [H1 H2] Hi Hj. unfold bentry, positive_mask, entry. rewrite (nth_map_lt _ _ _ _ []) by lia.
  pose proof (Forall_nth_lt _ _ i [] H2 ltac:(lia)) as Hl. cbn beta in Hl.
  rewrite (nth_map_lt _ _ _ _ 0) by lia. reflexivity.
Qed.

(** A time window: none, or a range of non-negative times. *)
Definition tw_ok (tw : option (Z * Z)) : Prop := match tw with None => True | Some (a, b) => (0 <= a < b)%Z end.
Definition tw_arg (tw : option (Z * Z)) : option (list Z) := option_map (fun '(a, b) => py_range a b) tw.
Definition tw_part (tw : option (Z * Z)) (x y : R) : R :=
  match tw with None => y - x | Some (a, b) => overlap x y (IZR a) (IZR b) end.

Lemma restrict_ok m E n tw : rect E n m -> Forall (Forall (Rle 0)) m -> tw_ok tw ->
  exists m', restrict_time_span m (tw_arg tw) = Ok m' /\ rect E n m' /\
    forall i j, (i < E)%nat -> (j < n)%nat ->
      entry m' i j = tw_part tw (transfers_before m i j) (transfers_before m (S i) j).
Proof.
  intros Hm Hn Htw. destruct tw as [[a b]|]; cbn [tw_arg option_map tw_part] in *.
  - unfold tw_ok in Htw. exists (windowed (time_clip a b) m). split; [apply restrict_range; lia|].
    pose proof (time_clip_0 a b Htw) as H0. split; [apply windowed_rect; auto|].
    intros i j Hi Hj. rewrite (windowed_entry n _ m E) by auto. apply time_clip_overlap; [exact Htw|].
    eapply before_mono; eauto.
  - exists m. split; [reflexivity|]. split; [exact Hm|]. intros i j Hi Hj. cbn [transfers_before]. lra.
Qed.

Section Standard.
Context (ef : bool) (dt : dtype) (window : list Z) (n_pixels express offset : nat).
Hypothesis Hw : window_ok window n_pixels.

Lemma window_pos : (0 < n_pixels)%nat.
Proof. destruct Hw as [H1 H2]. rewrite Forall_forall in H1. apply H1 in H2. lia. Qed.
Lemma window_in_range : Forall (fun w => (0 <= w /\ w + Z.of_nat offset < Z.of_nat (n_pixels + offset))%Z) window.
Proof. destruct Hw as [H1 _]. eapply Forall_impl; [|exact H1]. cbn beta. intros. lia. Qed.

(** Everything about a successful call, relative to the full matrix. *)
Lemma standard_express_ok tw : ~ bad_express ef n_pixels express -> tw_ok tw ->
  exists E em mon, standard_express ef dt window express offset (tw_arg tw) = Ok (em, mon) /\
    rect E (length window) em /\ rect E (length window) mon /\
    let m := standard_full_matrix ef dt n_pixels express offset in
    full_matrix m E (n_pixels + offset) /\
    forall i k w, (i < E)%nat -> nth_error window k = Some w ->
      let j := (offset + Z.to_nat w)%nat in
      entry em i k = tw_part tw (transfers_before m i j) (transfers_before m (S i) j) /\
      bentry mon i k = Rltb 0 (entry m i j).
Proof.
  intros Hb Htw. destruct (standard_full_ok ef dt n_pixels express offset window_pos Hb) as [E Hf].
  set (m := standard_full_matrix ef dt n_pixels express offset) in *.
  pose proof Hf as [F1 F2 F3 F4].
  destruct (restrict_ok m E _ tw F1 F3 Htw) as (m' & Er & Hm' & Hent).
  pose proof window_in_range as Hwr.
  exists E, (map (pick 0 offset window) m'), (map (pick false offset window) (positive_mask m)).
  split.
  { unfold standard_express. rewrite (window_n_pixels _ _ Hw). cbn [bind]. fold m.
    rewrite (select_ok false offset window E (n_pixels + offset)) by (auto; apply positive_mask_rect; exact F1).
    cbn [bind]. rewrite Er. cbn [bind]. rewrite (select_ok 0 offset window E (n_pixels + offset)) by auto. reflexivity. }
  split; [eapply pick_rect; eauto|]. split; [eapply pick_rect; apply positive_mask_rect; eauto|].
  cbn zeta. split; [exact Hf|]. intros i k w Hi Hk.
  assert (Hj : (offset + Z.to_nat w < n_pixels + offset)%nat).
  { rewrite Forall_forall in Hwr. specialize (Hwr w (nth_error_In _ _ Hk)). lia. }
  rewrite (pick_entry _ _ _ _ _ w) by (auto; destruct Hm'; lia).
  rewrite (pick_bentry _ _ _ _ _ w) by (auto; destruct (positive_mask_rect _ _ _ F1); lia).
  split; [apply Hent; auto|]. eapply positive_mask_entry; eauto.
Qed.

(** The failing value of express. *)
Lemma standard_express_bad tw : bad_express ef n_pixels express ->
  standard_express ef dt window express offset tw = Err IndexError.
Proof.
  intros Hb. pose proof window_pos as Hpos.
  destruct (standard_full_cases ef dt n_pixels express offset Hpos) as [(H1 & H2 & H3 & E)|[[H1 E]|[H E]]].
  - destruct Hb as (_ & _ & Hb). lia.
  - unfold standard_express. rewrite (window_n_pixels _ _ Hw). cbn [bind]. rewrite E.
    rewrite (select_err offset window express (n_pixels - 1 + offset)); [reflexivity| | | |].
    + apply positive_mask_rect. rewrite plain_tab. apply tab_rect.
    + destruct Hb as (_ & Hb & _). lia.
    + destruct Hw as [Hw1 _]. eapply Forall_impl; [|exact Hw1]. cbn beta. intros; lia.
    + exists (Z.of_nat n_pixels - 1)%Z. split; [apply Hw|lia].
  - destruct Hb as (H1 & H2 & H3). destruct H as [H|[H|H]]; [congruence|congruence|lia].
Qed.
End Standard.
