(** * The trap manager that records elapsed times. *)
From Coq Require Import ZArith List Bool Reals Lra Lia.
From Coquelicot Require Import Rcomplements Rbar Hierarchy RInt.
From Verif Require Import Num Py RFacts CCDModel TrapsModel ManagerModel Spec SpecTime TrapsFacts WmFacts ArrayFacts CutFacts
  InstantFacts CaptureFacts ClockFacts ShapeFacts BalanceFacts.
Import ListNotations.
Open Scope R_scope.

(** ** Recorded times of lists of levels. *)
Lemma elapsed_cons v ts w s x : elapsed ((v, ts) :: w) s x = if Rlt_dec x v then Some (nth s ts 0) else elapsed w s (x - v).
Proof. reflexivity. Qed.
Lemma elapsed_app a b s x : nonneg a -> 0 <= x ->
  elapsed (a ++ b) s x = if Rlt_dec x (volume a) then elapsed a s x else elapsed b s (x - volume a).
Proof.
  intros Ha. revert x. induction Ha as [|[v fs] a Hv Ha IH]; intros x Hx.
  - cbn. destruct (Rlt_dec x 0); [lra|]. f_equal. ring.
  - cbn in Hv. cbn [app elapsed]. rewrite volume_cons; cbn [fst].
    pose proof (nonneg_volume a Ha).
    destruct (Rlt_dec x v).
    + destruct (Rlt_dec x (v + volume a)); [|lra]. reflexivity.
    + rewrite IH by lra. destruct (Rlt_dec (x - v) (volume a)), (Rlt_dec x (v + volume a)); try lra; try reflexivity.
      f_equal; ring.
Qed.
Lemma elapsed_Zs n k s x : 0 <= x -> elapsed (Zs n k) s x = None.
Proof.
  revert x. induction k as [|k IH]; intros x Hx; [reflexivity|]. unfold Zs, zrow in *; cbn [repeat].
  rewrite elapsed_cons. destruct (Rlt_dec x 0); [lra|]. apply IH. lra.
Qed.
Lemma elapsed_above l s x : nonneg l -> volume l <= x -> elapsed l s x = None.
Proof.
  intros Hl Hx. pose proof (nonneg_volume l Hl). pose proof (elapsed_app l [] s x Hl ltac:(lra)) as E.
  rewrite app_nil_r in E. rewrite E. destruct (Rlt_dec x (volume l)); [lra|]. reflexivity.
Qed.
Lemma elapsed_app_Zs l n k s x : nonneg l -> 0 <= x -> elapsed (l ++ Zs n k) s x = elapsed l s x.
Proof.
  intros Hl Hx. rewrite elapsed_app by auto. destruct (Rlt_dec x (volume l)); [reflexivity|].
  rewrite elapsed_Zs by lra. symmetry. apply elapsed_above; auto. lra.
Qed.
Lemma cut_elapsed l v s x : live l -> 0 <= x -> elapsed (below v l ++ above v l) s x = elapsed l s x.
Proof.
  intros Hl. revert v x. induction Hl as [|r l Hr Hl IH]; intros v x Hx; [reflexivity|].
  unfold below, above in *; cbn [cut].
  destruct (Rle_dec v 0); [reflexivity|].
  destruct (Rle_dec (fst r) v).
  - specialize (IH (v - fst r)). destruct (cut (v - fst r) l) as [b a]; cbn [fst snd app] in *.
    destruct r as [vr fs]. cbn [fst] in *. rewrite !elapsed_cons. destruct (Rlt_dec x vr); [reflexivity|].
    apply IH. lra.
  - destruct r as [vr fs]. cbn [fst snd app] in *. rewrite !elapsed_cons.
    destruct (Rlt_dec x v), (Rlt_dec x vr), (Rlt_dec (x - v) (vr - v)); try lra; try reflexivity.
    f_equal; ring.
Qed.
Lemma elapsed_mapv g f (l : wmarks R) s x :
  (forall r, In r l -> nth s (f (snd r)) 0 = g (nth s (snd r) 0)) ->
  elapsed (mapv f l) s x = option_map g (elapsed l s x).
Proof.
  revert x. induction l as [|[v ts] l IH]; intros x H; [reflexivity|]. cbn [mapv map fst snd] in *.
  rewrite !elapsed_cons. destruct (Rlt_dec x v).
  - cbn. f_equal. apply (H (v, ts)). now left.
  - apply IH. intros r Hr. apply H. now right.
Qed.
Lemma elapsed_const n b s x : nonneg b -> 0 <= x < volume b ->
  elapsed (mapv (fun _ => repeat 0 n) b) s x = Some 0.
Proof.
  intros Hb. revert x. induction Hb as [|[v ts] b Hv Hb IH]; intros x Hx; [rewrite volume_nil in Hx; lra|].
  cbn [mapv map fst snd] in *. rewrite elapsed_cons. rewrite volume_cons in Hx. cbn [fst] in *. destruct (Rlt_dec x v).
  - now rewrite nth_zeros.
  - apply IH. lra.
Qed.

(** ** Preparation of levels, for any values. *)
Lemma prep_live n v l : live l -> 0 <= v -> live (prep_below n v l) /\ live (prep_above v l).
Proof.
  intros Hl Hv. unfold prep_below, prep_above. destruct (Rle_dec v (volume l)); [now apply cut_live|].
  split; [|constructor]. apply Forall_app. split; auto. constructor; [cbn; lra|constructor].
Qed.
Lemma prep_vals n v l (Q : list R -> Prop) : Forall (fun r => Q (snd r)) l -> Q (repeat 0 n) ->
  Forall (fun r => Q (snd r)) (prep_below n v l) /\ Forall (fun r => Q (snd r)) (prep_above v l).
Proof.
  intros Hl H0. unfold prep_below, prep_above. destruct (Rle_dec v (volume l)); [now apply cut_vals|].
  split; [|constructor]. apply Forall_app. split; auto.
Qed.
Lemma prep_volumes n v l : live l -> 0 <= v -> volume (prep_below n v l) = v /\ volume (prep_above v l) = Rmax (volume l) v - v.
Proof.
  intros Hl Hv. unfold prep_below, prep_above. destruct (Rle_dec v (volume l)).
  - rewrite Rmax_left by lra. apply cut_volume; auto.
  - rewrite Rmax_right by lra. rewrite volume_app, volume_cons, volume_nil. cbn [fst]. split; lra.
Qed.
Lemma prep_counts n v l : (length (prep_below n v l) + length (prep_above v l) <= S (length l))%nat.
Proof.
  unfold prep_below, prep_above. destruct (Rle_dec v (volume l)); [apply cut_length|].
  rewrite app_length. cbn. lia.
Qed.
Lemma prep_elapsed n v l s x : live l -> 0 <= v -> 0 <= x ->
  elapsed (mapv (fun _ => repeat 0 n) (prep_below n v l) ++ prep_above v l) s x = fill_now v (elapsed l) s x.
Proof.
  intros Hl Hv Hx. destruct (prep_live n v l Hl Hv) as [HB HA]. destruct (prep_volumes n v l Hl Hv) as [VB VA].
  rewrite elapsed_app by (auto; apply live_nonneg, mapv_live; auto). rewrite mapv_volume, VB. unfold fill_now.
  destruct (Rlt_dec x v).
  - apply elapsed_const; [now apply live_nonneg|lra].
  - unfold prep_above in *. destruct (Rle_dec v (volume l)).
    + rewrite <- (cut_elapsed l v s x Hl Hx). rewrite elapsed_app by (auto; apply live_nonneg, cut_live; auto).
      destruct (cut_volume l v Hl ltac:(lra)) as [-> _]. destruct (Rlt_dec x v); [lra|reflexivity].
    + cbn. symmetry. apply elapsed_above; [now apply live_nonneg|lra].
Qed.

(** ** Collapsing recorded times. *)
Lemma find_true_falses a b : Forall (fun x => x = false) b -> find_true (a ++ b) = find_true a.
Proof.
  intros Hb. induction a as [|[] a IH]; cbn; [now apply find_true_none|reflexivity|now rewrite IH].
Qed.
Lemma collapse_index_times n l k : (0 < n)%nat -> (1 < collapse_index 0%R n (l ++ Zs n k))%nat ->
  (collapse_index 0%R n (l ++ Zs n k) < length l)%nat.
Proof.
  intros Hn Hk. pose proof (collapse_index_le 0 n (l ++ Zs n k) 0 Hn) as H.
  rewrite map_app in H. unfold np_argmax in H. rewrite find_true_falses in H.
  - destruct (find_true _) eqn:E; [|lia]. apply find_true_lt in E. rewrite map_length in E. lia.
  - apply Forall_forall. intros b Hb. apply in_map_iff in Hb as (r & <- & Hr). apply repeat_spec in Hr. subst r.
    unfold zrow, vals; cbn [snd]. rnum. rewrite nth_zeros. apply negb_false_iff, Reqb_true. reflexivity.
Qed.
Lemma elapsed_full n f s x : live f -> Forall (full_row 0 n) f -> (s < n)%nat -> 0 <= x < volume f -> elapsed f s x = Some 0.
Proof.
  intros Hl Hf Hs. revert x. induction Hf as [|[v ts] f Hr Hf IH]; intros x Hx; [rewrite volume_nil in Hx; lra|].
  inversion Hl; subst. rewrite volume_cons in Hx. cbn [fst] in *. rewrite elapsed_cons. destruct (Rlt_dec x v).
  - f_equal. now apply (Hr s).
  - apply IH; auto. lra.
Qed.
Definition timed (n : nat) (l : wmarks R) : Prop := live l /\ width n l /\ Forall (fun r => Forall (fun t => 0 <= t) (snd r)) l.
Lemma timed_app n a b : timed n (a ++ b) <-> timed n a /\ timed n b.
Proof. unfold timed, live, width. rewrite !Forall_app. tauto. Qed.
Lemma zeros_nonneg n : Forall (fun t => 0 <= t) (repeat 0 n).
Proof. apply Forall_forall. intros x Hx. apply repeat_spec in Hx. lra. Qed.
Lemma collapse_times n l k : (0 < n)%nat -> live l -> width n l ->
  exists l' k', collapse 0 n (l ++ Zs n (S k)) = l' ++ Zs n (S k') /\ live l' /\ width n l' /\
    (Forall (fun r => Forall (fun t => 0 <= t) (snd r)) l -> Forall (fun r => Forall (fun t => 0 <= t) (snd r)) l') /\
    (length l' <= length l)%nat /\ (length l' + k' = length l + k)%nat /\ volume l' = volume l /\
    (forall s x, (s < n)%nat -> 0 <= x -> elapsed l' s x = elapsed l s x) /\
    (forall ds f, trapped ds (mapv f l') = trapped ds (mapv f l)).
Proof.
  intros Hn Hl Hw. unfold collapse. set (q := collapse_index 0%R n (l ++ Zs n (S k))).
  destruct (Nat.leb_spec q 1) as [|Hq]; [exists l, k; auto 12|].
  pose proof (collapse_index_times n l (S k) Hn Hq) as Hlt. fold q in Hlt.
  pose proof (firstn_full 0 n (l ++ Zs n (S k))) as Hf. fold q in Hf.
  destruct (split_len (q - 1) l ltac:(lia)) as (a & r0 & b & El & Hla).
  replace q with (S (length a)) in * by lia. rewrite El in *. clear El q Hla Hlt.
  set (f := a ++ [r0]) in *.
  assert (Ef : a ++ r0 :: b = f ++ b) by (unfold f; now rewrite <- app_assoc).
  assert (Elf : S (length a) = length f) by (unfold f; rewrite app_length; cbn; lia).
  rewrite Elf in *. rewrite Ef in *. rewrite <- app_assoc in *. rewrite firstn_app_exact in Hf.
  apply Forall_app in Hl as [Hlf Hlb]. apply Forall_app in Hw as [Hwf Hwb].
  assert (Hfne : f <> []) by (unfold f; destruct a; discriminate).
  pose proof (live_volume_pos f Hlf Hfne) as Hpos.
  exists ((volume f, repeat 0 n) :: b), (k + length a)%nat.
  rewrite firstn_vol, collapse_rows_form by auto.
  split; [cbn [app]; do 3 f_equal; lia|].
  split; [constructor; auto|]. split; [constructor; auto; apply repeat_length|].
  split; [intros Ht; apply Forall_app in Ht as [_ Ht]; constructor; auto; apply zeros_nonneg|].
  split; [cbn [length]; rewrite app_length; lia|]. split; [cbn [length]; rewrite app_length; lia|].
  split; [rewrite volume_cons, volume_app; reflexivity|]. split.
  - intros s x Hs Hx. rewrite elapsed_cons, elapsed_app by (auto; now apply live_nonneg).
    destruct (Rlt_dec x (volume f)); [|reflexivity]. rewrite nth_zeros. symmetry. apply (elapsed_full n); auto.
  - intros ds g. unfold mapv. rewrite map_app. cbn [map]. fold (mapv g f) (mapv g b). rewrite trapped_cons, trapped_app. f_equal.
    unfold row_trapped; cbn [fst snd]. clear -Hwf Hf. clearbody f. induction f as [|r f IH]; [rewrite volume_nil; cbn [mapv map]; rewrite trapped_nil; ring|].
    inversion Hwf; inversion Hf; subst. cbn [mapv map]. rewrite trapped_cons, volume_cons. fold (mapv g f). rewrite <- IH by auto.
    unfold row_trapped; cbn [fst snd]. rewrite (full_row_eq 0 (length (snd r)) r) by auto. rewrite repeat_length. ring.
Qed.

(** ** Counting. *)
Definition curve (traps : list (trap R)) (ts : list R) : list R :=
  zip_with (fun t time => fill_fraction_from_time_elapsed t time) traps ts.
Definition count (traps : list (trap R)) (l : wmarks R) : R := trapped (dens traps) (mapv (curve traps) l).
Lemma curve_nth traps ts s t : nth_error traps s = Some t -> length ts = length traps ->
  nth s (curve traps ts) 0 = fill_fraction_from_time_elapsed t (nth s ts 0).
Proof.
  revert ts s. induction traps as [|t0 traps IH]; intros [|x ts] [|s] H E; try discriminate; cbn in *.
  - injection H as ->. reflexivity.
  - apply IH; auto.
Qed.
Lemma count_n_trapped m l k : m_kind m = KTime -> live l -> 
  n_trapped m (l ++ Zs (length (m_traps m)) (S k)) = count (m_traps m) l.
Proof.
  intros Hk Hl. unfold n_trapped. rewrite Hk, cy_n_trapped_eq. unfold to_fill_fractions, Zs, zrow.
  rewrite first_zero_live by auto. rewrite slice_pre, trapped_app.
  change (repeat (0, repeat 0 (length (m_traps m))) (S k)) with (Zs (length (m_traps m)) (S k)). rewrite trapped_Zs.
  unfold count, n_traps_per_pixel, curve. ring.
Qed.
Lemma filled_occupancy traps l s x : width (length traps) l -> (s < length traps)%nat ->
  occupancy (mapv (curve traps) l) s x = filled_by traps (elapsed l) s x.
Proof.
  intros Hw Hs. destruct (nth_error traps s) as [t|] eqn:Et; [|apply nth_error_None in Et; lia].
  unfold filled_by. rewrite Et. revert x. induction Hw as [|[v ts] l Hr Hw IH]; intros x; [reflexivity|].
  cbn [mapv map fst snd occupancy elapsed] in *. destruct (Rlt_dec x v); [now apply curve_nth|apply IH].
Qed.
Lemma count_held traps l : live l -> width (length traps) l -> volume l <= 1 ->
  count traps l = held traps (elapsed l).
Proof.
  intros Hl Hw Hv. unfold held. symmetry. unfold count.
  rewrite <- (electrons_trapped traps (occupancy (mapv (curve traps) l)) 0 1).
  - apply electrons_ext; [lra|]. intros s x Hs Hx. symmetry. now apply filled_occupancy.
  - intros s. apply is_RInt_occupancy_upto; [apply live_nonneg; now apply mapv_live|now rewrite mapv_volume].
Qed.
Lemma held_same traps S T : same_times (length traps) S T -> held traps S = held traps T.
Proof.
  intros H. unfold held. apply electrons_ext; [lra|]. intros s x Hs Hx. unfold filled_by. rewrite H by (auto; lra). reflexivity.
Qed.

(** ** Capture. *)
Lemma curve_zeros_trapped traps v k :
  trapped (dens traps) (mapv (curve traps) ((v, repeat 0 (length traps)) :: Zs (length traps) k)) 
  = v * dot (curve traps (repeat 0 (length traps))) (dens traps).
Proof.
  cbn [mapv map fst snd]. rewrite trapped_cons. unfold row_trapped at 1; cbn [fst snd].
  replace (map _ (Zs (length traps) k)) with (repeat (0, curve traps (repeat 0 (length traps))) k).
  - rewrite trapped_zeros. ring.
  - unfold Zs. induction k as [|k IH]; [reflexivity|]. cbn [repeat map]. now rewrite IH.
Qed.
Section TimeCapture.
Variables (traps : list (trap R)) (l : wmarks R) (k : nat) (fill : filling R) (n_free v : R).
Let n := length traps.
Let W := l ++ Zs n (S (S k)).
Let m := mkManager KTime traps W.
Hypothesis Hn : (0 < n)%nat.
Hypothesis Hl : live l.
Hypothesis Hw : width n l.
Hypothesis Hfill : fill n_free = Ok v.
Hypothesis Hv : 0 <= v.
Hypothesis Hzero : n_free <= 0 -> v = 0.

Lemma time_captured : exists l' k',
  live l' /\ width n l' /\
  (Forall (fun r => Forall (fun t => 0 <= t) (snd r)) l -> Forall (fun r => Forall (fun t => 0 <= t) (snd r)) l') /\
  (length l' <= S (length l))%nat /\ (length l' + k' = length l + S k)%nat /\ volume l' = Rmax (volume l) v /\
  (forall s x, (s < n)%nat -> 0 <= x -> elapsed l' s x = fill_now v (elapsed l) s x) /\
  let need := count traps l' - count traps l in
  let start := dot (curve traps (repeat 0 n)) (dens traps) in
  ((n_electrons_captured m n_free fill = Ok (need, mkManager KTime traps (l' ++ Zs n (S k'))) /\
    (0 <= n_free -> 0 <= start -> need <= n_free)) \/
   (n_electrons_captured m n_free fill = Err TypeError /\ (0 <= start -> n_free < need))).
Proof.
  unfold n_electrons_captured. cbv zeta. change (m_wm m) with W. change (m_kind m) with KTime. change (m_traps m) with traps.
  cbn [filled_value]. fold n. rewrite Hfill. cbn [bind].
  assert (Hmx : max_watermark_index W = (Z.of_nat (length l) - 1)%Z) by now apply max_index_Zs.
  rewrite Hmx.
  assert (Hin : n_trapped m W = count traps l) by (apply (count_n_trapped m l (S k)); auto).
  rewrite Hin. rnum.
  destruct ((Z.of_nat (length l) - 1 =? -1)%Z && Rltb 0 n_free) eqn:Eb.
  - (* first capture *)
    apply andb_true_iff in Eb as [Eb Ef]. apply Z.eqb_eq in Eb. apply Rltb_true in Ef.
    assert (El : l = []) by (destruct l; [reflexivity|cbn [length] in Eb; lia]).
    assert (E0 : count traps l = 0) by (rewrite El; apply trapped_nil). rewrite E0.
    assert (EW : forall l1 k1, l1 ++ Zs n (S k1) = (v, repeat 0 n) :: Zs n (S k) -> live l1 ->
       n_trapped m ((v, repeat 0 n) :: Zs n (S k)) = count traps l1 /\
       count traps l1 = v * dot (curve traps (repeat 0 n)) (dens traps)).
    { intros l1 k1 E1 Hl1. rewrite <- E1. split; [now apply (count_n_trapped m)|].
      pose proof (curve_zeros_trapped traps v (S k)) as Ez. fold n in Ez. rewrite <- Ez. rewrite <- E1. unfold count, mapv.
      rewrite map_app, trapped_app.
      assert (Z : trapped (dens traps) (map (fun r => (fst r, curve traps (snd r))) (Zs n (S k1))) = 0).
      { unfold Zs. generalize (S k1). intros q. induction q as [|q IH]; [apply trapped_nil|]. cbn [repeat map]. rewrite trapped_cons, IH. unfold row_trapped, zrow; cbn [fst snd]. ring. }
      rewrite Z. ring. }
    assert (Hex : exists l1 k1, l1 ++ Zs n (S k1) = (v, repeat 0 n) :: Zs n (S k) /\ live l1 /\ width n l1 /\
      Forall (fun r => Forall (fun t => 0 <= t) (snd r)) l1 /\ (length l1 <= 1)%nat /\ (length l1 + k1 = S k)%nat /\
      volume l1 = v /\ (forall s x, (s < n)%nat -> 0 <= x -> elapsed l1 s x = fill_now v never s x)).
    { destruct (Req_dec v 0) as [->|Hv0].
      - exists [], (S k). split; [reflexivity|]. repeat (split; [now constructor||(cbn; lia)|]).
        intros s x Hs Hx. unfold fill_now, never. destruct (Rlt_dec x 0); [lra|reflexivity].
      - exists [(v, repeat 0 n)], k. split; [reflexivity|]. 
        split; [constructor; [cbn; lra|constructor]|]. split; [constructor; [apply repeat_length|constructor]|].
        split; [constructor; [apply zeros_nonneg|constructor]|]. split; [cbn; lia|]. split; [cbn; lia|].
        split; [rewrite volume_cons, volume_nil; cbn; lra|].
        intros s x Hs Hx. rewrite elapsed_cons. unfold fill_now, never. rewrite nth_zeros. reflexivity. }
    destruct Hex as (l1 & k1 & E1 & P1 & P2 & P3 & P4 & P5 & P6 & P7).
    destruct (EW l1 k1 E1 P1) as [Ec1 Ec2].
    exists l1, k1. split; [auto|]. split; [auto|]. split; [auto|]. split; [lia|]. split; [rewrite El; cbn [length]; lia|].
    split; [rewrite El, volume_nil, Rmax_right; auto|].
    split; [intros s x Hs Hx; rewrite El; now apply P7|]. 
    unfold instant_first_capture. cbv zeta. change (m_kind m) with KTime. change (m_traps m) with traps. cbn [filled_value].
    change (m_wm m) with W. unfold W. rewrite El. cbn [app].
    change (set_row0 (Zs n (S (S k))) (v, repeat n0 (length traps))) with ((v, repeat 0 n) :: Zs n (S k)).
    rewrite Ec1. rnum. destruct (Reqb_spec (count traps l1) 0) as [Z|Z].
    + left. cbn [bind]. split; [unfold with_wm; cbn [m_kind m_traps]; rewrite E1; do 2 f_equal; lra|lra].
    + destruct (Rltb_spec (n_free / count traps l1) 1) as [Hlt|Hge].
      * right. cbn [bind not_enough m_kind]. change (m_kind m) with KTime. cbn. split; [reflexivity|].
        intros Hst. assert (Hp : 0 <= count traps l1) by (rewrite Ec2; now apply Rmult_le_pos).
        assert (Hp' : 0 < count traps l1) by lra.
        apply (Rmult_lt_compat_r (count traps l1)) in Hlt; auto. unfold Rdiv in Hlt. rewrite Rmult_assoc, Rinv_l in Hlt by lra. lra.
      * left. cbn [bind]. split; [unfold with_wm; cbn [m_kind m_traps]; rewrite E1; do 2 f_equal; lra|].
        intros Hnf Hst. assert (Hp : 0 <= count traps l1) by (rewrite Ec2; now apply Rmult_le_pos).
        assert (Hp' : 0 < count traps l1) by lra.
        apply (Rmult_le_compat_r (count traps l1)) in Hge; [|lra].
        unfold Rdiv in Hge. rewrite Rmult_assoc, Rinv_l in Hge by lra. lra.
  - (* levels in use, or nothing to capture *)
    assert (Hne : l <> [] \/ v = 0).
    { apply andb_false_iff in Eb as [Eb|Eb].
      - left. intros ->. cbn in Eb. discriminate.
      - right. apply Hzero. apply Rltb_false in Eb. lra. }
    destruct (capture_prepared n l (S k) v (Z.of_nat (length l) - 1) Hn Hl Hv eq_refl Hne) as (k' & E1 & E2 & E3).
    fold W in E1, E2. rewrite E1. cbn [bind].
    destruct (prep_live n v l Hl Hv) as [HB HA]. destruct (prep_volumes n v l Hl Hv) as [VB VA].
    destruct (prep_vals n v l (fun ts => length ts = n) Hw (repeat_length 0 n)) as [WB WA].
    pose proof (prep_counts n v l) as HC.
    set (B := prep_below n v l) in *. set (A := prep_above v l) in *.
    rewrite E2, Nat2Z.id, slice_pre.
    assert (Hk' : exists k'', k' = S k'') by (destruct k' as [|k'']; [lia|now exists k'']). destruct Hk' as (k'' & ->).
    set (L := mapv (fun _ => repeat 0 n) B ++ A).
    assert (LL : live L) by (apply Forall_app; split; auto; now apply mapv_live).
    assert (LW : width n L) by (apply Forall_app; split; auto; apply mapv_width; intros; apply repeat_length).
    assert (LE : forall s x, (s < n)%nat -> 0 <= x -> elapsed L s x = fill_now v (elapsed l) s x)
      by (intros; unfold L, B, A; now apply prep_elapsed).
    assert (LV : volume L = Rmax (volume l) v) by (unfold L; rewrite volume_app, mapv_volume, VB, VA; lra).
    assert (LN : (length L + S k'' = length l + S (S k))%nat) by (unfold L; rewrite app_length, mapv_length; lia).
    assert (LS : (length L <= S (length l))%nat) by (unfold L; rewrite app_length, mapv_length; lia).
    assert (LT : Forall (fun r => Forall (fun t => 0 <= t) (snd r)) l -> Forall (fun r => Forall (fun t => 0 <= t) (snd r)) L).
    { intros Ht. destruct (prep_vals n v l (fun ts => Forall (fun t => 0 <= t) ts) Ht (zeros_nonneg n)) as [_ TA].
      apply Forall_app. split; auto. apply Forall_forall. intros r Hr. apply in_map_iff in Hr as (r' & <- & _). apply zeros_nonneg. }
    rewrite app_assoc. fold L.
    destruct (collapse_times n L k'' Hn LL LW) as (l2 & k2 & C1 & C2 & C3 & C4 & C5 & C6 & C7 & C8 & C9).
    assert (Hcc : exists wi2, collapse_with_copy 0 n (L ++ Zs n (S k'')) ((B ++ A) ++ Zs n (S k'')) = Ok (l2 ++ Zs n (S k2), wi2)).
    { unfold collapse_with_copy, collapse in *. destruct (Nat.leb_spec (collapse_index 0%R n (L ++ Zs n (S k''))) 1) as [|Hq].
      - rewrite C1. eexists; reflexivity.
      - pose proof (collapse_index_times n L (S k'') Hn Hq) as Hlt. set (q := collapse_index _ _ _) in *.
        destruct (neqb _ _) eqn:Ez.
        + exfalso. rnum. apply Reqb_true in Ez. rewrite sumF_Rsum in Ez.
          assert (Hlen : length (B ++ A) = length L) by (unfold L; rewrite !app_length, mapv_length; reflexivity).
          rewrite firstn_app in Ez. replace (q - length (B ++ A))%nat with 0%nat in Ez by lia. cbn [firstn] in Ez. rewrite app_nil_r in Ez.
          assert (HBA : live (firstn q (B ++ A))).
          { apply Forall_forall. intros r Hr. assert (Hr' : In r (B ++ A)) by (rewrite <- (firstn_skipn q); apply in_or_app; now left).
            assert (LBA : live (B ++ A)) by (apply Forall_app; auto). unfold live in LBA. rewrite Forall_forall in LBA. now apply LBA. }
          pose proof (live_volume_pos _ HBA) as Hp. rewrite volume_vol, Ez in Hp.
          enough (0 < 0) by lra. apply Hp. intros E. apply (f_equal (@length _)) in E. rewrite firstn_length in E. cbn in E. lia.
        + rewrite C1. eexists; reflexivity. }
    destruct Hcc as (wi2 & Hcc). rewrite <- app_assoc in Hcc. change (B ++ A ++ Zs n (S k'')) with (B ++ (A ++ Zs n (S k''))).
    replace (B ++ A ++ Zs n (S k'')) with (B ++ (A ++ Zs n (S k''))) in * by reflexivity.
    rewrite Hcc. cbn [bind].
    assert (Hc2 : n_trapped m (l2 ++ Zs n (S k2)) = count traps l2) by now apply (count_n_trapped m l2 k2).
    rewrite Hc2.
    assert (HE2 : forall s x, (s < n)%nat -> 0 <= x -> elapsed l2 s x = fill_now v (elapsed l) s x)
      by (intros s x Hs Hx; rewrite C8 by auto; now apply LE).
    destruct (Reqb_spec (count traps l2) (count traps l)) as [Z|Z].
    + exists l2, k2. repeat (split; [auto; try lia; congruence|]). left. unfold with_wm; cbn [m_kind m_traps].
      split; [do 2 f_equal; lra|lra].
    + destruct (collapse_times n l2 k2 Hn C2 C3) as (l3 & k3 & D1 & D2 & D3 & D4 & D5 & D6 & D7 & D8 & D9).
      assert (Ec : count traps l3 = count traps l2) by apply D9.
      exists l3, k3. split; [auto|]. split; [auto|]. split; [auto|]. split; [lia|]. split; [lia|]. split; [congruence|].
      split; [intros s x Hs Hx; rewrite D8 by auto; now apply HE2|]. rewrite Ec.
      set (need := count traps l2 - count traps l). 
      assert (Hneed : need <> 0) by (unfold need; lra).
      destruct (Rltb 0 (n_free / need) && Rltb (n_free / need) 1) eqn:Ebl.
      * right. cbn. split; [reflexivity|]. intros _. apply andb_true_iff in Ebl as [B1 B2].
        apply Rltb_true in B1. apply Rltb_true in B2.
        assert (Hnf : 0 < n_free).
        { destruct (Rle_lt_dec n_free 0) as [Hle|]; auto. exfalso. specialize (Hzero Hle).
          apply Hneed. unfold need. 
          enough (count traps l2 = count traps l) by lra. unfold count. rewrite C9. fold (count traps l).
          unfold L, B, A, prep_below, prep_above. pose proof (nonneg_volume l (live_nonneg l Hl)). rewrite Hzero.
          destruct (Rle_dec 0 (volume l)); [|lra]. unfold below, above. rewrite cut_0 by lra. reflexivity. }
        assert (Hnp : 0 < need).
        { destruct (Rlt_dec 0 need); auto. exfalso. assert (need < 0) by lra.
          assert (/ need < 0) by now apply Rinv_lt_0_compat. unfold Rdiv in B1. nra. }
        apply (Rmult_lt_compat_r need) in B2; auto. unfold Rdiv in B2. rewrite Rmult_assoc, Rinv_l in B2 by lra. lra.
      * left. cbn [bind]. rewrite D1. unfold with_wm; cbn [m_kind m_traps]. split; [reflexivity|]. intros Hnf _.
        destruct (Rle_lt_dec need n_free) as [|Hlt]; auto. exfalso.
        assert (Hp : 0 < n_free).
        { destruct (Rle_lt_dec n_free 0) as [Hle|]; auto. exfalso. specialize (Hzero Hle).
          apply Hneed. unfold need. 
          enough (count traps l2 = count traps l) by lra. unfold count. rewrite C9. fold (count traps l).
          unfold L, B, A, prep_below, prep_above. pose proof (nonneg_volume l (live_nonneg l Hl)). rewrite Hzero.
          destruct (Rle_dec 0 (volume l)); [|lra]. unfold below, above. rewrite cut_0 by lra. reflexivity. }
        assert (Q1 : 0 < n_free / need) by (apply Rdiv_lt_0_compat; lra).
        assert (Q2 : n_free / need < 1) by (apply (Rmult_lt_reg_r need); [lra|]; unfold Rdiv; rewrite Rmult_assoc, Rinv_l by lra; lra).
        apply andb_false_iff in Ebl as [B1|B1]; apply Rltb_false in B1; lra.
Qed.
End TimeCapture.

(** ** Release. *)
Lemma time_released traps l k dwell : live l -> width (length traps) l ->
  let n := length traps in
  let l1 := mapv (map (fun t => t + dwell)) l in
  n_electrons_released (mkManager KTime traps (l ++ Zs n (S k))) dwell
  = (count traps l - count traps l1, mkManager KTime traps (l1 ++ Zs n (S k))).
Proof.
  intros Hl Hw n l1. unfold n_electrons_released. cbv zeta. cbn [m_wm].
  rewrite max_index_Zs by auto.
  replace (Z.to_nat (Z.of_nat (length l) - 1 + 1)) with (length l) by lia. rewrite slice_pre.
  cbn [released_values m_kind]. unfold released_values; cbn [m_kind].
  change (map (fun time : R => (time + dwell)%num)) with (map (fun t => t + dwell)). fold l1.
  set (m := mkManager KTime traps (l ++ Zs n (S k))).
  pose proof (count_n_trapped m l k eq_refl Hl) as E1. 
  pose proof (count_n_trapped m l1 k eq_refl (mapv_live _ _ Hl)) as E2.
  change (m_traps m) with traps in E1, E2. fold n in E1, E2. rewrite E1, E2. reflexivity.
Qed.
Lemma wait_elapsed n l dwell s x : width n l -> (s < n)%nat ->
  elapsed (mapv (map (fun t => t + dwell)) l) s x = wait dwell (elapsed l) s x.
Proof.
  intros Hw Hs. unfold wait. apply elapsed_mapv. intros r Hr. unfold width in Hw. rewrite Forall_forall in Hw. specialize (Hw r Hr).
  rewrite (nth_indep _ 0 (0 + dwell)) by (rewrite map_length; lia). apply (map_nth (fun t => t + dwell)).
Qed.
Lemma wait_width n l dwell : width n l -> width n (mapv (map (fun t => t + dwell)) l).
Proof.
  intros Hw. apply mapv_width. intros r Hr. unfold width in Hw. rewrite Forall_forall in Hw. rewrite map_length. now apply Hw.
Qed.

(** The electrons returned are those that left the traps. *)
Lemma time_balance traps l k n_free fill dwell net m' :
  let n := length traps in
  let m := mkManager KTime traps (l ++ Zs n (S (S k))) in
  (0 < n)%nat -> live l -> width n l -> (forall a v, fill a = Ok v -> 0 <= v /\ (a <= 0 -> v = 0)) ->
  manager_step m n_free fill dwell = Ok (net, m') ->
  net = n_trapped m (m_wm m) - n_trapped m' (m_wm m').
Proof.
  intros n m Hn Hl Hw Hf E. unfold manager_step, instant_step in E. cbn [m_kind m] in E.
  unfold m in E. unfold n in E at 1. rewrite time_released in E by auto. cbv iota beta in E. fold n in E.
  apply bind_ok in E as ([c m2] & Ec & E). injection E as <- <-.
  set (l1 := mapv (map (fun t => t + dwell)) l) in *.
  rnum. destruct (fill (n_free + (count traps l - count traps l1))) as [v|e] eqn:Ev.
  2: { unfold n_electrons_captured in Ec. rewrite Ev in Ec. discriminate. }
  destruct (Hf _ _ Ev) as [Hv Hz].
  destruct (time_captured traps l1 k fill _ v Hn (mapv_live _ _ Hl) (wait_width n l dwell Hw) Ev Hv Hz)
    as (l' & k' & P1 & P2 & _ & _ & _ & _ & _ & P3). cbv zeta in P3.
  fold n in P3. destruct P3 as [[P3 _]|[P3 _]]; rewrite P3 in Ec; [|discriminate]. injection Ec as <- <-.
  cbn [m_wm m]. pose proof (count_n_trapped (mkManager KTime traps (l' ++ Zs n (S k'))) l' k' eq_refl P1) as E2.
  cbn [m_traps] in E2. fold n in E2. rewrite E2.
  pose proof (count_n_trapped m l (S k) eq_refl Hl) as E1. cbn [m_traps m] in E1. fold n in E1. unfold m in *. rewrite E1. rnum. ring.
Qed.

(** ** The whole call. *)
Lemma curve_falls traps ts dwell : Forall fading traps -> 0 <= dwell -> Forall (fun t => 0 <= t) ts ->
  Forall2 Rle (curve traps (map (fun t => t + dwell) ts)) (curve traps ts).
Proof.
  intros Hf Hd. revert ts. unfold curve. induction Hf as [|t traps Ht Hf IH]; intros [|x ts] Hx; cbn; try constructor.
  - inversion Hx; subst. apply (fd_falls t Ht). lra.
  - inversion Hx; subst. now apply IH.
Qed.
Lemma densities_nonneg traps : Forall fading traps -> Forall (fun d => 0 <= d) (dens traps).
Proof. intros H. induction H; constructor; auto. apply (fd_density _ H). Qed.
Lemma start_nonneg traps : Forall fading traps -> 0 <= dot (curve traps (repeat 0 (length traps))) (dens traps).
Proof.
  intros H. apply dot_nonneg; [|now apply densities_nonneg]. unfold curve.
  induction H as [|t traps Ht H IH]; [constructor|]. cbn [length repeat]. constructor; [apply (fd_start t Ht)|exact IH].
Qed.
Lemma count_falls traps l dwell : Forall fading traps -> 0 <= dwell -> live l ->
  Forall (fun r => Forall (fun t => 0 <= t) (snd r)) l ->
  count traps (mapv (map (fun t => t + dwell)) l) <= count traps l.
Proof.
  intros Hf Hd Hl Ht. unfold count. induction l as [|r l IH]; [cbn; lra|].
  inversion Hl; inversion Ht; subst. cbn [mapv map fst snd] in *. rewrite !trapped_cons. apply Rplus_le_compat; [|now apply IH].
  unfold row_trapped; cbn [fst snd]. apply Rmult_le_compat_l; [lra|]. apply dot_le; [now apply curve_falls|now apply densities_nonneg].
Qed.
Lemma records_levels n w spare T : records n w spare T -> exists l k, w = l ++ Zs n (S k) /\ (spare <= k)%nat /\
  live l /\ width n l /\ Forall (fun r => Forall (fun t => 0 <= t) (snd r)) l /\ volume l <= 1 /\
  same_times n (elapsed l) T.
Proof.
  intros (l & f & -> & Hf & Hl & Hv & HT). destruct f as [|k]; [lia|]. exists l, k. fold (Zs n (S k)) in *.
  change (repeat (0, repeat 0 n) (S k)) with (Zs n (S k)) in *.
  rewrite volume_app, volume_Zs in Hv.
  assert (Hlive : live l) by (eapply Forall_impl; [|exact Hl]; cbn; tauto).
  split; [reflexivity|]. split; [lia|]. split; [auto|]. split; [eapply Forall_impl; [|exact Hl]; cbn; tauto|].
  split; [eapply Forall_impl; [|exact Hl]; cbn; tauto|]. split; [lra|].
  intros s x Hs Hx. rewrite <- HT by auto. symmetry. apply elapsed_app_Zs; [now apply live_nonneg|lra].
Qed.
Lemma levels_records n l k spare T : live l -> width n l -> Forall (fun r => Forall (fun t => 0 <= t) (snd r)) l ->
  volume l <= 1 -> (spare <= k)%nat -> same_times n (elapsed l) T -> records n (l ++ Zs n (S k)) spare T.
Proof.
  intros Hl Hw Ht Hv Hk HT. exists l, (S k). split; [reflexivity|]. split; [lia|]. split.
  - apply Forall_forall. intros r Hr. unfold live, width in *. rewrite Forall_forall in Hl, Hw, Ht. auto.
  - split; [rewrite volume_app, volume_Zs; lra|]. intros s x Hs Hx.
    change (repeat (0, repeat 0 n) (S k)) with (Zs n (S k)).
    rewrite elapsed_app_Zs by (try apply live_nonneg; auto; lra). now apply HT.
Qed.
Lemma wait_same n dwell S T : same_times n S T -> same_times n (wait dwell S) (wait dwell T).
Proof. intros H s x Hs Hx. unfold wait. now rewrite H. Qed.
Lemma fill_now_same n v S T : same_times n S T -> same_times n (fill_now v S) (fill_now v T).
Proof. intros H s x Hs Hx. unfold fill_now. now rewrite H. Qed.

Lemma time_step traps w spare T fill well n_free dwell :
  let n := length traps in
  let m := mkManager KTime traps w in
  let T' := times_after traps well dwell n_free T in
  (0 < n)%nat -> Forall fading traps -> records n w (S spare) T ->
  well 0 = 0 -> (forall a, 0 <= a -> 0 <= well a <= 1) -> (forall a, 0 <= a -> fill a = Ok (well a)) ->
  0 <= n_free -> 0 <= dwell ->
  (wanted traps well dwell n_free T <= cloud_after traps dwell n_free T ->
     exists w', manager_step m n_free fill dwell = Ok (held traps T - held traps T', mkManager KTime traps w') /\
       records n w' spare T') /\
  (cloud_after traps dwell n_free T < wanted traps well dwell n_free T ->
     manager_step m n_free fill dwell = Err TypeError) /\
  0 <= cloud_after traps dwell n_free T.
Proof.
  intros n m T' Hn Hf Hr H0 Hwell Hfill Hnf Hd.
  apply records_levels in Hr as (l & k & -> & Hk & Hl & Hw & Ht & Hv & HT).
  destruct k as [|k]; [lia|].
  set (l1 := mapv (map (fun t => t + dwell)) l).
  assert (L1 : live l1) by now apply mapv_live.
  assert (W1 : width n l1) by now apply wait_width.
  assert (V1 : volume l1 = volume l) by apply mapv_volume.
  assert (N1 : Forall (fun r => Forall (fun t => 0 <= t) (snd r)) l1).
  { unfold l1. clear -Ht Hd. induction Ht as [|r l Hr Ht IH]; constructor; auto. cbn [snd].
    clear -Hr Hd. induction Hr; constructor; auto. lra. }
  assert (E1 : same_times n (elapsed l1) (wait dwell T)).
  { intros s x Hs Hx. unfold l1. rewrite (wait_elapsed n) by auto. apply (wait_same n); auto. }
  assert (C0 : count traps l = held traps T) by (rewrite count_held by auto; now apply held_same).
  assert (C1 : count traps l1 = held traps (wait dwell T)) by (rewrite count_held by (auto; lra); now apply held_same).
  pose proof (count_falls traps l dwell Hf Hd Hl Ht) as Hfall. fold l1 in Hfall.
  assert (Hn' : 0 <= cloud_after traps dwell n_free T) by (unfold cloud_after; lra).
  assert (En : n_free + (count traps l - count traps l1) = cloud_after traps dwell n_free T) by (unfold cloud_after; lra).
  set (n' := cloud_after traps dwell n_free T) in *.
  destruct (Hwell n' Hn') as [Hv0 Hv1].
  assert (Hz : n' <= 0 -> well n' = 0) by (intros; replace n' with 0 by lra; auto).
  destruct (time_captured traps l1 k fill n' (well n') Hn L1 W1 (Hfill n' Hn') Hv0 Hz)
    as (l' & k' & P1 & P2 & P3 & P4 & P5 & P6 & P7 & P8). cbv zeta in P8. fold n in P2, P7, P8.
  assert (E2 : same_times n (elapsed l') T').
  { intros s x Hs Hx. rewrite P7 by (auto; lra). unfold T', times_after. fold n'. now apply (fill_now_same n). }
  assert (V' : volume l' <= 1) by (rewrite P6, V1; apply Rmax_lub; lra).
  assert (C2 : count traps l' = held traps T') by (rewrite count_held by auto; now apply held_same).
  assert (Ew : count traps l' - count traps l1 = wanted traps well dwell n_free T) by (unfold wanted; fold T'; lra).
  assert (Estep : forall r, n_electrons_captured (mkManager KTime traps (l1 ++ Zs n (S (S k)))) n' fill = r ->
     manager_step m n_free fill dwell = do '(captured, m2) <- r; Ok (count traps l - count traps l1 - captured, m2)).
  { intros r <-. unfold m, manager_step, instant_step. cbn [m_kind]. unfold n at 1. rewrite time_released by auto. fold n l1.
    cbv iota beta. rnum. rewrite En. reflexivity. }
  pose proof (start_nonneg traps Hf) as Hst. fold n in Hst.
  destruct P8 as [[P8 P9]|[P8 P9]].
  - specialize (P9 Hn' Hst). split; [|split; [lra|auto]]. intros _. exists (l' ++ Zs n (S k')). split.
    + rewrite (Estep _ P8). cbn [bind]. do 2 f_equal. lra.
    + apply levels_records; auto. unfold l1 in *. rewrite mapv_length in *. lia.
  - specialize (P9 Hst). split; [lra|split; [|auto]]. intros _. now rewrite (Estep _ P8).
Qed.
