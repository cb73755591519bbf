(** * A cloud that outgrows the levels leaves a level of negative volume. *)
From Coq Require Import ZArith List Bool Reals Lra Lia.
From Coquelicot Require Import Rcomplements Rbar Hierarchy RInt.
From Verif Require Import Num Py RFacts CCDModel TrapsModel ManagerModel Spec SpecSlow TrapsFacts WmFacts ArrayFacts CutFacts
  InstantFacts CaptureFacts WatermarkFacts ClockFacts ShapeFacts BalanceFacts TimeFacts SlowFacts SlowSpecFacts.
Import ListNotations.
Open Scope R_scope.

Lemma finite_capturing traps : Forall finite_capture traps -> Forall capturing traps.
Proof. apply Forall_impl. intros t (Hp & c & Ec & Hc). split; [exact Hp|]. rewrite Ec. exact Hc. Qed.
Lemma not_full_head n r g : (0 < n)%nat -> nth 0 (snd r) 0 < 1 -> head_not_full n (r :: g).
Proof.
  intros Hn H. right. exists r, g. split; [reflexivity|]. intros Hf. specialize (Hf 0%nat Hn). lra.
Qed.

(** Splitting above the levels. *)
Lemma split_outside l li n k v mx : live l -> map fst l = map fst li -> volume l < v -> 0 < v ->
  mx = (Z.of_nat (length l) - 1)%Z ->
  let idx := index_above_cloud v (l ++ Zs n (S (S k))) mx in
  let x := v - volume l in
  idx = Z.of_nat (length l) /\
  slow_split (l ++ Zs n (S (S k))) (li ++ Zs n (S (S k))) v idx mx
  = Ok (l ++ (x, repeat 0 n) :: (- x, repeat 0 n) :: Zs n k, li ++ (x, repeat 0 n) :: (- x, repeat 0 n) :: Zs n k,
        (mx + 1)%Z).
Proof.
  intros Hl Hli Hv Hv0 Hmx idx x.
  assert (Hnn : nonneg (l ++ Zs n (S (S k)))) by (apply nonneg_app; auto using live_nonneg, nonneg_Zs).
  assert (Ei : idx = Z.of_nat (length l)).
  { unfold idx. rewrite index_above_none; auto; [lia|]. rewrite volume_app, volume_Zs. lra. }
  split; [exact Ei|]. unfold slow_split; rnum.
  destruct (Rltb_spec 0 v) as [_|H]; [|lra].
  destruct (cy_value_in_cumsum v (map vol (l ++ Zs n (S (S k))))) eqn:Ec.
  { exfalso. apply value_in_cumsum in Ec as (p & q & _ & Ep & Eq).
    assert (Hq : 0 <= Rsum q).
    { apply Rsum_nonneg. assert (HF : Forall (fun y => 0 <= y) (p ++ q)) by (rewrite <- Ep; apply Forall_map; exact Hnn).
      now apply Forall_app in HF as [_ HF]. }
    assert (Es : volume (l ++ Zs n (S (S k))) = Rsum p + Rsum q) by (rewrite <- Rsum_app, <- Ep; reflexivity).
    rewrite volume_app, volume_Zs in Es. lra. }
  cbn [andb negb]. rewrite Ei.
  assert (EZ : Zs n (S (S k)) = (0, repeat 0 n) :: Zs n k ++ [(0, repeat 0 n)]).
  { unfold Zs, zrow. change (repeat (0, repeat 0 n) (S (S k))) with ((0, repeat 0 n) :: repeat (0, repeat 0 n) (S k)). f_equal.
    apply repeat_cons. }
  rewrite EZ. rewrite split_at. cbn [bind].
  assert (El : length l = length li) by (rewrite <- (map_length fst l), Hli; apply map_length). rewrite El at 1.
  rewrite split_at. cbn [bind]. rewrite <- (fst_volume l li Hli). cbn [fst snd]. unfold x.
  replace (volume l + 0 - v) with (- (v - volume l)) by ring. reflexivity.
Qed.

Section Negative.
Variables (traps : list (trap R)) (l : wmarks R) (k : nat) (fill : filling R) (well : R -> R) (n_free dwell : R).
Let n := length traps.
Let ds := dens traps.
Let W := l ++ Zs n (S (S (S (S k)))).
Let m := mkManager KSlow traps W.
Let P : profile := occupancy l.
Hypothesis Hn : (0 < n)%nat.
Hypothesis Hf : Forall finite_capture traps.
Hypothesis Hl : good n l.
Hypothesis Hvol : volume l <= 1.
Hypothesis Hs : sensitive well.
Hypothesis Hfill : forall a, 0 <= a -> fill a = Ok (well a).
Hypothesis Hnf : 0 <= n_free.
Hypothesis Hd : 0 < dwell.
Let n' := cloud_then traps well dwell n_free P.
Hypothesis Hlow : well n_free <= volume l.
Hypothesis Hhigh : volume l < well n'.
Let Hc : Forall capturing traps := finite_capturing traps Hf.
Let Hph : Forall physical traps := capturing_physical traps Hc.
Let Hlive : live l := good_live n l Hl.

Lemma slow_negative : exists net w', slow_step m n_free fill dwell = Ok (net, mkManager KSlow traps w') /\
  In (well n' - volume l) (map fst w') /\ In (- (well n' - volume l)) (map fst w').
Proof.
  set (v := well n_free) in *. assert (Hv : 0 <= v <= 1) by now apply sensitive_range.
  assert (Hn' : 0 <= n') by (unfold n', P; apply n'_nonneg; auto).
  set (v' := well n') in *. assert (Hv' : 0 <= v' <= 1) by now apply sensitive_range.
  unfold slow_step. cbv zeta. change (m_wm m) with W. change (m_traps m) with traps. change (m_kind m) with KSlow.
  rewrite probs_ok by auto. cbn [bind].
  assert (Hin : n_trapped m W = trapped ds l) by apply slow_n_trapped. rewrite Hin.
  assert (Hmx : max_watermark_index W = (Z.of_nat (length l) - 1)%Z) by now apply max_index_Zs.
  rewrite Hmx, Hfill by auto. fold v. cbn [bind]. rnum.
  assert (Hl0 : l <> []).
  { intros El. assert (En : n_free = 0).
    { destruct (Req_dec n_free 0) as [E|E]; auto. assert (0 < v) by (unfold v; apply Hs; lra). rewrite El, volume_nil in Hlow. lra. }
    assert (En' : n' = n_free).
    { unfold n', cloud_then. fold v. rewrite (electrons_levels traps l (release_above traps dwell v P)); auto.
      - unfold P. rewrite (electrons_levels traps l (occupancy l)); auto. ring.
      - intros s x Hs' Hx. unfold release_above, P. rewrite El. cbn [occupancy]. destruct (Rlt_dec x v); ring. }
    unfold v' in Hhigh. rewrite En', En in Hhigh. destruct Hs as [H0 _]. rewrite H0, El, volume_nil in Hhigh. lra. }
  assert (Hlen : (0 < length l)%nat) by (destruct l; [contradiction|cbn; lia]).
  replace ((Z.of_nat (length l) - 1 =? -1)%Z && Rltb 0 n_free) with false
    by (symmetry; apply andb_false_iff; left; apply Z.eqb_neq; lia).
  destruct (split_inside l l n (S (S (S k))) v (Z.of_nat (length l) - 1) Hlive eq_refl ltac:(lra) eq_refl) as (k1 & E1 & E2 & E2' & E3).
  fold W in E1, E2, E2'. set (idx := index_above_cloud v W (Z.of_nat (length l) - 1)) in *.
  replace ((idx <=? Z.of_nat (length l) - 1) || (Z.of_nat (length l) - 1 =? -1))%Z with true
    by (symmetry; apply orb_true_intro; left; now apply Z.leb_le).
  unfold slow_cloud_below. cbv zeta. change (m_wm m) with W. rewrite E1. cbn [bind].
  pose proof (cut_length l v) as HC1.
  destruct (cut_good n l v Hl) as [GB GA]. set (B := below v l) in *. set (A := above v l) in *.
  assert (VBA : volume B = v /\ volume A = volume l - v) by (apply cut_volume; auto; lra). destruct VBA as [VB VA].
  rewrite E2. replace (Z.to_nat (Z.of_nat (length B + length A) - 1 + 1)) with (length B + length A)%nat by lia.
  rewrite Nat2Z.id. rewrite slice_mid.
  assert (Erel : mapv (fun fs : list R => zip_with (fun f p => (f * p_release p)%num) fs (map (pr dwell) traps)) A = mapv (rel traps dwell) A).
  { unfold mapv. apply map_ext. intros r. f_equal. apply rel_probs. }
  rewrite Erel. clear Erel.
  set (A' := mapv (rel traps dwell) A). assert (GA' : good n A') by (apply rel_good; auto; lra).
  set (l2 := B ++ A'). set (li := B ++ A).
  assert (G2 : good n l2) by (apply good_app; auto). assert (Gi : good n li) by (apply good_app; auto).
  assert (V2 : volume l2 = volume l) by (unfold l2, A'; rewrite volume_app, mapv_volume, VB, VA; lra).
  assert (F2 : map fst l2 = map fst li) by (unfold l2, li, A'; rewrite !map_app, mapv_fst; reflexivity).
  assert (O2 : forall s x, (s < n)%nat -> 0 <= x -> occupancy l2 s x = release_above traps dwell v P s x).
  { intros s x Hs' Hx. unfold l2. rewrite occupancy_app by (auto; apply live_nonneg, (good_live n); auto).
    unfold release_above, P. rewrite <- (cut_occ l v s x Hlive Hx). fold B A.
    rewrite occupancy_app by (auto; apply live_nonneg, (good_live n); auto). rewrite VB.
    destruct (Rlt_dec x v); [reflexivity|]. apply rel_occ; auto. }
  assert (L2 : length l2 = (length B + length A)%nat) by (unfold l2, A'; now rewrite app_length, mapv_length).
  assert (ET2 : n_free + (trapped ds l - n_trapped m (B ++ A' ++ Zs n k1)) = n').
  { unfold n', cloud_then. unfold P at 1. rewrite (electrons_levels traps l (occupancy l)) by auto.
    rewrite app_assoc. fold l2. unfold m. unfold n. rewrite slow_n_trapped. fold v ds.
    assert (El2 : electrons traps (release_above traps dwell v P) 0 1 = trapped ds l2).
    { apply electrons_levels; [exact G2|lra|]. intros; apply O2; auto; lra. }
    rewrite El2. reflexivity. }
  rnum. rewrite ET2. rewrite Hfill by auto. cbn [bind]. fold v'.
  rewrite !app_assoc. fold l2 li.
  destruct k1 as [|[|[|q]]]; try lia.
  assert (Hmx2 : (Z.of_nat (length B + length A) - 1)%Z = (Z.of_nat (length l2) - 1)%Z) by (rewrite L2; reflexivity).
  rewrite Hmx2. 
  destruct (split_outside l2 li n (S q) v' (Z.of_nat (length l2) - 1) (good_live _ _ G2) F2 ltac:(lra) ltac:(lra) eq_refl) as (E4 & E5).
  rewrite E5. cbn [bind sb_free sb_wm sb_wm_initial sb_index]. rewrite E4, V2. set (x := v' - volume l).
  set (Bt := l2 ++ [(x, repeat 0 n)]). set (Bi := li ++ [(x, repeat 0 n)]).
  replace (l2 ++ (x, repeat 0 n) :: (- x, repeat 0 n) :: Zs n (S q)) with (Bt ++ (- x, repeat 0 n) :: Zs n (S q)) by (unfold Bt; now rewrite <- app_assoc).
  replace (li ++ (x, repeat 0 n) :: (- x, repeat 0 n) :: Zs n (S q)) with (Bi ++ (- x, repeat 0 n) :: Zs n (S q)) by (unfold Bi; now rewrite <- app_assoc).
  replace (Z.to_nat (Z.of_nat (length l2) + 1)) with (length Bt) by (unfold Bt; rewrite app_length; cbn [length]; lia).
  rewrite slice_pre.
  assert (Hx : 0 < x) by (unfold x; lra).
  assert (GBt : good n Bt).
  { apply good_app; split; auto. constructor; [|constructor]. split; [cbn; lra|]. split; [apply repeat_length|apply repeat_range; lra]. }
  assert (GBi : good n Bi).
  { apply good_app; split; auto. constructor; [|constructor]. split; [cbn; lra|]. split; [apply repeat_length|apply repeat_range; lra]. }
  assert (FB : map fst Bt = map fst Bi) by (unfold Bt, Bi; rewrite !map_app, F2; reflexivity).
  change (mapv (fun fs : list R => zip_with (fun f p1 => f * p_full p1 + (1 - f) * p_empty p1) fs (map (pr dwell) traps)) Bt)
    with (mapv (exch traps dwell) Bt).
  set (E := mapv (exch traps dwell) Bt).
  assert (GE : good n E) by (apply exch_good; auto; lra).
  assert (HE : exists r0 E', E = r0 :: E' /\ nth 0 (snd r0) 0 < 1).
  { unfold E. destruct Bt as [|r0 Bt'] eqn:EB; [unfold Bt in EB; destruct l2; discriminate|].
    cbn [mapv map]. eexists _, _. split; [reflexivity|]. cbn [snd]. inversion GBt as [|? ? (H1 & H2 & H3) GB'']; subst.
    apply exch_not_full; auto. }
  destruct HE as (r0 & E' & HE & Hr0).
  set (neg := (- x, repeat 0 n)).
  replace (E ++ neg :: Zs n (S q)) with ((E ++ [neg]) ++ Zs n (S q)) by now rewrite <- app_assoc.
  fold n; rewrite (collapse_with_copy_nil n (E ++ [neg]) q _ Hn) by (rewrite HE; now apply not_full_head).
  cbn [bind].
  assert (FE : map fst E = map fst Bt) by (unfold E; apply mapv_fst).
  assert (In1 : In x (map fst E)) by (rewrite FE; unfold Bt; rewrite map_app; apply in_or_app; right; left; reflexivity).
  assert (In2 : forall a z, map fst a = map fst E -> In x (map fst ((a ++ [(- x, z)]) ++ Zs n (S q))) /\ In (- x) (map fst ((a ++ [(- x, z)]) ++ Zs n (S q)))).
  { intros a z Ea. rewrite !map_app, Ea. split; rewrite !in_app_iff; [auto|]. left. right. left. reflexivity. }
  destruct (Reqb _ _).
  { eexists _, _. split; [reflexivity|]. now apply In2. }
  destruct (Rltb _ _ && Rltb _ _) eqn:Eb.
  - cbn [not_enough m_kind m bind].
    apply andb_true_iff in Eb as [Eb1 Eb2]. apply Rltb_true in Eb1. apply Rltb_true in Eb2.
    set (e := n' / (n_trapped m ((E ++ [neg]) ++ Zs n (S q)) - trapped ds l)) in *.
    replace (Bi ++ neg :: Zs n (S q)) with ((Bi ++ [neg]) ++ Zs n (S q)) by now rewrite <- app_assoc.
    assert (LE : length E = length Bi) by (rewrite <- (map_length fst E), FE, FB; apply map_length).
    rewrite blend_app by (rewrite !app_length, LE; reflexivity). rewrite blend_self.
    rewrite (blend_app e E [neg] Bi [neg] LE).
    destruct (blend_same_vol e E Bi ltac:(congruence)) as [BV BL].
    assert (GC : good n (blend e E Bi)) by (apply blend_good; auto; [congruence|lra]).
    assert (HB : exists r1 E1', blend e E Bi = r1 :: E1' /\ nth 0 (snd r1) 0 < 1).
    { rewrite HE. destruct Bi as [|ri Bi'] eqn:EBi; [rewrite HE in LE; discriminate|]. unfold blend, zip_with. cbn [combine map].
      eexists _, _. split; [reflexivity|]. cbn [snd]. 
      inversion GBi as [|? ? (H1 & H2 & H3) GB'']; subst.
      assert (Hw0 : length (snd r0) = n) by (rewrite HE in GE; inversion GE as [|? ? (? & ? & ?) ?]; auto).
      unfold vals. destruct (snd r0) as [|a0 fs0]; [cbn in Hw0; lia|]. destruct (snd ri) as [|a1 fs1]; [cbn in H2; lia|].
      cbn [combine map nth]. cbn [nth] in Hr0. rnum. inversion H3; subst. clearbody e. nra. }
    destruct HB as (r1 & E1' & HB & Hr1).
    assert (EN : exists z, blend e [neg] [neg] = [(- x, z)]) by (eexists; reflexivity).
    destruct EN as [z EN]. rewrite EN.
    change (filled_value KSlow) with 1; fold n; rewrite (collapse_form_nil n (blend e E Bi ++ [(- x, z)]) q Hn) by (rewrite HB; now apply not_full_head).
    eexists _, _. split; [reflexivity|]. now apply In2.
  - cbn [bind]. change (filled_value KSlow) with 1; fold n; rewrite (collapse_form_nil n (E ++ [neg]) q Hn) by (rewrite HE; now apply not_full_head).
    eexists _, _. split; [reflexivity|]. now apply In2.
Qed.
End Negative.
