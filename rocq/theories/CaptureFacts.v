(** * Collapsing with a copy, plentiful capture from any state, and histories of the
    instant-capture manager. *)
From Coq Require Import ZArith List Bool Reals Lra Lia.
From Coquelicot Require Import Rcomplements Rbar Hierarchy RInt.
From Verif Require Import Num Py RFacts CCDModel TrapsModel ManagerModel Spec WmFacts ArrayFacts CutFacts InstantFacts.
Import ListNotations.
Open Scope R_scope.

Lemma fst_volume (a b : wmarks R) : map fst a = map fst b -> volume a = volume b.
Proof. unfold volume. now intros ->. Qed.

Lemma fst_live (a b : wmarks R) : map fst a = map fst b -> live a -> live b.
Proof.
  revert b. induction a as [|x a IH]; destruct b as [|y b]; cbn [map]; intros E H; try discriminate; [constructor|].
  injection E as E1 E2. inversion H; subst. constructor; [congruence|]. now apply IH.
Qed.

Lemma collapse_with_copy_sound n l li k : (0 < n)%nat -> good n l -> width n li -> map fst l = map fst li ->
  exists l' li' k' d, 
    collapse_with_copy 1 n (l ++ Zs n (S k)) (li ++ Zs n (S k)) = Ok (l' ++ Zs n (S k'), li' ++ Zs n (S k')) /\
    good n l' /\ (width n li' /\ (good n li -> good n li')) /\ map fst l' = map fst li' /\
    (length l' <= length l)%nat /\ (length l' + k' = length l + k)%nat /\
    volume l' = volume l /\ volume li' = volume li /\
    (forall ds, length ds = n -> trapped ds l' = trapped ds l /\ trapped ds li' = trapped ds li) /\
    (forall s x, (s < n)%nat -> 0 <= x -> occupancy l' s x = occupancy l s x) /\
    0 <= d /\ (forall s x, (s < n)%nat -> 0 <= x < d -> occupancy l s x = 1) /\
    (forall s x, (s < n)%nat -> d <= x -> occupancy li' s x = occupancy li s x) /\
    (forall s x, (s < n)%nat -> 0 <= x < d -> occupancy li' s x = RInt (occupancy li s) 0 d / d).
Proof.
  intros Hn Hl Hwi Hfst. destruct (full_prefix 1 n l) as (f & g & -> & Hf & Hg).
  apply good_app in Hl as [Hlf Hlg].
  destruct (same_vol_app f g li [] Hfst) as (fi & gi & -> & Efi & Egi).
  assert (Hhead : head_not_full n g) by exact Hg.
  apply Forall_app in Hwi as [Hwfi Hwgi].
  destruct f as [|r f].
  - destruct fi as [|? ?]; [|discriminate]. exists g, gi, k, 0. cbn [app] in *.
    rewrite collapse_with_copy_nil by auto.
    split; [reflexivity|]. split; [auto|]. split; [auto|]. split; [auto|].
    do 5 (split; [auto|]). split; [auto|]. split; [lra|]. split; [intros; lra|]. split; [auto|]. intros; lra.
  - set (f0 := r :: f) in *. 
    assert (Hfi : fi <> []) by (destruct fi; [discriminate|discriminate]).
    exists ((volume f0, repeat 1 n) :: g), ((volume f0, means n fi) :: gi), (k + length f)%nat, (volume f0).
    assert (Hvf : 0 < volume f0) by (apply live_volume_pos; [now apply (good_live n)|discriminate]).
    assert (Hlfi : live fi) by (apply (fst_live f0); auto; now apply (good_live n)).
    assert (Hvfi : volume fi = volume f0) by (symmetry; now apply fst_volume).
    assert (Hlive : live f0) by now apply (good_live n).
    rewrite <- !app_assoc, collapse_with_copy_form; auto using (good_width n); [|discriminate].
    assert (EL : (k + length f0)%nat = S (k + length f)) by (subst f0; cbn [length]; lia).
    rewrite EL.
    split; [reflexivity|].
    split; [constructor; auto; split; [auto|split; [apply repeat_length|apply repeat_range; lra]]|].
    split.
    { split; [constructor; [apply means_length|auto]|].
      intros Gi. apply good_app in Gi as [Gfi Ggi]. constructor; [|exact Ggi].
      split; [exact Hvf|]. split; [apply means_length|apply means_range; auto; lra]. }
    split; [cbn [map fst]; now rewrite Egi|].
    split; [subst f0; cbn [app length]; rewrite app_length; lia|].
    split; [subst f0; cbn [app length]; rewrite app_length; lia|].
    split; [rewrite volume_cons, volume_app; reflexivity|].
    split; [rewrite volume_cons, volume_app, Hvfi; reflexivity|].
    split.
    { intros ds Hd. rewrite !trapped_cons, !trapped_app, (full_trapped ds n f0) by (auto using (good_width n)).
      unfold row_trapped; cbn [fst snd]. rewrite dot_ones by auto. split; [ring|].
      rewrite <- Hvfi, dot_means by (auto; lra). reflexivity. }
    split.
    { intros s x Hs Hx. rewrite occupancy_cons, occupancy_app by (auto; apply live_nonneg, (good_live n); auto).
      destruct (Rlt_dec x (volume f0)); [|reflexivity].
      rewrite nth_const by auto. symmetry. apply (full_occ n); auto using (good_width n). }
    split; [lra|].
    split.
    { intros s x Hs Hx. rewrite occupancy_app by (first [lra | apply live_nonneg; assumption]).
      destruct (Rlt_dec x (volume f0)); [|lra]. apply (full_occ n); auto using (good_width n). }
    split.
    { intros s x Hs Hx. rewrite occupancy_cons, occupancy_app by (first [lra | apply live_nonneg; assumption]).
      rewrite Hvfi. destruct (Rlt_dec x (volume f0)); [lra|]. reflexivity. }
    { intros s x Hs Hx. rewrite occupancy_cons. destruct (Rlt_dec x (volume f0)); [|lra].
      rewrite means_nth by auto. rewrite Hvfi. f_equal. symmetry. apply is_RInt_unique.
      rewrite <- Hvfi. apply is_RInt_occupancy_prefix. now apply live_nonneg. }
Qed.

(** ** Capture with enough electrons, from any state. *)
Section Plenty.
Variables (traps : list (trap R)) (l : wmarks R) (k : nat) (fill : filling R) (n_free v : R).
Let n := length traps.
Let W := l ++ Zs n (S (S k)).
Let m := mkManager KInstant traps W.
Let P : profile := occupancy W.
Hypothesis Hph : Forall physical traps.
Hypothesis Hn : (0 < n)%nat.
Hypothesis Hl : good n l.
Hypothesis Hvol : volume l <= 1.
Hypothesis Hfill : fill n_free = Ok v.
Hypothesis Hfree : 0 < n_free.
Hypothesis Hv01 : 0 < v <= 1.
Hypothesis Henough : demand traps v P <= n_free.
Let ds := dens traps.

Lemma plenty_ok : exists l' k',
  n_electrons_captured m n_free fill = Ok (demand traps v P, mkManager KInstant traps (l' ++ Zs n (S k')))
  /\ good n l' /\ volume l' <= 1
  /\ (length l' <= S (length l))%nat /\ (length l' + k' = length l + S k)%nat
  /\ (forall s x, (s < n)%nat -> 0 <= x -> occupancy l' s x = if Rlt_dec x v then 1 else P s x)
  /\ trapped ds l' = trapped ds l + demand traps v P.
Proof.
  assert (Hv0 : 0 <= v <= 1) by lra.
  assert (Hzero : n_free = 0 -> v = 0) by lra.
  assert (Hpos : 0 < n_free -> 0 < v) by lra.
  pose proof (dem_nonneg traps l k n_free v Hph Hl ltac:(lra) Hv0) as Hdem. fold n W P in Hdem.
  pose proof (len_ds traps) as Hds. fold ds n in Hds.
  assert (Hsplit : l = [] \/ l <> []) by (destruct l; [left; reflexivity|right; discriminate]).
  destruct Hsplit as [El0|Hne].
  { assert (Hnf : Forall (fun r => ~ full_row 1 n r) (prep_above v l)).
    { rewrite El0. unfold prep_above, above. cbn [cut snd]. destruct (Rle_dec v (volume [])); constructor. }
    destruct (capture_ok traps l k fill n_free v Hph Hn Hl Hvol Hnf Hfill ltac:(lra) Hv0 Hpos Hzero)
      as (c & l' & k' & E & Ec & G & V & L1 & L2 & O & T).
    fold n W P in E, Ec, G, L2, O. fold ds in T. 
    unfold captured in Ec. rewrite Rmin_right in Ec by lra. rewrite Ec in *. fold m in E.
    rewrite El0 in L1, L2. cbn [length] in L1, L2.
    exists l', (Nat.pred k'). replace (S (Nat.pred k')) with k' by lia.
    rewrite El0 at 1 2. cbn [length]. split; [exact E|]. split; auto. split; auto. split; [lia|]. split; [lia|].
    split; auto. intros s x Hs Hx. rewrite O by auto. unfold after_capture.
    destruct (Rlt_dec x v); [|reflexivity]. destruct (Rle_dec (demand traps v P) n_free); [reflexivity|lra]. }
  pose proof (length_nonempty l Hne) as Hlen0.
  assert (Emx : max_watermark_index W = (Z.of_nat (length l) - 1)%Z)
    by (apply max_index_live, (good_live n), Hl).
  unfold n_electrons_captured. cbn [m_wm m].
  rewrite Hfill. cbn [bind].
  rewrite Emx.
  assert (Entr : forall w, n_trapped m w = trapped ds w) by (intros; apply cy_n_trapped_eq).
  assert (EWt : trapped ds W = trapped ds l) by (unfold W; rewrite trapped_app, trapped_Zs; ring).
  change (n_trapped m (m_wm m)) with (n_trapped m W). rewrite Entr, EWt.
  rnum. replace ((Z.of_nat (length l) - 1 =? -1)%Z && Rltb 0 n_free) with false
    by (symmetry; apply andb_false_intro1, Z.eqb_neq; lia).
  destruct (capture_prepared n l (S k) v (Z.of_nat (length l) - 1) Hn (good_live n l Hl) ltac:(lra) eq_refl (or_introl Hne)) as (k' & E1 & E2 & E3).
  fold W in E1, E2. rewrite E1. cbn [bind]. rewrite E2, Nat2Z.id.
  destruct (prep_good n v l Hl (proj1 Hv0)) as [GB GA]. destruct (prep_volume n v l Hl (proj1 Hv0)) as [HB HA].
  pose proof (prep_occ n v l Hl (proj1 Hv0)) as HO.
  pose proof (prep_length n v l) as HLB.
  pose proof (prep_trapped n v l) as HT.
  rewrite (slice_pre_k _ (prep_below n v l) _ _ eq_refl).
  change (@filled_value R RNum (m_kind m)) with 1. change (m_traps m) with traps. fold n.
  pose proof (demand_eq traps l k v Hl Hv0) as Hdeq. fold n W P ds in Hdeq.
  set (B := prep_below n v l) in *. set (A := prep_above v l) in *.
  destruct k' as [|k2]; [lia|].
  assert (GB1 : good n (mapv (fun _ => repeat 1 n) B)).
  { apply Forall_forall. intros r Hr. unfold mapv in Hr. apply in_map_iff in Hr as (q & <- & Hq).
    unfold good in GB. rewrite Forall_forall in GB. specialize (GB _ Hq). destruct GB as (g1 & g2 & g3).
    split; [exact g1|]. cbn [snd]. split; [apply repeat_length|apply repeat_range; lra]. }
  destruct (collapse_with_copy_sound n (mapv (fun _ => repeat 1 n) B ++ A) (B ++ A) k2 Hn) 
    as (l2 & li2 & k3 & d & E & G2 & _ & _ & L2 & K2 & V2 & _ & T2 & O2 & _).
  { apply good_app. auto. }
  { apply (good_width n), good_app. auto. }
  { rewrite !map_app, mapv_fst. reflexivity. }
  rewrite <- !app_assoc in E. rewrite E. cbn [bind].
  rewrite Entr, trapped_app, trapped_Zs, Rplus_0_r. rewrite (proj1 (T2 ds Hds)).
  assert (TB : trapped ds (mapv (fun _ => repeat 1 n) B) = v * Rsum ds).
  { rewrite (full_trapped ds n); auto using mapv_full, (good_width n). now rewrite mapv_volume, HB. }
  rewrite trapped_app, TB.
  assert (ET : v * Rsum ds + trapped ds A = trapped ds l + demand traps v P).
  { rewrite Hdeq. specialize (HT ds). lra. }
  rewrite ET.
  assert (OO : forall s x, (s < n)%nat -> 0 <= x -> occupancy l2 s x = if Rlt_dec x v then 1 else P s x).
  { intros s x Hs Hx. rewrite O2 by auto. rewrite occupancy_app; auto; [|apply live_nonneg, (good_live n); auto].
    rewrite mapv_volume, HB. destruct (Rlt_dec x v).
    - apply (full_occ n); auto using mapv_full, (good_width n), (good_live n). rewrite mapv_volume, HB. lra.
    - unfold P, W. rewrite occupancy_app_Zs by (auto; apply live_nonneg, (good_live n), Hl).
      rewrite <- HO by lra. rewrite occupancy_app; auto; [|apply live_nonneg, (good_live n); auto].
      rewrite HB. destruct (Rlt_dec x v); [lra|reflexivity]. }
  assert (V2' : volume l2 <= 1).
  { rewrite V2, volume_app, mapv_volume, HB, HA. unfold Rmax. destruct (Rle_dec (volume l) v); lra. }
  rewrite app_length, mapv_length in L2, K2.
  assert (T2' : trapped ds l2 = trapped ds l + demand traps v P).
  { rewrite (proj1 (T2 ds Hds)), trapped_app, TB. exact ET. }
  destruct (Reqb_spec (trapped ds l + demand traps v P) (trapped ds l)) as [Ed|Ed].
  - exists l2, k3. replace (demand traps v P) with 0 at 1 by lra.
    split; [reflexivity|]. split; auto. split; auto. split; [lia|]. split; [lia|]. auto.
  - replace (trapped ds l + demand traps v P - trapped ds l) with (demand traps v P) by ring.
    assert (He : 1 <= n_free / demand traps v P) by (apply Rle_div_r; lra).
    rewrite (proj2 (Rltb_false (n_free / demand traps v P) 1)) by lra.
    rewrite andb_false_r. cbn [bind].
    destruct (collapse_sound n l2 k3 Hn G2) as (l' & k4 & E4 & G4 & L4 & K4 & V4 & T4 & O4).
    rewrite E4. exists l', k4.
    split; [unfold with_wm; cbn [m_kind m_traps m]; do 2 f_equal; ring|].
    split; auto. split; [lra|]. split; [lia|]. split; [lia|].
    split; [intros; rewrite O4 by auto; auto|]. rewrite T4 by auto. exact T2'.
Qed.
End Plenty.

(** ** [represents] in terms of the specification. *)
Lemma represents_describes traps spare m P :
  represents traps spare m P <->
  m_kind m = KInstant /\ m_traps m = traps /\ describes (length traps) (m_wm m) spare P.
Proof.
  split.
  - intros (l & k & -> & Hk & G & V & Sm). cbn [m_kind m_traps m_wm] in *. split; [auto|]. split; [auto|].
    exists (length l), (S k). split; [|split; [lia|auto]]. split.
    + exists l. auto.
    + rewrite volume_app, volume_Zs. lra.
  - intros (K & T & live0 & free & [(l & E & _ & G) V] & Hs & Sm).
    destruct free as [|k]; [lia|]. exists l, k. destruct m as [kd tr w]. cbn [m_kind m_traps m_wm] in *. subst.
    split; [reflexivity|]. split; [lia|]. split; [auto|]. split; [|auto].
    rewrite volume_app in V. fold (zrow (length traps)) in V. fold (Zs (length traps) (S k)) in V.
    rewrite volume_Zs in V. lra.
Qed.

(** Running a manager through a history of calls. *)
Fixpoint run_manager (fill : filling R) (ops : list (R * R)) (m : manager R) : result (list R * manager R) :=
  match ops with
  | [] => Ok ([], m)
  | (n, dwell) :: ops' =>
      do '(net, m1) <- manager_step m n fill dwell;
      do '(nets, m2) <- run_manager fill ops' m1;
      Ok (net :: nets, m2)
  end.

Lemma run_instant traps fill well ops : Forall physical traps -> (0 < length traps)%nat ->
  sensitive well -> (forall n, 0 <= n -> fill n = Ok (well n)) ->
  Forall (fun '(n, dwell) => 0 <= n /\ 0 < dwell) ops ->
  forall spare m P, represents traps (length ops + spare) m P ->
  exists m', run_manager fill ops m = Ok (history_nets traps well ops P, m') /\
    represents traps spare m' (history_profile traps well ops P) /\
    electrons traps (history_profile traps well ops P) 0 1
      = electrons traps P 0 1 - Rsum (history_nets traps well ops P).
Proof.
  intros Hph Hn Hw Hf Hops. induction Hops as [|[n dwell] ops [Hfree Hd] Hops IH]; intros spare m P Hr.
  - exists m. cbn [run_manager history_nets history_profile length plus Rsum fold_right] in *.
    split; [reflexivity|]. split; [auto|]. ring.
  - cbn [length plus] in Hr.
    destruct (instant_step_ok traps m P (length ops + spare) fill well n dwell Hph Hn Hr Hw Hf Hfree Hd)
      as (m1 & E & R1 & C & _).
    destruct (IH spare m1 _ R1) as (m2 & E2 & R2 & C2).
    exists m2. cbn [run_manager history_nets history_profile].
    assert (Hk : m_kind m = KInstant) by (destruct Hr as (? & ? & -> & _); reflexivity).
    unfold manager_step. rewrite Hk, E. cbn [bind]. rewrite E2. cbn [bind].
    split; [reflexivity|]. split; [auto|]. rewrite C2, C. unfold Rsum; cbn [fold_right]. ring.
Qed.
