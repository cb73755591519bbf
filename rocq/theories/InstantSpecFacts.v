(** * The instant-capture manager in terms of the specification only. *)
From Coq Require Import ZArith List Bool Reals Lra Lia.
From Coquelicot Require Import Rcomplements Rbar Hierarchy RInt.
From Verif Require Import Num Py RFacts CCDModel TrapsModel ManagerModel Spec WmFacts ArrayFacts CutFacts InstantFacts CaptureFacts WatermarkFacts.
Import ListNotations.
Open Scope R_scope.

Lemma occupancy_level (a : wmarks R) r b s : nonneg a -> 0 < fst r ->
  occupancy (a ++ r :: b) s (volume a) = nth s (snd r) 0.
Proof.
  intros Ha Hr. rewrite occupancy_app by (auto using nonneg_volume).
  destruct (Rlt_dec (volume a) (volume a)); [lra|]. replace (volume a - volume a) with 0 by ring.
  destruct r as [v fs]. cbn [occupancy]. cbn in Hr. destruct (Rlt_dec 0 v); [reflexivity|lra].
Qed.

Lemma not_full_levels n g : good n g -> volume g <= 1 ->
  (forall x, 0 <= x < volume g -> exists s, (s < n)%nat /\ occupancy g s x < 1) ->
  Forall (fun r => ~ full_row 1 n r) g.
Proof.
  intros G V H. apply Forall_forall. intros r Hr Hfull. apply in_split in Hr as (a & b & ->).
  apply good_app in G as [Ga Gb]. inversion Gb; subst. destruct H2 as (Hpos & _).
  assert (NA : nonneg a) by (apply live_nonneg, (good_live n); auto).
  assert (NB : nonneg b) by (apply live_nonneg, (good_live n); auto).
  pose proof (nonneg_volume a NA). pose proof (nonneg_volume b NB).
  rewrite volume_app, volume_cons in V, H.
  destruct (H (volume a)) as (s & Hs & Ho); [lra|]. rewrite occupancy_level in Ho by auto.
  rewrite (Hfull s Hs) in Ho. lra.
Qed.

Lemma n_trapped_levels traps w0 (l : wmarks R) n k :
  n_trapped (mkManager KInstant traps w0) (l ++ Zs n k) = trapped (dens traps) l.
Proof.
  change (n_trapped ?m ?w) with (cy_n_trapped w (dens traps)). rewrite cy_n_trapped_eq, trapped_app, trapped_Zs. ring.
Qed.

Definition instant (m : manager R) : Prop := m_kind m = KInstant.

Lemma capture_plenty_spec (m : manager R) traps live0 free fill n_free v :
  instant m -> m_traps m = traps -> Forall physical traps -> (0 < length traps)%nat ->
  well_formed (length traps) (m_wm m) live0 (2 + free) ->
  fill n_free = Ok v -> 0 < n_free -> 0 < v <= 1 ->
  demand traps v (occupancy (m_wm m)) <= n_free ->
  exists m' live' free', n_electrons_captured m n_free fill = Ok (demand traps v (occupancy (m_wm m)), m') /\
    instant m' /\ m_traps m' = traps /\
    well_formed (length traps) (m_wm m') live' (1 + free') /\
    (live' <= S live0)%nat /\ (live' + free' = live0 + S free)%nat /\
    (forall s x, (s < length traps)%nat -> 0 <= x ->
       occupancy (m_wm m') s x = if Rlt_dec x v then 1 else occupancy (m_wm m) s x) /\
    n_trapped m' (m_wm m') = n_trapped m (m_wm m) + demand traps v (occupancy (m_wm m)).
Proof.
  intros Hk Ht Hph Hn Hw Hfill Hfree Hv Hen. destruct m as [kd tr w]. cbn [m_wm m_traps] in *. unfold instant in *. cbn in Hk. subst.
  apply wf_levels in Hw as (l & -> & Ll & G & V).
  destruct (plenty_ok traps l free fill n_free v Hph Hn G V Hfill Hfree Hv Hen) as (l' & k' & E & G' & V' & L1 & L2 & O & T).
  exists (mkManager KInstant traps (l' ++ Zs (length traps) (S k'))), (length l'), k'.
  split; [exact E|]. split; [reflexivity|]. split; [reflexivity|]. cbn [m_wm].
  split; [apply levels_wf; auto|]. split; [lia|]. split; [lia|].
  assert (NN : nonneg l') by (apply live_nonneg, (good_live (length traps)); auto).
  split. { intros s x Hs Hx. rewrite occupancy_app_Zs by auto. now apply O. }
  rewrite !n_trapped_levels. exact T.
Qed.

Lemma capture_spec (m : manager R) traps live0 free fill n_free v :
  instant m -> m_traps m = traps -> Forall physical traps -> (0 < length traps)%nat ->
  well_formed (length traps) (m_wm m) live0 (2 + free) ->
  fill n_free = Ok v -> 0 <= n_free -> 0 <= v <= 1 -> (0 < n_free <-> 0 < v) ->
  (forall x, v <= x < 1 -> exists s, (s < length traps)%nat /\ occupancy (m_wm m) s x < 1) ->
  exists c m' live' free', n_electrons_captured m n_free fill = Ok (c, m') /\
    c = Rmin n_free (demand traps v (occupancy (m_wm m))) /\ 0 <= c <= n_free /\
    instant m' /\ m_traps m' = traps /\
    well_formed (length traps) (m_wm m') live' (1 + free') /\
    (live' <= S live0)%nat /\ (live' + free' = live0 + S free)%nat /\
    (forall s x, (s < length traps)%nat -> v <= x -> occupancy (m_wm m') s x = occupancy (m_wm m) s x) /\
    (forall s x, (s < length traps)%nat -> 0 <= x ->
       occupancy (m_wm m') s x = after_capture traps n_free v (occupancy (m_wm m)) s x) /\
    n_trapped m' (m_wm m') = n_trapped m (m_wm m) + c.
Proof.
  intros Hk Ht Hph Hn Hw Hfill Hfree Hv Hpos Hnf. destruct m as [kd tr w]. cbn [m_wm m_traps] in *. unfold instant in *. cbn in Hk. subst.
  apply wf_levels in Hw as (l & -> & Ll & G & V). cbn [Nat.add] in *.
  assert (NNl : nonneg l) by (apply live_nonneg, (good_live (length traps)); auto).
  assert (HnfA : Forall (fun r => ~ full_row 1 (length traps) r) (prep_above v l)).
  { destruct (prep_good (length traps) v l G (proj1 Hv)) as [GB GA].
    destruct (prep_volume (length traps) v l G (proj1 Hv)) as [VB VA].
    assert (HA1 : volume (prep_above v l) <= 1 - v) by (rewrite VA; unfold Rmax; destruct (Rle_dec (volume l) v); lra).
    apply not_full_levels; auto; [lra|]. intros x Hx.
    destruct (Hnf (v + x)) as (s & Hs & Ho); [lra|]. exists s. split; [auto|].
    rewrite occupancy_app_Zs in Ho by (auto; lra).
    rewrite <- (prep_occ (length traps) v l G (proj1 Hv)) in Ho by lra.
    rewrite occupancy_app in Ho by (lra || (apply live_nonneg, (good_live (length traps)); auto)). rewrite VB in Ho.
    destruct (Rlt_dec (v + x) v); [lra|]. replace (v + x - v) with x in Ho by ring. exact Ho. }
  destruct (capture_ok traps l free fill n_free v Hph Hn G V HnfA Hfill Hfree Hv (proj1 Hpos)) as (c & l' & k' & E & Ec & G' & V' & L1 & L2 & O & T).
  { intros ->. destruct (Req_dec v 0); auto. exfalso. assert (0 < 0); [apply Hpos; lra|lra]. }
  pose proof (dem_nonneg traps l free n_free v Hph G Hfree Hv) as Hdem.
  destruct k' as [|k']; [lia|].
  exists c, (mkManager KInstant traps (l' ++ Zs (length traps) (S k'))), (length l'), k'.
  split; [exact E|]. split; [exact Ec|].
  split. { rewrite Ec. unfold captured. split; [apply Rmin_glb; auto|apply Rmin_l]. }
  split; [reflexivity|]. split; [reflexivity|]. cbn [m_wm].
  split; [apply levels_wf; auto|]. split; [lia|]. split; [lia|].
  assert (NN : nonneg l') by (apply live_nonneg, (good_live (length traps)); auto).
  split. { intros s x Hs Hx. rewrite occupancy_app_Zs by (auto; lra). rewrite O by (auto; lra). unfold after_capture.
           destruct (Rlt_dec x v); [lra|reflexivity]. }
  split. { intros s x Hs Hx. rewrite occupancy_app_Zs by auto. now apply O. }
  rewrite !n_trapped_levels. lra.
Qed.

Lemma release_spec (m : manager R) traps live0 free dwell :
  instant m -> m_traps m = traps -> Forall physical traps ->
  well_formed (length traps) (m_wm m) live0 (1 + free) -> 0 <= dwell ->
  exists r m', n_electrons_released m dwell = (r, m') /\
    instant m' /\ m_traps m' = traps /\ well_formed (length traps) (m_wm m') live0 (1 + free) /\
    (forall s x, (s < length traps)%nat -> 0 <= x ->
       occupancy (m_wm m') s x = occupancy (m_wm m) s x * exp (- dwell / timescale traps s)) /\
    r = n_trapped m (m_wm m) - n_trapped m' (m_wm m') /\ 0 <= r <= n_trapped m (m_wm m).
Proof.
  intros Hk Ht Hph Hw Hd. destruct m as [kd tr w]. cbn [m_wm m_traps] in *. unfold instant in *. cbn in Hk. subst.
  apply wf_levels in Hw as (l & -> & Ll & G & V). cbn [Nat.add] in *. set (n := length traps) in *.
  unfold n_electrons_released. cbn [m_wm]. rewrite (max_index_Zs l n free (good_live n l G)).
  replace (Z.to_nat (Z.of_nat (length l) - 1 + 1)) with (length l) by lia.
  rewrite slice_pre. fold (rel traps dwell).
  change (released_values (mkManager KInstant traps (l ++ Zs n (S free))) dwell) with (rel traps dwell).
  pose proof (rel_good traps dwell l Hph Hd G) as G'. fold n in G'.
  do 2 eexists. split; [reflexivity|]. split; [reflexivity|]. split; [reflexivity|]. cbn [m_wm with_wm].
  split. { replace live0 with (length (mapv (rel traps dwell) l)) by (rewrite mapv_length; auto).
           apply levels_wf; auto. rewrite mapv_volume. auto. }
  assert (NN : nonneg l) by (apply live_nonneg, (good_live n); auto).
  assert (NN' : nonneg (mapv (rel traps dwell) l)) by (apply live_nonneg, (good_live n); auto).
  split. { intros s x Hs Hx. rewrite !occupancy_app_Zs by auto. now apply rel_occ. }
  split; [reflexivity|].
  change (n_trapped (mkManager KInstant traps (l ++ Zs n (S free))) (mapv (rel traps dwell) l ++ Zs n (S free)))
    with (cy_n_trapped (mapv (rel traps dwell) l ++ Zs n (S free)) (dens traps)).
  change (n_trapped (mkManager KInstant traps (l ++ Zs n (S free))) (l ++ Zs n (S free)))
    with (cy_n_trapped (l ++ Zs n (S free)) (dens traps)).
  rewrite !cy_n_trapped_eq, !trapped_app, !trapped_Zs, !Rplus_0_r.
  assert (Hds : Forall (fun d => 0 <= d) (dens traps)) by now apply Rsum_dens_nonneg.
  pose proof (trapped_nonneg n _ (dens traps) G' Hds).
  assert (trapped (dens traps) (mapv (rel traps dwell) l) <= trapped (dens traps) l); [|rnum; lra].
  clear - G Hph Hd Hds. induction l as [|r l IH]; [apply Rle_refl|].
  inversion G; subst. destruct H1 as (g1 & g2 & g3). unfold mapv. cbn [map]. rewrite !trapped_cons. fold (mapv (rel traps dwell) l).
  specialize (IH H2). unfold row_trapped. cbn [fst snd].
  assert (dot (rel traps dwell (snd r)) (dens traps) <= dot (snd r) (dens traps)).
  { apply dot_le; auto. apply Forall2_nth_R; [rewrite rel_length; auto|].
    intros i Hi. rewrite rel_length in Hi by auto. rewrite rel_nth by auto.
    pose proof (decay_range dwell (timescale traps i) Hd (timescale_pos traps i Hph)).
    assert (0 <= nth i (snd r) 0) by (rewrite Forall_forall in g3; apply g3, nth_In; unfold n in g2; lia). nra. }
  nra.
Qed.

Lemma history_spec traps max_n_transfers fill well ops :
  Forall physical traps -> (0 < length traps)%nat ->
  sensitive well -> (forall n, 0 <= n -> fill n = Ok (well n)) ->
  Forall (fun '(n, dwell) => 0 <= n /\ 0 < dwell) ops -> (length ops <= max_n_transfers)%nat ->
  exists m', run_manager fill ops (manager_init KInstant traps max_n_transfers)
             = Ok (history_nets traps well ops empty_profile, m') /\
    m_kind m' = KInstant /\ m_traps m' = traps /\
    describes (length traps) (m_wm m') (max_n_transfers - length ops) (history_profile traps well ops empty_profile) /\
    n_trapped m' (m_wm m') = - Rsum (history_nets traps well ops empty_profile).
Proof.
  intros Hph Hn Hw Hf Hops Hlen.
  pose proof (init_represents traps max_n_transfers) as Hi.
  replace max_n_transfers with (length ops + (max_n_transfers - length ops))%nat in Hi at 1 by lia.
  destruct (run_instant traps fill well ops Hph Hn Hw Hf Hops _ _ _ Hi) as (m' & E & R & C).
  exists m'. split; [exact E|]. pose proof R as R0. apply represents_describes in R as (K & T & D).
  split; [auto|]. split; [auto|]. split; [exact D|].
  rewrite (represents_electrons traps _ _ _ R0), C.
  assert (E0 : electrons traps empty_profile 0 1 = 0).
  { rewrite <- (represents_electrons traps _ _ _ Hi). unfold manager_init. cbn [m_wm].
    change (n_trapped ?m ?w) with (cy_n_trapped w (dens traps)). rewrite cy_n_trapped_eq.
    unfold zero_row. rnum. apply trapped_zeros. }
  rewrite E0. ring.
Qed.
