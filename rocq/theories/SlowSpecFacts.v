(** * The manager for capture that takes time, in terms of the specification. *)
From Coq Require Import ZArith List Bool Reals Lra Lia.
From Coquelicot Require Import Rcomplements Rbar Hierarchy RInt.
From Verif Require Import Num Py RFacts CCDModel TrapsModel ManagerModel Spec SpecSlow TrapsFacts WmFacts ArrayFacts CutFacts
  InstantFacts CaptureFacts WatermarkFacts ClockFacts ShapeFacts BalanceFacts TimeFacts SlowFacts.
Import ListNotations.
Open Scope R_scope.

Lemma describes_levels n w spare P : describes n w spare P <->
  exists l k, w = l ++ Zs n (S k) /\ (spare <= k)%nat /\ good n l /\ volume l <= 1 /\ same_profile n (occupancy l) P.
Proof.
  split.
  - intros (lv & fr & [(l & -> & El & Hl) Hv] & Hs & HP). destruct fr as [|k]; [lia|].
    change (repeat (0, repeat 0 n) (S k)) with (Zs n (S k)) in *. rewrite volume_app, volume_Zs, Rplus_0_r in Hv.
    exists l, k. split; [reflexivity|]. split; [lia|]. split; [exact Hl|]. split; [exact Hv|].
    intros s x Hs' Hx. rewrite <- HP by auto. rewrite occupancy_app_Zs; auto; [|lra]. apply live_nonneg, (good_live n), Hl.
  - intros (l & k & -> & Hs & Hl & Hv & HP). exists (length l), (S k). split; [|split; [lia|]].
    + split; [exists l; auto|]. rewrite volume_app, volume_Zs, Rplus_0_r. exact Hv.
    + intros s x Hs' Hx. rewrite <- HP by auto. rewrite occupancy_app_Zs; auto; [|lra]. apply live_nonneg, (good_live n), Hl.
Qed.

Section Same.
Variables (traps : list (trap R)) (well : R -> R) (dwell n : R) (P Q : profile).
Let N := length traps.
Hypothesis H : same_profile N P Q.
Lemma release_above_same v : same_profile N (release_above traps dwell v P) (release_above traps dwell v Q).
Proof. intros s x Hs Hx. unfold release_above. now rewrite H. Qed.
Lemma cloud_then_same : cloud_then traps well dwell n P = cloud_then traps well dwell n Q.
Proof.
  unfold cloud_then. rewrite (electrons_same traps P Q 0 1) by (auto; lra).
  rewrite (electrons_same traps _ _ 0 1 (release_above_same (well n))) by lra. reflexivity.
Qed.
Lemma exchanged_same : same_profile N (exchanged traps well dwell n P) (exchanged traps well dwell n Q).
Proof.
  intros s x Hs Hx. unfold exchanged, exchange_below. rewrite cloud_then_same.
  destruct (nth_error traps s); [|now apply release_above_same]. rewrite release_above_same by auto. reflexivity.
Qed.
Lemma gain_same : gain traps well dwell n P = gain traps well dwell n Q.
Proof.
  unfold gain. rewrite (electrons_same traps P Q 0 1) by (auto; lra).
  rewrite (electrons_same traps _ _ 0 1 exchanged_same) by lra. reflexivity.
Qed.
End Same.

Lemma slow_spec traps w spare P fill well n_free dwell :
  let n := length traps in
  let n' := cloud_then traps well dwell n_free P in
  let G := gain traps well dwell n_free P in
  (0 < n)%nat -> Forall capturing traps -> describes n w (2 + spare) P ->
  sensitive well -> (forall a, 0 <= a -> fill a = Ok (well a)) -> 0 <= n_free -> 0 < dwell ->
  stays_inside traps well dwell n_free (volume w) P ->
  exists net w', manager_step (mkManager KSlow traps w) n_free fill dwell = Ok (net, mkManager KSlow traps w') /\
    volume w' = Rmax (volume w) (well n_free) /\
    (exists Q, describes n w' spare Q /\ net = electrons traps P 0 1 - electrons traps Q 0 1) /\
    (G <= n' -> net = - G /\ describes n w' spare (exchanged traps well dwell n_free P)) /\
    (n' < G -> net = - n' /\ (Forall finite_capture traps -> describes n w' spare (short_of traps well dwell n_free P))).
Proof.
  intros n n' G Hn Hc HP Hs Hfill Hnf Hd Hin. apply describes_levels in HP as (l & k & -> & Hk & Hl & Hv & HP).
  destruct k as [|[|k]]; try lia. rewrite volume_app, volume_Zs, Rplus_0_r in *.
  assert (E1 : cloud_then traps well dwell n_free (occupancy l) = n') by now apply cloud_then_same.
  assert (E2 : gain traps well dwell n_free (occupancy l) = G) by now apply gain_same.
  destruct (slow_step_full traps l k fill well n_free dwell Hn Hc Hl Hv Hs Hfill Hnf Hd) as (net & l' & k' & S1 & S2 & S3 & S4 & S5 & S6 & S7).
  { rewrite E1. exact Hin. }
  rewrite E1, E2 in *. fold n in S1, S2, S6.
  assert (Hv' : volume l' <= 1) by (rewrite S3; apply Rmax_lub; auto; now apply sensitive_range).
  exists net, (l' ++ Zs n (S k')). split; [exact S1|]. split; [rewrite volume_app, volume_Zs; lra|]. split; [|split].
  - exists (occupancy l'). split.
    + apply describes_levels. exists l', k'. split; [auto|]. split; [lia|]. split; [auto|]. split; [auto|]. intros s x _ _. reflexivity.
    + rewrite S5. rewrite <- (electrons_same traps (occupancy l) P 0 1 HP) by lra.
      rewrite (electrons_levels traps l' (occupancy l')), (electrons_levels traps l (occupancy l)); auto.
  - intros Hle. destruct (S6 Hle) as [S6a S6b]. split; [exact S6a|]. apply describes_levels. exists l', k'.
    split; [auto|]. split; [lia|]. split; [auto|]. split; [auto|]. intros s x Hs' Hx. rewrite S6b by auto.
    now apply exchanged_same.
  - intros Hlt. destruct (S7 Hlt) as [S7a S7b]. split; [exact S7a|]. intros Hfc. apply describes_levels. exists l', k'.
    split; [auto|]. split; [lia|]. split; [auto|]. split; [auto|]. intros s x Hs' Hx. rewrite S7b by auto.
    unfold short_of. rewrite E1, E2. fold n' G. rewrite (HP s x) by auto. f_equal. f_equal. now apply exchanged_same.
Qed.
(** Any call whose recomputed cloud stays inside the levels. *)
Lemma slow_any traps w spare P fill well n_free dwell :
  let n := length traps in
  (0 < n)%nat -> Forall finite_capture traps -> describes n w (2 + spare) P ->
  sensitive well -> (forall a, 0 <= a -> fill a = Ok (well a)) -> 0 <= n_free -> 0 < dwell ->
  stays_inside traps well dwell n_free (volume w) P ->
  exists w', manager_step (mkManager KSlow traps w) n_free fill dwell
             = Ok (- slow_taken traps well dwell n_free P, mkManager KSlow traps w') /\
    volume w' = Rmax (volume w) (well n_free) /\ describes n w' spare (slow_after traps well dwell n_free P).
Proof.
  intros n Hn Hf HP Hs Hfill Hnf Hd Hin.
  assert (Hc : Forall capturing traps) by (eapply Forall_impl; [|exact Hf]; intros t (Hp & c & Ec & Hc); split; [exact Hp|rewrite Ec; exact Hc]).
  destruct (slow_spec traps w spare P fill well n_free dwell Hn Hc HP Hs Hfill Hnf Hd Hin) as (net & w' & E & V & _ & S1 & S2).
  exists w'. unfold slow_taken, slow_after. destruct (Rle_dec _ _) as [Hle|Hgt].
  - destruct (S1 Hle) as [-> S1']. rewrite Rmin_left by exact Hle. auto.
  - assert (Hlt : cloud_then traps well dwell n_free P < gain traps well dwell n_free P) by lra.
    destruct (S2 Hlt) as [-> S2']. rewrite Rmin_right by lra. auto.
Qed.

(** ... also past traps that capture in no time, if there are enough electrons. *)
Lemma slow_enough traps w spare P fill well n_free dwell :
  let n := length traps in
  (0 < n)%nat -> Forall capturing traps -> describes n w (2 + spare) P ->
  sensitive well -> (forall a, 0 <= a -> fill a = Ok (well a)) -> 0 <= n_free -> 0 < dwell ->
  stays_inside traps well dwell n_free (volume w) P -> gain traps well dwell n_free P <= cloud_then traps well dwell n_free P ->
  exists w', manager_step (mkManager KSlow traps w) n_free fill dwell
             = Ok (- slow_taken traps well dwell n_free P, mkManager KSlow traps w') /\
    volume w' = Rmax (volume w) (well n_free) /\ describes n w' spare (slow_after traps well dwell n_free P).
Proof.
  intros n Hn Hc HP Hs Hfill Hnf Hd Hin Hle.
  destruct (slow_spec traps w spare P fill well n_free dwell Hn Hc HP Hs Hfill Hnf Hd Hin) as (net & w' & E & V & _ & S1 & _).
  exists w'. unfold slow_taken, slow_after. destruct (Rle_dec _ _) as [_|]; [|contradiction]. destruct (S1 Hle) as [-> S1']. rewrite Rmin_left by exact Hle. auto.
Qed.
Lemma run_slow traps fill well ops : Forall capturing traps -> (0 < length traps)%nat ->
  sensitive well -> (forall n, 0 <= n -> fill n = Ok (well n)) ->
  Forall (fun '(n, dwell) => 0 <= n /\ 0 < dwell) ops ->
  forall spare w P, describes (length traps) w (2 * length ops + spare) P -> orderly traps well ops (volume w) P ->
  exists w', run_manager fill ops (mkManager KSlow traps w) = Ok (slow_nets traps well ops P, mkManager KSlow traps w') /\
    describes (length traps) w' spare (slow_profile traps well ops P).
Proof.
  intros Hc Hn Hs Hf Hops. induction Hops as [|[n dwell] ops [Hfree Hd] Hops IH]; intros spare w P HP Ho.
  - exists w. cbn [run_manager slow_nets slow_profile length Nat.mul Nat.add] in *. auto.
  - cbn [orderly] in Ho. destruct Ho as (H1 & H2 & H3).
    replace (2 * length ((n, dwell) :: ops) + spare)%nat with (2 + (2 * length ops + spare))%nat in HP by (cbn [length]; lia).
    destruct (slow_spec traps w _ P fill well n dwell Hn Hc HP Hs Hf Hfree Hd H1) as (net & w1 & E & V & _ & S & _).
    destruct (S H2) as [-> S']. rewrite <- V in H3. destruct (IH spare w1 _ S' H3) as (w2 & E2 & D2).
    exists w2. cbn [run_manager slow_nets slow_profile]. rewrite E. cbn [bind]. rewrite E2. cbn [bind]. auto.
Qed.
Lemma init_describes traps N k : describes (length traps) (m_wm (manager_init k traps N)) (N * n_watermarks_per_transfer k) empty_profile /\
  volume (m_wm (manager_init k traps N)) = 0.
Proof.
  unfold manager_init. cbn [m_wm]. unfold zero_row; rnum.
  change (repeat (0, repeat 0 (length traps)) (1 + N * n_watermarks_per_transfer k)) with ([] ++ Zs (length traps) (S (N * n_watermarks_per_transfer k))).
  split; [|rewrite volume_app, volume_Zs, volume_nil; lra].
  apply describes_levels. exists [], (N * n_watermarks_per_transfer k)%nat. split; [auto|]. split; [lia|]. split; [constructor|].
  split; [rewrite volume_nil; lra|]. intros s x _ _. reflexivity.
Qed.
Lemma history_slow traps N fill well ops : Forall capturing traps -> (0 < length traps)%nat ->
  sensitive well -> (forall n, 0 <= n -> fill n = Ok (well n)) ->
  Forall (fun '(n, dwell) => 0 <= n /\ 0 < dwell) ops -> (length ops <= N)%nat ->
  orderly traps well ops 0 empty_profile ->
  exists m', run_manager fill ops (manager_init KSlow traps N) = Ok (slow_nets traps well ops empty_profile, m') /\
    m_kind m' = KSlow /\ m_traps m' = traps /\
    describes (length traps) (m_wm m') (2 * (N - length ops)) (slow_profile traps well ops empty_profile).
Proof.
  intros Hc Hn Hs Hf Hops Hlen Ho. destruct (init_describes traps N KSlow) as [D V]. cbn [n_watermarks_per_transfer] in D.
  rewrite <- V in Ho. replace (N * 2)%nat with (2 * length ops + 2 * (N - length ops))%nat in D by lia.
  destruct (run_slow traps fill well ops Hc Hn Hs Hf Hops _ _ _ D Ho) as (w' & E & D').
  exists (mkManager KSlow traps w'). split; [exact E|]. cbn. auto.
Qed.
Lemma run_any traps fill well ops : Forall finite_capture traps -> (0 < length traps)%nat ->
  sensitive well -> (forall n, 0 <= n -> fill n = Ok (well n)) ->
  Forall (fun '(n, dwell) => 0 <= n /\ 0 < dwell) ops ->
  forall spare w P, describes (length traps) w (2 * length ops + spare) P -> within traps well ops (volume w) P ->
  exists w', run_manager fill ops (mkManager KSlow traps w) = Ok (map Ropp (all_taken traps well ops P), mkManager KSlow traps w') /\
    describes (length traps) w' spare (all_after traps well ops P).
Proof.
  intros Hc Hn Hs Hf Hops. induction Hops as [|[n dwell] ops [Hfree Hd] Hops IH]; intros spare w P HP Ho.
  - exists w. cbn [run_manager all_taken all_after length Nat.mul Nat.add map] in *. auto.
  - cbn [within] in Ho. destruct Ho as (H1 & H3).
    replace (2 * length ((n, dwell) :: ops) + spare)%nat with (2 + (2 * length ops + spare))%nat in HP by (cbn [length]; lia).
    destruct (slow_any traps w _ P fill well n dwell Hn Hc HP Hs Hf Hfree Hd H1) as (w1 & E & V & D).
    rewrite <- V in H3. destruct (IH spare w1 _ D H3) as (w2 & E2 & D2).
    exists w2. cbn [run_manager all_taken all_after map]. rewrite E. cbn [bind]. rewrite E2. cbn [bind]. auto.
Qed.
Lemma history_any traps N fill well ops : Forall finite_capture traps -> (0 < length traps)%nat ->
  sensitive well -> (forall n, 0 <= n -> fill n = Ok (well n)) ->
  Forall (fun '(n, dwell) => 0 <= n /\ 0 < dwell) ops -> (length ops <= N)%nat ->
  within traps well ops 0 empty_profile ->
  exists m', run_manager fill ops (manager_init KSlow traps N) = Ok (map Ropp (all_taken traps well ops empty_profile), m') /\
    m_kind m' = KSlow /\ m_traps m' = traps /\
    describes (length traps) (m_wm m') (2 * (N - length ops)) (all_after traps well ops empty_profile).
Proof.
  intros Hc Hn Hs Hf Hops Hlen Ho. destruct (init_describes traps N KSlow) as [D V]. cbn [n_watermarks_per_transfer] in D.
  rewrite <- V in Ho. replace (N * 2)%nat with (2 * length ops + 2 * (N - length ops))%nat in D by lia.
  destruct (run_any traps fill well ops Hc Hn Hs Hf Hops _ _ _ D Ho) as (w' & E & D').
  exists (mkManager KSlow traps w'). split; [exact E|]. cbn. auto.
Qed.
