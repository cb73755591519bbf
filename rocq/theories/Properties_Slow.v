(** * Properties C18-C21 and C23: capture that takes time, and three ways in which the managers
    lose track (arcticpy/trap_managers.py, classes TrapManager and TrapManagerInstantCapture). *)
From Coq Require Import ZArith List Bool Reals Lra Lia.
From Coquelicot Require Import Hierarchy RInt.
From Verif Require Import Num Py RFacts CCDModel TrapsModel ManagerModel Spec SpecBalance SpecSlow SpecReadout CCDFacts WmFacts CutFacts InstantFacts CaptureFacts
  SlowFacts SlowSpecFacts SlowNegativeFacts SlowExamples NotchFacts ReadoutImage ReadoutExamples OverfullExample.
Import ListNotations.
Open Scope R_scope.

(** C18, one call: with enough electrons, and with the cloud recomputed after the release
    inside the levels, the traps above the first cloud release, then those below the second
    exchange charge with it, and nothing else changes. *)
Theorem C18_slow_capture_follows_the_rate_equation traps w spare P fill well n_free dwell :
  let n := length traps in
  (0 < n)%nat -> Forall capturing traps -> describes n w (2 + spare) P ->
  sensitive well -> (forall a, 0 <= a -> fill a = Ok (well a)) -> 0 <= n_free -> 0 < dwell ->
  stays_inside traps well dwell n_free (volume w) P ->
  gain traps well dwell n_free P <= cloud_then traps well dwell n_free P ->
  exists w', manager_step (mkManager KSlow traps w) n_free fill dwell
             = Ok (- gain traps well dwell n_free P, mkManager KSlow traps w') /\
    volume w' = Rmax (volume w) (well n_free) /\
    describes n w' spare (exchanged traps well dwell n_free P).
Proof.
  intros n H1 H2 H3 H4 H5 H6 H7 H8 H9.
  destruct (slow_spec traps w spare P fill well n_free dwell H1 H2 H3 H4 H5 H6 H7 H8) as (net & w' & E & Ev & _ & Hok & _).
  destruct (Hok H9) as [-> Hd]. exists w'. auto.
Qed.
Print Assumptions C18_slow_capture_follows_the_rate_equation.

(** C18, histories from empty traps. *)
Theorem C18_orderly_histories traps max_n_transfers fill well ops :
  Forall capturing traps -> (0 < length traps)%nat ->
  sensitive well -> (forall n, 0 <= n -> fill n = Ok (well n)) ->
  Forall (fun '(n, dwell) => 0 <= n /\ 0 < dwell) ops -> (length ops <= max_n_transfers)%nat ->
  orderly traps well ops 0 empty_profile ->
  exists m', run_manager fill ops (manager_init KSlow traps max_n_transfers) = Ok (slow_nets traps well ops empty_profile, m') /\
    m_kind m' = KSlow /\ m_traps m' = traps /\
    describes (length traps) (m_wm m') (2 * (max_n_transfers - length ops)) (slow_profile traps well ops empty_profile).
Proof. exact (history_slow traps max_n_transfers fill well ops). Qed.
Print Assumptions C18_orderly_histories.

(** A brief cloud over the whole pixel, then a smaller one: half an electron spread over depth
    1/2 is joined by the 1/64 released above it. *)
Example C18_example : let traps := [slow_trap (1 / 2)] in let ops := [(10, brief); (1 / 2, ln 2)] in
  Forall capturing traps /\ sensitive small_well /\ Forall (fun '(n, dwell) => 0 <= n /\ 0 < dwell) ops /\
  orderly traps small_well ops 0 empty_profile /\
  slow_nets traps small_well ops empty_profile = [- (1 / 16); - (469 / 8192)] /\
  steps [(1 / 2, 13 / 32); (1 / 64, 25 / 64); (31 / 64, 1 / 16)] (slow_profile traps small_well ops empty_profile).
Proof.
  intros traps ops.
  assert (W10 : small_well 10 = 1).
  { unfold small_well, depth. destruct (Rle_dec 10 0); [lra|]. rewrite Rmin_left by lra. apply Rpower_1; lra. }
  assert (W1 : small_well (1 / 2) = 1 / 2) by (apply small_well_at; lra).
  assert (W2 : small_well (33 / 64) = 33 / 64) by (apply small_well_at; lra).
  destruct (slow_call_1 (1 / 2) small_well 10 1 W10 ltac:(lra)) as (A1 & A2 & A3).
  destruct (slow_call_2 (1 / 2) small_well (1 / 2) 1 (1 / 2) (33 / 64) (33 / 64) _ A3 ltac:(lra) W1 ltac:(lra) ltac:(lra) ltac:(lra) W2) as (B1 & B2 & B3).
  split; [apply finite_capturing, slow_trap_finite; lra|]. split; [apply depth_sensitive; lra|].
  split; [pose proof brief_pos; pose proof (ln_pos 2 ltac:(lra)); repeat constructor; lra|].
  unfold traps, ops. cbn [orderly slow_nets slow_profile]. rewrite A1, A2, B1, B2. repeat split.
  - left. lra.
  - lra.
  - right. rewrite B1, W2, W10, Rmax_right; lra.
  - lra.
  - f_equal; [lra|]. f_equal. lra.
  - repeat constructor; lra.
  - cbn; lra.
  - intros x Hx. destruct B3 as (_ & _ & B3). rewrite B3 by exact Hx. unfold levels. cbn [map].
    replace (33 / 64 - 1 / 2) with (1 / 64) by lra. replace (1 - 33 / 64) with (31 / 64) by lra. reflexivity.
Qed.

(** C19: when the electrons in the recomputed cloud, those just released included, are fewer
    than the net gain, the whole recomputed cloud is taken from the electrons that were free. *)
Theorem C19_slow_capture_takes_the_recomputed_cloud traps w spare P fill well n_free dwell :
  let n := length traps in
  (0 < n)%nat -> Forall capturing traps -> describes n w (2 + spare) P ->
  sensitive well -> (forall a, 0 <= a -> fill a = Ok (well a)) -> 0 <= n_free -> 0 < dwell ->
  stays_inside traps well dwell n_free (volume w) P ->
  cloud_then traps well dwell n_free P < gain traps well dwell n_free P ->
  exists w', manager_step (mkManager KSlow traps w) n_free fill dwell
             = Ok (- cloud_then traps well dwell n_free P, mkManager KSlow traps w') /\
    exists Q, describes n w' spare Q /\
      electrons traps Q 0 1 = electrons traps P 0 1 + cloud_then traps well dwell n_free P.
Proof.
  intros n H1 H2 H3 H4 H5 H6 H7 H8 H9.
  destruct (slow_spec traps w spare P fill well n_free dwell H1 H2 H3 H4 H5 H6 H7 H8) as (net & w' & E & _ & (Q & HQ & EQ) & _ & Hlow).
  rewrite (proj1 (Hlow H9)) in *. exists w'. split; [exact E|]. exists Q. split; [exact HQ|]. lra.
Qed.
Print Assumptions C19_slow_capture_takes_the_recomputed_cloud.

(** C19, any supply: for capture with finite rates, whether or not the electrons suffice, the
    traps are left as the rate equation says, or in the mixture of before and after that holds
    the recomputed cloud. *)
Theorem C19_slow_capture_with_any_supply traps w spare P fill well n_free dwell :
  let n := length traps in
  (0 < n)%nat -> Forall finite_capture traps -> describes n w (2 + spare) P ->
  sensitive well -> (forall a, 0 <= a -> fill a = Ok (well a)) -> 0 <= n_free -> 0 < dwell ->
  stays_inside traps well dwell n_free (volume w) P ->
  exists w', manager_step (mkManager KSlow traps w) n_free fill dwell
             = Ok (- slow_taken traps well dwell n_free P, mkManager KSlow traps w') /\
    volume w' = Rmax (volume w) (well n_free) /\ describes n w' spare (slow_after traps well dwell n_free P).
Proof. exact (slow_any traps w spare P fill well n_free dwell). Qed.
Print Assumptions C19_slow_capture_with_any_supply.

(** C19, histories from empty traps, with any supply. *)
Theorem C19_histories_with_any_supply traps max_n_transfers fill well ops :
  Forall finite_capture traps -> (0 < length traps)%nat ->
  sensitive well -> (forall n, 0 <= n -> fill n = Ok (well n)) ->
  Forall (fun '(n, dwell) => 0 <= n /\ 0 < dwell) ops -> (length ops <= max_n_transfers)%nat ->
  within traps well ops 0 empty_profile ->
  exists m', run_manager fill ops (manager_init KSlow traps max_n_transfers)
             = Ok (map Ropp (all_taken traps well ops empty_profile), m') /\
    m_kind m' = KSlow /\ m_traps m' = traps /\
    describes (length traps) (m_wm m') (2 * (max_n_transfers - length ops)) (all_after traps well ops empty_profile).
Proof. exact (history_any traps max_n_transfers fill well ops). Qed.
Print Assumptions C19_histories_with_any_supply.

Lemma small_well_10 : small_well 10 = 1.
Proof. unfold small_well, depth. destruct (Rle_dec 10 0); [lra|]. rewrite Rmin_left by lra. apply Rpower_1. lra. Qed.

(** The history of the refutation below: ten electrons over the whole pixel, then a quarter of
    an electron, and 5/8 in the recomputed cloud, all of which the traps take. *)
Example C19_example : let traps := [slow_trap 8] in let ops := [(10, brief); (1 / 4, ln 2)] in
  Forall finite_capture traps /\ Forall (fun '(n, dwell) => 0 <= n /\ 0 < dwell) ops /\
  within traps small_well ops 0 empty_profile /\ all_taken traps small_well ops empty_profile = [1; 5 / 8].
Proof.
  intros traps ops.
  assert (W1 : small_well (1 / 4) = 1 / 4) by (apply small_well_at; lra).
  assert (W2 : small_well (5 / 8) = 5 / 8) by (apply small_well_at; lra).
  destruct (slow_call_1 8 small_well 10 1 small_well_10 ltac:(lra)) as (A1 & A2 & A3).
  destruct (slow_call_2 8 small_well (1 / 4) 1 (1 / 4) (5 / 8) (5 / 8) _ A3 ltac:(lra) W1 ltac:(lra) ltac:(lra) ltac:(lra) W2) as (B1 & B2 & B3).
  split; [apply slow_trap_finite; lra|].
  split; [pose proof brief_pos; pose proof (ln_pos 2 ltac:(lra)); repeat constructor; lra|].
  unfold traps, ops. cbn [within all_taken].
  assert (S1 : slow_after [slow_trap 8] small_well brief 10 empty_profile = exchanged [slow_trap 8] small_well brief 10 empty_profile).
  { unfold slow_after. destruct (Rle_dec _ _) as [|C]; [reflexivity|]. exfalso; apply C. rewrite A1, A2. lra. }
  rewrite S1. unfold slow_taken. rewrite A1, A2, B1, B2. repeat split.
  - left. rewrite small_well_10. lra.
  - right. rewrite B1, W2, small_well_10, Rmax_right; lra.
  - rewrite !Rmin_left by lra || idtac. f_equal; [lra|]. f_equal. rewrite Rmin_right; lra.
Qed.

(** C19, refuted: no lower bound by the available electrons.  A quarter of an electron is
    offered and five eighths are taken. *)
Theorem C19_slow_capture_within_supply_refuted :
  ~ (forall traps fill well max_n_transfers ops n dwell nets net m',
       Forall capturing traps -> (0 < length traps)%nat -> sensitive well -> (forall a, 0 <= a -> fill a = Ok (well a)) ->
       Forall (fun '(a, d) => 0 <= a /\ 0 < d) (ops ++ [(n, dwell)]) -> (length (ops ++ [(n, dwell)]) <= max_n_transfers)%nat ->
       run_manager fill (ops ++ [(n, dwell)]) (manager_init KSlow traps max_n_transfers) = Ok (nets ++ [net], m') ->
       - n <= net).
Proof.
  intros H. set (t := slow_trap 8).
  pose proof brief_pos as Hb. pose proof (ln_pos 2 ltac:(lra)) as H2.
  assert (Hs : sensitive small_well) by (apply depth_sensitive; lra).
  assert (Hc : Forall capturing [t]) by (apply finite_capturing, slow_trap_finite; lra).
  assert (W1 : small_well (1 / 4) = 1 / 4) by (apply small_well_at; lra).
  assert (W2 : small_well (5 / 8) = 5 / 8) by (apply small_well_at; lra).
  destruct (slow_call_1 8 small_well 10 1 small_well_10 ltac:(lra)) as (A1 & A2 & A3).
  destruct (slow_call_2 8 small_well (1 / 4) 1 (1 / 4) (5 / 8) (5 / 8) _ A3 ltac:(lra) W1 ltac:(lra) ltac:(lra) ltac:(lra) W2) as (B1 & B2 & B3).
  set (P := exchanged [slow_trap 8] small_well brief 10 empty_profile) in *.
  set (fill := fun n => Ok (small_well n)).
  destruct (init_describes [t] 2 KSlow) as [D0 V0].
  destruct (C18_slow_capture_follows_the_rate_equation [t] (m_wm (manager_init KSlow [t] 2)) 2 empty_profile fill small_well 10 brief)
    as (w1 & E1 & V1 & D1); auto; try lra.
  { left. rewrite V0, small_well_10. lra. }
  { unfold t. rewrite A1, A2. lra. }
  destruct (C19_slow_capture_takes_the_recomputed_cloud [t] w1 0 P fill small_well (1 / 4) (ln 2)) as (w2 & E2 & _); auto; try lra.
  { right. unfold t. rewrite B1, W2, V1, V0, small_well_10, Rmax_right; lra. }
  { unfold t. rewrite B1, B2. lra. }
  unfold t in E2. rewrite B1 in E2. fold t in E2.
  pose proof (H [t] fill small_well 2%nat [(10, brief)] (1 / 4) (ln 2) [- gain [t] small_well brief 10 empty_profile] (- (5 / 8))
     (mkManager KSlow [t] w2) Hc ltac:(cbn; lia) Hs ltac:(reflexivity)) as K.
  assert (- (1 / 4) <= - (5 / 8)); [|lra]. apply K.
  - repeat constructor; lra.
  - cbn. lia.
  - cbn [app run_manager]. change (manager_init KSlow [t] 2) with (mkManager KSlow [t] (m_wm (manager_init KSlow [t] 2))).
    rewrite E1. cbn [bind]. rewrite E2. reflexivity.
Qed.
Print Assumptions C19_slow_capture_within_supply_refuted.

(** C20: whenever the recomputed cloud outgrows the levels, the array ends with a level of
    negative volume. *)
Theorem C20_outgrown_levels_leave_a_negative_volume traps w spare P fill well n_free dwell :
  let n := length traps in
  (0 < n)%nat -> Forall finite_capture traps -> describes n w (3 + spare) P ->
  sensitive well -> (forall a, 0 <= a -> fill a = Ok (well a)) -> 0 <= n_free -> 0 < dwell ->
  well n_free <= volume w -> volume w < well (cloud_then traps well dwell n_free P) ->
  exists net w', manager_step (mkManager KSlow traps w) n_free fill dwell = Ok (net, mkManager KSlow traps w') /\
    Exists (fun r => fst r < 0) w'.
Proof.
  intros n H1 H2 H3 H4 H5 H6 H7 H8 H9. apply describes_levels in H3 as (l & k & -> & Hk & Hl & Hv & HP).
  destruct k as [|[|[|k]]]; try lia. rewrite volume_app, volume_Zs, Rplus_0_r in *. fold n in HP.
  rewrite (cloud_then_same traps well dwell n_free P (occupancy l)) in H9 by (intros s x Hs Hx; symmetry; now apply HP).
  destruct (slow_negative traps l k fill well n_free dwell H1 H2 Hl Hv H4 H5 H6 H7 H8 H9) as (net & w' & E & _ & HIn).
  exists net, w'. split; [exact E|]. apply in_map_iff in HIn as (r & Er & HIn). apply Exists_exists. exists r. split; [exact HIn|]. rewrite Er. lra.
Qed.
Print Assumptions C20_outgrown_levels_leave_a_negative_volume.

Lemma deep_sensitive : sensitive deep_well.
Proof. apply depth_sensitive; lra. Qed.

(** C20, refuted: two calls on empty traps reach such a state. *)
Theorem C20_volumes_stay_nonnegative_refuted :
  ~ (forall traps fill well max_n_transfers ops nets m',
       Forall capturing traps -> (0 < length traps)%nat -> sensitive well -> (forall a, 0 <= a -> fill a = Ok (well a)) ->
       Forall (fun '(a, d) => 0 <= a /\ 0 < d) ops -> (length ops <= max_n_transfers)%nat ->
       run_manager fill ops (manager_init KSlow traps max_n_transfers) = Ok (nets, m') ->
       Forall (fun r => 0 <= fst r) (m_wm m')).
Proof.
  intros H. set (t := slow_trap 64).
  pose proof brief_pos as Hb. pose proof (ln_pos 2 ltac:(lra)) as H2. pose proof deep_sensitive as Hs.
  assert (Hf : Forall finite_capture [t]) by (apply slow_trap_finite; lra).
  assert (Hc : Forall capturing [t]) by (apply finite_capturing, Hf).
  assert (W1 : deep_well (1 / 2) = 1 / 16) by (apply deep_well_at; lra).
  assert (W2 : deep_well (3 / 8) = 81 / 4096) by (apply deep_well_at; lra).
  assert (W3 : deep_well (559 / 1024) = 559 / 1024 * (559 / 1024) * (559 / 1024) * (559 / 1024)) by (apply deep_well_at; [lra|reflexivity]).
  destruct (slow_call_1 64 deep_well (1 / 2) (1 / 16) W1 ltac:(lra)) as (A1 & A2 & A3).
  set (P := exchanged [slow_trap 64] deep_well brief (1 / 2) empty_profile) in *.
  assert (B1 : cloud_then [slow_trap 64] deep_well (ln 2) (3 / 8) P = 559 / 1024).
  { rewrite (slow_cloud_2 64 deep_well (3 / 8) (1 / 16) (81 / 4096) P A3) by (try exact W2; lra). lra. }
  set (fill := fun n => Ok (deep_well n)).
  destruct (init_describes [t] 3 KSlow) as [D0 V0].
  destruct (C18_slow_capture_follows_the_rate_equation [t] (m_wm (manager_init KSlow [t] 3)) 4 empty_profile fill deep_well (1 / 2) brief)
    as (w1 & E1 & V1 & D1); auto; try lra.
  { left. rewrite V0, W1. lra. }
  { unfold t. rewrite A1, A2. lra. }
  assert (V1' : volume w1 = 1 / 16) by (rewrite V1, V0, W1, Rmax_right; lra).
  destruct (C20_outgrown_levels_leave_a_negative_volume [t] w1 1 P fill deep_well (3 / 8) (ln 2)) as (net & w2 & E2 & Hneg); auto; try lra.
  { unfold t. rewrite B1, W3, V1'. lra. }
  assert (Hall : Forall (fun r => 0 <= fst r) (m_wm (mkManager KSlow [t] w2))).
  { apply (H [t] fill deep_well 3%nat [(1 / 2, brief); (3 / 8, ln 2)] [- gain [t] deep_well brief (1 / 2) empty_profile; net]); auto.
    - repeat constructor; lra.
    - cbn [run_manager]. change (manager_init KSlow [t] 3) with (mkManager KSlow [t] (m_wm (manager_init KSlow [t] 3))).
      rewrite E1. cbn [bind]. rewrite E2. reflexivity. }
  apply Exists_exists in Hneg as (r & Hr & Hlt). rewrite Forall_forall in Hall. specialize (Hall r Hr). cbn in Hall. lra.
Qed.
Print Assumptions C20_volumes_stay_nonnegative_refuted.

(** C21: after a cloud that stays inside the notch, a capture takes every trap in its reach,
    whether or not it has the electrons; without that first cloud it takes at most what it has. *)
Theorem C21_notch_then_capture (c : ccd R) phase notch beta full traps max_n_transfers n1 d1 n2 d2 v :
  phase_params c phase notch beta full -> 0 < beta -> 0 <= notch < full ->
  0 < n1 <= notch -> 0 < n2 ->
  cloud_fractional_volume c n2 phase false = Ok v -> 0 < v * Rsum (map (@t_density R) traps) ->
  (exists m', run_manager (well_fill c phase false) [(n1, d1); (n2, d2)] (manager_init KInstant traps max_n_transfers)
     = Ok ([0; - (v * Rsum (map (@t_density R) traps))], m')) /\
  (exists m', run_manager (well_fill c phase false) [(n2, d2)] (manager_init KInstant traps max_n_transfers)
     = Ok ([- Rmin n2 (v * Rsum (map (@t_density R) traps))], m')).
Proof.
  intros Hp Hb Hn H1 H2 Hv HD. split.
  - apply notch_history; auto; try lra.
    + destruct (volume_bounds c phase notch beta full n1 Hp ltac:(lra) ltac:(lra)) as (v1 & E & _).
      destruct (volume_cases c phase notch beta full n1 v1 Hp Hb Hn E) as [H _]. rewrite (H ltac:(lra)) in E. exact E.
    + change (Rsum (map (@t_density R) traps)) with (total_density traps) in HD. lra.
  - apply first_capture; auto.
Qed.
Print Assumptions C21_notch_then_capture.

(** C21, refuted on a CCD with notch depth 1, full well depth 2 and linear filling: ten traps
    per pixel take five electrons from a cloud of one and a half. *)
Theorem C21_notch_is_harmless_refuted :
  ~ (forall (c : ccd R) phase notch beta full traps max_n_transfers n1 d1 n2 d2 net1 net2 m',
       phase_params c phase notch beta full -> 0 < beta -> 0 <= notch < full -> Forall physical traps ->
       0 < n1 <= notch -> 0 < n2 -> 0 < d1 -> 0 < d2 -> (2 <= max_n_transfers)%nat ->
       run_manager (well_fill c phase false) [(n1, d1); (n2, d2)] (manager_init KInstant traps max_n_transfers) = Ok ([net1; net2], m') ->
       - n2 <= net2).
Proof.
  intros H. set (c := mkCCD [1] 1 [2] [1] [1] [BList [1]] : ccd R). set (t := small_trap 10).
  assert (Hp : phase_params c 0 1 1 2) by now constructor.
  assert (Ev : cloud_fractional_volume c (3 / 2) 0 false = Ok (1 / 2)).
  { destruct (volume_bounds c 0 1 1 2 (3 / 2) Hp ltac:(lra) ltac:(lra)) as (v & E & _). rewrite E. f_equal.
    destruct (volume_cases c 0 1 1 2 (3 / 2) v Hp ltac:(lra) ltac:(lra) E) as (_ & _ & K). destruct (K ltac:(lra)) as [-> _].
    rewrite Rpower_1; lra. }
  destruct (C21_notch_then_capture c 0 1 1 2 [t] 2 1 1 (3 / 2) 1 (1 / 2) Hp) as ((m' & E) & _); auto; try lra.
  { cbn. lra. }
  assert (K : - (3 / 2) <= - (1 / 2 * Rsum (map (@t_density R) [t]))).
  { apply (H c 0%nat 1 1 2 [t] 2%nat 1 1 (3 / 2) 1 0 (- (1 / 2 * Rsum (map (@t_density R) [t]))) m'); auto; try lra.
    constructor; [|constructor]. apply small_physical. lra. }
  cbn in K. lra.
Qed.
Print Assumptions C21_notch_is_harmless_refuted.

(** C23: with every level in use, a capture overwrites the lowest level, releases nothing, and
    returns minus everything then stored: what was stored before is not accounted for. *)
Theorem C23_overfull_array_is_overwritten traps r0 rest fill n_free dwell v :
  let w' := (v, repeat 1 (length traps)) :: rest in
  Forall (fun r => fst r <> 0) (r0 :: rest) -> 0 < n_free -> fill n_free = Ok v ->
  0 < stored KInstant traps w' <= n_free ->
  manager_step (mkManager KInstant traps (r0 :: rest)) n_free fill dwell
  = Ok (- stored KInstant traps w', mkManager KInstant traps w').
Proof. exact (overfull_step traps r0 rest fill n_free dwell v). Qed.
Print Assumptions C23_overfull_array_is_overwritten.

(** C23, refuted: a manager sized for one transfer (two levels) is used three times; the
    charge returned no longer matches the charge stored (C16 without its hypothesis of a free
    level), and the levels cover more than the pixel. *)
Theorem C23_balance_after_any_history_refuted :
  ~ (forall (c : ccd R) phase beta full traps max_n_transfers ops nets m',
       phase_params c phase 0 beta full -> 0 < beta -> 0 < full -> Forall physical traps ->
       Forall (fun '(n, d) => 0 <= n /\ 0 < d) ops ->
       run_manager (well_fill c phase false) ops (manager_init KInstant traps max_n_transfers) = Ok (nets, m') ->
       stored KInstant traps (m_wm m') = - Rsum nets).
Proof.
  intros H. pose proof (ln_pos 2 ltac:(lra)) as H2.
  assert (K : stored KInstant [half_trap] [(1, [1]); (3 / 4, [1 / 2])] = - Rsum [- (1 / 2); 3 / 16; - (11 / 16)]).
  { refine (H small_ccd 0%nat 1 1 [half_trap] 1%nat [(1, ln 2); (0, ln 2); (1, ln 2)] _ (mkManager KInstant [half_trap] _)
      small_params ltac:(lra) ltac:(lra) _ _ overfull_history).
    - constructor; [|constructor]. apply small_physical. lra.
    - repeat constructor; lra. }
  unfold stored, level_electrons, Rsum in K. cbn in K. lra.
Qed.
Print Assumptions C23_balance_after_any_history_refuted.

(** The state reached in that history after two calls. *)
Example C23_example : let w := [(1 / 4, [1]); (3 / 4, [1 / 2])] in
  run_manager small_fill [(1, ln 2); (0, ln 2)] (manager_init KInstant [half_trap] 1)
    = Ok ([- (1 / 2); 3 / 16], mkManager KInstant [half_trap] w) /\
  Forall (fun r => fst r <> 0) w /\ small_fill 1 = Ok 1 /\
  0 < stored KInstant [half_trap] ((1, repeat 1 1) :: tl w) <= 1.
Proof.
  intros w. split; [|split; [repeat constructor; cbn; lra|split; [apply small_fill_at; lra|unfold stored, level_electrons, Rsum; cbn; lra]]].
  cbn [run_manager]. rewrite overfull_1. cbn [bind]. rewrite overfull_2. reflexivity.
Qed.
