(** * Properties C16 and C22: the balance of every call, and the manager that records times
    (arcticpy/trap_managers.py, classes TrapManager, TrapManagerInstantCapture and
    TrapManagerTrackTime). *)
From Coq Require Import ZArith List Bool Reals Lra Lia.
From Coquelicot Require Import Hierarchy RInt.
From Verif Require Import Num Py RFacts CCDModel TrapsModel ManagerModel Spec SpecBalance SpecTime StoredFacts InstantFacts CaptureFacts
  TimeFacts TimeInstantFacts Properties_Watermarks Properties_Instant.
Import ListNotations.
Open Scope R_scope.

(** C16, for the managers that store fill fractions: the electrons added to the cloud are
    those that left the traps, in whatever branch the call ends. *)
Theorem C16_every_call_balances (m : manager R) n_free fill dwell net m' :
  m_kind m <> KTime -> one_value_each (length (m_traps m)) (m_wm m) -> has_free_level (m_wm m) ->
  manager_step m n_free fill dwell = Ok (net, m') ->
  m_kind m' = m_kind m /\ m_traps m' = m_traps m /\ one_value_each (length (m_traps m)) (m_wm m') /\
  net = stored (m_kind m) (m_traps m) (m_wm m) - stored (m_kind m) (m_traps m) (m_wm m').
Proof. exact (fractions_balance m n_free fill dwell net m'). Qed.
Print Assumptions C16_every_call_balances.

(** The number of electrons the package itself counts is the number stored. *)
Theorem C16_package_count_is_stored_electrons (m : manager R) w :
  m_kind m <> KTime -> n_trapped m w = stored (m_kind m) (m_traps m) w.
Proof.
  intros Hk. rewrite stored_fractions by auto. unfold n_trapped.
  destruct (m_kind m); try contradiction; apply WmFacts.cy_n_trapped_eq.
Qed.
Print Assumptions C16_package_count_is_stored_electrons.

(** C16, for the manager that stores times. *)
Theorem C16_every_call_balances_tracking_time traps used free n_free fill dwell net m' :
  let n := length traps in
  let w := used ++ repeat (0, repeat 0 n) (2 + free) in
  (0 < n)%nat -> Forall (fun r => 0 < fst r) used -> one_value_each n used ->
  (forall a v, fill a = Ok v -> 0 <= v /\ (a <= 0 -> v = 0)) ->
  manager_step (mkManager KTime traps w) n_free fill dwell = Ok (net, m') ->
  m_kind m' = KTime /\ m_traps m' = traps /\ one_value_each n (m_wm m') /\
  net = stored KTime traps w - stored KTime traps (m_wm m').
Proof. exact (times_balance traps used free n_free fill dwell net m'). Qed.
Print Assumptions C16_every_call_balances_tracking_time.

(** The example state of Properties_Watermarks, which stores 6.375 electrons. *)
Example C16_example :
  one_value_each (length example_traps) example_wm /\ has_free_level example_wm /\
  stored KSlow example_traps example_wm = 3.75 + 2 + 0.625.
Proof.
  split; [repeat constructor|]. split.
  - exists [(1/2, [3/4; 1/2]); (1/4, [1/4; 0])], [(0, [0; 0]); (0, [0; 0])].
    split; [reflexivity|]. split; [repeat constructor; cbn; lra|]. split; [discriminate|]. repeat constructor.
  - unfold stored, level_electrons, Rsum, example_wm, example_traps. cbn. lra.
Qed.
(** The call returns on it, for the instant-capture manager and a cloud at depth n / 1000. *)
Example C16_example_returns : exists net m',
  manager_step (mkManager KInstant example_traps example_wm) 500 (fun n => Ok (Rmin 1 (n / 1000))) 1 = Ok (net, m').
Proof.
  destruct (instant_step_ok example_traps (mkManager KInstant example_traps example_wm) (occupancy example_wm) 0
     (fun n => Ok (Rmin 1 (n / 1000))) (fun n => Rmin 1 (n / 1000)) 500 1) as (m' & E & _).
  - apply C13_C14_example.
  - cbn; lia.
  - apply represents_describes. split; [reflexivity|]. split; [reflexivity|]. exists 2%nat, 2%nat.
    split; [exact example_well_formed|]. split; [lia|]. intros s x _ _. reflexivity.
  - apply C17_example.
  - reflexivity.
  - lra.
  - lra.
  - eexists _, m'. exact E.
Qed.

(** C22, one call: started from corresponding states, the instant-capture manager never
    fails; the manager that records times returns the same number of electrons and a
    corresponding state if there are enough electrons, and raises TypeError otherwise. *)
Theorem C22_one_call_recording_times traps wt wi spare T P fill well n_free dwell :
  let n := length traps in
  (0 < n)%nat -> Forall physical traps -> Forall exponential traps ->
  records n wt (S spare) T -> describes n wi (S spare) P -> same_profile n (filled_by traps T) P ->
  sensitive well -> (forall a, 0 <= a -> fill a = Ok (well a)) -> 0 <= n_free -> 0 < dwell ->
  let net := transfer_net traps well dwell n_free P in
  let P' := transfer_after traps well dwell n_free P in
  exists wi', manager_step (mkManager KInstant traps wi) n_free fill dwell = Ok (net, mkManager KInstant traps wi') /\
    describes n wi' spare P' /\
    (enough traps well dwell n_free P -> exists wt' T',
       manager_step (mkManager KTime traps wt) n_free fill dwell = Ok (net, mkManager KTime traps wt') /\
       records n wt' spare T' /\ same_profile n (filled_by traps T') P') /\
    (~ enough traps well dwell n_free P ->
       manager_step (mkManager KTime traps wt) n_free fill dwell = Err TypeError).
Proof. exact (time_instant traps wt wi spare T P fill well n_free dwell). Qed.
Print Assumptions C22_one_call_recording_times.

(** C22, histories from empty traps: the two managers agree call by call while charge is
    plentiful, and the first call that finds too little charge raises TypeError. *)
Theorem C22_histories_recording_times traps max_n_transfers fill well ops :
  Forall physical traps -> Forall exponential traps -> (0 < length traps)%nat ->
  sensitive well -> (forall n, 0 <= n -> fill n = Ok (well n)) ->
  Forall (fun '(n, dwell) => 0 <= n /\ 0 < dwell) ops -> (length ops <= max_n_transfers)%nat ->
  (plentiful traps well ops empty_profile -> exists mt mi,
     run_manager fill ops (manager_init KTime traps max_n_transfers)
       = Ok (history_nets traps well ops empty_profile, mt) /\
     run_manager fill ops (manager_init KInstant traps max_n_transfers)
       = Ok (history_nets traps well ops empty_profile, mi) /\
     exists T, records (length traps) (m_wm mt) (max_n_transfers - length ops) T /\
       same_profile (length traps) (filled_by traps T) (occupancy (m_wm mi))) /\
  (~ plentiful traps well ops empty_profile ->
     run_manager fill ops (manager_init KTime traps max_n_transfers) = Err TypeError).
Proof. exact (history_time traps max_n_transfers fill well ops). Qed.
Print Assumptions C22_histories_recording_times.

(** C22 for any filling curve that starts non-negative and falls (including the continuum of
    timescales, whose curve is not exponential): one call follows the recorded times. *)
Theorem C22_any_falling_curve traps w spare T fill well n_free dwell :
  let n := length traps in
  let m := mkManager KTime traps w in
  let T' := times_after traps well dwell n_free T in
  (0 < n)%nat -> Forall fading traps -> records n w (S spare) T ->
  well 0 = 0 -> (forall a, 0 <= a -> 0 <= well a <= 1) -> (forall a, 0 <= a -> fill a = Ok (well a)) ->
  0 <= n_free -> 0 <= dwell ->
  (wanted traps well dwell n_free T <= cloud_after traps dwell n_free T ->
     exists w', manager_step m n_free fill dwell = Ok (held traps T - held traps T', mkManager KTime traps w') /\
       records n w' spare T') /\
  (cloud_after traps dwell n_free T < wanted traps well dwell n_free T ->
     manager_step m n_free fill dwell = Err TypeError) /\
  0 <= cloud_after traps dwell n_free T.
Proof. exact (time_step traps w spare T fill well n_free dwell). Qed.
Print Assumptions C22_any_falling_curve.

(** Empty traps correspond; 500 electrons at depth 1/2 are enough for the 18 traps per pixel,
    one electron spread over the whole pixel is not. *)
Example C22_example :
  Forall physical example_traps /\ Forall exponential example_traps /\
  records (length example_traps) (m_wm (manager_init KTime example_traps 3)) 3 never /\
  same_profile (length example_traps) (filled_by example_traps never) empty_profile /\
  (let well := fun n => Rmin 1 (n / 1000) in plentiful example_traps well [(500, 1)] empty_profile) /\
  (let well := fun n => Rmin 1 n in sensitive well /\ ~ plentiful example_traps well [(1, 1)] empty_profile).
Proof.
  split; [apply C13_C14_example|]. split; [repeat constructor|]. split; [now apply init_records|].
  split; [intros s x _ _; reflexivity|].
  assert (R0 : released example_traps 1 empty_profile = 0).
  { unfold released, electrons, electrons_from, example_traps, after_release, empty_profile. cbn [t_density].
    rewrite !RInt_const. unfold scal; cbn; unfold mult; cbn. ring. }
  assert (D : forall v, demand example_traps v (after_release example_traps 1 empty_profile) = 18 * v).
  { intros v. unfold demand, electrons, electrons_from, example_traps, after_release, empty_profile. cbn [t_density].
    rewrite !RInt_const. unfold scal; cbn; unfold mult; cbn. ring. }
  split.
  - cbn zeta. cbn [plentiful]. split; [|exact I]. unfold enough. rewrite R0, D. rewrite Rmin_right; lra.
  - cbn zeta. split.
    + split; [rewrite Rmin_right; lra|]. intros n Hn. split; [apply Rmin_glb_lt; lra|apply Rmin_l].
    + cbn [plentiful]. intros [H _]. unfold enough in H. rewrite R0, D in H. rewrite Rplus_0_r, Rmin_right in H; lra.
Qed.
