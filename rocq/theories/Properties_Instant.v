(** * Properties C13, C14, C15, C17 and the manager part of C43: instant capture
    (arcticpy/trap_managers.py, class TrapManagerInstantCapture). *)
From Coq Require Import ZArith List Bool Reals Lra Lia.
From Coquelicot Require Import Hierarchy RInt.
From Verif Require Import Num Py RFacts CCDModel TrapsModel ManagerModel Spec InstantFacts CutFacts CaptureFacts
  InstantSpecFacts Properties_Watermarks.
Import ListNotations.
Open Scope R_scope.

(** C13. *)
Theorem C13_instant_capture_with_enough_electrons (m : manager R) traps live free fill n_free v :
  m_kind m = KInstant -> m_traps m = traps -> Forall physical traps -> (0 < length traps)%nat ->
  well_formed (length traps) (m_wm m) live (2 + free) ->
  fill n_free = Ok v -> 0 < n_free -> 0 < v <= 1 ->
  demand traps v (occupancy (m_wm m)) <= n_free ->
  exists m' live' free',
    n_electrons_captured m n_free fill = Ok (demand traps v (occupancy (m_wm m)), m') /\
    m_kind m' = KInstant /\ m_traps m' = traps /\
    well_formed (length traps) (m_wm m') live' (1 + free') /\
    (live' <= S live)%nat /\ (live' + free' = live + S free)%nat /\
    (forall s x, (s < length traps)%nat -> 0 <= x ->
       occupancy (m_wm m') s x = if Rlt_dec x v then 1 else occupancy (m_wm m) s x) /\
    n_trapped m' (m_wm m') = n_trapped m (m_wm m) + demand traps v (occupancy (m_wm m)).
Proof. exact (capture_plenty_spec m traps live free fill n_free v). Qed.
Print Assumptions C13_instant_capture_with_enough_electrons.

(** C14. *)
Theorem C14_instant_capture_limited_by_supply (m : manager R) traps live free fill n_free v :
  m_kind m = KInstant -> m_traps m = traps -> Forall physical traps -> (0 < length traps)%nat ->
  well_formed (length traps) (m_wm m) live (2 + free) ->
  fill n_free = Ok v -> 0 <= n_free -> 0 <= v <= 1 -> (0 < n_free <-> 0 < v) ->
  (forall x, v <= x < 1 -> exists s, (s < length traps)%nat /\ occupancy (m_wm m) s x < 1) ->
  exists c m' live' free', n_electrons_captured m n_free fill = Ok (c, m') /\
    c = Rmin n_free (demand traps v (occupancy (m_wm m))) /\ 0 <= c <= n_free /\
    m_kind m' = KInstant /\ m_traps m' = traps /\
    well_formed (length traps) (m_wm m') live' (1 + free') /\
    (live' <= S live)%nat /\ (live' + free' = live + S free)%nat /\
    (forall s x, (s < length traps)%nat -> v <= x -> occupancy (m_wm m') s x = occupancy (m_wm m) s x) /\
    (forall s x, (s < length traps)%nat -> 0 <= x ->
       occupancy (m_wm m') s x = after_capture traps n_free v (occupancy (m_wm m)) s x) /\
    n_trapped m' (m_wm m') = n_trapped m (m_wm m) + c.
Proof. exact (capture_spec m traps live free fill n_free v). Qed.
Print Assumptions C14_instant_capture_limited_by_supply.

(** The example state of Properties_Watermarks meets the hypotheses of C13 with 1000
    electrons, and those of C14 with half an electron (not enough). *)
Example C13_C14_example :
  Forall physical example_traps /\ (0 < length example_traps)%nat /\
  well_formed (length example_traps) example_wm 2 (2 + 0) /\
  demand example_traps (1/4) (occupancy example_wm) = 2 - 3/8 /\
  (forall x, 1/4 <= x < 1 -> exists s, (s < 2)%nat /\ occupancy example_wm s x < 1).
Proof.
  split; [repeat constructor; cbn; lra|]. split; [cbn; lia|]. split; [exact example_well_formed|].
  split.
  - pose proof (demand_eq example_traps [(1/2, [3/4; 1/2]); (1/4, [1/4; 0])] 0 (1/4)) as H.
    change ([(1/2, [3/4; 1/2]); (1/4, [1/4; 0])] ++ Zs (length example_traps) 2) with example_wm in H.
    rewrite H; [|repeat constructor; cbn; lra|lra].
    unfold prep_below. destruct (Rle_dec (1/4) (volume [(1/2, [3/4; 1/2]); (1/4, [1/4; 0])])) as [_|Hn];
      [|exfalso; apply Hn; unfold volume, Rsum; cbn; lra].
    unfold below; cbn [cut fst snd]. destruct (Rle_dec (1/4) 0); [lra|].
    destruct (Rle_dec (1/2) (1/4)); [lra|]. unfold WmFacts.trapped, WmFacts.row_trapped, WmFacts.dot, Rsum. cbn. lra.
  - intros x Hx. exists 0%nat. split; [lia|]. unfold example_wm. cbn [occupancy].
    destruct (Rlt_dec x (1/2)); [cbn; lra|]. destruct (Rlt_dec (x - 1/2) (1/4)); [cbn; lra|].
    destruct (Rlt_dec _ 0); [cbn; lra|]. destruct (Rlt_dec _ 0); cbn; lra.
Qed.

(** C15. *)
Theorem C15_release_is_exponential_decay (m : manager R) traps live free dwell :
  m_kind m = KInstant -> m_traps m = traps -> Forall physical traps ->
  well_formed (length traps) (m_wm m) live (1 + free) -> 0 <= dwell ->
  exists r m', n_electrons_released m dwell = (r, m') /\
    m_kind m' = KInstant /\ m_traps m' = traps /\
    well_formed (length traps) (m_wm m') live (1 + free) /\
    (forall s x, (s < length traps)%nat -> 0 <= x ->
       occupancy (m_wm m') s x = occupancy (m_wm m) s x * exp (- dwell / timescale traps s)) /\
    r = n_trapped m (m_wm m) - n_trapped m' (m_wm m') /\ 0 <= r <= n_trapped m (m_wm m).
Proof. exact (release_spec m traps live free dwell). Qed.
Print Assumptions C15_release_is_exponential_decay.

Example C15_example : Forall physical example_traps /\
  well_formed (length example_traps) example_wm 2 (1 + 1).
Proof. split; [apply C13_C14_example|exact example_well_formed]. Qed.

(** C17 and the manager part of C43: through any history of at most max_n_transfers calls
    the manager never fails, stays well formed, and returns exactly what the mathematical
    trap model of Spec.v returns; the traps hold exactly what was not given back. *)
Theorem C17_any_history_follows_the_trap_model traps max_n_transfers fill well ops :
  Forall physical traps -> (0 < length traps)%nat ->
  sensitive well -> (forall n, 0 <= n -> fill n = Ok (well n)) ->
  Forall (fun '(n, dwell) => 0 <= n /\ 0 < dwell) ops -> (length ops <= max_n_transfers)%nat ->
  exists m', run_manager fill ops (manager_init KInstant traps max_n_transfers)
             = Ok (history_nets traps well ops empty_profile, m') /\
    m_kind m' = KInstant /\ m_traps m' = traps /\
    describes (length traps) (m_wm m') (max_n_transfers - length ops)
      (history_profile traps well ops empty_profile) /\
    n_trapped m' (m_wm m') = - Rsum (history_nets traps well ops empty_profile).
Proof. exact (history_spec traps max_n_transfers fill well ops). Qed.
Print Assumptions C17_any_history_follows_the_trap_model.

(** A well without notch: depth n / 1000 up to the full well. *)
Example C17_example :
  let well := fun n => Rmin 1 (n / 1000) in
  sensitive well /\ Forall physical example_traps /\
  Forall (fun '(n, dwell) => 0 <= n /\ 0 < dwell) [(500, 1); (0, 1); (100, 2)] /\
  history_nets example_traps well [(500, 1)] empty_profile = [- 9].
Proof.
  cbn zeta. split.
  { split; [rewrite Rmin_right; lra|]. intros n Hn. split; [apply Rmin_glb_lt; lra|apply Rmin_l]. }
  split; [apply C13_C14_example|]. split; [repeat constructor; lra|].
  unfold history_nets, transfer_net, released, captured, demand, electrons, electrons_from, example_traps,
    after_release, empty_profile. cbn [t_density].
  rewrite !RInt_const. unfold scal; cbn; unfold mult; cbn.
  rewrite !Rmult_0_l. rewrite !(Rmin_right 1) by lra. rewrite Rmin_right by lra. f_equal. lra.
Qed.
