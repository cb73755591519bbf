(** * Properties C24, C25: collections of trap managers (trap_managers.py:22-156). *)
From Coq Require Import ZArith List Bool Reals Lra Lia.
From Verif Require Import Num Py RFacts CCDModel TrapsModel ManagerModel ROEModel ClockModel MainModel Spec SpecImage SpecReadout SpecManagers
  WmFacts ManagerSetFacts.
Import ListNotations.
Open Scope R_scope.

(** ** C24: one manager for each phase and group, with the share of the densities. *)
Theorem C24_managers_share_the_densities (traps : traps_arg R) N (c : ccd R) :
  groups_in traps <> [] -> (forall g, In g (groups_in traps) -> g <> []) -> length (ccd_fractions c) = ccd_n_phases c ->
  exists a, atm_init traps N c = Ok a /\
    length (atm_data a) = ccd_n_phases c /\
    (forall k ms, nth_error (atm_data a) k = Some ms -> Forall2 (manages N (share c k)) (groups_in traps) ms) /\
    atm_saved a = None /\ atm_in_save a = 0 /\ atm_previously a = 0.
Proof. exact (atm_init_spec traps N c). Qed.
Print Assumptions C24_managers_share_the_densities.

(** The shares of a species add up to its density if the fractions add up to 1. *)
Theorem C24_densities_add_up (c : ccd R) (t : trap R) : length (ccd_fractions c) = ccd_n_phases c -> Rsum (ccd_fractions c) = 1 ->
  Rsum (map (fun k => t_density (thinned (share c k) t)) (seq 0 (ccd_n_phases c))) = t_density t.
Proof. intros H1 H2. rewrite density_shares, H2 by exact H1. lra. Qed.
Print Assumptions C24_densities_add_up.

(** A missing or empty group is an error. *)
Theorem C24_empty_groups_fail (traps : traps_arg R) N (c : ccd R) : (0 < ccd_n_phases c)%nat -> length (ccd_fractions c) = ccd_n_phases c ->
  groups_in traps = [] \/ In [] (groups_in traps) -> atm_init traps N c = Err IndexError.
Proof. exact (atm_init_fails traps N c). Qed.
Print Assumptions C24_empty_groups_fail.

(** Slow and instant traps in a device with two phases, one of them three times as wide. *)
Definition split_ccd : ccd R := mkCCD [1/4; 3/4] 2 [1; 1] [1; 1] [0; 0] [BList [1; 1]; BList [1; 1]].
Definition mixed_traps : traps_arg R :=
  TNested [[mkTrap 8 1 (RFin 1) 1 false CTrap]; [mkTrap 4 1 RInf 1 false CInstant; mkTrap 12 2 RInf (1/2) false CInstant]].
Example C24_example :
  groups_in mixed_traps <> [] /\ (forall g, In g (groups_in mixed_traps) -> g <> []) /\ Rsum (ccd_fractions split_ccd) = 1 /\
  exists a m0 m1, atm_init mixed_traps 1 split_ccd = Ok a /\ nth_error (atm_data a) 1 = Some [m0; m1] /\
    m_kind m0 = KSlow /\ length (m_wm m0) = 3%nat /\ m_kind m1 = KInstant /\ m_wm m1 = [(0, [0; 0]); (0, [0; 0])] /\
    map (@t_density R) (m_traps m1) = [4 * (3/4); 12 * (3/4)].
Proof.
  split; [discriminate|]. split; [intros g [<-|[<-|[]]]; discriminate|]. split; [cbn; lra|].
  do 3 eexists. split; [reflexivity|]. split; [reflexivity|]. repeat split; reflexivity.
Qed.

(** ** C25: saving and restoring.

    [after a history] performs the actions on the managers, the most recent first.  [states]
    and [entered] are the specification: what restoring must bring back, and the electrons
    that the calls have put into the traps. *)
Theorem C25_restore_brings_back_the_save traps N (c : ccd R) a0 history : atm_init traps N c = Ok a0 ->
  let a := after a0 history in
  atm_data a = fst (states (atm_data a0) history) /\
  atm_previously a + trapped_currently (atm_data a) = entered trapped_currently (atm_data a0) history.
Proof.
  intros H a. destruct (history_from_init traps N c a0 history H) as (E & _ & E3). fold a in E, E3. rewrite E. split; [reflexivity|exact E3].
Qed.
Print Assumptions C25_restore_brings_back_the_save.

(** In particular, whatever happens between a save and the next restore. *)
Definition saving (x : action) : bool := match x with Save => true | _ => false end.
Lemma states_saved d0 changes history : forallb (fun x => negb (saving x)) changes = true ->
  snd (states d0 (changes ++ Save :: history)) = Some (fst (states d0 history)).
Proof.
  induction changes as [|x changes IH]; cbn [app forallb].
  - intros _. cbn [states]. destruct (states d0 history). reflexivity.
  - intros H. apply andb_prop in H as (Hx & H). specialize (IH H). cbn [states]. destruct (states d0 (changes ++ Save :: history)) as [d s].
    cbn [snd] in IH. subst s. destruct x; [discriminate|reflexivity..].
Qed.
Lemma states_unsaved d0 history : forallb (fun x => negb (saving x)) history = true -> snd (states d0 history) = None.
Proof.
  induction history as [|x history IH]; [reflexivity|]. cbn [forallb]. intros H. apply andb_prop in H as (Hx & H). specialize (IH H).
  cbn [states]. destruct (states d0 history) as [d s]. cbn [snd] in IH. subst s. destruct x; [discriminate|reflexivity..].
Qed.
Theorem C25_save_then_restore traps N (c : ccd R) a0 history changes : atm_init traps N c = Ok a0 ->
  forallb (fun x => negb (saving x)) changes = true ->
  atm_data (after a0 (Restore :: changes ++ Save :: history)) = atm_data (after a0 history).
Proof.
  intros H Hc. rewrite !(proj1 (C25_restore_brings_back_the_save traps N c a0 _ H)). cbn [states].
  pose proof (states_saved (atm_data a0) changes history Hc) as E. destruct (states (atm_data a0) (changes ++ Save :: history)) as [d s].
  cbn [snd] in E. subst s. reflexivity.
Qed.
Print Assumptions C25_save_then_restore.
(** Without a save, restoring gives empty traps. *)
Theorem C25_restore_without_save traps N (c : ccd R) a0 changes : atm_init traps N c = Ok a0 ->
  forallb (fun x => negb (saving x)) changes = true ->
  let a := after a0 (Restore :: changes) in
  atm_data a = emptied (atm_data (after a0 changes)) /\ trapped_currently (atm_data a) = 0.
Proof.
  intros H Hc a. assert (E : atm_data a = emptied (atm_data (after a0 changes))).
  { unfold a. rewrite !(proj1 (C25_restore_brings_back_the_save traps N c a0 _ H)). cbn [states].
    pose proof (states_unsaved (atm_data a0) changes Hc) as E. destruct (states (atm_data a0) changes) as [d s]. cbn [snd] in E. subst s. reflexivity. }
  split; [exact E|]. rewrite E. apply trapped_emptied.
Qed.
Print Assumptions C25_restore_without_save.

(** Half of the traps of a manager are filled, the state saved, the traps emptied, and the
    state restored. *)
Definition lone_trap : traps_arg R := TOne (mkTrap 4 1 RInf 1 false CInstant).
Definition lone_ccd : ccd R := mkCCD [1] 1 [1] [1] [0] [BList [1]].
Definition half_full : list (list (manager R)) := [[mkManager KInstant [mkTrap (4 * 1) 1 RInf 1 false CInstant] [(1/2, [1]); (0, [0])]]].
Example C25_example : exists a0, atm_init lone_trap 1 lone_ccd = Ok a0 /\
  let a := after a0 [Restore; Empty; Save; Change half_full] in
  atm_data a = half_full /\ trapped_currently half_full = 2 /\ atm_previously a + trapped_currently (atm_data a) = 0.
Proof.
  eexists. split; [reflexivity|]. cbv zeta.
  assert (E : trapped_currently half_full = 2).
  { rewrite trapped_currently_eq. unfold half_full, Rsum. cbn [map fold_right]. unfold n_trapped. cbn [m_kind m_wm m_traps].
    rewrite cy_n_trapped_eq. unfold trapped, row_trapped, Rsum. cbn. unfold dot, Rsum. cbn. lra. }
  destruct (history_from_init lone_trap 1 lone_ccd _ [Restore; Empty; Save; Change half_full] eq_refl) as (E1 & _ & E2).
  split; [reflexivity|]. split; [exact E|]. rewrite E2. cbn [entered states fst]. rewrite E, trapped_emptied.
  rewrite (trapped_currently_eq (atm_data _)). cbn [atm_data map]. unfold Rsum. cbn [fold_right]. unfold n_trapped. cbn [m_kind m_wm m_traps].
  rewrite cy_n_trapped_eq. unfold trapped, row_trapped, Rsum. cbn. unfold dot, Rsum. cbn. lra.
Qed.
