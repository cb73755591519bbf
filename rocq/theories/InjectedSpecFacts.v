(** * Charge injection past the traps of a single phase, by the specifications of the trap managers. *)
From Coq Require Import ZArith List Bool Reals Lra Lia.
From Verif Require Import Num Py RFacts CCDModel TrapsModel ManagerModel ROEModel ClockModel MainModel Spec SpecImage SpecReadout SpecTime SpecSlow SpecHistory
  WmFacts ClockFacts ShapeFacts ReadoutImage TimeFacts TimeInstantFacts SlowFacts SlowSpecFacts HistoryFacts HistorySpecFacts SpecROE SpecInjected InjectedFacts.
Import ListNotations.
Open Scope R_scope.

Lemma columns_injected_follow {A B} (pastA : A -> list R -> result (list R * A)) (pastB : B -> list R -> result (list R * B)) startA startB strict rows :
  (forall l, (length l <= rows)%nat -> Forall (fun x => 0 <= x) l -> follows strict (pastA startA l) (pastB startB l)) ->
  (forall l l' s, pastB startB l = Ok (l', s) -> length l' = length l /\ Forall (fun x => 0 <= x) l') ->
  forall N columns, Forall (fun l => (length l <= rows)%nat /\ Forall (fun x => 0 <= x) l) columns ->
  match columns_injected pastA false startA startA N columns with
  | Ok outs => columns_injected pastB false startB startB N columns = Ok outs
  | Err e => strict = true -> columns_injected pastB false startB startB N columns = Err e
  end.
Proof.
  intros H1 H2 N. induction 1 as [|l columns [Hl Hn] _ IH]; cbn [columns_injected]; [reflexivity|].
  assert (H : follows strict (before pastA startA N startA l) (before pastB startB N startB l)) by (apply (before_follows pastA pastB startA startB strict rows H1 H2); assumption).
  unfold follows in H. destruct (before pastA startA N startA l) as [[out a]|e]; cbn [bind].
  - destruct H as [b E]. rewrite E. cbn [bind]. destruct (columns_injected pastA false startA startA N columns) as [outs|e]; cbn [bind].
    + rewrite IH. reflexivity.
    + intros Hs. rewrite (IH Hs). reflexivity.
  - intros Hs. rewrite (H Hs). reflexivity.
Qed.
Lemma slow_injected im parallel serial c fraction group dwell npt well rows cols outs :
  shape rows cols im -> (0 < rows)%nat -> (forall i j, 0 <= pixel im i j) ->
  single_injection parallel rows c fraction group dwell npt false -> Forall (fun t => t_class t = CTrap) group -> Forall capturing group ->
  sensitive well -> (forall n, 0 <= n -> well_fill c 0 false n = Ok (well n)) ->
  d_traps serial = None -> d_window serial = WNone ->
  columns_injected (past_slow (map (thinned fraction) group) well dwell) false (0, empty_profile) (0, empty_profile) (injection_transfers npt rows (d_offset parallel))
    (map (column_of im) (seq 0 cols)) = Ok outs ->
  exists im', add_cti im parallel serial None = Ok (im', counted (the_roe parallel) (injection_transfers npt rows (d_offset parallel)), the_roe serial) /\ shape rows cols im' /\
    length outs = cols /\ forall j, (j < cols)%nat -> column_of im' j = nth j outs [].
Proof.
  intros Hs Hr Hp Hset Hcl Hfc Hw Hfill Hst Hsw E.
  pose proof (injection_history im parallel serial c fraction group dwell npt false rows cols Hs Hr Hset Hst Hsw) as H. cbv zeta in H.
  pose proof (si_share _ _ _ _ _ _ _ _ Hset) as Hpos. pose proof (si_dwell _ _ _ _ _ _ _ _ Hset) as Hd. pose proof (si_group _ _ _ _ _ _ _ _ Hset) as Hg.
  assert (Hn : (0 < length (map (thinned fraction) group))%nat) by (rewrite map_length; destruct group; [contradiction|cbn; lia]).
  assert (Hk : empty_manager fraction group rows = manager_init KSlow (map (thinned fraction) group) rows).
  { unfold empty_manager, manager_init, kind_for, zero_row. rewrite map_length. destruct group as [|t g]; [contradiction|].
    inversion Hcl as [|? ? Ht _]; subst. rewrite Ht. cbn [n_watermarks_per_transfer]. rnum. do 2 f_equal. lia. }
  destruct (init_describes (map (thinned fraction) group) rows KSlow) as [D V]. cbn [n_watermarks_per_transfer] in D.
  set (traps := map (thinned fraction) group) in *. set (m := manager_init KSlow traps rows) in *.
  pose proof (columns_injected_follow (past_slow traps well dwell) (past_manager (fun n => well_fill c 0 false n) dwell) (0, empty_profile) m false rows) as K.
  assert (K1 : columns_injected (past_manager (fun n => well_fill c 0 false n) dwell) false m m (injection_transfers npt rows (d_offset parallel)) (map (column_of im) (seq 0 cols)) = Ok outs).
  { set (columns := map (column_of im) (seq 0 cols)) in *.
    assert (K2 := fun H1 H2 => K H1 H2 (injection_transfers npt rows (d_offset parallel)) columns (columns_fit im rows cols Hs Hp)). rewrite E in K2. apply K2.
    - intros l Hl Hnn. rewrite <- V. change m with (mkManager KSlow traps (m_wm m)). cbn [m_wm].
      apply (slow_follows traps _ well dwell (thinned_capturing _ _ Hpos Hfc) Hn Hw Hfill Hd l (2 * (rows - length l)) (m_wm m) empty_profile Hnn).
      replace (2 * length l + 2 * (rows - length l))%nat with (rows * 2)%nat by lia. exact D.
    - intros l l' s El. split; [eapply past_length; exact El|eapply past_nonneg; exact El]. }
  rewrite Hk in H. fold m in H. rewrite K1 in H. exact H.
Qed.
Lemma times_injected im parallel serial c fraction group dwell npt well rows cols :
  shape rows cols im -> (0 < rows)%nat -> (forall i j, 0 <= pixel im i j) ->
  single_injection parallel rows c fraction group dwell npt false -> kind_for group = KTime -> Forall fading group ->
  sensitive well -> (forall n, 0 <= n -> well_fill c 0 false n = Ok (well n)) ->
  d_traps serial = None -> d_window serial = WNone ->
  match columns_injected (past_times (map (thinned fraction) group) well dwell) false never never (injection_transfers npt rows (d_offset parallel))
    (map (column_of im) (seq 0 cols)) with
  | Ok outs => exists im', add_cti im parallel serial None = Ok (im', counted (the_roe parallel) (injection_transfers npt rows (d_offset parallel)), the_roe serial) /\ shape rows cols im' /\
                 length outs = cols /\ forall j, (j < cols)%nat -> column_of im' j = nth j outs []
  | Err e => add_cti im parallel serial None = Err e
  end.
Proof.
  intros Hs Hr Hp Hset Hcl Hfc Hw Hfill Hst Hsw.
  pose proof (injection_history im parallel serial c fraction group dwell npt false rows cols Hs Hr Hset Hst Hsw) as H. cbv zeta in H.
  pose proof (si_share _ _ _ _ _ _ _ _ Hset) as Hpos. pose proof (si_dwell _ _ _ _ _ _ _ _ Hset) as Hd. pose proof (si_group _ _ _ _ _ _ _ _ Hset) as Hg.
  assert (Hn : (0 < length (map (thinned fraction) group))%nat) by (rewrite map_length; destruct group; [contradiction|cbn; lia]).
  assert (Hk : empty_manager fraction group rows = manager_init KTime (map (thinned fraction) group) rows).
  { unfold empty_manager, manager_init, zero_row. rewrite map_length, Hcl. cbn [n_watermarks_per_transfer]. rnum. do 2 f_equal. lia. }
  set (traps := map (thinned fraction) group) in *. set (m := manager_init KTime traps rows) in *.
  assert (D : records (length traps) (m_wm m) rows never) by (apply init_records; reflexivity).
  pose proof (columns_injected_follow (past_times traps well dwell) (past_manager (fun n => well_fill c 0 false n) dwell) never m true rows) as K.
  rewrite Hk in H. fold m in H.
  assert (K1 : match columns_injected (past_times traps well dwell) false never never (injection_transfers npt rows (d_offset parallel)) (map (column_of im) (seq 0 cols)) with
               | Ok outs => columns_injected (past_manager (fun n => well_fill c 0 false n) dwell) false m m (injection_transfers npt rows (d_offset parallel)) (map (column_of im) (seq 0 cols)) = Ok outs
               | Err e => true = true -> columns_injected (past_manager (fun n => well_fill c 0 false n) dwell) false m m (injection_transfers npt rows (d_offset parallel)) (map (column_of im) (seq 0 cols)) = Err e end).
  { refine (K _ _ (injection_transfers npt rows (d_offset parallel)) _ (columns_fit im rows cols Hs Hp)).
    - intros l Hl Hnn. change m with (mkManager KTime traps (m_wm m)).
      apply (times_follow traps _ well dwell (thinned_fading _ _ Hpos Hfc) Hn Hw Hfill Hd l (rows - length l) (m_wm m) never Hnn).
      replace (length l + (rows - length l))%nat with rows by lia. exact D.
    - intros l l' s El. split; [eapply past_length; exact El|eapply past_nonneg; exact El]. }
  destruct (columns_injected (past_times traps well dwell) false never never (injection_transfers npt rows (d_offset parallel)) (map (column_of im) (seq 0 cols))) as [outs|e].
  - rewrite K1 in H. exact H.
  - rewrite (K1 eq_refl) in H. exact H.
Qed.
