(** * Readouts past traps that follow a specification of their response. *)
From Coq Require Import ZArith List Bool Reals Lra Lia.
From Verif Require Import Num Py RFacts CCDModel TrapsModel ManagerModel ROEModel ClockModel MainModel Spec SpecImage SpecReadout SpecTime SpecSlow SpecHistory
  WmFacts ClockFacts ShapeFacts ReadoutImage TimeFacts TimeInstantFacts SlowFacts SlowSpecFacts HistoryFacts.
Import ListNotations.
Open Scope R_scope.

(** A result that is followed where it is defined, and in its errors if [strict]. *)
Definition follows {L A B} (strict : bool) (a : result (L * A)) (b : result (L * B)) : Prop :=
  match a with
  | Ok (l, _) => exists s, b = Ok (l, s)
  | Err e => strict = true -> b = Err e
  end.
Section Follow.
Context {A B : Type} (pastA : A -> list R -> result (list R * A)) (pastB : B -> list R -> result (list R * B)).
Context (startA : A) (startB : B) (strict : bool) (rows : nat).
Hypothesis Hsame : forall l, (length l <= rows)%nat -> Forall (fun x => 0 <= x) l -> follows strict (pastA startA l) (pastB startB l).
Hypothesis Hkeep : forall l l' s, pastB startB l = Ok (l', s) -> length l' = length l /\ Forall (fun x => 0 <= x) l'.

Lemma reading_follows : forall n a b l, (length l <= rows)%nat -> Forall (fun x => 0 <= x) l ->
  follows strict (reading pastA startA n a l) (reading pastB startB n b l).
Proof.
  induction n as [|n IH]; intros a b l Hl Hn; cbn [reading]; [exists b; reflexivity|].
  pose proof (Hsame l Hl Hn) as H. unfold follows in H. destruct (pastA startA l) as [[l' a']|e]; cbn [bind].
  - destruct H as [b' E]. rewrite E. cbn [bind]. apply Hkeep in E as [El En].
    destruct l' as [|x rest]; [exists b'; reflexivity|]. inversion En; subst. cbn [length] in El.
    pose proof (IH a' b' rest ltac:(lia) H2) as K. unfold follows in K. destruct (reading pastA startA n a' rest) as [[l2 a2]|e]; cbn [bind].
    + destruct K as [b2 K]. rewrite K. exists b2. reflexivity.
    + intros Hs. rewrite (K Hs). reflexivity.
  - intros Hs. rewrite (H Hs). reflexivity.
Qed.
Lemma before_follows : forall n a b l, (length l <= rows)%nat -> Forall (fun x => 0 <= x) l ->
  follows strict (before pastA startA n a l) (before pastB startB n b l) /\
  (forall l' s, before pastB startB n b l = Ok (l', s) -> length l' = length l /\ Forall (fun x => 0 <= x) l').
Proof.
  induction n as [|n IH]; intros a b l Hl Hn; cbn [before].
  - split; [exists b; reflexivity|]. intros l' s E. injection E as <- <-. auto.
  - pose proof (Hsame l Hl Hn) as H. unfold follows in H. split.
    + destruct (pastA startA l) as [[l' a']|e]; cbn [bind].
      * destruct H as [b' E]. rewrite E. cbn [bind]. apply Hkeep in E as [El En]. apply IH; [lia|exact En].
      * intros Hs. rewrite (H Hs). reflexivity.
    + intros l' s E. apply bind_ok in E as ([l1 s1] & E1 & E2). apply Hkeep in E1 as [El En].
      destruct (IH a s1 l1 ltac:(lia) En) as [_ K]. apply K in E2 as [E2 E3]. split; [lia|exact E3].
Qed.
Lemma column_follows offset l : (length l <= rows)%nat -> Forall (fun x => 0 <= x) l ->
  follows strict (column_past pastA startA offset l) (column_past pastB startB offset l).
Proof.
  intros Hl Hn. unfold column_past. destruct (before_follows offset startA startB l Hl Hn) as [H K]. unfold follows in H.
  destruct (before pastA startA offset startA l) as [[l' a']|e]; cbn [bind].
  - destruct H as [b' E]. rewrite E. cbn [bind]. apply K in E as [E1 E2]. apply reading_follows; [lia|exact E2].
  - intros Hs. rewrite (H Hs). reflexivity.
Qed.
Lemma columns_follow offset : forall columns, Forall (fun l => (length l <= rows)%nat /\ Forall (fun x => 0 <= x) l) columns ->
  match columns_past pastA false startA startA offset columns with
  | Ok outs => columns_past pastB false startB startB offset columns = Ok outs
  | Err e => strict = true -> columns_past pastB false startB startB offset columns = Err e
  end.
Proof.
  induction 1 as [|l columns [Hl Hn] _ IH]; cbn [columns_past]; [reflexivity|].
  pose proof (column_follows offset l Hl Hn) as H. unfold follows in H. destruct (column_past pastA startA offset l) as [[out a]|e]; cbn [bind].
  - destruct H as [b E]. rewrite E. cbn [bind]. destruct (columns_past pastA false startA startA offset columns) as [outs|e]; cbn [bind].
    + rewrite IH. reflexivity.
    + intros Hs. rewrite (IH Hs). reflexivity.
  - intros Hs. rewrite (H Hs). reflexivity.
Qed.
End Follow.

(** ** Slow traps *)
Lemma told_finite traps well dwell n P : Forall finite_capture traps -> told traps well dwell n P = true.
Proof.
  intros H. unfold told. replace (forallb takes_time traps) with true; [reflexivity|]. symmetry. apply forallb_forall. intros t Ht.
  destruct (proj1 (Forall_forall _ _) H t Ht) as (_ & c & E & _). unfold takes_time. now rewrite E.
Qed.
Lemma told_enough traps well dwell n P : gain traps well dwell n P <= cloud_then traps well dwell n P -> told traps well dwell n P = true.
Proof. intros H. unfold told. destruct (Rle_dec _ _); [apply orb_true_r|contradiction]. Qed.
Lemma slow_told traps w spare P fill well n_free dwell :
  let n := length traps in
  (0 < n)%nat -> Forall capturing traps -> describes n w (2 + spare) P ->
  sensitive well -> (forall a, 0 <= a -> fill a = Ok (well a)) -> 0 <= n_free -> 0 < dwell ->
  stays_inside traps well dwell n_free (volume w) P -> told traps well dwell n_free P = true ->
  exists w', manager_step (mkManager KSlow traps w) n_free fill dwell
             = Ok (- slow_taken traps well dwell n_free P, mkManager KSlow traps w') /\
    volume w' = Rmax (volume w) (well n_free) /\ describes n w' spare (slow_after traps well dwell n_free P).
Proof.
  intros n Hn Hc HP Hs Hfill Hnf Hd Hin Ht. unfold told in Ht. apply orb_true_iff in Ht as [Ht|Ht].
  - apply slow_any; auto. rewrite forallb_forall in Ht. apply Forall_forall. intros t Hi. specialize (Ht t Hi). unfold takes_time in Ht.
    destruct (proj1 (Forall_forall _ _) Hc t Hi) as [Hp H]. split; [exact Hp|]. destruct (t_capture_rate t) as [|c]; [discriminate|]. exists c. auto.
  - destruct (Rle_dec _ _) as [Hle|]; [|discriminate]. apply slow_enough; auto.
Qed.
Lemma slow_follows traps fill well dwell : Forall capturing traps -> (0 < length traps)%nat ->
  sensitive well -> (forall n, 0 <= n -> fill n = Ok (well n)) -> 0 < dwell ->
  forall l spare w P, Forall (fun x => 0 <= x) l -> describes (length traps) w (2 * length l + spare) P ->
  follows false (past_slow traps well dwell (volume w, P) l) (past_manager fill dwell (mkManager KSlow traps w) l).
Proof.
  intros Hc Hn Hs Hf Hd. induction l as [|n l IH]; intros spare w P Hl HP; cbn [past_slow past_manager].
  - eexists; reflexivity.
  - inversion Hl as [|? ? Hfree Hl']; subst.
    replace (2 * length (n :: l) + spare)%nat with (2 + (2 * length l + spare))%nat in HP by (cbn [length]; lia).
    assert (Step : forall top, stays_inside traps well dwell n (volume w) P -> top = Rmax (volume w) (well n) -> told traps well dwell n P = true ->
      follows false (do '(l', s') <- past_slow traps well dwell (top, slow_after traps well dwell n P) l; Ok (Rmax 0 (n - slow_taken traps well dwell n P) :: l', s'))
        (do '(net, m1) <- manager_step (mkManager KSlow traps w) n fill dwell; do '(l', m2) <- past_manager fill dwell m1 l; Ok (Rmax 0 (n + net) :: l', m2))).
    { intros top Hin Etop Ht. destruct (slow_told traps w _ P fill well n dwell Hn Hc HP Hs Hf Hfree Hd Hin Ht) as (w1 & E & V & D).
      rewrite E. cbn [bind]. rewrite Etop, <- V. pose proof (IH spare w1 _ Hl' D) as K. unfold follows in K.
      destruct (past_slow traps well dwell (volume w1, _) l) as [[l' s']|e]; cbn [bind]; [|intros Hx; discriminate].
      destruct K as [m2 K]. rewrite K. exists m2. reflexivity. }
    destruct (told traps well dwell n P) eqn:Htold; cbn [negb]; [|intros Hx; discriminate].
    destruct (Rlt_dec (volume w) (well n)) as [Hlt|Hge].
    + apply Step; [left; exact Hlt|rewrite Rmax_right; lra|reflexivity].
    + destruct (Rle_dec _ (volume w)) as [Hle|]; [|intros Hx; discriminate]. apply Step; [right; exact Hle|rewrite Rmax_left; lra|reflexivity].
Qed.

(** ** Traps that record times *)
Lemma times_follow traps fill well dwell : Forall fading traps -> (0 < length traps)%nat ->
  sensitive well -> (forall n, 0 <= n -> fill n = Ok (well n)) -> 0 < dwell ->
  forall l spare w T, Forall (fun x => 0 <= x) l -> records (length traps) w (length l + spare) T ->
  follows true (past_times traps well dwell T l) (past_manager fill dwell (mkManager KTime traps w) l).
Proof.
  intros Hc Hn Hs Hf Hd. induction l as [|n l IH]; intros spare w T Hl HT; cbn [past_times past_manager].
  - eexists; reflexivity.
  - inversion Hl as [|? ? Hfree Hl']; subst. cbn [length Nat.add] in HT.
    assert (Hw : forall a, 0 <= a -> 0 <= well a <= 1).
    { intros a Ha. destruct Hs as [H0 H1]. destruct (Rle_lt_or_eq_dec 0 a Ha) as [Hp|<-]; [pose proof (H1 a Hp); lra|rewrite H0; lra]. }
    destruct (time_step traps w _ T fill well n dwell Hn Hc HT (proj1 Hs) Hw Hf Hfree ltac:(lra)) as (S1 & S2 & S3).
    destruct (Rle_dec _ _) as [Hle|Hgt].
    + destruct (S1 Hle) as (w' & E & R'). rewrite E. cbn [bind]. pose proof (IH spare w' _ Hl' R') as K. unfold follows in K.
      destruct (past_times traps well dwell (times_after traps well dwell n T) l) as [[l' T']|e]; cbn [bind].
      * destruct K as [m2 K]. rewrite K. exists m2. cbn [bind]. f_equal. f_equal. f_equal.
        rewrite Rmax_right; unfold cloud_after, wanted in *; lra.
      * intros Hx. rewrite (K Hx). reflexivity.
    + intros _. rewrite S2 by lra. reflexivity.
Qed.

(** ** Images *)
Lemma columns_fit im rows cols : shape rows cols im -> (forall i j, 0 <= pixel im i j) ->
  Forall (fun l => (length l <= rows)%nat /\ Forall (fun x => 0 <= x) l) (map (column_of im) (seq 0 cols)).
Proof.
  intros [Hl _] Hp. apply Forall_forall. intros l Hin. apply in_map_iff in Hin as (j & <- & _). split.
  - unfold column_of. rewrite map_length. lia.
  - apply Forall_forall. intros x Hx. unfold column_of in Hx. apply in_map_iff in Hx as (row & <- & Hrow).
    apply (In_nth _ _ []) in Hrow as (i & _ & <-). exact (Hp i j).
Qed.
Lemma thinned_finite f group : 0 < f -> Forall finite_capture group -> Forall finite_capture (map (thinned f) group).
Proof.
  intros Hf H. apply Forall_map. eapply Forall_impl; [|exact H]. intros t (Hp & c & Ec & Hc). split; [apply thinned_physical; [lra|exact Hp]|].
  exists c. auto.
Qed.
Lemma thinned_capturing f group : 0 < f -> Forall capturing group -> Forall capturing (map (thinned f) group).
Proof.
  intros Hf H. apply Forall_map. eapply Forall_impl; [|exact H]. intros t (Hp & Hc). split; [apply thinned_physical; [lra|exact Hp]|exact Hc].
Qed.
Lemma thinned_fading f group : 0 < f -> Forall fading group -> Forall fading (map (thinned f) group).
Proof.
  intros Hf H. apply Forall_map. eapply Forall_impl; [|exact H]. intros t [H1 H2 H3].
  constructor; [cbn; nra|exact H2|exact H3].
Qed.
Lemma slow_image im parallel serial c fraction group dwell well rows cols outs :
  shape rows cols im -> (0 < rows)%nat -> (forall i j, 0 <= pixel im i j) ->
  single_phase parallel rows c fraction group dwell false -> Forall (fun t => t_class t = CTrap) group -> Forall capturing group ->
  sensitive well -> (forall n, 0 <= n -> well_fill c 0 false n = Ok (well n)) ->
  d_traps serial = None -> d_window serial = WNone ->
  columns_past (past_slow (map (thinned fraction) group) well dwell) false (0, empty_profile) (0, empty_profile) (d_offset parallel)
    (map (column_of im) (seq 0 cols)) = Ok outs ->
  exists im', add_cti im parallel serial None = Ok (im', the_roe parallel, the_roe serial) /\ shape rows cols im' /\
    length outs = cols /\ forall j, (j < cols)%nat -> column_of im' j = nth j outs [].
Proof.
  intros Hs Hr Hp Hset Hcl Hfc Hw Hfill Hst Hsw E.
  pose proof (history_readout im parallel serial c fraction group dwell false rows cols Hs Hr Hset Hst Hsw) as H. cbv zeta in H.
  pose proof (sp_share _ _ _ _ _ _ _ Hset) as Hpos. pose proof (sp_dwell _ _ _ _ _ _ _ Hset) as Hd. pose proof (sp_group _ _ _ _ _ _ _ Hset) as Hg.
  assert (Hn : (0 < length (map (thinned fraction) group))%nat) by (rewrite map_length; destruct group; [contradiction|cbn; lia]).
  assert (Hk : empty_manager fraction group rows = manager_init KSlow (map (thinned fraction) group) rows).
  { unfold empty_manager, manager_init, kind_for, zero_row. rewrite map_length. destruct group as [|t g]; [contradiction|].
    inversion Hcl as [|? ? Ht _]; subst. rewrite Ht. cbn [n_watermarks_per_transfer]. rnum. do 2 f_equal. lia. }
  destruct (init_describes (map (thinned fraction) group) rows KSlow) as [D V]. cbn [n_watermarks_per_transfer] in D.
  set (traps := map (thinned fraction) group) in *. set (m := manager_init KSlow traps rows) in *.
  pose proof (columns_follow (past_slow traps well dwell) (past_manager (fun n => well_fill c 0 false n) dwell) (0, empty_profile) m false rows) as K.
  assert (K1 : columns_past (past_manager (fun n => well_fill c 0 false n) dwell) false m m (d_offset parallel) (map (column_of im) (seq 0 cols)) = Ok outs).
  { set (columns := map (column_of im) (seq 0 cols)) in *.
    assert (K2 := fun H1 H2 => K H1 H2 (d_offset parallel) columns (columns_fit im rows cols Hs Hp)). rewrite E in K2. apply K2.
    - intros l Hl Hnn. rewrite <- V. change m with (mkManager KSlow traps (m_wm m)). cbn [m_wm].
      apply (slow_follows traps _ well dwell (thinned_capturing _ _ Hpos Hfc) Hn Hw Hfill Hd l (2 * (rows - length l)) (m_wm m) empty_profile Hnn).
      replace (2 * length l + 2 * (rows - length l))%nat with (rows * 2)%nat by lia. exact D.
    - intros l l' s El. split; [eapply past_length; exact El|eapply past_nonneg; exact El]. }
  rewrite Hk in H. fold m in H. rewrite K1 in H. exact H.
Qed.
Lemma times_image im parallel serial c fraction group dwell well rows cols :
  shape rows cols im -> (0 < rows)%nat -> (forall i j, 0 <= pixel im i j) ->
  single_phase parallel rows c fraction group dwell false -> kind_for group = KTime -> Forall fading group ->
  sensitive well -> (forall n, 0 <= n -> well_fill c 0 false n = Ok (well n)) ->
  d_traps serial = None -> d_window serial = WNone ->
  match columns_past (past_times (map (thinned fraction) group) well dwell) false never never (d_offset parallel)
    (map (column_of im) (seq 0 cols)) with
  | Ok outs => exists im', add_cti im parallel serial None = Ok (im', the_roe parallel, the_roe serial) /\ shape rows cols im' /\
                 length outs = cols /\ forall j, (j < cols)%nat -> column_of im' j = nth j outs []
  | Err e => add_cti im parallel serial None = Err e
  end.
Proof.
  intros Hs Hr Hp Hset Hcl Hfc Hw Hfill Hst Hsw.
  pose proof (history_readout im parallel serial c fraction group dwell false rows cols Hs Hr Hset Hst Hsw) as H. cbv zeta in H.
  pose proof (sp_share _ _ _ _ _ _ _ Hset) as Hpos. pose proof (sp_dwell _ _ _ _ _ _ _ Hset) as Hd. pose proof (sp_group _ _ _ _ _ _ _ Hset) as Hg.
  assert (Hn : (0 < length (map (thinned fraction) group))%nat) by (rewrite map_length; destruct group; [contradiction|cbn; lia]).
  assert (Hk : empty_manager fraction group rows = manager_init KTime (map (thinned fraction) group) rows).
  { unfold empty_manager, manager_init, zero_row. rewrite map_length, Hcl. cbn [n_watermarks_per_transfer]. rnum. do 2 f_equal. lia. }
  set (traps := map (thinned fraction) group) in *. set (m := manager_init KTime traps rows) in *.
  assert (D : records (length traps) (m_wm m) rows never) by (apply init_records; reflexivity).
  pose proof (columns_follow (past_times traps well dwell) (past_manager (fun n => well_fill c 0 false n) dwell) never m true rows) as K.
  rewrite Hk in H. fold m in H.
  assert (K1 : match columns_past (past_times traps well dwell) false never never (d_offset parallel) (map (column_of im) (seq 0 cols)) with
               | Ok outs => columns_past (past_manager (fun n => well_fill c 0 false n) dwell) false m m (d_offset parallel) (map (column_of im) (seq 0 cols)) = Ok outs
               | Err e => true = true -> columns_past (past_manager (fun n => well_fill c 0 false n) dwell) false m m (d_offset parallel) (map (column_of im) (seq 0 cols)) = Err e end).
  { refine (K _ _ (d_offset parallel) _ (columns_fit im rows cols Hs Hp)).
    - intros l Hl Hnn. change m with (mkManager KTime traps (m_wm m)).
      apply (times_follow traps _ well dwell (thinned_fading _ _ Hpos Hfc) Hn Hw Hfill Hd l (rows - length l) (m_wm m) never Hnn).
      replace (length l + (rows - length l))%nat with rows by lia. exact D.
    - intros l l' s El. split; [eapply past_length; exact El|eapply past_nonneg; exact El]. }
  destruct (columns_past (past_times traps well dwell) false never never (d_offset parallel) (map (column_of im) (seq 0 cols))) as [outs|e].
  - rewrite K1 in H. exact H.
  - rewrite (K1 eq_refl) in H. exact H.
Qed.
