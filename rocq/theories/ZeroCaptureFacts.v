(** * Capture in no time, by [TrapManager] and by [TrapManagerInstantCapture]. *)
From Coq Require Import ZArith List Bool Reals Lra Lia.
From Verif Require Import Num Py RFacts CCDModel TrapsModel ManagerModel ROEModel ClockModel MainModel Spec SpecImage SpecReadout SpecBalance SpecHistory SpecZeroCapture
  TrapsFacts CCDFacts WmFacts ArrayFacts CutFacts InstantFacts ClockFacts MainFacts ColumnFacts ReadoutImage ReadoutFull MainReadoutFacts HistoryFacts RecoverImageFacts NotchFacts TrailFacts TameFacts.
Import ListNotations.
Open Scope R_scope.

Section First.
Context (traps : list (trap R)) (dwell : R) (fill : filling R) (k ki : nat).
Hypothesis Hz : Forall zero_capture traps.
Hypothesis Hne : (0 < length traps)%nat.
Hypothesis Hd : 0 < dwell.
Hypothesis Hfill : forall n, n <= 0 -> fill n = Ok 0.
Let itraps := map instant_version traps.
Let n := length traps.
Let w := Zs n (S k).
Let wi := Zs n (S ki).
Let ms := mkManager KSlow traps w.
Let mi := mkManager KInstant itraps wi.

Lemma zero_probs : exists rel, fill_probabilities traps dwell = Ok (map (fun r => (1, 1, r)) rel) /\ length rel = n.
Proof.
  unfold fill_probabilities, n. clear - Hz Hd. induction traps as [|t ts IHt]; [exists []; auto|]. inversion Hz as [|? ? (H1 & H2 & H3) Hts]; subst. destruct (IHt Hts) as (rel & IH & L).
  exists (release_probability dwell t :: rel). cbn [mapM]. unfold fill_probabilities1 at 1. rewrite H3. rnum. rewrite (proj2 (Rltb_true 0 dwell) Hd). cbn [bind].
  rewrite IH. cbn [bind map length]. auto.
Qed.
Lemma same_per_pixel m m' : m_traps m = traps -> m_traps m' = itraps -> n_traps_per_pixel m = n_traps_per_pixel m'.
Proof. intros E E'. unfold n_traps_per_pixel. rewrite E, E'. unfold itraps. rewrite map_map. reflexivity. Qed.
Lemma zero_index q : max_watermark_index (Zs n (S q)) = (-1)%Z.
Proof. exact (max_index_head0 _ _). Qed.
Lemma zero_collapse q : (collapse_index 1%R n (Zs n (S q)) <= 1)%nat.
Proof. exact (blank_index traps Hne 0 q (or_introl eq_refl)). Qed.
Lemma zero_rows_hold ds r q : cy_n_trapped (set_row0 (Zs n (S q)) r) ds = trapped ds [r].
Proof. rewrite cy_n_trapped_eq. change (set_row0 (Zs n (S q)) r) with ([r] ++ Zs n q). rewrite trapped_app, trapped_Zs. apply Rplus_0_r. Qed.
Lemma blend_zero_rows e ds q : trapped ds (blend e (Zs n q) (Zs n q)) = 0.
Proof.
  unfold blend, trapped. induction q as [|q IH]; [reflexivity|]. change (Zs n (S q)) with (zrow n :: Zs n q). unfold zip_with at 1. cbn [combine map]. fold (zip_with (fun r ri : R * list R => (vol r, zip_with (fun f fi : R => (e * f + (n1 - e) * fi)%num) (vals r) (vals ri))) (Zs n q) (Zs n q)).
  rewrite Rsum_cons. rewrite IH. unfold row_trapped, vol. cbn [fst zrow]. lra.
Qed.
Lemma partly_hold e c r ds q : cy_n_trapped (blend e (set_row0 (Zs n (S q)) (c, r)) (set_vol (Zs n (S q)) 0 c)) ds = trapped ds (blend e [(c, r)] [(c, repeat 0 n)]).
Proof.
  rewrite cy_n_trapped_eq. change (set_row0 (Zs n (S q)) (c, r)) with ((c, r) :: Zs n q). change (set_vol (Zs n (S q)) 0 c) with ((c, repeat 0 n) :: Zs n q).
  change (blend e ((c, r) :: Zs n q) ((c, repeat 0 n) :: Zs n q)) with (blend e [(c, r)] [(c, repeat 0 n)] ++ blend e (Zs n q) (Zs n q)).
  rewrite trapped_app, blend_zero_rows. apply Rplus_0_r.
Qed.

Lemma first_same x net m1 net' m1' : manager_step ms x fill dwell = Ok (net, m1) -> manager_step mi x fill dwell = Ok (net', m1') -> net = net'.
Proof.
  unfold manager_step, ms, mi, w, wi. cbn [m_kind]. unfold slow_step, instant_step, n_electrons_released. cbn [m_wm m_traps m_kind].
  destruct zero_probs as (rel & -> & Lr). cbn [bind]. rewrite !zero_index. change (Z.to_nat (-1 + 1)) with 0%nat. rewrite slice_none.
  unfold with_wm. cbn [m_wm m_traps m_kind]. rnum.
  match goal with |- context [x + (?a - ?a)] => replace (x + (a - a)) with x by ring end.
  unfold n_electrons_captured. cbn [m_wm m_traps m_kind]. rewrite !zero_index. destruct (fill x) as [cloud|e] eqn:Ef; [|discriminate]. cbn [bind Z.eqb Pos.eqb andb]. rnum.
  destruct (Rltb 0 x) eqn:Ex.
  - unfold slow_first_capture, instant_first_capture, n_trapped. cbn [m_wm m_traps m_kind filled_value]. rnum.
    assert (Ep : map p_empty (map (fun r => (1, 1, r)) rel) = repeat 1 (length itraps)).
    { unfold itraps. rewrite map_length. fold n. rewrite <- Lr. clear. induction rel as [|r l IH]; [reflexivity|]. cbn [map repeat length]. rewrite IH. reflexivity. }
    rewrite Ep. rewrite !(same_per_pixel (mkManager KSlow traps (Zs n (S k))) (mkManager KInstant itraps (Zs n (S ki))) eq_refl eq_refl).
    rewrite !zero_rows_hold. set (D := n_traps_per_pixel _). set (H := trapped D _). destruct (Reqb (H) 0) eqn:E0.
    + cbn [bind]. intros E E'. injection E as <- _. injection E' as <- _. ring.
    + destruct (Rltb (x / H) 1); unfold not_enough; cbn [m_kind bind]; intros E E'; injection E as <- _; injection E' as <- _; rewrite ?partly_hold; ring.
  - apply Rltb_false in Ex. rewrite Hfill in Ef by lra. injection Ef as <-.
    rewrite !Bool.orb_true_r. unfold slow_cloud_below, instant_cloud_below, slow_split, index_above_cloud. rnum. rewrite (proj2 (Reqb_true 0 0) eq_refl).
    replace (Rltb 0 0) with false by (symmetry; apply Rltb_false; lra). cbn [andb bind]. change (Z.to_nat (-1 + 1)) with 0%nat. cbn [m_wm]. rewrite slice_none.
    match goal with |- context [x + (?a - ?a)] => replace (x + (a - a)) with x by ring end. rewrite (Hfill x) by lra. cbn [bind].
    rewrite (proj2 (Reqb_true 0 0) eq_refl). replace (Rltb 0 0) with false by (symmetry; apply Rltb_false; lra). cbn [andb bind sb_free sb_wm sb_wm_initial sb_index].
    change (Z.to_nat (-1 + 1)) with 0%nat. rewrite !slice_none. cbn [m_traps m_kind filled_value]. rnum. unfold itraps. rewrite map_length. fold n.
    rewrite !keep_all by exact (zero_collapse _). cbn [bind]. unfold n_trapped. cbn [m_kind]. rewrite !(proj2 (Reqb_true _ _) eq_refl). cbn [bind].
    intros E E'. injection E as <- _. injection E' as <- _. ring.
Qed.

Lemma past_head fl d m x l l' m' : past_manager fl d m (x :: l) = Ok (l', m') -> exists net m1 tl, manager_step m x fl d = Ok (net, m1) /\ l' = Rmax 0 (x + net) :: tl.
Proof. cbn [past_manager]. intros E. apply bind_ok in E as ([net m1] & E1 & E). apply bind_ok in E as ([tl m2] & E2 & E). injection E as <- <-. eauto 6. Qed.
Lemma before_head : forall offset last last' x l l2 out s out' s',
  (do '(p, s1) <- before (past_manager fill dwell) ms offset last (x :: l); reading (past_manager fill dwell) ms (S (length l)) s1 p) = Ok (out, s) ->
  (do '(p, s1) <- before (past_manager fill dwell) mi offset last' (x :: l2); reading (past_manager fill dwell) mi (S (length l2)) s1 p) = Ok (out', s') ->
  length l = length l2 -> hd 0 out = hd 0 out'.
Proof.
  induction offset as [|o IH]; intros last last' x l l2 out s out' s' E E' HL.
  - cbn [before bind reading] in *. apply bind_ok in E as ([p m1] & E1 & E). apply bind_ok in E' as ([p' m1'] & E1' & E').
    destruct (past_head _ _ _ _ _ _ _ E1) as (net & m2 & tl & S1 & ->). destruct (past_head _ _ _ _ _ _ _ E1') as (net' & m2' & tl' & S1' & ->).
    apply bind_ok in E as ([q mq] & _ & E). apply bind_ok in E' as ([q' mq'] & _ & E'). injection E as <- _. injection E' as <- _. cbn [hd].
    rewrite (first_same _ _ _ _ _ S1 S1'). reflexivity.
  - cbn [before] in *. apply bind_ok in E as ([p0 s0] & E0 & E). apply bind_ok in E' as ([p0' s0'] & E0' & E').
    apply bind_ok in E0 as ([p m1] & E1 & E0). apply bind_ok in E0' as ([p' m1'] & E1' & E0').
    pose proof (past_length _ _ _ _ _ _ E1) as L1. pose proof (past_length _ _ _ _ _ _ E1') as L1'.
    destruct (past_head _ _ _ _ _ _ _ E1) as (net & m2 & tl & S1 & ->). destruct (past_head _ _ _ _ _ _ _ E1') as (net' & m2' & tl' & S1' & ->).
    rewrite (first_same _ _ _ _ _ S1 S1') in *. cbn [length] in *.
    apply (IH m1 m1' (Rmax 0 (x + net')) tl tl' out s out' s'); [| |lia].
    + injection L1 as ->. rewrite E0. exact E.
    + injection L1' as ->. rewrite E0'. exact E'.
Qed.
End First.

Lemma thinned_zero fraction group : 0 < fraction -> Forall zero_capture group -> Forall zero_capture (map (thinned fraction) group).
Proof.
  intros Hf H. apply Forall_map. eapply Forall_impl; [|exact H]. intros t (Hp & Ec & Er). split; [apply thinned_physical; [lra|exact Hp]|]. auto.
Qed.
Lemma thinned_instant fraction group : map (thinned fraction) (map instant_version group) = map instant_version (map (thinned fraction) group).
Proof. rewrite !map_map. reflexivity. Qed.
Lemma zero_kind group : group <> [] -> Forall zero_capture group -> kind_for group = KSlow /\ kind_for (map instant_version group) = KInstant.
Proof. intros Hne H. destruct H as [|t l (_ & E & _) _]; [congruence|]. cbn [kind_for map]. rewrite E. auto. Qed.

Lemma columns_heads fill dwell c (ms mi : manager R) offset :
  (forall x l out s out' s', column_past (past_manager fill dwell) ms offset (x :: l) = Ok (out, s) -> column_past (past_manager fill dwell) mi offset (x :: l) = Ok (out', s') -> hd 0 out = hd 0 out') ->
  c = false ->
  forall cols outs outs', Forall (fun l => l <> []) cols ->
  columns_past (past_manager fill dwell) c ms ms offset cols = Ok outs -> columns_past (past_manager fill dwell) c mi mi offset cols = Ok outs' ->
  forall j, (j < length cols)%nat -> hd 0 (nth j outs []) = hd 0 (nth j outs' []).
Proof.
  intros Hh ->. induction cols as [|l cols IH]; intros outs outs' Hc E E' j Hj; [cbn in Hj; lia|]. cbn [columns_past] in E, E'. inversion Hc as [|? ? Hl Hcs]; subst.
  apply bind_ok in E as ([out s] & E1 & E). apply bind_ok in E as (os & E2 & E). injection E as <-.
  apply bind_ok in E' as ([out' s'] & E1' & E'). apply bind_ok in E' as (os' & E2' & E'). injection E' as <-.
  destruct l as [|x l]; [congruence|]. destruct j as [|j]; cbn [nth]; [eapply Hh; eassumption|]. apply IH; auto. cbn in Hj. lia.
Qed.

Lemma first_row_agrees im d d' serial c fraction group dwell rows cols im1 r1 s1 im2 r2 s2 notch beta full :
  shape rows cols im -> (0 < rows)%nat ->
  single_phase d rows c fraction group dwell false -> single_phase d' rows c fraction (map instant_version group) dwell false ->
  d_offset d = d_offset d' -> Forall zero_capture group -> phase_params c 0 notch beta full -> 0 < beta -> 0 <= notch < full ->
  d_traps serial = None -> d_window serial = WNone ->
  add_cti im d serial None = Ok (im1, r1, s1) -> add_cti im d' serial None = Ok (im2, r2, s2) ->
  forall j, (j < cols)%nat -> pixel im1 0 j = pixel im2 0 j.
Proof.
  intros Hs Hr Hd Hd' Ho Hz Hph Hb Hnf Hst Hsw E1 E2 j Hj.
  pose proof (history_readout im d serial c fraction group dwell false rows cols Hs Hr Hd Hst Hsw) as H1.
  pose proof (history_readout im d' serial c fraction (map instant_version group) dwell false rows cols Hs Hr Hd' Hst Hsw) as H2. cbv zeta in H1, H2. rewrite <- Ho in H2.
  destruct (columns_past _ _ (empty_manager fraction group rows) _ _ _) as [outs|] eqn:O1; [|congruence].
  destruct (columns_past _ _ (empty_manager fraction (map instant_version group) rows) _ _ _) as [outs'|] eqn:O2; [|congruence].
  destruct H1 as (i1 & F1 & S1 & _ & C1). destruct H2 as (i2 & F2 & S2 & _ & C2).
  assert (i1 = im1) as -> by congruence. assert (i2 = im2) as -> by congruence.
  assert (Hfill : forall n, n <= 0 -> well_fill c 0 false n = Ok 0).
  { intros n Hn. rewrite (well_fill_ok c 0 n notch beta full) by (apply Hph || lra). destruct (Req_EM_T n 0); [reflexivity|]. rewrite clip_low.
    - rewrite Rpow_py_0 by lra. reflexivity.
    - apply Rmult_le_reg_r with (full - notch); [lra|]. unfold Rdiv. rewrite Rmult_assoc, Rinv_l by lra. lra. }
  destruct (zero_kind group (sp_group _ _ _ _ _ _ _ Hd) Hz) as [K K'].
  assert (HH : hd 0 (nth j outs []) = hd 0 (nth j outs' [])).
  { eapply (columns_heads (fun n => well_fill c 0 false n) dwell false _ _ (d_offset d)); [|reflexivity| |exact O1|exact O2|now rewrite map_length, seq_length].
    - intros x l out s out' s' P P'. unfold column_past in P, P'. unfold empty_manager in P, P'. rewrite K in P. rewrite K' in P'. rewrite thinned_instant, map_length in P'.
      eapply (before_head (map (thinned fraction) group) dwell (fun n => well_fill c 0 false n) (2 * rows) rows); [| | | |rewrite map_length; exact P|rewrite map_length; exact P'|reflexivity].
      + apply thinned_zero; [exact (sp_share _ _ _ _ _ _ _ Hd)|exact Hz].
      + rewrite map_length. pose proof (sp_group _ _ _ _ _ _ _ Hd). destruct group; [congruence|cbn; lia].
      + exact (sp_dwell _ _ _ _ _ _ _ Hd).
      + exact Hfill.
    - apply Forall_map. apply Forall_forall. intros k _ Hk. apply (f_equal (@length R)) in Hk. unfold column_of in Hk. rewrite map_length in Hk. rewrite (proj1 Hs) in Hk. cbn in Hk. lia. }
  rewrite <- C1, <- C2 in HH by exact Hj. rewrite <- (nth_column im1 0 j), <- (nth_column im2 0 j). 
  destruct (column_of im1 j), (column_of im2 j); exact HH.
Qed.
