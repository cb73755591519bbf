(** * Readouts of images that may be charge injections: order, differences and recovery. *)
From Coq Require Import ZArith List Bool Reals Lra Lia Sorted.
From Coquelicot Require Import Rcomplements Rbar Hierarchy RInt.
From Verif Require Import Num Py RFacts CCDModel TrapsModel ManagerModel ROEModel ClockModel MainModel Spec SpecROE SpecImage SpecReadout SpecColumn SpecBound SpecRecovery SpecPhases SpecWork SpecExpressOrder SpecInjectionOrder
  WmFacts ArrayFacts CutFacts InstantFacts ClockFacts MainFacts ShapeFacts ColumnFacts ReadoutImage RemoveFacts
  ROEClockFacts ROEMatrixFacts ROEExpressFacts WorkFacts ReadoutFull ReadoutForced ReadoutSpecFacts ReadoutColumnFacts OrderFacts TameFacts DepthFacts BoundFacts MainReadoutFacts RecoverImageFacts PhaseOrderFacts LiftFacts GridFacts SteadyFacts ExpressOrderFacts ReadoutInjection ExpressGridFacts.
Import ListNotations.
Open Scope R_scope.

(** ** What one direction of a readout does: it moves every column by a steady map, within
    the limits [B]. *)
Definition acts (d : direction R) (n : nat) (tw : option (list Z)) (B : nat -> R -> Prop) (r' : roe R) : Prop := exists gain big G, 0 < gain <= 1 /\ 0 <= big /\ steady gain big G /\
  forall im cols, shape n cols im -> nonneg im ->
  exists im', match d_traps d with None => Ok (im, the_roe d)
      | Some traps => clock_direction im d (the_roe d) traps (py_range 0 (Z.of_nat n)) (py_range 0 (Z.of_nat cols)) tw end = Ok (im', r') /\
    shape n cols im' /\ nonneg im' /\ (forall j, (j < cols)%nat -> column_of im' j = G (column_of im j)) /\
    forall i j x, (i < n)%nat -> (j < cols)%nat -> B i x -> Rabs (pixel im' i j - pixel im i j) <= x.

(** ** A standard readout *)
Lemma kinds_differ d n c traps dwell npt c' traps' dwell' dt : injection_setting d n c traps dwell npt -> plain_setting d n c' traps' dwell' dt -> False.
Proof.
  intros [_ _ H _ _ _ _] [_ _ [H'|[H' _]] _ _ _ _]; rewrite H in H'; [|discriminate]. apply (f_equal (option_map (fun r => roe_kind_of r))) in H'. cbn in H'. discriminate.
Qed.
Lemma acts_express d n tw : (0 < n)%nat -> tw = None \/ tw = Some (0%Z, Z.of_nat (n + d_offset d)) -> gentle_express d n -> acts d n (tw_arg tw) (readout_limit d n) (the_roe d).
Proof.
  intros Hn Htw Hd. assert (Ht : tw_ok tw) by (destruct Htw as [-> | ->]; cbn; [exact I|lia]).
  destruct (express_direction_map d n tw Hn Ht Hd) as (gain & big & G & H1 & H2 & H3 & H4). exists gain, big, G. split; [exact H1|]. split; [exact H2|]. split; [exact H3|].
  intros im cols Hs Hp. destruct (H4 im cols Hs Hp) as (im' & E & A1 & A2 & A3). exists im'. split; [exact E|]. split; [exact A1|]. split; [exact A2|]. split; [exact A3|].
  intros i j x Hi Hj [Hx|Hx].
  - destruct (one_direction im d n cols (tw_arg tw) Hs Hn Hp (express_plain _ _ Hd)) as (im2 & E2 & _ & _ & B).
    { destruct Htw as [-> | ->]; [left|right]; reflexivity. }
    rewrite E in E2. injection E2 as <-. now apply B.
  - exfalso. destruct Hd as [_ [Hd|(c' & traps' & dwell' & dt' & g' & Hd & _)]].
    + destruct Hx as [c traps dwell npt Hx|c traps dwell npt Hx]; rewrite (is_traps _ _ _ _ _ _ Hx) in Hd; discriminate.
    + destruct Hx as [c traps dwell npt Hx|c traps dwell npt Hx]; exact (kinds_differ _ _ _ _ _ _ _ _ _ _ Hx Hd).
Qed.

(** ** A charge injection *)
Lemma own_rows (z : Z) (m : R) rows : forall s, weight (own z) (map (fun w => (Z.of_nat w, m, false)) (seq s rows))
  = if ((Z.of_nat s <=? z)%Z && (z <? Z.of_nat (s + rows))%Z)%bool then m else 0.
Proof.
  unfold weight. induction rows as [|rows IH]; intros s; cbn [seq map]; [destruct (Z.leb_spec (Z.of_nat s) z); destruct (Z.ltb_spec z (Z.of_nat (s + 0))); cbn; try reflexivity; lia|].
  change (Rsum (?a :: ?l)) with (a + Rsum l). rewrite (IH (S s)). unfold own.
  destruct (Z.eqb_spec (Z.of_nat s) z); destruct (Z.leb_spec (Z.of_nat s) z); destruct (Z.leb_spec (Z.of_nat (S s)) z);
    destruct (Z.ltb_spec z (Z.of_nat (S s + rows))); destruct (Z.ltb_spec z (Z.of_nat (s + S rows))); cbn; try lra; lia.
Qed.
Lemma total_weight (B : Z -> R) rows E mult cap C : (forall e, (e < E)%nat -> 0 <= mult e <= cap) ->
  (forall m, 0 <= m -> weight B (map (fun w => (Z.of_nat w, m, false)) (seq 0 rows)) <= m * C) -> 0 <= C ->
  Rsum (map (weight B) (injection_passes rows E mult)) <= INR E * cap * C.
Proof.
  intros Hm HB HC. unfold injection_passes. rewrite map_map.
  assert (L : forall l, incl l (seq 0 E) -> Rsum (map (fun e => weight B (map (fun w => (Z.of_nat w, mult e, false)) (seq 0 rows))) l) <= INR (length l) * cap * C).
  { induction l as [|e l IH]; intros Hl; [cbn; lra|]. cbn [map length]. change (Rsum (?a :: ?l)) with (a + Rsum l). rewrite S_INR.
    assert (He : (e < E)%nat) by (specialize (Hl e (or_introl eq_refl)); apply in_seq in Hl; lia). specialize (Hm e He). specialize (HB (mult e) ltac:(lra)).
    assert (mult e * C <= cap * C) by (apply Rmult_le_compat_r; lra). specialize (IH ltac:(intros x Hx; apply Hl; now right)). lra. }
  specialize (L (seq 0 E) (incl_refl _)). rewrite seq_length in L. exact L.
Qed.
Section Injected.
Context (d : direction R) (n : nat) (c : ccd R) (traps : traps_arg R) (dwell : list R) (npt : option nat) (group : list (trap R)) (tw : option (Z * Z)).
Hypothesis Hn : (0 < n)%nat.
Hypothesis Htw : tw_ok tw.
Hypothesis Hset : injection_setting d n c traps dwell npt.
Hypothesis Hone : groups_in traps = [group].
Let N := injection_transfers npt n (d_offset d).
Let E := passes_for N (d_express d).
Let x := INR N / INR E.
Let part := fun i => tw_part tw (INR i * x) (INR (S i) * x).
Let passes := injection_passes n E part.
Lemma injected_E : (0 < E <= N)%nat.
Proof. pose proof (is_some _ _ _ _ _ _ Hset) as H. fold N in H. unfold E, passes_for. destruct (Nat.eqb_spec (d_express d) 0); lia. Qed.
Lemma injected_x : 1 <= x /\ INR E * x = INR N.
Proof.
  pose proof injected_E as [H1 H2]. apply lt_INR in H1. apply le_INR in H2. change (INR 0) with 0 in H1. unfold x. split; [|field; lra].
  apply (Rmult_le_reg_r (INR E)); [exact H1|]. replace (INR N / INR E * INR E) with (INR N) by (field; lra). lra.
Qed.
Lemma part_bounds i : 0 <= part i <= x.
Proof.
  destruct injected_x as [Hx _]. unfold part, tw_part. rewrite S_INR. destruct tw as [[a b]|]; [|lra].
  pose proof (overlap_bounds (INR i * x) ((INR i + 1) * x) (IZR a) (IZR b) ltac:(lra)). lra.
Qed.
Lemma passes_fine : Forall (good_cells x n) passes.
Proof.
  unfold passes, injection_passes. apply Forall_map, Forall_forall. intros i _. pose proof (part_bounds i) as Hb. split.
  - generalize (part i) as y. clear. generalize 0%nat. clear. induction n as [|m IH]; intros s y; cbn [seq map]; [constructor|]. constructor; [apply IH|]. apply Forall_forall. intros q Hq. apply in_map_iff in Hq as (w & <- & Hw). apply in_seq in Hw. cbn. lia.
  - apply Forall_map, Forall_forall. intros w Hw. apply in_seq in Hw. unfold good_cell. cbn. split; [lia|]. split; [exact Hb|reflexivity].
Qed.
Lemma passes_pos : Forall (Forall (fun '(_, mult, _) => 0 <= mult)) passes.
Proof. unfold passes, injection_passes. apply Forall_map, Forall_forall. intros i _. apply Forall_map, Forall_forall. intros w _. apply part_bounds. Qed.
Lemma injected_roe : the_roe d = built (Injection npt) dwell DFloat true true.
Proof. unfold the_roe. rewrite (is_roe _ _ _ _ _ _ Hset). reflexivity. Qed.
Lemma injected_steps : timed_steps (the_roe d) = timed_steps (built (Standard true) dwell DFloat true true).
Proof. rewrite injected_roe. reflexivity. Qed.
Lemma injected_sites k : In k (trap_phases c) -> good_site (site_of c (groups_in traps) k).
Proof. intros Hk. apply site_good; [exact (is_plain _ _ _ _ _ _ Hset)|exact (proj2 (is_instant _ _ _ _ _ _ Hset))|apply trap_phases_lt, Hk]. Qed.
Lemma injected_change (col : column) i : (forall z, 0 <= col z) -> (i < n)%nat ->
  let out := readout (site_of c (groups_in traps)) (trap_phases c) (timed_steps (the_roe d)) passes col (Z.of_nat i) in
  let met := all_shares c * SpecBound.traps_per_pixel (groups_in traps) in
  Rabs (out - col (Z.of_nat i)) <= INR N * match i with O => 1 | S _ => 2 end * (INR (length dwell) * met) /\
  (length dwell = 1%nat -> Rabs (out - col (Z.of_nat i)) <= INR N * met).
Proof.
  intros Hcol Hi out met. unfold out, met. rewrite <- all_phases_density by exact (is_plain _ _ _ _ _ _ Hset). rewrite injected_steps.
  assert (Hr : 0 <= Rsum (map (fun k => site_density (site_of c (groups_in traps) k)) (trap_phases c))).
  { apply Rsum_nonneg, Forall_map, Forall_forall. intros k Hk. apply site_density_nonneg, injected_sites, Hk. }
  assert (Hlen : INR (length (timed_steps (built (Standard true) dwell DFloat true true))) <= INR (length dwell)) by (apply le_INR; apply steps_le).
  set (rho := Rsum _) in *. destruct injected_x as [Hx HEx]. pose proof (part_bounds : forall i, _) as Hpb.
  assert (KP : forall k, In k (trap_phases c) -> (k < length dwell)%nat).
  { intros k Hk. unfold trap_phases in Hk. apply filter_In in Hk as [Hk _]. apply in_seq in Hk. pose proof (is_phases _ _ _ _ _ _ Hset). lia. }
  assert (HS : forall (e : R) es, In (e, es) (timed_steps (built (Standard true) dwell DFloat true true)) -> 0 < e) by (intros e es He; now apply timed_in in He).
  split.
  - pose proof (readout_change (site_of c (groups_in traps)) (trap_phases c) (timed_steps (built (Standard true) dwell DFloat true true)) (own_or_next (Z.of_nat i)) (Z.of_nat i) injected_sites HS) as H.
    specialize (H ltac:(intros e es k row Hd Hk; apply (electrode_reach dwell DFloat k e es row); [now apply KP|exact Hd]) passes passes_pos col Hcol).
    unfold within in H. fold rho in H. eapply Rle_trans; [exact H|]. rewrite <- HEx.
    assert (HC : 0 <= match i with O => 1 | S _ => 2 end) by (destruct i; lra).
    apply Rmult_le_compat; [| | |apply Rmult_le_compat_r; assumption].
    + apply Rsum_nonneg, Forall_map. eapply Forall_impl; [|exact passes_pos]. intros cells Hcells. unfold weight. apply Rsum_nonneg, Forall_map. eapply Forall_impl; [|exact Hcells].
      intros [[row mult] sv] Hm. apply Rmult_le_pos; [exact Hm|]. unfold own_or_next, own. destruct (_ =? _)%Z; destruct (_ =? _)%Z; lra.
    + apply Rmult_le_pos; [apply pos_INR|exact Hr].
    + apply total_weight; [intros e _; apply Hpb| |exact HC]. intros m Hm. unfold own_or_next. rewrite weight_plus, !own_rows.
      destruct i as [|i].
      * replace (Z.of_nat 0 <=? Z.of_nat 0 - 1)%Z with false by reflexivity. cbn [andb]. destruct (_ && _)%bool; lra.
      * destruct (_ && _)%bool; destruct (_ && _)%bool; lra.
  - intros H1d. assert (Hd0 : exists d0, dwell = [d0]) by (destruct dwell as [|d0 [|]]; try discriminate H1d; eauto). destruct Hd0 as [d0 Hd0].
    pose proof (readout_change (site_of c (groups_in traps)) (trap_phases c) (timed_steps (built (Standard true) dwell DFloat true true)) (own (Z.of_nat i)) (Z.of_nat i) injected_sites HS) as H.
    specialize (H ltac:(intros e es k row Hd Hk; rewrite Hd0 in Hd; apply (single_reach d0 DFloat k e es row); [specialize (KP k Hk); lia|exact Hd]) passes passes_pos col Hcol).
    unfold within in H. fold rho in H. eapply Rle_trans; [exact H|]. rewrite <- HEx.
    apply Rmult_le_compat.
    + apply Rsum_nonneg, Forall_map. eapply Forall_impl; [|exact passes_pos]. intros cells Hcells. unfold weight. apply Rsum_nonneg, Forall_map. eapply Forall_impl; [|exact Hcells].
      intros [[row mult] sv] Hm. apply Rmult_le_pos; [exact Hm|]. unfold own. destruct (_ =? _)%Z; lra.
    + apply Rmult_le_pos; [apply pos_INR|exact Hr].
    + rewrite <- (Rmult_1_r (INR E * x)). apply total_weight; [intros e _; apply Hpb| |lra]. intros m Hm. rewrite own_rows. destruct (_ && _)%bool; lra.
    + rewrite H1d in Hlen. change (INR 1) with 1 in Hlen. rewrite <- (Rmult_1_l rho) at 2. apply Rmult_le_compat_r; assumption.
Qed.
Lemma acts_injected : (forall k, (k < ccd_n_phases c)%nat -> exists full beta, phase_params c k 0 beta full /\ 1 <= beta /\
      x * in_pixel (map (thinned (share c k)) group) * beta < full) ->
  acts d n (tw_arg tw) (readout_limit d n) (roe_injection_init dwell (Some N) true true DFloat).
Proof.
  intros Hm. destruct injected_x as [Hx _].
  destruct (direction_steady (timed_steps (the_roe d)) c traps dwell group x (is_plain _ _ _ _ _ _ Hset) (is_phases _ _ _ _ _ _ Hset) (is_instant _ _ _ _ _ _ Hset) Hone injected_steps Hx Hm n passes passes_fine)
    as (gain & big & Hg & Hb & HT).
  exists gain, big, (weighted_map (timed_steps (the_roe d)) c traps passes). split; [exact Hg|]. split; [exact Hb|]. split; [exact HT|].
  intros im cols Hs Hp. rewrite (is_traps _ _ _ _ _ _ Hset). unfold clock_direction. rewrite (is_ccd _ _ _ _ _ _ Hset).
  destruct (injection_readout im c dwell traps (groups_in traps) npt (d_express d) (d_offset d) (py_range 0 (Z.of_nat cols)) tw n cols
    Hs Hn Hp (is_plain _ _ _ _ _ _ Hset) (is_phases _ _ _ _ _ _ Hset) (groups_normalised _ (is_instant _ _ _ _ _ _ Hset)) (proj2 (is_instant _ _ _ _ _ _ Hset)) (range_in_range cols) (py_range_nodup _) (is_some _ _ _ _ _ _ Hset) Htw)
    as (im' & G1 & G2 & _ & G4).
  exists im'. split; [rewrite injected_roe; exact G1|]. split; [exact G2|].
  assert (N' : forall i j, 0 <= pixel im' i j).
  { apply nonneg_iff. destruct (clocking_ok _ _ _ _ _ _ _ _ _ _ _ _ _ Hs Hn G1) as [_ _ _ HS]. intros i0 j0. apply HS; [|apply nonneg_iff, Hp]. rnum. apply Rltb_false. lra. }
  split; [exact N'|]. rewrite <- injected_roe in G4. fold N E in G4. change (injection_passes n E _) with passes in G4. split.
  - intros j Hj. apply (nth_ext _ _ 0 0).
    + rewrite (st_length _ _ _ HT), (column_length im' n cols j G2), (column_length im n cols j Hs). reflexivity.
    + intros i Hi. rewrite (column_length im' n cols j G2) in Hi. rewrite nth_column, (G4 i j Hi) by (apply in_py_range; lia).
      unfold weighted_map. rewrite (column_length im n cols j Hs), (column_plus im j Hp), <- column_fun. now rewrite nth_map_seq.
  - intros i j y Hi Hj Hy. rewrite (G4 i j Hi) by (apply in_py_range; lia).
    replace (pixel im i j) with (col_fun im j (Z.of_nat i)) by (unfold col_fun; rewrite Nat2Z.id; reflexivity).
    destruct (injected_change (col_fun im j) i) as [B1 B2]; [intros z; apply Hp|exact Hi|].
    destruct Hy as [Hy|Hy].
    + exfalso. destruct Hy as [Hy|c' traps' dwell' dt' Hy|c' traps' dwell' dt' Hy]; [rewrite (is_traps _ _ _ _ _ _ Hset) in Hy; discriminate| |];
        exact (kinds_differ _ _ _ _ _ _ _ _ _ _ Hset Hy).
    + destruct Hy as [c' traps' dwell' npt' Hy|c' traps' dwell' npt' Hy]; destruct Hset as [S1 S2 S3 _ _ _ _]; destruct Hy as [S1' S2' S3' _ _ _ _];
        rewrite S1 in S1'; rewrite S2 in S2'; rewrite S3 in S3'; injection S1' as <-; injection S2' as <-;
        pose proof (f_equal (option_map (fun r => roe_kind_of r)) S3') as K1; pose proof (f_equal (option_map (fun r => roe_dwell_times r)) S3') as K2; cbn [option_map roe_kind_of roe_dwell_times roe_injection_init make_roe] in K1, K2; injection K1 as <-.
      * assert (K : dwell = [dwell']) by congruence. apply B2. now rewrite K.
      * assert (K : dwell = dwell') by congruence. rewrite <- K. exact B1.
Qed.
End Injected.
Lemma acts_readout d n tw : (0 < n)%nat -> tw = None \/ tw = Some (0%Z, Z.of_nat (n + d_offset d)) -> gentle_readout d n -> exists r, acts d n (tw_arg tw) (readout_limit d n) r.
Proof.
  intros Hn Htw [H|(_ & c & traps & dwell & npt & group & H1 & H2 & H3)].
  - exists (the_roe d). now apply acts_express.
  - exists (roe_injection_init dwell (Some (injection_transfers npt n (d_offset d))) true true DFloat).
    apply (acts_injected d n c traps dwell npt group tw Hn); [|exact H1|exact H2|exact H3]. destruct Htw as [-> | ->]; cbn; [exact I|lia].
Qed.
Lemma gentle_window d n : gentle_readout d n -> d_window d = WNone.
Proof. now intros [[H _]|[H _]]. Qed.
Lemma readout_limit_nonneg d n i x : readout_limit d n i x -> 0 <= x.
Proof.
  intros [H|H]; [now apply limit_nonneg in H|].
  assert (K : forall c traps dwell npt, injection_setting d n c traps dwell npt -> 0 <= all_shares c * SpecBound.traps_per_pixel (groups_in traps)).
  { intros c traps dwell npt H1. rewrite <- all_phases_density by exact (is_plain _ _ _ _ _ _ H1). apply Rsum_nonneg, Forall_map, Forall_forall. intros k Hk. apply site_density_nonneg.
    apply site_good; [exact (is_plain _ _ _ _ _ _ H1)|exact (proj2 (is_instant _ _ _ _ _ _ H1))|apply trap_phases_lt, Hk]. }
  destruct H as [c traps dwell npt H|c traps dwell npt H]; pose proof (K _ _ _ _ H) as H'.
  - apply Rmult_le_pos; [apply pos_INR|exact H'].
  - apply Rmult_le_pos; [apply Rmult_le_pos; [apply pos_INR|destruct i; lra]|]. apply Rmult_le_pos; [apply pos_INR|exact H'].
Qed.

(** ** Both directions *)
Section Both.
Context (parallel serial : direction R) (rows cols : nat).
Hypothesis Hr : (0 < rows)%nat.
Hypothesis Hc : (0 < cols)%nat.
Context (rp rs : roe R).
Hypothesis Wp : d_window parallel = WNone.
Hypothesis Ws : d_window serial = WNone.
Hypothesis Hpar : acts parallel rows (Some (py_range 0 (Z.of_nat (rows + d_offset parallel)))) (readout_limit parallel rows) rp.
Hypothesis Hser : acts serial cols None (readout_limit serial cols) rs.
Lemma readout_map : exists gain big F, 0 < gain <= 1 /\ 0 <= big /\ steady gain big F /\
  forall im, shape rows cols im -> nonneg im ->
  exists im', add_cti im parallel serial None = Ok (im', rp, rs) /\ shape rows cols im' /\ nonneg im' /\ concat im' = F (concat im) /\
    forall i j p s, (i < rows)%nat -> (j < cols)%nat -> readout_limit parallel rows i p -> readout_limit serial cols j s -> Rabs (pixel im' i j - pixel im i j) <= p + s.
Proof.
  destruct Hpar as (g1 & b1 & G1 & Hg1 & Hb1 & T1 & A1). destruct Hser as (g2 & b2 & G2 & Hg2 & Hb2 & T2 & A2).
  exists (g1 * g2), (b1 * b2), (fun x => on_rows cols G2 (on_columns cols G1 x)). split; [split; [apply Rmult_lt_0_compat; lra|rewrite <- (Rmult_1_l 1); apply Rmult_le_compat; lra]|].
  split; [now apply Rmult_le_pos|].
  split; [apply (steady_compose g1 g2 b1 b2 (on_columns cols G1) (on_rows cols G2)); [lra|lra|now apply on_columns_steady|now apply on_rows_steady]|].
  intros im Hs Hp. pose proof Hs as [Lim _]. pose proof (MainReadoutFacts.shape_columns rows cols im Hs Hr) as Ncol.
  unfold add_cti. rewrite Wp, Ws, Lim, Ncol. cbn [resolve_window resolve_time_window bind].
  destruct (A1 im cols Hs Hp) as (im1 & E1 & S1 & P1 & C1 & D1). rewrite E1. cbn [bind].
  assert (F1 : concat im1 = on_columns cols G1 (concat im)) by (eapply (steady_columns_flat cols Hc G1); eauto).
  assert (St : shape cols rows (transpose im1)) by (apply transpose_shape; assumption).
  assert (Pt : nonneg (transpose im1)) by (intros i j; rewrite (transpose_pixel_all rows cols) by assumption; apply P1).
  destruct (A2 (transpose im1) rows St Pt) as (im2 & E2 & S2 & P2 & C2 & D2).
  assert (S2' : shape rows cols (transpose im2)) by (apply transpose_shape; assumption).
  assert (P2' : nonneg (transpose im2)) by (intros i j; rewrite (transpose_pixel_all cols rows) by assumption; apply P2).
  assert (F2 : concat (transpose im2) = on_rows cols G2 (concat im1)).
  { eapply (steady_rows_flat cols Hc G2); eauto. intros i Hi. rewrite <- (transposed_column im1 rows cols i S1 Hr Hi), <- (C2 i Hi).
    rewrite <- (transposed_column (transpose im2) rows cols i S2' Hr Hi). f_equal. apply (RemoveFacts.image_ext _ _ cols rows); [apply transpose_shape; assumption|assumption|].
    intros a b Ha Hb. rewrite (transpose_pixel_all rows cols), (transpose_pixel_all cols rows) by assumption. reflexivity. }
  assert (D : forall i j p s, (i < rows)%nat -> (j < cols)%nat -> readout_limit parallel rows i p -> readout_limit serial cols j s -> Rabs (pixel (transpose im2) i j - pixel im i j) <= p + s).
  { intros i j p s Hi Hj Lp Ls. specialize (D1 i j p Hi Hj Lp). specialize (D2 j i s Hj Hi Ls).
    rewrite (transpose_pixel_all cols rows) by assumption. rewrite (transpose_pixel_all rows cols im1) in D2 by assumption.
    apply Rabs_le_between in D1. apply Rabs_le_between in D2. apply Rabs_le_between. lra. }
  destruct (d_traps serial) as [traps|] eqn:Et.
  - rewrite E2. cbn [bind]. exists (transpose im2). split; [reflexivity|]. split; [exact S2'|]. split; [exact P2'|]. split; [now rewrite F2, F1|exact D].
  - assert (Eim : transpose im2 = im1).
    { injection E2 as E2 _. subst im2. apply (RemoveFacts.image_ext _ _ rows cols); [assumption|assumption|].
      intros a b Ha Hb. rewrite (transpose_pixel_all cols rows), (transpose_pixel_all rows cols) by assumption. reflexivity. }
    injection E2 as _ Ers. cbn [bind]. rewrite Ers. exists im1. split; [reflexivity|]. split; [exact S1|]. split; [exact P1|]. rewrite Eim in F2, D. split; [now rewrite F2, F1|exact D].
Qed.
Lemma pair_map : exists gain big F, 0 < gain <= 1 /\ 0 <= big /\ steady gain big F /\
  forall a b, shape rows cols a -> shape rows cols b -> nonneg a -> nonneg b ->
  exists a' b', add_cti a parallel serial None = Ok (a', rp, rs) /\ add_cti b parallel serial None = Ok (b', rp, rs) /\
    shape rows cols a' /\ shape rows cols b' /\ concat a' = F (concat a) /\ concat b' = F (concat b).
Proof.
  destruct readout_map as (gain & big & F & Hg & Hb & HT & HF). exists gain, big, F. split; [exact Hg|]. split; [exact Hb|]. split; [exact HT|]. intros a b Sa Sb Pa Pb.
  destruct (HF a Sa Pa) as (a' & Ea & Sa' & Pa' & Fa & _). destruct (HF b Sb Pb) as (b' & Eb & Sb' & Pb' & Fb & _). exists a', b'. auto 10.
Qed.
Lemma readout_order a b : shape rows cols a -> shape rows cols b -> nonneg a -> (forall i j, (i < rows)%nat -> (j < cols)%nat -> pixel a i j <= pixel b i j) ->
  exists a' b', add_cti a parallel serial None = Ok (a', rp, rs) /\
    add_cti b parallel serial None = Ok (b', rp, rs) /\
    forall i j, (i < rows)%nat -> (j < cols)%nat -> pixel a' i j <= pixel b' i j.
Proof.
  intros Sa Sb Pa Hab. destruct pair_map as (gain & big & F & Hg & _ & HT & HF).
  assert (Pb : nonneg b) by (apply (shape_nonneg rows cols Hr Hc b Sb); intros i j Hi Hj; specialize (Hab i j Hi Hj); specialize (Pa i j); lra).
  destruct (HF a b Sa Sb Pa Pb) as (a' & b' & Ea & Eb & Sa' & Sb' & Fa & Fb). exists a', b'. split; [exact Ea|]. split; [exact Eb|].
  apply (flat_ordered rows cols Hr Hc); [assumption|assumption|]. rewrite Fa, Fb. apply (st_mono _ _ _ HT). now apply (flat_ordered rows cols Hr Hc).
Qed.
Lemma readout_apart : exists K, 0 <= K /\ forall a b, shape rows cols a -> shape rows cols b -> nonneg a -> nonneg b ->
  exists a' b', add_cti a parallel serial None = Ok (a', rp, rs) /\
    add_cti b parallel serial None = Ok (b', rp, rs) /\ image_apart a' b' <= K * image_apart a b.
Proof.
  destruct pair_map as (gain & big & F & Hg & Hb & HT & HF). exists big. split; [exact Hb|]. intros a b Sa Sb Pa Pb.
  destruct (HF a b Sa Sb Pa Pb) as (a' & b' & Ea & Eb & Sa' & Sb' & Fa & Fb). exists a', b'. split; [exact Ea|]. split; [exact Eb|]. unfold image_apart. rewrite Fa, Fb. apply (steady_apart gain big F); [exact HT|].
  now rewrite (concat_length cols Hc a rows Sa), (concat_length cols Hc b rows Sb).
Qed.
Lemma readout_injective a b out pr sr pr' sr' : shape rows cols a -> shape rows cols b -> nonneg a -> nonneg b ->
  add_cti a parallel serial None = Ok (out, pr, sr) -> add_cti b parallel serial None = Ok (out, pr', sr') -> a = b.
Proof.
  intros Sa Sb Pa Pb Ea' Eb'. destruct pair_map as (gain & big & F & Hg & _ & HT & HF).
  destruct (HF a b Sa Sb Pa Pb) as (a' & b' & Ea & Eb & Sa' & Sb' & Fa & Fb). rewrite Ea in Ea'. rewrite Eb in Eb'. injection Ea' as -> _ _. injection Eb' as -> _ _.
  apply (flat_equal rows cols Hc a b Sa Sb). apply (steady_injective gain big F HT (proj1 Hg)); [now rewrite (concat_length cols Hc a rows Sa), (concat_length cols Hc b rows Sb)|now apply flat_nonneg|now apply flat_nonneg|congruence].
Qed.

(** ** Recovery *)
Lemma readout_recover x : shape rows cols x -> charged_enough parallel serial rows cols x ->
  exists im, add_cti x parallel serial None = Ok (im, rp, rs) /\
  exists C r, 0 <= C /\ 0 <= r < 1 /\ forall k, exists est, remove_cti im k parallel serial None = Ok est /\ shape rows cols est /\
    image_apart est x <= C * r ^ k.
Proof.
  intros Sx Hx. destruct readout_map as (gain & big & F & Hg & Hbig & HT & HF).
  assert (Px : forall i j, (i < rows)%nat -> (j < cols)%nat -> 0 < pixel x i j).
  { intros i j Hi Hj. destruct (Hx i j Hi Hj) as (p & s & Lp & Ls & H). apply readout_limit_nonneg in Lp. apply readout_limit_nonneg in Ls. lra. }
  assert (Nx : nonneg x) by (apply (shape_nonneg rows cols Hr Hc); [exact Sx|]; intros i j Hi Hj; left; now apply Px).
  assert (BD : forall a, shape rows cols a -> nonneg a -> exists a', add_cti a parallel serial None = Ok (a', rp, rs) /\ shape rows cols a' /\ concat a' = F (concat a) /\
    forall i j p s, (i < rows)%nat -> (j < cols)%nat -> readout_limit parallel rows i p -> readout_limit serial cols j s -> Rabs (pixel a' i j - pixel a i j) <= p + s).
  { intros a Sa Pa. destruct (HF a Sa Pa) as (a' & Ea & Sa' & _ & Fa & Ba). exists a'. auto. }
  destruct (BD x Sx Nx) as (im & E & Si & Fi & Bi). exists im. split; [exact E|].
  destruct (steady_converges gain big F HT Hbig Hg (concat x)) as (C & r & HC & Hr1 & HCr).
  { apply Forall_forall. intros v Hv. apply (In_nth _ _ 0) in Hv. destruct Hv as (l & Hl & <-). rewrite (concat_length cols Hc x rows Sx) in Hl.
    pose proof (Nat.div_mod l cols ltac:(lia)) as El. pose proof (Nat.mod_upper_bound l cols ltac:(lia)) as Hm.
    assert (Hd : (l / cols < rows)%nat) by (apply Nat.div_lt_upper_bound; lia).
    replace l with (l / cols * cols + l mod cols)%nat by lia. rewrite (concat_nth cols Hc x rows) by assumption. now apply Px. }
  exists C, r. split; [exact HC|]. split; [exact Hr1|].
  assert (ST : forall k, exists est, remove_cti im k parallel serial None = Ok est /\ shape rows cols est /\ concat est = corrected F (F (concat x)) k /\
    forall i j p s, (i < rows)%nat -> (j < cols)%nat -> readout_limit parallel rows i p -> readout_limit serial cols j s -> Rabs (pixel est i j - pixel x i j) <= 2 * (p + s)).
  { induction k as [|k (est & Ee & Se & Ke & Be)].
    - exists im. split; [reflexivity|]. split; [exact Si|]. split; [exact Fi|]. intros i j p s Hi Hj Lp Ls. specialize (Bi i j p s Hi Hj Lp Ls). apply readout_limit_nonneg in Lp. apply readout_limit_nonneg in Ls. lra.
    - assert (Ne : nonneg est).
      { apply (shape_nonneg rows cols Hr Hc); [exact Se|]. intros i j Hi Hj. destruct (Hx i j Hi Hj) as (p & s & Lp & Ls & H). specialize (Be i j p s Hi Hj Lp Ls). apply Rabs_le_between in Be. lra. }
      destruct (BD est Se Ne) as (added & Ea & Sa & Fa & Ba).
      set (out := image_zip nadd est (image_zip nsub im added)).
      assert (So : shape rows cols out) by (unfold out; repeat (apply image_zip_shape; try assumption)).
      assert (Po : forall i j, (i < rows)%nat -> (j < cols)%nat -> pixel out i j = pixel est i j + (pixel im i j - pixel added i j)).
      { intros i j Hi Hj. unfold out. rewrite (image_zip_pixel _ _ _ rows cols) by (try apply image_zip_shape; assumption).
        rewrite (image_zip_pixel _ _ _ rows cols) by assumption. reflexivity. }
      exists out. split; [|split; [exact So|split]].
      + apply (remove_S im parallel serial None rows cols Si Hr Hc k out). exists est, added, rp, rs.
        split; [exact Ee|]. split; [exact Ea|]. split; [exact So|exact Po].
      + cbn [corrected]. cbv zeta. rewrite <- Ke, <- Fa, <- Fi.
        apply (flat_ext cols Hc rows); [exact So| |].
        * rewrite plus_list_length; rewrite ?(concat_length cols Hc est rows Se), ?(concat_length cols Hc im rows Si), ?(concat_length cols Hc added rows Sa); reflexivity.
        * intros i j Hi Hj. rewrite plus_list_nth by (rewrite ?(concat_length cols Hc est rows Se), ?(concat_length cols Hc im rows Si), ?(concat_length cols Hc added rows Sa); nia).
          rewrite !(concat_nth cols Hc _ rows) by assumption. symmetry. now apply Po.
      + intros i j p s Hi Hj Lp Ls. rewrite (Po i j Hi Hj). specialize (Ba i j p s Hi Hj Lp Ls). specialize (Bi i j p s Hi Hj Lp Ls).
        replace (pixel est i j + (pixel im i j - pixel added i j) - pixel x i j) with ((pixel im i j - pixel x i j) - (pixel added i j - pixel est i j)) by lra.
        apply Rabs_le_between in Ba. apply Rabs_le_between in Bi. apply Rabs_le_between. lra. }
  intros k. destruct (ST k) as (est & Ee & Se & Ke & _). exists est. split; [exact Ee|]. split; [exact Se|]. unfold image_apart. rewrite Ke. apply HCr.
Qed.
End Both.

