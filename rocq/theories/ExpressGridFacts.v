(** * Readouts of images in which one transfer stands for several: order, differences and recovery. *)
From Coq Require Import ZArith List Bool Reals Lra Lia Sorted FunctionalExtensionality.
From Coquelicot Require Import Rcomplements Rbar Hierarchy RInt.
From Verif Require Import Num Py RFacts CCDModel TrapsModel ManagerModel ROEModel ClockModel MainModel Spec SpecROE SpecImage SpecReadout SpecColumn SpecBound SpecRecovery SpecPhases SpecWork SpecExpressOrder
  WmFacts ArrayFacts CutFacts InstantFacts ClockFacts MainFacts ShapeFacts ColumnFacts ReadoutImage RemoveFacts
  ROEClockFacts ROEMatrixFacts ROEExpressFacts WorkFacts ReadoutFull ReadoutForced ReadoutSpecFacts ReadoutColumnFacts OrderFacts TameFacts DepthFacts BoundFacts MainReadoutFacts RecoverImageFacts PhaseOrderFacts LiftFacts GridFacts SteadyFacts ExpressOrderFacts.
Import ListNotations.
Open Scope R_scope.

(** ** No multiplier is larger than the transfers that a pass stands for *)
Lemma insert_rows (n : nat) (big : matrix R) small : rect (S n) (S n) big -> Forall (fun r => length r = n) small -> forall m, length m = S n ->
  forall i, (i < S n)%nat -> nth i (fold_left (insert_row big) small m) [] = nth i m [] \/
    exists r, In r small /\ n_positive r = i /\ nth i (fold_left (insert_row big) small m) [] = shifted (nth i big []) r.
Proof.
  intros Hb. induction small as [|row small IH]; intros Hs m Hm i Hi; cbn [fold_left]; [now left|]. inversion Hs as [|? ? Hr Hs']; subst.
  rewrite (insert_row_eq big m row (length row) Hb eq_refl).
  destruct (IH Hs' (upd m (n_positive row) (shifted (nth (n_positive row) big []) row)) ltac:(rewrite upd_length; exact Hm) i Hi) as [E|(r & H1 & H2 & H3)].
  - destruct (Nat.eq_dec (n_positive row) i) as [<-|Hne].
    + right. exists row. split; [now left|]. split; [reflexivity|]. rewrite E, nth_upd_eq by (rewrite Hm; exact Hi). reflexivity.
    + left. rewrite E. now apply nth_upd_neq.
  - right. exists r. split; [now right|]. auto.
Qed.
Lemma insert_most dt n E i j : (0 < E <= n)%nat -> (i < S n)%nat -> (j < S n)%nat ->
  entry (insert_small (flipud_identity (S n)) (plain_matrix (@max_multiplier R _ dt n E) E n)) i j <= max_multiplier dt n E.
Proof.
  intros HE Hi Hj. set (mm := @max_multiplier R _ dt n E).
  pose proof (mm_ge dt n E ltac:(lia)) as [Hm0 _]. pose proof (mm_ge_1 dt n E HE) as Hm1. fold mm in Hm0, Hm1.
  assert (Hb : rect (S n) (S n) (@flipud_identity R _ (S n))) by (rewrite flipud_tab; apply tab_rect).
  assert (Hbe : nth j (nth i (@flipud_identity R _ (S n)) []) 0 = if Nat.eqb (i + j + 1) (S n) then 1 else 0).
  { rewrite flipud_tab. apply (tab_entry (S n) (S n) (fun i j => if Nat.eqb (i + j + 1) (S n) then 1 else 0) i j Hi Hj). }
  assert (Hs : Forall (fun r => length r = n) (@plain_matrix R _ mm E n)) by (rewrite plain_tab; apply tab_rect).
  rewrite insert_small_fold. unfold entry. destruct (insert_rows n _ _ Hb Hs _ (proj1 Hb) i Hi) as [E0|(r & Hr & Er & E0)]; rewrite E0.
  - rewrite Hbe. destruct (Nat.eqb _ _); lra.
  - assert (Lr : length r = n) by (rewrite Forall_forall in Hs; now apply Hs).
    rewrite (shifted_nth _ _ n); [|destruct Hb as [L F]; rewrite Forall_forall in F; apply F, nth_In; lia|exact Lr]. rewrite Hbe.
    unfold plain_matrix in Hr. apply in_map_iff in Hr as (e & <- & _). destruct j as [|j]; [destruct (Nat.eqb _ _); lra|].
    rewrite nth_map_seq by lia. pose proof (plain_nonneg mm e j Hm0) as Hpn.
    destruct (Nat.eqb_spec (i + S j + 1) (S n)) as [Eij|]; [|lra].
    assert (Hf : Rltb 0 (plain_entry mm e j) = false).
    { refine (count_up (fun j => Rltb 0 (plain_entry mm e j)) n j _ _).
      - intros i1 i2 H12 H1. apply plain_positive in H1; [|lra]. apply plain_positive; [lra|].
        assert (INR (S i1) <= INR (S i2)) by (apply le_INR; lia). lra.
      - rewrite <- n_positive_plain. lia. }
    apply Rltb_false in Hf. lra.
Qed.
Lemma mm_mono dt n n' E : (0 < E)%nat -> (n <= n')%nat -> @max_multiplier R _ dt n E <= max_multiplier dt n' E.
Proof.
  intros HE Hn. unfold max_multiplier. destruct dt; rewrite !nofN_INR.
  - apply le_INR. unfold ceil_div. apply Nat.div_le_mono; lia.
  - rnum. assert (0 < INR E) by (apply lt_0_INR; lia). apply Rmult_le_compat_r; [left; now apply Rinv_0_lt_compat|]. now apply le_INR.
Qed.
Lemma standard_most dt n express offset i j : (0 < n)%nat -> ~ bad_express true n express ->
  (j < n + offset)%nat -> (i < length (@standard_full_matrix R _ true dt n express offset))%nat ->
  entry (standard_full_matrix true dt n express offset) i j <= max_multiplier dt (n + offset) (passes_for (n + offset) express).
Proof.
  intros Hn Hb Hj Hi. destruct (standard_full_cases true dt n express offset Hn) as [(_ & H2 & H3 & E)|[[H1 _]|[_ E]]]; [| contradiction|].
  - destruct (insert_full dt (n - 1 + offset) express ltac:(lia)) as [[[FL _] _ _ _] _]. rewrite E in *. rewrite FL in Hi.
    assert (EU : passes_for (n + offset) express = express) by (unfold passes_for; destruct (Nat.eqb_spec express 0); lia). rewrite EU.
    eapply Rle_trans; [apply insert_most; lia|]. apply mm_mono; lia.
  - cbv zeta in E. rewrite E in *. change (express_used (n + offset) express) with (passes_for (n + offset) express) in *.
    destruct (express_used_pos (n + offset) express ltac:(lia)) as [U1 _]. change (express_used (n + offset) express) with (passes_for (n + offset) express) in U1.
    assert (Li : (i < passes_for (n + offset) express)%nat) by (rewrite plain_tab in Hi; unfold tab in Hi; rewrite map_length, seq_length in Hi; exact Hi).
    rewrite plain_tab, tab_entry by assumption. apply plain_nonneg. now apply mm_ge.
Qed.

(** ** The pixels of every pass *)
Lemma range_sorted b : StronglySorted Z.lt (py_range 0 b).
Proof.
  unfold py_range. assert (G : forall k s, StronglySorted Z.lt (map (fun k => (0 + Z.of_nat k)%Z) (seq s k))).
  { induction k as [|k IH]; intros s; cbn [seq map]; constructor; [apply IH|]. apply Forall_forall. intros z Hz. apply in_map_iff in Hz as (x & <- & Hx). apply in_seq in Hx. lia. }
  apply G.
Qed.
Lemma cells_good most N window : StronglySorted Z.lt window -> Forall (fun w => (0 <= w < Z.of_nat N)%Z) window -> forall mults monitors saves,
  Forall (fun x => 0 <= x <= most) mults -> Forall (fun s => s = false) saves -> good_cells most N (cells_of window mults monitors saves).
Proof.
  unfold cells_of. intros HS HN. induction HS as [|w window HS IH HF]; intros mults monitors saves Hm Hs; [split; constructor|].
  inversion HN as [|? ? Hw HN']; subst. destruct mults as [|m mults]; [split; constructor|]. inversion Hm as [|? ? Hm1 Hm2]; subst.
  destruct monitors as [|b monitors]; [split; constructor|]. destruct saves as [|s saves]; [split; constructor|]. inversion Hs as [|? ? Hs1 Hs2]; subst.
  cbn [combine flat_map]. specialize (IH HN' mults monitors saves Hm2 Hs2). destruct b; [|exact IH]. destruct IH as [I1 I2]. split; constructor; auto.
  - apply Forall_forall. intros [[r x] s] Hin. apply in_flat_map in Hin as ([r' [x' [b' s']]] & H1 & H2). apply in_combine_l in H1. destruct b'; [|destruct H2].
    destruct H2 as [H2|[]]. injection H2 as -> _ _. rewrite Forall_forall in HF. exact (HF r H1).
  - repeat split; cbn; (lia || lra).
Qed.
Definition the_passes (rows : nat) (em : matrix R) (mon : list (list bool)) : list (list (Z * R * bool)) :=
  map (fun '(e, m) => cells_of (py_range 0 (Z.of_nat rows)) e m (map (fun _ => false) e)) (combine em mon).
Lemma passes_good dt rows express offset tw em mon : (0 < rows)%nat -> ~ bad_express true rows express -> tw_ok tw ->
  standard_express true dt (py_range 0 (Z.of_nat rows)) express offset (tw_arg tw) = Ok (em, mon) ->
  Forall (good_cells (@max_multiplier R _ dt (rows + offset) (passes_for (rows + offset) express)) rows) (the_passes rows em mon).
Proof.
  intros Hr Hb Htw HE. set (M := max_multiplier _ _ _).
  destruct (standard_express_ok true dt (py_range 0 (Z.of_nat rows)) rows express offset (window_ok_range rows Hr) tw Hb Htw) as (E & em' & mon' & E' & R1 & R2 & Hf & He).
  rewrite HE in E'. injection E' as <- <-. cbv zeta in He. pose proof Hf as [F1 F2 F3 F4]. destruct R1 as [L1 R1].
  assert (EM : Forall (Forall (fun x => 0 <= x <= M)) em).
  { apply Forall_forall. intros r Hin. apply (In_nth _ _ []) in Hin as (i & Hi & <-). apply Forall_forall. intros x Hx. apply (In_nth _ _ 0) in Hx as (j & Hj & <-).
    assert (Lj : (j < rows)%nat).
    { rewrite Forall_forall in R1. rewrite (R1 (nth i em [])) in Hj by now apply nth_In. rewrite py_range_length in Hj. lia. }
    destruct (He i j (Z.of_nat j) ltac:(lia)) as [He1 _]; [rewrite py_range_nth_error by lia; f_equal; lia|]. unfold entry in He1 at 1. rewrite He1. rewrite Nat2Z.id.
    set (m := standard_full_matrix true dt rows express offset) in *.
    pose proof (before_mono m E _ i (offset + j) F1 F3 ltac:(lia)) as Hbm. assert (Hmost : entry m i (offset + j) <= M) by (apply standard_most; auto; [lia|destruct F1 as [F1 _]; fold m; lia]).
    cbn [transfers_before] in *. unfold tw_part. destruct tw as [[a b]|]; [|lra].
    pose proof (overlap_bounds _ _ (IZR a) (IZR b) Hbm). lra. }
  unfold the_passes. apply Forall_forall. intros cells Hin. apply in_map_iff in Hin as ((e & m) & <- & Hin). apply in_combine_l in Hin. rewrite Forall_forall in EM.
  apply cells_good; [apply range_sorted| |now apply EM|].
  - apply Forall_forall. intros w Hw. apply py_range_in in Hw. lia.
  - apply Forall_map, Forall_forall. reflexivity.
Qed.

(** ** One direction *)
Section Direction.
Context (steps : list (R * list (roe_phase R))) (c : ccd R) (traps : traps_arg R) (dwell : list R) (group : list (trap R)) (most : R).
Hypothesis Hplain : plain_ccd c.
Hypothesis Hphases : (ccd_n_phases c <= length dwell)%nat.
Hypothesis Hinst : instant_traps traps.
Hypothesis Hone : groups_in traps = [group].
Hypothesis Hclock : steps = timed_steps (built (Standard true) dwell DFloat true true).
Hypothesis Hmost : 1 <= most.
Hypothesis Hmild : forall k, (k < ccd_n_phases c)%nat -> exists full beta, phase_params c k 0 beta full /\
  1 <= beta /\ most * in_pixel (map (thinned (share c k)) group) * beta < full.
Definition weighted_map (passes : list (list (Z * R * bool))) : list R -> list R := fun x =>
  map (fun i => readout (site_of c (groups_in traps)) (trap_phases c) steps passes (col_of (map (Rmax 0) x)) (Z.of_nat i)) (seq 0 (length x)).
Lemma direction_steady n passes : Forall (good_cells most n) passes -> exists gain big, 0 < gain <= 1 /\ 0 <= big /\ steady gain big (weighted_map passes).
Proof.
  intros Hpass. pose proof Hinst as [_ HI]. rewrite Hone in HI. inversion HI as [|? ? [Hne HG] _]; subst.
  assert (Gp : Forall physical group) by (eapply Forall_impl; [|exact HG]; intros t [Ht _]; exact Ht).
  assert (KP : forall k, In k (trap_phases c) -> (k < ccd_n_phases c)%nat) by (intros k Hk; unfold trap_phases in Hk; apply filter_In in Hk as [Hk _]; apply in_seq in Hk; lia).
  set (grp := fun k => map (thinned (share c k)) group).
  set (full := fun k => nth k (ccd_full_well c) 1). set (beta := fun k => nth k (ccd_fill_power c) 1).
  assert (GP : forall k, Forall physical (grp k)) by (intros k; apply thinned_physical; [apply (pc_share _ Hplain)|exact Gp]).
  assert (PP : forall k, In k (trap_phases c) -> 0 < full k /\ 1 <= beta k /\ most * in_pixel (grp k) * beta k < full k).
  { intros k Hk. apply KP in Hk. destruct (Hmild k Hk) as (fu & be & P1 & P2 & P3). destruct P1 as [Q1 Q2 Q3].
    assert (E1 : full k = fu) by (unfold full; apply nth_error_nth; exact Q3). assert (E2 : beta k = be) by (unfold beta; apply nth_error_nth; exact Q2). rewrite E1, E2.
    destruct (pc_phase _ Hplain k Hk) as (fu' & be' & [_ _ R3] & R4 & _). split; [congruence|]. split; [exact P2|]. exact P3. }
  set (sl := fun k => slope_of (full k) (beta k) 0).
  assert (GR : forall k, In k (trap_phases c) -> gradual (grp k) (depth (full k) (beta k)) 0 (sl k) /\ 0 < 1 - most * (in_pixel (grp k) * sl k)).
  { intros k Hk. destruct (PP k Hk) as (P1 & P2 & P3). pose proof (physical_density _ (GP k)) as Hd. split.
    - apply mild_gradual; [exact P1|lra|exact Hd|]. left. split; [reflexivity|]. split; [exact P2|]. fold grp.
      apply Rle_lt_trans with (2 := P3). apply Rmult_le_compat_r; [lra|]. rewrite <- (Rmult_1_l (in_pixel (grp k))) at 1. apply Rmult_le_compat_r; lra.
    - unfold sl, slope_of. destruct (Req_EM_T 0 0); [|lra]. assert (most * (in_pixel (grp k) * (beta k / full k)) < 1); [|lra].
      apply (Rmult_lt_reg_r (full k)); [exact P1|]. replace (most * (in_pixel (grp k) * (beta k / full k)) * full k) with (most * in_pixel (grp k) * beta k) by (field; lra). lra. }
  destruct (least_of (fun k => 1 - most * (in_pixel (grp k) * sl k)) (trap_phases c)) as (gam & Hgam & HG1); [intros k Hk; now apply GR|].
  assert (EL : forall e es k, In (e, es) (timed_steps (built (Standard true) dwell DFloat true true)) -> In k (trap_phases c) -> forward (electrode es k) /\ lossless 2 0 (electrode es k)).
  { intros e es k Hin Hk. apply KP in Hk.
    destruct (electrode_ok dwell DFloat k e es ltac:(lia) Hin) as [E1 E2]. split; [exact E1|]. apply (E2 1%nat 0%Z). lia. }
  exists (gain_on (trap_phases c) (timed_steps (built (Standard true) dwell DFloat true true)) gam passes), (big_on (trap_phases c) (timed_steps (built (Standard true) dwell DFloat true true)) most passes).
  split; [split; [apply gain_on_pos; lra|apply gain_on_01; lra]|]. split; [now apply big_on_pos|].
  unfold weighted_map. rewrite Hone, Hclock. apply (weighted_steady (site_of c [group]) (trap_phases c) (timed_steps (built (Standard true) dwell DFloat true true)) grp sl gam most) with (M := n).
  - apply NoDup_filter, seq_NoDup.
  - intros k _. reflexivity.
  - intros k _. apply GP.
  - intros k Hk. now apply GR.
  - intros k a Hk Ha. destruct (PP k Hk) as (P1 & P2 & _). cbn [site_well site_of]. fold (full k) (beta k). apply sensitive_range; [apply depth_sensitive; lra|exact Ha].
  - intros k a Hk Ha. cbn [site_well site_of]. unfold depth. destruct (Rle_dec a 0); [reflexivity|contradiction].
  - lra.
  - exact Hmost.
  - intros k Hk. specialize (HG1 k Hk). cbv beta in HG1. lra.
  - intros e es Hin. now apply timed_in in Hin.
  - intros e es k Hin Hk. destruct (EL e es k Hin Hk) as [[F1 F2] (L1 & L2 & L3)]. split; [|split].
    + eapply Forall_impl; [|exact L1]. intros [x f] [Hx Hf]. split; [lia|exact Hf].
    + exact L2.
    + intros H. rewrite (L3 H), (F1 H). auto.
  - intros e es k Hin Hk. now apply EL with e.
  - exact Hpass.
Qed.
End Direction.
Lemma plus_same (l : list R) : Forall (Rle 0) l -> map (Rmax 0) l = l.
Proof. induction 1 as [|a l Ha Hl IH]; cbn [map]; [reflexivity|]. rewrite IH, Rmax_right by exact Ha. reflexivity. Qed.
Lemma column_plus (im : image R) j : nonneg im -> map (Rmax 0) (column_of im j) = column_of im j.
Proof. intros H. apply plus_same, Forall_forall. intros x Hx. unfold column_of in Hx. apply in_map_iff in Hx as (r & <- & Hr). apply (In_nth _ _ []) in Hr as (i & Hi & <-). apply (H i j). Qed.
Lemma express_direction_map d n tw : (0 < n)%nat -> tw_ok tw -> gentle_express d n -> exists gain big G, 0 < gain <= 1 /\ 0 <= big /\ steady gain big G /\
  forall im cols, shape n cols im -> nonneg im ->
  exists im', match d_traps d with None => Ok (im, the_roe d)
      | Some traps => clock_direction im d (the_roe d) traps (py_range 0 (Z.of_nat n)) (py_range 0 (Z.of_nat cols)) (tw_arg tw) end = Ok (im', the_roe d) /\
    shape n cols im' /\ nonneg im' /\ forall j, (j < cols)%nat -> column_of im' j = G (column_of im j).
Proof.
  intros Hn Htw [_ [->|(c & traps & dwell & dt & group & Hset & Hone & Hm)]].
  - exists 1, 1, (fun x => x). split; [lra|]. split; [lra|]. split; [apply steady_id|]. intros im cols Hs Hp. exists im. auto.
  - assert (Hb : ~ bad_express true n (d_express d)) by (intros (_ & B2 & B3); destruct (ps_express _ _ _ _ _ _ Hset); contradiction).
    destruct (standard_express_ok true dt (py_range 0 (Z.of_nat n)) n (d_express d) (d_offset d) (window_ok_range n Hn) tw Hb Htw) as (E & em & mon & EE & _).
    pose proof (passes_good dt n (d_express d) (d_offset d) tw em mon Hn Hb Htw EE) as HP.
    destruct (direction_steady (timed_steps (the_roe d)) c traps dwell group (max_multiplier dt (n + d_offset d) (passes_for (n + d_offset d) (d_express d)))
      (ps_plain _ _ _ _ _ _ Hset) (ps_phases _ _ _ _ _ _ Hset) (ps_instant _ _ _ _ _ _ Hset) Hone) with (n := n) (passes := the_passes n em mon) as (gain & big & Hg & Hbig & HT); [| | |exact HP|].
    { rewrite (plain_roe _ _ _ _ _ _ Hset). reflexivity. }
    { apply mm_ge_1. apply express_used_pos. lia. }
    { intros k Hk. apply Hm; [exact Hk|]. apply multiplier_per_pass. apply express_used_pos. lia. }
    exists gain, big, (weighted_map (timed_steps (the_roe d)) c traps (the_passes n em mon)). split; [exact Hg|]. split; [exact Hbig|]. split; [exact HT|].
    intros im cols Hs Hp. rewrite (ps_traps _ _ _ _ _ _ Hset).
    destruct (plain_clocking im d n c traps dwell dt (py_range 0 (Z.of_nat cols)) tw n cols Hset eq_refl Hs Hn Hp)
      as (im' & em' & mon' & EE' & E2 & G1 & G2 & _ & G4); [apply range_in_range|apply py_range_nodup|exact Htw|]. rewrite EE in EE'. injection EE' as <- <-. fold (the_passes n em mon) in G4.
    rewrite <- (plain_roe _ _ _ _ _ _ Hset) in *. exists im'. split; [exact E2|]. split; [exact G1|]. split; [exact G2|].
    intros j Hj. apply (nth_ext _ _ 0 0).
    + rewrite (st_length _ _ _ HT), (column_length im' n cols j G1), (column_length im n cols j Hs). reflexivity.
    + intros i Hi. rewrite (column_length im' n cols j G1) in Hi. rewrite nth_column, (G4 i j Hi) by (apply in_py_range; lia).
      unfold weighted_map. rewrite (column_length im n cols j Hs), (column_plus im j Hp), <- column_fun. now rewrite nth_map_seq.
Qed.

(** ** Both directions *)
Section Both.
Context (parallel serial : direction R) (rows cols : nat).
Hypothesis Hr : (0 < rows)%nat.
Hypothesis Hc : (0 < cols)%nat.
Hypothesis Hpar : gentle_express parallel rows.
Hypothesis Hser : gentle_express serial cols.
Lemma express_map : exists gain big F, 0 < gain <= 1 /\ 0 <= big /\ steady gain big F /\
  forall im, shape rows cols im -> nonneg im ->
  exists im', add_cti im parallel serial None = Ok (im', the_roe parallel, the_roe serial) /\ shape rows cols im' /\ nonneg im' /\ concat im' = F (concat im).
Proof.
  destruct (express_direction_map parallel rows (Some (0%Z, Z.of_nat (rows + d_offset parallel))) Hr ltac:(cbn; lia) Hpar) as (g1 & b1 & G1 & Hg1 & Hb1 & T1 & A1).
  destruct (express_direction_map serial cols None Hc I Hser) as (g2 & b2 & G2 & Hg2 & Hb2 & T2 & A2).
  exists (g1 * g2), (b1 * b2), (fun x => on_rows cols G2 (on_columns cols G1 x)). split; [split; [apply Rmult_lt_0_compat; lra|rewrite <- (Rmult_1_l 1); apply Rmult_le_compat; lra]|].
  split; [now apply Rmult_le_pos|].
  split; [apply (steady_compose g1 g2 b1 b2 (on_columns cols G1) (on_rows cols G2)); [lra|lra|now apply on_columns_steady|now apply on_rows_steady]|].
  intros im Hs Hp. pose proof Hs as [Lim _]. pose proof (MainReadoutFacts.shape_columns rows cols im Hs Hr) as Ncol. destruct Hpar as [Wp _]. destruct Hser as [Ws _].
  unfold add_cti. rewrite Wp, Ws, Lim, Ncol. cbn [resolve_window resolve_time_window bind].
  destruct (A1 im cols Hs Hp) as (im1 & E1 & S1 & P1 & C1). cbn [tw_arg option_map] in E1. rewrite E1. cbn [bind].
  assert (F1 : concat im1 = on_columns cols G1 (concat im)) by (eapply (steady_columns_flat cols Hc G1); eauto).
  assert (St : shape cols rows (transpose im1)) by (apply transpose_shape; assumption).
  assert (Pt : nonneg (transpose im1)) by (intros i j; rewrite (transpose_pixel_all rows cols) by assumption; apply P1).
  destruct (A2 (transpose im1) rows St Pt) as (im2 & E2 & S2 & P2 & C2).
  assert (S2' : shape rows cols (transpose im2)) by (apply transpose_shape; assumption).
  assert (P2' : nonneg (transpose im2)) by (intros i j; rewrite (transpose_pixel_all cols rows) by assumption; apply P2).
  assert (F2 : concat (transpose im2) = on_rows cols G2 (concat im1)).
  { eapply (steady_rows_flat cols Hc G2); eauto. intros i Hi. rewrite <- (transposed_column im1 rows cols i S1 Hr Hi), <- (C2 i Hi).
    rewrite <- (transposed_column (transpose im2) rows cols i S2' Hr Hi). f_equal. apply (RemoveFacts.image_ext _ _ cols rows); [apply transpose_shape; assumption|assumption|].
    intros a b Ha Hb. rewrite (transpose_pixel_all rows cols), (transpose_pixel_all cols rows) by assumption. reflexivity. }
  destruct (d_traps serial) as [traps|] eqn:Et.
  - cbn [tw_arg option_map] in E2. rewrite E2. cbn [bind]. exists (transpose im2). split; [reflexivity|]. split; [exact S2'|]. split; [exact P2'|]. now rewrite F2, F1.
  - injection E2 as E2. subst im2. cbn [bind]. exists im1. split; [reflexivity|]. split; [exact S1|]. split; [exact P1|].
    rewrite <- F1, <- F2. f_equal. apply (RemoveFacts.image_ext _ _ rows cols); [assumption|assumption|].
    intros a b Ha Hb. rewrite (transpose_pixel_all cols rows), (transpose_pixel_all rows cols) by assumption. reflexivity.
Qed.
Lemma pair_map : exists gain big F, 0 < gain <= 1 /\ 0 <= big /\ steady gain big F /\
  forall a b, shape rows cols a -> shape rows cols b -> nonneg a -> nonneg b ->
  exists a' b', add_cti a parallel serial None = Ok (a', the_roe parallel, the_roe serial) /\ add_cti b parallel serial None = Ok (b', the_roe parallel, the_roe serial) /\
    shape rows cols a' /\ shape rows cols b' /\ concat a' = F (concat a) /\ concat b' = F (concat b).
Proof.
  destruct express_map as (gain & big & F & Hg & Hb & HT & HF). exists gain, big, F. split; [exact Hg|]. split; [exact Hb|]. split; [exact HT|]. intros a b Sa Sb Pa Pb.
  destruct (HF a Sa Pa) as (a' & Ea & Sa' & Pa' & Fa). destruct (HF b Sb Pb) as (b' & Eb & Sb' & Pb' & Fb). exists a', b'. auto 10.
Qed.
Lemma express_order a b : shape rows cols a -> shape rows cols b -> nonneg a -> (forall i j, (i < rows)%nat -> (j < cols)%nat -> pixel a i j <= pixel b i j) ->
  exists a' b', add_cti a parallel serial None = Ok (a', the_roe parallel, the_roe serial) /\
    add_cti b parallel serial None = Ok (b', the_roe parallel, the_roe serial) /\
    forall i j, (i < rows)%nat -> (j < cols)%nat -> pixel a' i j <= pixel b' i j.
Proof.
  intros Sa Sb Pa Hab. destruct pair_map as (gain & big & F & Hg & _ & HT & HF).
  assert (Pb : nonneg b) by (apply (shape_nonneg rows cols Hr Hc b Sb); intros i j Hi Hj; specialize (Hab i j Hi Hj); specialize (Pa i j); lra).
  destruct (HF a b Sa Sb Pa Pb) as (a' & b' & Ea & Eb & Sa' & Sb' & Fa & Fb). exists a', b'. split; [exact Ea|]. split; [exact Eb|].
  apply (flat_ordered rows cols Hr Hc); [assumption|assumption|]. rewrite Fa, Fb. apply (st_mono _ _ _ HT). now apply (flat_ordered rows cols Hr Hc).
Qed.
Lemma express_apart : exists K, 0 <= K /\ forall a b, shape rows cols a -> shape rows cols b -> nonneg a -> nonneg b ->
  exists a' b', add_cti a parallel serial None = Ok (a', the_roe parallel, the_roe serial) /\
    add_cti b parallel serial None = Ok (b', the_roe parallel, the_roe serial) /\ image_apart a' b' <= K * image_apart a b.
Proof.
  destruct pair_map as (gain & big & F & Hg & Hb & HT & HF). exists big. split; [exact Hb|]. intros a b Sa Sb Pa Pb.
  destruct (HF a b Sa Sb Pa Pb) as (a' & b' & Ea & Eb & Sa' & Sb' & Fa & Fb). exists a', b'. split; [exact Ea|]. split; [exact Eb|]. unfold image_apart. rewrite Fa, Fb. apply (steady_apart gain big F); [exact HT|].
  now rewrite (concat_length cols Hc a rows Sa), (concat_length cols Hc b rows Sb).
Qed.
Lemma express_injective a b out pr sr pr' sr' : shape rows cols a -> shape rows cols b -> nonneg a -> nonneg b ->
  add_cti a parallel serial None = Ok (out, pr, sr) -> add_cti b parallel serial None = Ok (out, pr', sr') -> a = b.
Proof.
  intros Sa Sb Pa Pb Ea' Eb'. destruct pair_map as (gain & big & F & Hg & _ & HT & HF).
  destruct (HF a b Sa Sb Pa Pb) as (a' & b' & Ea & Eb & Sa' & Sb' & Fa & Fb). rewrite Ea in Ea'. rewrite Eb in Eb'. injection Ea' as -> _ _. injection Eb' as -> _ _.
  apply (flat_equal rows cols Hc a b Sa Sb). apply (steady_injective gain big F HT (proj1 Hg)); [now rewrite (concat_length cols Hc a rows Sa), (concat_length cols Hc b rows Sb)|now apply flat_nonneg|now apply flat_nonneg|congruence].
Qed.

(** ** Recovery *)
Lemma express_plain d n : gentle_express d n -> plain_direction d n.
Proof. intros [H1 [H|(c & traps & dwell & dt & group & H & _)]]; split; auto. right. exists c, traps, dwell, dt. exact H. Qed.
Lemma express_recover x : shape rows cols x -> enough_charge parallel serial rows cols x ->
  exists im, add_cti x parallel serial None = Ok (im, the_roe parallel, the_roe serial) /\
  exists C r, 0 <= C /\ 0 <= r < 1 /\ forall k, exists est, remove_cti im k parallel serial None = Ok est /\ shape rows cols est /\
    image_apart est x <= C * r ^ k.
Proof.
  intros Sx Hx. destruct express_map as (gain & big & F & Hg & Hbig & HT & HF).
  assert (Px : forall i j, (i < rows)%nat -> (j < cols)%nat -> 0 < pixel x i j).
  { intros i j Hi Hj. destruct (Hx i j Hi Hj) as (p & s & Lp & Ls & H). apply limit_nonneg in Lp. apply limit_nonneg in Ls. lra. }
  assert (Nx : nonneg x) by (apply (shape_nonneg rows cols Hr Hc); [exact Sx|]; intros i j Hi Hj; left; now apply Px).
  assert (BD : forall a, shape rows cols a -> nonneg a -> exists a', add_cti a parallel serial None = Ok (a', the_roe parallel, the_roe serial) /\ shape rows cols a' /\ concat a' = F (concat a) /\
    forall i j p s, (i < rows)%nat -> (j < cols)%nat -> change_limit parallel rows i p -> change_limit serial cols j s -> Rabs (pixel a' i j - pixel a i j) <= p + s).
  { intros a Sa Pa. destruct (HF a Sa Pa) as (a' & Ea & Sa' & _ & Fa). destruct (both_bounded a parallel serial rows cols Sa Hr Hc Pa (express_plain _ _ Hpar) (express_plain _ _ Hser)) as (a2 & E2 & _ & B).
    rewrite Ea in E2. injection E2 as <-. exists a'. auto. }
  destruct (BD x Sx Nx) as (im & E & Si & Fi & Bi). exists im. split; [exact E|].
  destruct (steady_converges gain big F HT Hbig Hg (concat x)) as (C & r & HC & Hr1 & HCr).
  { apply Forall_forall. intros v Hv. apply (In_nth _ _ 0) in Hv. destruct Hv as (l & Hl & <-). rewrite (concat_length cols Hc x rows Sx) in Hl.
    pose proof (Nat.div_mod l cols ltac:(lia)) as El. pose proof (Nat.mod_upper_bound l cols ltac:(lia)) as Hm.
    assert (Hd : (l / cols < rows)%nat) by (apply Nat.div_lt_upper_bound; lia).
    replace l with (l / cols * cols + l mod cols)%nat by lia. rewrite (concat_nth cols Hc x rows) by assumption. now apply Px. }
  exists C, r. split; [exact HC|]. split; [exact Hr1|].
  assert (ST : forall k, exists est, remove_cti im k parallel serial None = Ok est /\ shape rows cols est /\ concat est = corrected F (F (concat x)) k /\
    forall i j p s, (i < rows)%nat -> (j < cols)%nat -> change_limit parallel rows i p -> change_limit serial cols j s -> Rabs (pixel est i j - pixel x i j) <= 2 * (p + s)).
  { induction k as [|k (est & Ee & Se & Ke & Be)].
    - exists im. split; [reflexivity|]. split; [exact Si|]. split; [exact Fi|]. intros i j p s Hi Hj Lp Ls. specialize (Bi i j p s Hi Hj Lp Ls). apply limit_nonneg in Lp. apply limit_nonneg in Ls. lra.
    - assert (Ne : nonneg est).
      { apply (shape_nonneg rows cols Hr Hc); [exact Se|]. intros i j Hi Hj. destruct (Hx i j Hi Hj) as (p & s & Lp & Ls & H). specialize (Be i j p s Hi Hj Lp Ls). apply Rabs_le_between in Be. lra. }
      destruct (BD est Se Ne) as (added & Ea & Sa & Fa & Ba).
      set (out := image_zip nadd est (image_zip nsub im added)).
      assert (So : shape rows cols out) by (unfold out; repeat (apply image_zip_shape; try assumption)).
      assert (Po : forall i j, (i < rows)%nat -> (j < cols)%nat -> pixel out i j = pixel est i j + (pixel im i j - pixel added i j)).
      { intros i j Hi Hj. unfold out. rewrite (image_zip_pixel _ _ _ rows cols) by (try apply image_zip_shape; assumption).
        rewrite (image_zip_pixel _ _ _ rows cols) by assumption. reflexivity. }
      exists out. split; [|split; [exact So|split]].
      + apply (remove_S im parallel serial None rows cols Si Hr Hc k out). exists est, added, (the_roe parallel), (the_roe serial).
        split; [exact Ee|]. split; [exact Ea|]. split; [exact So|exact Po].
      + cbn [corrected]. cbv zeta. rewrite <- Ke, <- Fa, <- Fi.
        apply (flat_ext cols Hc rows); [exact So| |].
        * rewrite plus_list_length; rewrite ?(concat_length cols Hc est rows Se), ?(concat_length cols Hc im rows Si), ?(concat_length cols Hc added rows Sa); reflexivity.
        * intros i j Hi Hj. rewrite plus_list_nth by (rewrite ?(concat_length cols Hc est rows Se), ?(concat_length cols Hc im rows Si), ?(concat_length cols Hc added rows Sa); nia).
          rewrite !(concat_nth cols Hc _ rows) by assumption. symmetry. now apply Po.
      + intros i j p s Hi Hj Lp Ls. rewrite (Po i j Hi Hj). specialize (Ba i j p s Hi Hj Lp Ls). specialize (Bi i j p s Hi Hj Lp Ls).
        replace (pixel est i j + (pixel im i j - pixel added i j) - pixel x i j) with ((pixel im i j - pixel x i j) - (pixel added i j - pixel est i j)) by lra.
        apply Rabs_le_between in Ba. apply Rabs_le_between in Bi. apply Rabs_le_between. lra. }
  intros k. destruct (ST k) as (est & Ee & Se & Ke & _). exists est. split; [exact Ee|]. split; [exact Se|]. unfold image_apart. rewrite Ke. apply HCr.
Qed.
End Both.

(** When every transfer is computed, this is the condition of SpecPhases.v. *)
Lemma gentle_computed d n : (0 < n)%nat -> gentle_direction d n -> gentle_express d n.
Proof.
  intros Hn [W [H|(c & traps & dwell & dt & group & H1 & H2 & H3 & H4)]]; split; auto. right. exists c, traps, dwell, dt, group. split; [exact H1|]. split; [exact H3|].
  intros k x Hk Hx. destruct (H4 k Hk) as (full & beta & P1 & P2 & P3). exists full, beta. split; [exact P1|]. split; [exact P2|].
  assert (E : passes_for (n + d_offset d) (d_express d) = (n + d_offset d)%nat) by (unfold passes_for; destruct H2 as [->|H2]; [reflexivity|destruct (Nat.eqb_spec (d_express d) 0); lia]).
  rewrite E in Hx. assert (0 < INR (n + d_offset d)) by (apply lt_0_INR; lia). assert (Q : INR (n + d_offset d) / INR (n + d_offset d) = 1) by (field; lra).
  assert (Ex : x = 1).
  { destruct dt; cbn in Hx; rewrite Q in Hx; [|exact Hx]. destruct Hx as (m & -> & [L U]). assert (L' : INR m < INR 2) by (cbn; lra). assert (U' : INR 1 <= INR m) by (cbn; lra).
    apply INR_lt in L'. apply INR_le in U'. replace m with 1%nat by lia. reflexivity. }
  rewrite Ex, Rmult_1_l. exact P3.
Qed.
