(** * Charge injection with a single phase, in terms of the history of one trap manager. *)
From Coq Require Import ZArith List Bool Reals Lra Lia Sorted FunctionalExtensionality.
From Coquelicot Require Import Rcomplements Rbar Hierarchy RInt.
From Verif Require Import Num Py RFacts CCDModel TrapsModel ManagerModel ROEModel ClockModel MainModel Spec SpecROE SpecImage SpecReadout SpecTime SpecSlow SpecHistory SpecHold SpecRecovery SpecBound SpecPhases SpecWork SpecExpressOrder SpecInjectionOrder SpecWindowOrder SpecAbove SpecFlatten SpecPatient SpecMild SpecInjected
  CallFacts WmFacts ArrayFacts InstantFacts ClockFacts MainFacts ShapeFacts ColumnFacts ReadoutImage RemoveFacts ROEClockFacts ROEMatrixFacts ROEExpressFacts ROEKindFacts ReadoutFull ReadoutForced ReadoutSpecFacts OrderFacts TameFacts DepthFacts BoundFacts MainReadoutFacts RecoverImageFacts LiftFacts GridFacts SteadyFacts ContractFacts WindowFacts WindowMainFacts MaskFacts WindowGridFacts AboveFacts AboveGridFacts InverseFacts
  TimeFacts TimeInstantFacts SlowFacts SlowSpecFacts HistoryFacts HistorySpecFacts HistoryBoundFacts TimesOrderFacts TimesGridFacts SlowOrderFacts OrderlyFacts SlowGridFacts MildFacts.
Import ListNotations.
Open Scope R_scope.

(** ** The passes *)
Lemma overlap_unit i N b : (i < N)%nat -> (N <= b)%nat -> overlap (INR i * 1) (INR (S i) * 1) (IZR 0) (IZR (Z.of_nat b)) = 1.
Proof.
  intros Hi Hb. unfold overlap. rewrite <- INR_IZR_INZ, S_INR, !Rmult_1_r. pose proof (pos_INR i) as P. pose proof (le_INR (S i) b ltac:(lia)) as L. rewrite S_INR in L.
  rewrite Rmin_left, (Rmax_left (INR i)), Rmax_right by lra. lra.
Qed.
Lemma injection_matrix rows N (em : matrix R) mon : rect N rows em -> rect N rows mon ->
  (forall e k, (e < N)%nat -> (k < rows)%nat -> entry em e k = 1 /\ bentry mon e k = true) ->
  map (fun '(e, (m, s)) => zip_cells e m s) (combine em (combine mon (map (map (fun _ => false)) em))) = repeat (cells_past 0 rows) N.
Proof.
  intros [Le He] [Lm Hm] H. unfold matrix in *.
  rewrite (map_ext _ (fun '(x, y) => (fun e (ms : list bool * list bool) => zip_cells e (fst ms) (snd ms)) x y)) by (intros [e [m s]]; reflexivity).
  transitivity (map (fun _ : nat => cells_past 0 rows) (seq 0 N)).
  2: { clear. generalize (cells_past 0 rows) as y. intros y. generalize 0%nat as s. induction N as [|N IH]; intros s; [reflexivity|]. cbn [seq map repeat]. now rewrite IH. }
  apply (combine_nth_eq (fun e (ms : list bool * list bool) => zip_cells e (fst ms) (snd ms)) [] ([], [])).
  - exact Le.
  - rewrite combine_length, map_length. lia.
  - intros e Hlt. rewrite combine_nth by (rewrite map_length; lia). cbn [fst snd]. rewrite Forall_forall in He, Hm.
    assert (L1 : length (nth e em []) = rows) by (apply He, nth_In; lia). assert (L2 : length (nth e mon []) = rows) by (apply Hm, nth_In; lia).
    assert (En : nth e (map (map (fun _ : R => false)) em) [] = map (fun _ : R => false) (nth e em [])) by exact (map_nth (map (fun _ : R => false)) em [] e). rewrite En.
    rewrite (row_cells rows 0 0); auto; try lia.
    + cbn [Nat.sub]. rewrite Nat.sub_0_r. reflexivity.
    + rewrite map_length. exact L1.
    + intros i Hi. apply (H e i Hlt Hi).
    + intros i Hi. apply (H e i Hlt Hi).
    + intros i Hi. clear. revert i. induction (nth e em []) as [|x l IH]; intros [|i]; try reflexivity. apply IH.
Qed.
Lemma used_all N express : express = 0%nat \/ (N <= express)%nat -> express_used N express = N.
Proof. intros H. unfold express_used. destruct (Nat.eqb_spec express 0); [reflexivity|]. apply Nat.min_r. lia. Qed.
Lemma injection_all npt n express offset tw : (0 < n)%nat -> (0 < injection_transfers npt n offset <= n + offset)%nat ->
  express = 0%nat \/ (injection_transfers npt n offset <= express)%nat -> tw = None \/ tw = whole n offset ->
  let N := injection_transfers npt n offset in
  exists em mon, injection_express npt DFloat (py_range 0 (Z.of_nat n)) express offset tw = Ok (N, em, mon) /\ rect N n em /\ rect N n mon /\
    forall e k, (e < N)%nat -> (k < n)%nat -> entry em e k = 1 /\ bentry mon e k = true.
Proof.
  intros Hn HN Hex Htw N.
  set (t := match tw with None => None | Some _ => Some (0%Z, Z.of_nat (n + offset)) end).
  assert (Et : tw = tw_arg t) by (destruct Htw as [->| ->]; reflexivity).
  assert (Ht : tw_ok t) by (destruct Htw as [->| ->]; cbn; [exact I|lia]).
  destruct (injection_at npt (py_range 0 (Z.of_nat n)) n express offset (window_ok_range n Hn) t ltac:(lia) Ht) as (em & mon & E & R1 & R2 & _ & H).
  cbv zeta in H. fold N in E, R1, R2, H. rewrite (used_all N express Hex) in R1, R2, H. rewrite <- Et in E. exists em, mon. split; [exact E|]. split; [exact R1|]. split; [exact R2|].
  intros e k He Hk. destruct (H e k He Hk) as [H1 H2]. split; [|exact H2]. rewrite H1.
  assert (Q : INR N / INR N = 1) by (apply Rinv_r; apply not_0_INR; fold N in HN; lia). rewrite Q.
  destruct Htw as [->| ->]; unfold t, tw_part; cbn [whole]; [rewrite S_INR; lra|]. apply (overlap_unit e N); [exact He|]. fold N in HN. lia.
Qed.

(** ** The columns *)
Section Columns.
Context (c : ccd R) (fraction d : R) (k : roe_kind) (force between : bool) (dt : dtype) (rows N : nat).
Hypothesis Hfr : ccd_fractions c = [fraction].
Hypothesis Hpos : 0 < fraction.
Hypothesis Hd : 0 < d.
Let r := make_roe k [d] dt between force 1.
Let fill : filling R := fun n => well_fill c 0 false n.
Let window := map Z.of_nat (seq 0 rows).
Context (m0 : manager R).
Hypothesis Hm0 : mshape m0.
Hypothesis Hempty : empty_all_traps m0 = m0.
Lemma injected_column m a packets : starts_from m0 m a -> atm_data a = [[m]] -> length packets = rows ->
  match before (past_manager fill d) m N m packets with
  | Ok (l, m') => exists a', clock_column c r window (repeat (cells_past 0 rows) N) (packets, a) = Ok (l, a') /\
                    atm_data a' = [[m']] /\ starts_from m0 m a' /\ length l = rows
  | Err e => clock_column c r window (repeat (cells_past 0 rows) N) (packets, a) = Err e
  end.
Proof.
  intros Ha Hm Hl. unfold clock_column. change (fun st cells => clock_pass_rows c r window cells (fst st, atm_restore (snd st))) with (a_pass c d k force between dt rows).
  pose proof (before_passes c fraction d k force between dt rows Hfr Hpos Hd m0 Hm0 m N packets m a Ha Hm ltac:(lia)) as B. rewrite Hl in B. exact B.
Qed.
Lemma injected_columns cols : forall n j im m a, shape rows cols im -> (0 < rows)%nat -> (j + n <= cols)%nat ->
  starts_from m0 m a -> atm_data a = [[m]] ->
  match columns_injected (past_manager fill d) (negb between) m0 m N (map (column_of im) (seq j n)) with
  | Ok outs => exists im' a', clock_columns c r window (map Z.of_nat (seq j n)) (repeat (cells_past 0 rows) N) (im, a) = Ok (im', a') /\
                 shape rows cols im' /\ length outs = n /\
                 (forall i, (i < n)%nat -> column_of im' (j + i) = nth i outs []) /\
                 (forall q, (q < cols)%nat -> (q < j \/ j + n <= q)%nat -> column_of im' q = column_of im q)
  | Err e => clock_columns c r window (map Z.of_nat (seq j n)) (repeat (cells_past 0 rows) N) (im, a) = Err e
  end.
Proof.
  induction n as [|n IH]; intros j im m a Hs Hr Hj Ha Hm; cbn [seq map columns_injected].
  - exists im, a. split; [reflexivity|]. split; [exact Hs|]. split; [reflexivity|]. split; [intros; lia|reflexivity].
  - unfold clock_columns. cbn [foldM]. unfold clock_one_column at 1 3. rewrite (shape_n_columns rows cols im Hs Hr).
    replace ((0 <=? Z.of_nat j) && (Z.of_nat j <? Z.of_nat cols))%Z with true by (symmetry; apply andb_true_intro; split; [apply Z.leb_le|apply Z.ltb_lt]; lia).
    rewrite Nat2Z.id. change (get_column im j) with (column_of im j).
    pose proof (injected_column m a (column_of im j) Ha Hm ltac:(rewrite column_length; apply Hs)) as C.
    destruct (before (past_manager fill d) m N m (column_of im j)) as [[out s]|e]; [|rewrite C; reflexivity].
    destruct C as (a1 & -> & C2 & C3 & C4). cbn [bind].
    destruct (single_end d k force between dt m0 Hm0 Hempty m a1 s C3 C2) as [E1 E2]. fold r in E1, E2.
    pose proof (set_column_shape rows cols im j out Hs C4) as Hs1.
    specialize (IH (S j) (set_column im j out) _ _ Hs1 Hr ltac:(lia) E1 E2). unfold clock_columns in IH.
    rewrite (map_ext_in (column_of (set_column im j out)) (column_of im)) in IH
      by (intros q Hq; apply in_seq in Hq; apply (set_column_other rows cols); auto; lia).
    destruct (columns_injected (past_manager fill d) (negb between) m0 (if negb between then s else m0) N (map (column_of im) (seq (S j) n))) as [outs|e];
      cbn [bind]; [|exact IH].
    destruct IH as (im' & a' & I1 & I2 & I3 & I4 & I5). exists im', a'. split; [exact I1|]. split; [exact I2|]. split; [cbn [length]; lia|]. split.
    + intros [|i] Hi; cbn [nth].
      * rewrite Nat.add_0_r, I5 by lia. apply (set_column_same rows cols); auto. lia.
      * rewrite <- I4 by lia. f_equal. lia.
    + intros q Hq Hqj. rewrite I5 by lia. apply (set_column_other rows cols); auto. lia.
Qed.
End Columns.
Lemma chosen_injected c fraction d k force dt rows N m0 cols (out : list R -> list R) :
  ccd_fractions c = [fraction] -> 0 < fraction -> 0 < d -> mshape m0 -> empty_all_traps m0 = m0 -> (0 < rows)%nat ->
  let r := make_roe k [d] dt true force 1 in
  forall columns im a, columns_ok columns cols -> shape rows cols im -> starts_from m0 m0 a -> atm_data a = [[m0]] ->
  (forall z, In z columns -> exists s, before (past_manager (fun n => well_fill c 0 false n) d) m0 N m0 (column_of im (Z.to_nat z)) = Ok (out (column_of im (Z.to_nat z)), s)) ->
  exists im' a', clock_columns c r (map Z.of_nat (seq 0 rows)) columns (repeat (cells_past 0 rows) N) (im, a) = Ok (im', a') /\ shape rows cols im' /\
    forall q, (q < cols)%nat -> column_of im' q = if listed columns q then out (column_of im q) else column_of im q.
Proof.
  intros Hfr Hpos Hd Hm0 Hem Hr r. induction columns as [|z columns IH]; intros im a [Hnd Hin] Hs Ha Hm Hcol.
  - exists im, a. split; [reflexivity|]. split; [exact Hs|]. reflexivity.
  - pose proof (Hin z (or_introl eq_refl)) as Hz. inversion Hnd as [|? ? Hz' Hnd']; subst.
    unfold clock_columns. cbn [foldM]. unfold clock_one_column at 1. rewrite (shape_n_columns rows cols im Hs Hr).
    replace ((0 <=? z) && (z <? Z.of_nat cols))%Z with true by (symmetry; apply andb_true_intro; split; [apply Z.leb_le|apply Z.ltb_lt]; lia).
    change (get_column im (Z.to_nat z)) with (column_of im (Z.to_nat z)).
    pose proof (injected_column c fraction d k force true dt rows N Hfr Hpos Hd m0 Hm0 m0 a (column_of im (Z.to_nat z)) Ha Hm ltac:(rewrite column_length; apply Hs)) as C.
    destruct (Hcol z (or_introl eq_refl)) as [s Es]. rewrite Es in C. destruct C as (a1 & C1 & C2 & C3 & C4). fold r in C1. rewrite C1. cbn [bind].
    destruct (single_end d k force true dt m0 Hm0 Hem m0 a1 s C3 C2) as [E1 E2]. cbn [negb] in E1, E2. fold r in E1, E2.
    pose proof (set_column_shape rows cols im (Z.to_nat z) _ Hs C4) as Hs1.
    assert (O : forall q, (q < cols)%nat -> q <> Z.to_nat z -> column_of (set_column im (Z.to_nat z) (out (column_of im (Z.to_nat z)))) q = column_of im q)
      by (intros q Hq Hne; apply (set_column_other rows cols); auto; lia).
    destruct (IH (set_column im (Z.to_nat z) (out (column_of im (Z.to_nat z)))) _ (conj Hnd' (fun y H => Hin y (or_intror H))) Hs1 E1 E2) as (im' & a' & I1 & I2 & I3).
    { intros y Hy. rewrite O; [now apply Hcol; right|specialize (Hin y (or_intror Hy)); lia|]. intros E. specialize (Hin y (or_intror Hy)). assert (y = z) by lia. subst. contradiction. }
    exists im', a'. split; [exact I1|]. split; [exact I2|]. intros q Hq. rewrite (I3 q Hq). unfold listed. cbn [existsb].
    destruct (Z.eqb_spec (Z.of_nat q) z) as [E|E]; cbn [orb].
    + subst z. rewrite Nat2Z.id in *. assert (L : existsb (Z.eqb (Z.of_nat q)) columns = false).
      { destruct (existsb (Z.eqb (Z.of_nat q)) columns) eqn:L; [|reflexivity]. apply (listed_in columns q) in L. contradiction. }
      rewrite L. apply (set_column_same rows cols); auto.
    + rewrite O by lia. reflexivity.
Qed.

(** ** One direction *)
Lemma counted_make npt d dt between force n N : counted (make_roe (Injection npt) d dt between force n) N = make_roe (Injection (Some N)) d dt between force n.
Proof. reflexivity. Qed.
(** Everything before the loop over the columns. *)
Lemma injection_loop im d n c fraction group dwell npt keep tw cols columns : (0 < n)%nat -> shape n cols im ->
  single_injection d n c fraction group dwell npt keep -> tw = None \/ tw = whole n (d_offset d) ->
  let N := injection_transfers npt n (d_offset d) in
  let m0 := empty_manager fraction group n in
  exists traps force, d_traps d = Some traps /\
    the_roe d = make_roe (Injection npt) [dwell] DFloat (negb keep) force 1 /\
    let r' := make_roe (Injection (Some N)) [dwell] DFloat (negb keep) force 1 in
    clock_direction im d (the_roe d) traps (selected (d_window d) n) columns tw =
      (do '(im', _) <- clock_columns c r' (map Z.of_nat (seq 0 n)) columns (repeat (cells_past 0 n) N) (im, mkATM [[m0]] None 0 0); Ok (im', r')) /\
    mshape m0 /\ empty_all_traps m0 = m0 /\ starts_from m0 m0 (mkATM [[m0]] None 0 0).
Proof.
  intros Hr Hs [Hccd Hfr Hph Hpos (traps & Htr & Hg) Hgr (force & Hroe) Hd Hw HN Hex] Htw N empty. exists traps, force. split; [exact Htr|].
  assert (Er : the_roe d = make_roe (Injection npt) [dwell] DFloat (negb keep) force 1) by (unfold the_roe; rewrite Hroe; reflexivity). split; [exact Er|]. intros r'.
  assert (Hm0 : mshape empty).
  { unfold mshape, empty, empty_manager. cbn [m_traps m_wm]. rewrite map_length. split; [reflexivity|]. apply Forall_forall. intros x Hx. apply repeat_spec in Hx. subst. cbn. apply repeat_length. }
  assert (Hem : empty_all_traps empty = empty).
  { rewrite (empty_eq empty Hm0). unfold empty, empty_manager. cbn [m_traps m_wm m_kind]. rewrite map_length, repeat_length. reflexivity. }
  assert (Hk0 : dkeeps [[empty]] [[empty]]) by (apply dkeeps_refl; constructor; [constructor; [exact Hm0|constructor]|constructor]).
  split; [|split; [exact Hm0|split; [exact Hem|split; [cbn; rewrite Hem; reflexivity|split; [exact Hk0|discriminate]]]]].
  rewrite Er. unfold clock_direction. rewrite Hccd, Hw, <- resolve_selected. cbn [resolve_window].
  unfold clock_charge_in_one_direction.
  destruct (injection_all npt n (d_express d) (d_offset d) tw Hr HN Hex Htw) as (em & mon & Eex & H1 & H2 & H3). fold N in Eex, H1, H2, H3.
  unfold express_and_monitor. cbn [make_roe roe_kind_of roe_dtype]. rewrite Eex. cbn [bind].
  match goal with |- context [save_matrix ?x] => change x with r' end.
  change (save_matrix r' em) with (Ok (map (map (fun _ : R => false)) em)). cbn [bind].
  assert (Ne : max_n_transfers r' (length em) match em with [] => 0%nat | row :: _ => length row end = n).
  { unfold max_n_transfers. cbn [r' make_roe roe_kind_of]. unfold r'. rewrite (single_steps dwell (Injection (Some N)) force (negb keep) DFloat Hd). cbn [length]. destruct em as [|row em].
    - destruct H1 as [H1 _]. cbn [length] in H1. fold N in HN. lia.
    - destruct H1 as [_ H1]. inversion H1; subst. lia. }
  rewrite Ne.
  assert (Ea : atm_init traps n c = Ok (mkATM [[empty]] None 0 0)).
  { unfold atm_init. rewrite (groups_one traps group Hg Hgr), Hph. cbn [bind seq mapM]. rewrite Hfr. cbn [nth_error of_option].
    destruct group as [|t g]; [contradiction|]. cbn [kind_of_group bind]. unfold empty, empty_manager, manager_init, kind_for. cbn [m_kind m_traps m_wm length].
    do 5 f_equal. unfold zero_row. cbn [length]. f_equal. destruct (t_class t); cbn [n_watermarks_per_transfer]; lia. }
  rewrite Ea. cbn [bind].
  assert (En : n_padding r' = Ok 0%nat) by (unfold n_padding, r', make_roe, generate_clock_sequence; cbn [roe_pixels]; destruct force; reflexivity).
  rewrite En. cbn [bind]. rewrite (injection_matrix n N em mon H1 H2 H3).
  assert (Ep : pad im 0 = im) by (unfold pad; cbn [repeat]; apply app_nil_r). rewrite Ep, !py_range_0.
  destruct (clock_columns _ _ _ _ _ _) as [[im' a']|e]; [|reflexivity]. cbn [bind]. unfold unpad. rewrite Nat.sub_0_r, firstn_all. reflexivity.
Qed.
Lemma injected_past d n c fraction group dwell npt (out : list R -> list R) tw im cols columns : (0 < n)%nat ->
  single_injection d n c fraction group dwell npt false -> tw = None \/ tw = whole n (d_offset d) ->
  shape n cols im -> columns_ok columns cols ->
  let N := injection_transfers npt n (d_offset d) in
  (forall z, In z columns -> exists s, before (past_manager (fun n => well_fill c 0 false n) dwell) (empty_manager fraction group n) N (empty_manager fraction group n) (column_of im (Z.to_nat z)) = Ok (out (column_of im (Z.to_nat z)), s)) ->
  exists traps im', d_traps d = Some traps /\ clock_direction im d (the_roe d) traps (selected (d_window d) n) columns tw = Ok (im', counted (the_roe d) N) /\ shape n cols im' /\
    forall q, (q < cols)%nat -> column_of im' q = if listed columns q then out (column_of im q) else column_of im q.
Proof.
  intros Hr H Htw Hs Hcols N Hcol.
  destruct (injection_loop im d n c fraction group dwell npt false tw cols columns Hr Hs H Htw) as (traps & force & Htr & Er & E & Hm0 & Hem & Hst).
  destruct (chosen_injected c fraction dwell (Injection (Some N)) force DFloat n N (empty_manager fraction group n) cols out (si_fractions _ _ _ _ _ _ _ _ H) (si_share _ _ _ _ _ _ _ _ H) (si_dwell _ _ _ _ _ _ _ _ H) Hm0 Hem Hr columns im _ Hcols Hs Hst eq_refl Hcol) as (im' & a' & C1 & C2 & C3).
  exists traps, im'. split; [exact Htr|]. split; [|split; [exact C2|exact C3]]. rewrite E. cbn [negb]. fold N. rewrite C1. cbn [bind]. rewrite Er. reflexivity.
Qed.
(** ** add_cti *)
Lemma injection_history im parallel serial c fraction group dwell npt keep rows cols :
  shape rows cols im -> (0 < rows)%nat -> single_injection parallel rows c fraction group dwell npt keep ->
  d_traps serial = None -> d_window serial = WNone ->
  let N := injection_transfers npt rows (d_offset parallel) in
  let empty := empty_manager fraction group rows in
  match columns_injected (past_manager (fun n => well_fill c 0 false n) dwell) keep empty empty N (map (column_of im) (seq 0 cols)) with
  | Ok outs => exists im', add_cti im parallel serial None = Ok (im', counted (the_roe parallel) N, the_roe serial) /\ shape rows cols im' /\
                 length outs = cols /\ forall j, (j < cols)%nat -> column_of im' j = nth j outs []
  | Err e => add_cti im parallel serial None = Err e
  end.
Proof.
  intros Hs Hr H Hst Hsw N empty.
  destruct (injection_loop im parallel rows c fraction group dwell npt keep (whole rows (d_offset parallel)) cols (map Z.of_nat (seq 0 cols)) Hr Hs H (or_intror eq_refl)) as (traps & force & Htr & Er & E & Hm0 & Hem & Hst0).
  rewrite (add_cti_only_parallel im parallel serial traps Htr Hst), Hsw, (shape_columns rows cols im Hs Hr). pose proof (proj1 Hs) as Hlen. rewrite Hlen.
  rewrite resolve_selected. cbn [resolve_window]. rewrite py_range_0. change (Some (py_range 0 (Z.of_nat (rows + d_offset parallel)))) with (whole rows (d_offset parallel)).
  rewrite E. fold N empty.
  pose proof (injected_columns c fraction dwell (Injection (Some N)) force (negb keep) DFloat rows N (si_fractions _ _ _ _ _ _ _ _ H) (si_share _ _ _ _ _ _ _ _ H) (si_dwell _ _ _ _ _ _ _ _ H) empty Hm0 Hem cols cols 0 im empty _ Hs Hr ltac:(lia) Hst0 eq_refl) as C.
  fold empty in C. rewrite negb_involutive in C.
  destruct (columns_injected _ keep empty empty N (map (column_of im) (seq 0 cols))) as [outs|e].
  - destruct C as (im' & a' & C1 & C2 & C3 & C4 & _). rewrite C1. cbn [bind]. exists im'. rewrite Er, counted_make.
    split; [reflexivity|split; [exact C2|split; [exact C3|exact C4]]].
  - rewrite C. reflexivity.
Qed.
