(** * Readouts of images past traps that record times: order, differences and inverse. *)
From Coq Require Import ZArith List Bool Reals Lra Lia Sorted FunctionalExtensionality.
From Coquelicot Require Import Rcomplements Rbar Hierarchy RInt.
From Verif Require Import Num Py RFacts CCDModel TrapsModel ManagerModel ROEModel ClockModel MainModel Spec SpecROE SpecImage SpecReadout SpecTime SpecHistory SpecHold SpecRecovery SpecBound SpecInjectionOrder SpecWindowOrder SpecAbove SpecFlatten
  CallFacts WmFacts ArrayFacts InstantFacts ClockFacts MainFacts ShapeFacts ColumnFacts ReadoutImage RemoveFacts ROEClockFacts ROEMatrixFacts ROEExpressFacts ROEKindFacts ReadoutFull ReadoutForced ReadoutSpecFacts OrderFacts TameFacts DepthFacts BoundFacts MainReadoutFacts RecoverImageFacts LiftFacts GridFacts SteadyFacts WindowGridFacts AboveFacts AboveGridFacts
  TimeFacts TimeInstantFacts HistoryFacts HistorySpecFacts HistoryBoundFacts TimesOrderFacts.
Import ListNotations.
Open Scope R_scope.

(** ** A column, pass by pass *)
Section Column.
Context (P : list R -> list R) (gain : R).
Hypothesis HP : tame gain 0 0 P.
Hypothesis Hgain : 0 <= gain <= 1.
Fixpoint reads_by (rows : nat) (x : list R) : list R := match rows with O => x | S k => skip (reads_by k) (P x) end.
Fixpoint enters_by (offset : nat) (x : list R) : list R := match offset with O => x | S k => enters_by k (P x) end.
Definition column_by (rows offset : nat) (x : list R) : list R := reads_by rows (enters_by offset x).
Lemma gain_pow k : 0 <= gain ^ k <= 1.
Proof. split; [apply pow_le; lra|]. pose proof (pow_incr gain 1 k ltac:(lra)) as H. rewrite pow1 in H. exact H. Qed.
Lemma reads_by_tame : forall rows, tame (gain ^ rows) 0 0 (reads_by rows).
Proof.
  induction rows as [|k IH]; [apply tame_id|]. apply (tame_compose gain (gain ^ k) 0 0 0 P (skip (reads_by k))).
  - apply gain_pow.
  - exact HP.
  - apply tame_skip; [apply gain_pow|lra|exact IH].
Qed.
Lemma enters_by_tame : forall offset, tame (gain ^ offset) 0 0 (enters_by offset).
Proof.
  induction offset as [|k IH]; [apply tame_id|]. apply (tame_compose gain (gain ^ k) 0 0 0 P (enters_by k)).
  - apply gain_pow.
  - exact HP.
  - exact IH.
Qed.
Lemma column_by_tame rows offset : tame (gain ^ (offset + rows)) 0 0 (column_by rows offset).
Proof.
  rewrite pow_add. apply (tame_compose (gain ^ offset) (gain ^ rows) 0 0 0 (enters_by offset) (reads_by rows)); [apply gain_pow|apply enters_by_tame|apply reads_by_tame].
Qed.

(** A response that agrees with [P] on packets that are large enough. *)
Context {St : Type} (past : St -> list R -> result (list R * St)) (start : St) (floor rho : R).
Hypothesis Hrho : 0 <= rho.
Hypothesis Hsame : forall l, Forall (Rle floor) l -> exists s, past start l = Ok (P l, s).
Hypothesis Hless : forall l i, Forall (Rle floor) l -> (i < length l)%nat -> nth i l 0 - rho <= nth i (P l) 0.
Lemma large_enough l k : (forall i, (i < length l)%nat -> floor + INR (k + i) * rho <= nth i l 0) -> Forall (Rle floor) l.
Proof.
  intros H. apply Forall_forall. intros x Hx. apply (In_nth _ _ 0) in Hx as (i & Hi & <-). specialize (H i Hi). pose proof (Rmult_le_pos _ _ (pos_INR (k + i)) Hrho). lra.
Qed.
Lemma reading_by : forall n last l, (length l <= n)%nat -> (forall i, (i < length l)%nat -> floor + INR (1 + i) * rho <= nth i l 0) ->
  exists s, reading past start n last l = Ok (reads_by n l, s).
Proof.
  induction n as [|n IH]; intros last l Hl Hi; cbn [reading reads_by].
  - destruct l; [|cbn in Hl; lia]. exists last. reflexivity.
  - pose proof (large_enough l 1 Hi) as Hf. destruct (Hsame l Hf) as [s ->]. cbn [bind]. pose proof (tm_length _ _ _ _ HP l) as L. pose proof (Hless l) as D.
    destruct (P l) as [|h t]; cbn [skip]; [exists s; reflexivity|]. cbn [length] in L.
    destruct (IH s t) as [s' ->]; [lia| |exists s'; reflexivity]. intros i Ht. specialize (D (S i) Hf ltac:(lia)). cbn [nth] in D. specialize (Hi (S i) ltac:(lia)).
    replace (1 + S i)%nat with (S (1 + i)) in Hi by lia. rewrite S_INR in Hi. lra.
Qed.
Lemma before_by : forall n last l, (forall i, (i < length l)%nat -> floor + INR (n + 1 + i) * rho <= nth i l 0) ->
  (exists s, before past start n last l = Ok (enters_by n l, s)) /\ length (enters_by n l) = length l /\ forall i, (i < length l)%nat -> floor + INR (1 + i) * rho <= nth i (enters_by n l) 0.
Proof.
  induction n as [|n IH]; intros last l Hi; cbn [before enters_by].
  - split; [exists last; reflexivity|]. split; [reflexivity|exact Hi].
  - pose proof (large_enough l (S n + 1) Hi) as Hf. destruct (Hsame l Hf) as [s ->]. cbn [bind]. pose proof (tm_length _ _ _ _ HP l) as L.
    destruct (IH s (P l)) as (I1 & I2 & I3).
    { intros i Ht. rewrite L in Ht. pose proof (Hless l i Hf Ht) as D. specialize (Hi i Ht). replace (S n + 1 + i)%nat with (S (n + 1 + i)) in Hi by lia. rewrite S_INR in Hi. lra. }
    rewrite L in I2, I3. auto.
Qed.
Lemma column_past_by offset l : (forall i, (i < length l)%nat -> floor + INR (i + 1 + offset) * rho <= nth i l 0) ->
  exists s, column_past past start offset l = Ok (column_by (length l) offset l, s).
Proof.
  intros Hi. unfold column_past, column_by. destruct (before_by offset start l) as ((s & ->) & L & B).
  - intros i Hl. replace (offset + 1 + i)%nat with (i + 1 + offset)%nat by lia. now apply Hi.
  - cbn [bind]. apply reading_by; [lia|]. rewrite L. exact B.
Qed.
End Column.

(** ** Traps that record times, in wells of any power *)
Section Timed.
Context (traps : list (trap R)) (dwell floor full beta : R).
Hypothesis Hflat : Forall flattening traps.
Hypothesis Hdwell : 0 < dwell.
Hypothesis Hfloor : 0 < floor.
Hypothesis Hfull : 0 < full.
Hypothesis Hbeta : 0 < beta.
Let rho := filled_traps traps.
Hypothesis Hslow : slow_growth floor 1 rho beta full.
Definition timed_well : R -> R := if Rle_dec 1 beta then depth full beta else bottomed full beta floor.
Definition timed_slope : R := if Rle_dec 1 beta then beta / full else depth full beta floor / floor.
Lemma timed_rho : 0 <= rho. Proof. now apply rho_pos. Qed.
Lemma timed_slope_pos : 0 <= timed_slope.
Proof. unfold timed_slope. destruct (Rle_dec 1 beta); [left; apply Rdiv_lt_0_compat; lra|]. apply bottomed_slope; lra. Qed.
Lemma timed_zero : timed_well 0 = 0.
Proof. unfold timed_well. destruct (Rle_dec 1 beta); [unfold depth; destruct (Rle_dec 0 0); [reflexivity|lra]|]. apply bottomed_zero; lra. Qed.
Lemma timed_grows a b : 0 <= a <= b -> 0 <= timed_well b - timed_well a <= timed_slope * (b - a).
Proof.
  intros Hab. unfold timed_well, timed_slope. destruct (Rle_dec 1 beta) as [Hb|Hb].
  - pose proof (depth_grows full beta a b Hfull Hbeta Hab). pose proof (depth_slope full beta a b Hfull Hb Hab). lra.
  - apply bottomed_grows; lra.
Qed.
Lemma timed_range a : 0 <= a -> 0 <= timed_well a <= 1.
Proof. intros Ha. unfold timed_well. destruct (Rle_dec 1 beta); [apply depth_range; assumption|apply bottomed_range; lra]. Qed.
Lemma timed_agrees a : floor <= a -> depth full beta a = timed_well a.
Proof. intros Ha. unfold timed_well. destruct (Rle_dec 1 beta); [reflexivity|]. symmetry. now apply bottomed_high. Qed.
Definition timed_gain : R := 1 - rho * timed_slope.
Lemma timed_gain_range : 0 < timed_gain <= 1.
Proof.
  pose proof (Rmult_le_pos _ _ timed_rho timed_slope_pos). split; [|unfold timed_gain; lra].
  unfold timed_gain, timed_slope in *. destruct (Rle_dec 1 beta) as [Hb|Hb].
  - destruct Hslow as [[_ S]|[S _]]; [|lra]. assert (rho * (beta / full) < 1); [|lra]. apply (Rmult_lt_reg_r full); [exact Hfull|]. replace (rho * (beta / full) * full) with (1 * rho * beta) by (field; lra). lra.
  - destruct Hslow as [[S _]|[_ S]]; [lra|]. assert (rho * (depth full beta floor / floor) < 1); [|lra]. apply (Rmult_lt_reg_r floor); [exact Hfloor|]. replace (rho * (depth full beta floor / floor) * floor) with (1 * rho * depth full beta floor) by (field; lra). lra.
Qed.
Definition timed_pass : list R -> list R := t_pass traps dwell timed_well never.
Lemma timed_tame : tame timed_gain 0 0 timed_pass.
Proof.
  apply t_pass_tame; [exact Hflat|lra|exact timed_zero|exact timed_grows|exact timed_range|]. pose proof timed_gain_range as H. unfold timed_gain, rho in H. lra.
Qed.
Lemma timed_less : forall l T i, neat (length traps) T -> Forall (Rle floor) l -> (i < length l)%nat -> nth i l 0 - rho <= nth i (t_pass traps dwell timed_well T l) 0.
Proof.
  induction l as [|m l IH]; intros T i HT Hl Hi; [cbn in Hi; lia|]. cbn [t_pass]. destruct i as [|i]; cbn [nth].
  - pose proof (t_leaves_range traps dwell Hflat ltac:(lra) timed_well timed_range m T HT) as [L _]. pose proof (t_cloud_pos traps dwell m T) as C. pose proof (timed_range _ C) as W.
    fold rho in L. assert (rho * timed_well (t_cloud traps dwell m T) <= rho * 1) by (apply Rmult_le_compat_l; [exact timed_rho|lra]).
    pose proof (held_wait traps dwell Hflat ltac:(lra) T HT). assert (m <= t_cloud traps dwell m T) by (unfold t_cloud, cloud_after; pose proof (Rmax_r 0 (m + (held traps T - held traps (wait dwell T)))); lra). lra.
  - inversion Hl; subst. cbn in Hi. apply IH; [now apply t_behind_neat; [lra|]|assumption|lia].
Qed.
Lemma timed_same : forall l T, neat (length traps) T -> Forall (Rle floor) l -> exists T', past_times traps (depth full beta) dwell T l = Ok (t_pass traps dwell timed_well T l, T').
Proof.
  induction l as [|m l IH]; intros T HT Hl; cbn [past_times t_pass]; [exists T; reflexivity|]. inversion Hl as [|? ? Hm Hl']; subst.
  pose proof (held_wait traps dwell Hflat ltac:(lra) T HT) as G.
  assert (C : floor <= cloud_after traps dwell m T) by (unfold cloud_after; lra).
  assert (E : t_cloud traps dwell m T = cloud_after traps dwell m T) by (unfold t_cloud; apply Rmax_right; lra).
  assert (Et : times_after traps (depth full beta) dwell m T = t_behind traps dwell timed_well m T) by (unfold times_after, t_behind; rewrite E, (timed_agrees _ C); reflexivity).
  assert (Ew : wanted traps (depth full beta) dwell m T = taken traps (timed_well (cloud_after traps dwell m T)) (wait dwell T)) by (unfold wanted, taken; rewrite Et; unfold t_behind; rewrite E; reflexivity).
  destruct (Rle_dec (wanted traps (depth full beta) dwell m T) (cloud_after traps dwell m T)) as [H|H].
  - rewrite Et. destruct (IH (t_behind traps dwell timed_well m T)) as [T' ->]; [now apply t_behind_neat; [lra|]|exact Hl'|]. cbn [bind]. exists T'. rewrite Ew. unfold t_leaves. rewrite E. reflexivity.
  - exfalso. apply H. rewrite Ew. assert (W := timed_range (cloud_after traps dwell m T) ltac:(lra)).
    pose proof (taken_range traps Hflat _ (wait dwell T) W (neat_wait _ dwell T ltac:(lra) HT)) as [_ K]. fold rho in K.
    pose proof (timed_grows 0 (cloud_after traps dwell m T) ltac:(lra)) as S. rewrite timed_zero in S. pose proof timed_gain_range as GR. unfold timed_gain in GR.
    pose proof (Rmult_le_compat_l rho _ _ timed_rho (proj2 S)) as K2. assert (rho * timed_slope * cloud_after traps dwell m T <= 1 * cloud_after traps dwell m T) by (apply Rmult_le_compat_r; lra). lra.
Qed.
End Timed.

(** ** Some of the columns of an image *)
Lemma chosen_columns c fraction d k force dt rows m0 offset cols (out : list R -> list R) :
  ccd_fractions c = [fraction] -> 0 < fraction -> 0 < d -> mshape m0 -> empty_all_traps m0 = m0 -> (0 < rows)%nat ->
  let r := make_roe k [d] dt true force 1 in
  forall columns im a, columns_ok columns cols -> shape rows cols im -> starts_from m0 m0 a -> atm_data a = [[m0]] ->
  (forall z, In z columns -> exists s, column_past (past_manager (fun n => well_fill c 0 false n) d) m0 offset (column_of im (Z.to_nat z)) = Ok (out (column_of im (Z.to_nat z)), s)) ->
  exists im' a', clock_columns c r (map Z.of_nat (seq 0 rows)) columns (passes_past rows offset) (im, a) = Ok (im', a') /\ shape rows cols im' /\
    forall q, (q < cols)%nat -> column_of im' q = if listed columns q then out (column_of im q) else column_of im q.
Proof.
  intros Hfr Hpos Hd Hm0 Hem Hr r. induction columns as [|z columns IH]; intros im a [Hnd Hin] Hs Ha Hm Hcol.
  - exists im, a. split; [reflexivity|]. split; [exact Hs|]. reflexivity.
  - pose proof (Hin z (or_introl eq_refl)) as Hz. inversion Hnd as [|? ? Hz' Hnd']; subst.
    unfold clock_columns. cbn [foldM]. unfold clock_one_column at 1. rewrite (shape_n_columns rows cols im Hs Hr).
    replace ((0 <=? z) && (z <? Z.of_nat cols))%Z with true by (symmetry; apply andb_true_intro; split; [apply Z.leb_le|apply Z.ltb_lt]; lia).
    change (get_column im (Z.to_nat z)) with (column_of im (Z.to_nat z)).
    pose proof (single_column c fraction d k force true dt rows Hfr Hpos Hd m0 Hm0 m0 a offset (column_of im (Z.to_nat z)) Ha Hm ltac:(rewrite column_length; apply Hs)) as C.
    destruct (Hcol z (or_introl eq_refl)) as [s Es]. rewrite Es in C. destruct C as (a1 & C1 & C2 & C3 & C4). fold r in C1. rewrite C1. cbn [bind].
    destruct (single_end d k force true dt m0 Hm0 Hem m0 a1 s C3 C2) as [E1 E2]. cbn [negb] in E1, E2. fold r in E1, E2.
    pose proof (set_column_shape rows cols im (Z.to_nat z) _ Hs C4) as Hs1.
    assert (O : forall q, (q < cols)%nat -> q <> Z.to_nat z -> column_of (set_column im (Z.to_nat z) (out (column_of im (Z.to_nat z)))) q = column_of im q)
      by (intros q Hq Hne; apply (set_column_other rows cols); auto; lia).
    destruct (IH (set_column im (Z.to_nat z) (out (column_of im (Z.to_nat z)))) _ (conj Hnd' (fun y H => Hin y (or_intror H))) Hs1 E1 E2) as (im' & a' & I1 & I2 & I3).
    { intros y Hy. rewrite O; [now apply Hcol; right|specialize (Hin y (or_intror Hy)); lia|]. intros E. specialize (Hin y (or_intror Hy)). assert (y = z) by lia. subst. contradiction. }
    exists im', a'. split; [exact I1|]. split; [exact I2|]. intros q Hq. rewrite (I3 q Hq). unfold listed. cbn [existsb].
    destruct (Z.eqb_spec (Z.of_nat q) z) as [E|E]; cbn [orb].
    + subst z. rewrite Nat2Z.id in *. assert (L : existsb (Z.eqb (Z.of_nat q)) columns = false).
      { destruct (existsb (Z.eqb (Z.of_nat q)) columns) eqn:L; [|reflexivity]. apply (listed_in columns q) in L. contradiction. }
      rewrite L. apply (set_column_same rows cols); auto.
    + rewrite O by lia. reflexivity.
Qed.

(** ** What a direction of readout past traps that record times does *)
Lemma single_unique d n c c' f f' g g' w w' k k' : single_phase d n c f g w k -> single_phase d n c' f' g' w' k' -> c = c' /\ f = f' /\ g = g' /\ w = w'.
Proof.
  intros [A1 A2 A3 A4 (t & A5 & A6) A7 (fo & dt & A8) A9 _ _] [B1 B2 B3 B4 (t' & B5 & B6) B7 (fo' & dt' & B8) B9 _ _].
  rewrite A1 in B1. injection B1 as <-. rewrite A2 in B2. injection B2 as <-. rewrite A5 in B5. injection B5 as <-. rewrite A6 in B6. injection B6 as <-.
  rewrite A8 in B8. apply (f_equal (option_map (@roe_dwell_times R))) in B8. cbn in B8. injection B8 as <-. auto.
Qed.
Lemma direction_past d n c fraction group dwell (out : list R -> list R) tw im cols columns : (0 < n)%nat ->
  single_phase d n c fraction group dwell false -> tw = None \/ tw = whole n (d_offset d) ->
  shape n cols im -> columns_ok columns cols ->
  (forall z, In z columns -> exists s, column_past (past_manager (fun n => well_fill c 0 false n) dwell) (empty_manager fraction group n) (d_offset d) (column_of im (Z.to_nat z)) = Ok (out (column_of im (Z.to_nat z)), s)) ->
  exists traps im', d_traps d = Some traps /\ clock_direction im d (the_roe d) traps (selected (d_window d) n) columns tw = Ok (im', the_roe d) /\ shape n cols im' /\
    forall q, (q < cols)%nat -> column_of im' q = if listed columns q then out (column_of im q) else column_of im q.
Proof.
  intros Hr [Hccd Hfr Hph Hpos (traps & Htr & Hg) Hgr (force & dt & Hroe) Hd Hw Hex] Htw Hs Hcols Hcol. exists traps.
  set (empty := empty_manager fraction group n) in *.
  unfold clock_direction. rewrite Hccd, Hw, <- resolve_selected. cbn [resolve_window]. unfold the_roe. rewrite Hroe.
  set (r := make_roe (Standard true) [dwell] dt true force 1).
  change (roe_init [dwell] true (negb false) force dt) with r.
  unfold clock_charge_in_one_direction.
  assert (EX : exists em mon, standard_express true dt (py_range 0 (Z.of_nat n)) (d_express d) (d_offset d) tw = Ok (em, mon) /\
    rect (n + d_offset d) n em /\ rect (n + d_offset d) n mon /\
    forall e k, (e < n + d_offset d)%nat -> (k < n)%nat ->
     entry em e k = (if Nat.leb e (k + d_offset d) then 1 else 0) /\ bentry mon e k = Nat.leb e (k + d_offset d)).
  { destruct (express_all_range true dt n (d_express d) (d_offset d) Hr Hex) as (em & mon & Eex & H1 & H2 & H3).
    exists em, mon. split; [|auto]. destruct Htw as [->| ->]; [|exact Eex]. rewrite <- Eex. symmetry. unfold whole. apply (window_whole true dt (py_range 0 (Z.of_nat n)) n); [now apply window_ok_range|lia]. }
  destruct EX as (em & mon & Eex & H1 & H2 & H3).
  unfold express_and_monitor. cbn [r make_roe roe_kind_of roe_dtype]. rewrite Eex. cbn [bind]. fold r.
  change (save_matrix r em) with (Ok (map (map (fun _ : R => false)) em)). cbn [bind].
  assert (Ne : max_n_transfers r (length em) match em with [] => 0%nat | row :: _ => length row end = n).
  { unfold max_n_transfers. cbn [r make_roe roe_kind_of]. unfold r. rewrite (single_steps dwell (Standard true) force true dt Hd). cbn [length]. destruct em as [|row em].
    - destruct H1 as [H1 _]. cbn [length] in H1. lia.
    - destruct H1 as [_ H1]. inversion H1; subst. lia. }
  rewrite Ne.
  assert (Ea : atm_init traps n c = Ok (mkATM [[empty]] None 0 0)).
  { unfold atm_init. rewrite (groups_one traps group Hg Hgr), Hph. cbn [bind seq mapM]. rewrite Hfr. cbn [nth_error of_option].
    destruct group as [|t g]; [contradiction|]. cbn [kind_of_group bind]. unfold empty, empty_manager, manager_init, kind_for. cbn [m_kind m_traps m_wm length].
    do 5 f_equal. unfold zero_row. cbn [length]. f_equal. destruct (t_class t); cbn [n_watermarks_per_transfer]; lia. }
  rewrite Ea. cbn [bind].
  assert (En : n_padding r = Ok 0%nat) by (unfold n_padding, r, make_roe, generate_clock_sequence; cbn [roe_pixels]; destruct force; reflexivity).
  rewrite En. cbn [bind]. rewrite (single_matrix n (d_offset d) em mon Hr H1 H2 H3).
  assert (Ep : pad im 0 = im) by (unfold pad; cbn [repeat]; apply app_nil_r). rewrite Ep, !py_range_0.
  assert (Hm0 : mshape empty).
  { unfold mshape, empty, empty_manager. cbn [m_traps m_wm]. rewrite map_length. split; [reflexivity|]. apply Forall_forall. intros x Hx. apply repeat_spec in Hx. subst. cbn. apply repeat_length. }
  assert (Hem : empty_all_traps empty = empty).
  { rewrite (empty_eq empty Hm0). unfold empty, empty_manager. cbn [m_traps m_wm m_kind]. rewrite map_length, repeat_length. reflexivity. }
  assert (Hk0 : dkeeps [[empty]] [[empty]]) by (apply dkeeps_refl; constructor; [constructor; [exact Hm0|constructor]|constructor]).
  destruct (chosen_columns c fraction dwell (Standard true) force dt n empty (d_offset d) cols out Hfr Hpos Hd Hm0 Hem Hr columns im (mkATM [[empty]] None 0 0) Hcols Hs) as (im' & a' & C1 & C2 & C3); auto.
  { split; [cbn; rewrite Hem; reflexivity|split; [exact Hk0|discriminate]]. }
  fold r in C1. rewrite C1. cbn [bind]. exists im'. split; [exact Htr|].
  split; [|split; [exact C2|exact C3]]. unfold unpad. rewrite Nat.sub_0_r, firstn_all. reflexivity.
Qed.
Lemma thinned_flattening f group : 0 < f -> Forall flattening group -> Forall flattening (map (thinned f) group).
Proof.
  intros Hf H. apply Forall_map. eapply Forall_impl; [|exact H]. intros t [Hh Hc]. split; [|exact Hc].
  pose proof (thinned_holding f [t] Hf ltac:(constructor; [exact Hh|constructor])) as K. cbn [map] in K. now inversion K.
Qed.
Lemma timed_limit_nonneg floor d n i x : timed_call floor d n -> timed_limit d n i x -> 0 <= x.
Proof.
  intros (c & f & g & w & full & beta & H1 & _ & H3 & _) [c' f' g' w' H _]. destruct (single_unique _ _ _ _ _ _ _ _ _ _ _ _ H1 H) as (<- & <- & <- & <-).
  apply Rmult_le_pos; [apply pos_INR|]. apply Rmult_le_pos; [left; exact (sp_share _ _ _ _ _ _ _ H1)|]. now apply rho_pos.
Qed.
Lemma does_timed floor d n tw : 0 < floor -> (0 < n)%nat -> tw = None \/ tw = whole n (d_offset d) -> timed_call floor d n -> does_above floor d n tw (timed_limit d n) (the_roe d).
Proof.
  intros Hfl Hn Htw Hcall. pose proof Hcall as (c & f & g & w & full & beta & H1 & H2 & H3 & H4 & H5 & H6 & H7).
  pose proof (sp_share _ _ _ _ _ _ _ H1) as Hf. pose proof (sp_dwell _ _ _ _ _ _ _ H1) as Hw. pose proof (sp_group _ _ _ _ _ _ _ H1) as Hg.
  set (traps := map (thinned f) g). assert (Ht : Forall flattening traps) by now apply thinned_flattening.
  assert (Er : filled_traps traps = f * filled_traps g) by apply filled_thinned. rewrite <- Er in H7.
  pose proof (timed_gain_range traps floor full beta Ht Hfl H5 H6 H7) as Hgain. pose proof (timed_tame traps w floor full beta Ht Hw Hfl H5 H6 H7) as HT.
  set (gain := timed_gain traps floor full beta) in *. set (P := timed_pass traps w floor full beta) in *.
  exists (gain ^ (d_offset d + n)), 1, (column_by P n (d_offset d)).
  split; [split; [apply pow_lt; lra|apply (gain_pow gain); lra]|]. split; [lra|]. split; [apply tame_steady, column_by_tame; [exact HT|lra]|].
  intros im cols columns Hs Hp Hcols Hch.
  assert (Hlen : (0 < length traps)%nat) by (unfold traps; rewrite map_length; destruct g; [contradiction|cbn; lia]).
  assert (Hk : empty_manager f g n = manager_init KTime traps n).
  { unfold empty_manager, manager_init, zero_row, traps. rewrite map_length, H2. cbn [n_watermarks_per_transfer]. rnum. do 2 f_equal. lia. }
  assert (Hhold : Forall holding traps) by (eapply Forall_impl; [|exact Ht]; intros t [K _]; exact K).
  assert (Hfade : Forall fading traps) by (eapply Forall_impl; [|exact Hhold]; intros t [K _]; exact K).
  pose proof (depth_sensitive full beta H5 H6) as Hsens.
  set (m := manager_init KTime traps n) in *.
  assert (D : records (length traps) (m_wm m) n never) by (apply init_records; reflexivity).
  assert (COL : forall j, (j < cols)%nat -> exists s, column_past (past_times traps (depth full beta) w) never (d_offset d) (column_of im j) = Ok (column_by P n (d_offset d) (column_of im j), s)).
  { intros j Hj. assert (L : length (column_of im j) = n) by (rewrite column_length; apply Hs).
    rewrite <- L. apply (column_past_by P gain HT (past_times traps (depth full beta) w) never floor (filled_traps traps)).
    - now apply rho_pos.
    - intros l Hl. exact (timed_same traps w floor full beta Ht Hw Hfl H5 H6 H7 l never (neat_never _) Hl).
    - intros l i Hl Hi. exact (timed_less traps w floor full beta Ht Hw Hfl H5 H6 l never i (neat_never _) Hl Hi).
    - intros i Hi. rewrite L in Hi. rewrite column_at. destruct (Hch i j Hi Hj) as (x & [c' f' g' w' K _] & Hx). destruct (single_unique _ _ _ _ _ _ _ _ _ _ _ _ H1 K) as (<- & <- & <- & <-). rewrite Er. exact Hx. }
  assert (NN : forall j, Forall (fun x => 0 <= x) (column_of im j)).
  { intros j. apply Forall_forall. intros x Hx. apply (In_nth _ _ 0) in Hx as (i & _ & <-). rewrite column_at. apply Hp. }
  assert (PM : forall j, (j < cols)%nat -> exists s, column_past (past_manager (fun n => well_fill c 0 false n) w) (empty_manager f g n) (d_offset d) (column_of im j) = Ok (column_by P n (d_offset d) (column_of im j), s)).
  { intros j Hj. rewrite Hk. destruct (COL j Hj) as [s Es].
    assert (F : follows true (column_past (past_times traps (depth full beta) w) never (d_offset d) (column_of im j)) (column_past (past_manager (fun n => well_fill c 0 false n) w) m (d_offset d) (column_of im j))).
    { apply (column_follows (past_times traps (depth full beta) w) (past_manager (fun n => well_fill c 0 false n) w) never m true n).
      - intros l Hl Hnn. change m with (mkManager KTime traps (m_wm m)).
        apply (times_follow traps _ (depth full beta) w Hfade Hlen Hsens (fun x Hx => depth_fill c 0 beta full x H4 H5 H6 Hx) Hw l (n - length l) (m_wm m) never Hnn).
        replace (length l + (n - length l))%nat with n by lia. exact D.
      - intros l l' s0 El. split; [eapply past_length; exact El|eapply past_nonneg; exact El].
      - rewrite column_length. rewrite (proj1 Hs). lia.
      - apply NN. }
    rewrite Es in F. exact F. }
  destruct (direction_past d n c f g w (column_by P n (d_offset d)) tw im cols columns Hn H1 Htw Hs Hcols) as (tr & im' & Etr & E & Hs' & C).
  { intros z Hz. apply PM. apply Hcols in Hz. lia. }
  rewrite Etr. exists im'. split; [exact E|]. split; [exact Hs'|].
  assert (BD : forall j, (j < cols)%nat -> forall i, (i < n)%nat -> 0 <= nth i (column_of im' j) 0 /\ Rabs (nth i (column_of im' j) 0 - nth i (column_of im j) 0) <= INR (i + 1 + d_offset d) * filled_traps traps).
  { intros j Hj i Hi. rewrite (C j Hj). destruct (listed columns j).
    2: { rewrite column_at. split; [apply Hp|]. rewrite Rminus_eq_0, Rabs_R0. apply Rmult_le_pos; [apply pos_INR|now apply rho_pos]. }
    destruct (COL j Hj) as [s Es].
    destruct (column_bounded (past_times traps (depth full beta) w) never (filled_traps traps) n) with (offset := d_offset d) (l := column_of im j) (l' := column_by P n (d_offset d) (column_of im j)) (s := s) as (B1 & B2 & B3); auto.
    - intros l l' s0 Hl Hnn El.
      destruct (times_bounded traps (depth full beta) w Hhold Hlen Hsens Hw l l' s0 (n - length l) (m_wm m) never Hnn) as (K1 & K2 & _); [|exact El|auto].
      replace (length l + (n - length l))%nat with n by lia. exact D.
    - rewrite column_length. rewrite (proj1 Hs). lia.
    - assert (Li : (i < length (column_of im j))%nat) by (rewrite column_length; rewrite (proj1 Hs); lia). split; [|now apply B3].
      rewrite Forall_forall in B2. apply B2, nth_In. lia. }
  assert (PX : forall i j, (i < n)%nat -> (j < cols)%nat -> 0 <= pixel im' i j) by (intros i j Hi Hj; pose proof (BD j Hj i Hi) as [B _]; rewrite column_at in B; exact B).
  split; [|split; [exact C|]].
  - destruct cols as [|cols]; [|now apply (shape_nonneg n (S cols) Hn ltac:(lia))]. intros i j. unfold pixel. destruct Hs' as [_ Hs'].
    destruct (Nat.lt_ge_cases i (length im')) as [Hi|Hi].
    + rewrite Forall_forall in Hs'. assert (L : length (nth i im' []) = 0%nat) by (apply Hs', nth_In, Hi). destruct (nth i im' []); [|discriminate]. destruct j; cbn; rnum; lra.
    + rewrite (nth_overflow im') by exact Hi. destruct j; cbn; rnum; lra.
  - intros i j x Hi Hj [c' f' g' w' K _]. destruct (single_unique _ _ _ _ _ _ _ _ _ _ _ _ H1 K) as (<- & <- & <- & <-).
    pose proof (BD j Hj i Hi) as [_ B]. rewrite !column_at, Er in B. exact B.
Qed.
