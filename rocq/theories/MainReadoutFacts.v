(** * add_cti in terms of the readout model. *)
From Coq Require Import ZArith List Bool Reals Lra Lia FinFun.
From Coquelicot Require Import Rcomplements Rbar Hierarchy RInt.
From Verif Require Import Num Py RFacts CCDModel TrapsModel ManagerModel ROEModel ClockModel MainModel Spec SpecROE SpecImage SpecReadout SpecColumn
  WmFacts ArrayFacts CutFacts InstantFacts ClockFacts MainFacts ShapeFacts ColumnFacts
  ROEClockFacts ROEMatrixFacts ROEExpressFacts ROEKindFacts ReadoutFacts ReadoutImage ReadoutForced ReadoutFull ReadoutSpecFacts ReadoutColumnFacts.
Import ListNotations.
Open Scope R_scope.

Lemma groups_normalised a : instant_traps a -> normalise_traps a = Ok (groups_in a).
Proof.
  intros [Hne H]. destruct a as [t|l|l]; [reflexivity| |].
  - destruct l as [|t l]; [|reflexivity]. inversion H as [|? ? [G _] _]; subst. congruence.
  - destruct l; [cbn in Hne; congruence|reflexivity].
Qed.
Lemma plain_roe d n c traps dwell dt : plain_setting d n c traps dwell dt -> the_roe d = built (Standard true) dwell dt true true.
Proof. intros H. unfold the_roe. destruct (ps_roe _ _ _ _ _ _ H) as [->|(-> & -> & ->)]; reflexivity. Qed.
Lemma nonneg_iff (im : image R) : not_negative im <-> forall i j, 0 <= pixel im i j.
Proof.
  unfold not_negative. split; intros H i j; specialize (H i j); rnum; rewrite Rltb_false in *; exact H.
Qed.

(** One direction. *)
Lemma plain_clocking im d n c traps dwell dt columns tw rows cols :
  plain_setting d rows c traps dwell dt -> n = rows -> shape rows cols im -> (0 < rows)%nat -> (forall i j, 0 <= pixel im i j) ->
  (forall j, In j columns -> (0 <= j < Z.of_nat cols)%Z) -> NoDup columns -> tw_ok tw ->
  let r := built (Standard true) dwell dt true true in
  exists im' em mon,
  standard_express true dt (py_range 0 (Z.of_nat rows)) (d_express d) (d_offset d) (tw_arg tw) = Ok (em, mon) /\
  clock_direction im d r traps (py_range 0 (Z.of_nat rows)) columns (tw_arg tw) = Ok (im', r) /\
  shape rows cols im' /\ (forall i j, 0 <= pixel im' i j) /\
  (forall i j, ~ In (Z.of_nat j) columns -> pixel im' i j = pixel im i j) /\
  forall i j, (i < rows)%nat -> In (Z.of_nat j) columns ->
    pixel im' i j = readout (site_of c (groups_in traps)) (trap_phases c) (timed_steps r)
                      (map (fun '(e, m) => cells_of (py_range 0 (Z.of_nat rows)) e m (map (fun _ => false) e)) (combine em mon))
                      (col_fun im j) (Z.of_nat i).
Proof.
  intros Hps -> Hs Hr Hp Hc Hnd Htw r. unfold clock_direction. rewrite (ps_ccd _ _ _ _ _ _ Hps).
  destruct (standard_readout im c dwell dt traps (groups_in traps) (d_express d) (d_offset d) (py_range 0 (Z.of_nat rows)) rows columns tw rows cols)
    as (im' & em & mon & E1 & E2 & E3 & E4 & E5); auto.
  - exact (ps_plain _ _ _ _ _ _ Hps).
  - exact (ps_phases _ _ _ _ _ _ Hps).
  - apply groups_normalised, (ps_instant _ _ _ _ _ _ Hps).
  - apply (ps_instant _ _ _ _ _ _ Hps).
  - apply window_ok_range, Hr.
  - exact (ps_express _ _ _ _ _ _ Hps).
  - exists im', em, mon. split; [exact E1|]. split; [exact E2|]. split; [exact E3|]. split; [|split; [exact E4|exact E5]].
    apply nonneg_iff. destruct (clocking_ok _ _ _ _ _ _ _ _ _ _ _ _ _ Hs Hr E2) as [_ _ _ HS]. intros i0 j0. apply HS; [|apply nonneg_iff, Hp]. rnum. apply Rltb_false. lra.
Qed.

Lemma add_cti_only_parallel (im : image R) parallel serial traps : d_traps parallel = Some traps -> d_traps serial = None ->
  add_cti im parallel serial None =
  do '(im1, pr) <- clock_direction im parallel (the_roe parallel) traps (resolve_window (d_window parallel) (length im))
                     (resolve_window (d_window serial) (n_columns im)) (whole (length im) (d_offset parallel));
  Ok (im1, pr, the_roe serial).
Proof.
  intros Hp Hs. unfold add_cti. rewrite Hp, Hs. cbn [resolve_time_window bind]. fold (whole (length im) (d_offset parallel)).
  destruct (clock_direction _ _ _ _ _ _ _) as [[im1 pr]|e]; reflexivity.
Qed.
Lemma shape_columns rows cols (im : image R) : shape rows cols im -> (0 < rows)%nat -> n_columns im = cols.
Proof. intros [L F] Hr. destruct im as [|row im]; [cbn in L; lia|]. inversion F; subst. reflexivity. Qed.
Lemma range_in_range n j : In j (py_range 0 (Z.of_nat n)) -> (0 <= j < Z.of_nat n)%Z.
Proof. apply in_py_range. Qed.

(** C38: both directions. *)
Lemma plain_returns im parallel serial rows cols :
  shape rows cols im -> (0 < rows)%nat -> (0 < cols)%nat -> (forall i j, 0 <= pixel im i j) ->
  plain_direction parallel rows -> plain_direction serial cols ->
  exists im', add_cti im parallel serial None = Ok (im', the_roe parallel, the_roe serial) /\
    shape rows cols im' /\ (forall i j, 0 <= pixel im' i j).
Proof.
  intros Hs Hr Hc Hp [Wp Pp] [Ws Ps]. pose proof Hs as [Lim _]. pose proof (shape_columns rows cols im Hs Hr) as Ncol.
  unfold add_cti. rewrite Wp, Ws, Lim, Ncol. cbn [resolve_window resolve_time_window bind].
  assert (H1 : exists im1, match d_traps parallel with None => Ok (im, the_roe parallel)
      | Some traps => clock_direction im parallel (the_roe parallel) traps (py_range 0 (Z.of_nat rows)) (py_range 0 (Z.of_nat cols)) (Some (py_range 0 (Z.of_nat (rows + d_offset parallel)))) end
      = Ok (im1, the_roe parallel) /\ shape rows cols im1 /\ (forall i j, 0 <= pixel im1 i j)).
  { destruct Pp as [->|(c & traps & dwell & dt & Hset)]; [exists im; auto|]. rewrite (ps_traps _ _ _ _ _ _ Hset), (plain_roe _ _ _ _ _ _ Hset).
    destruct (plain_clocking im parallel rows c traps dwell dt (py_range 0 (Z.of_nat cols)) (Some (0%Z, Z.of_nat (rows + d_offset parallel))) rows cols Hset eq_refl Hs Hr Hp)
      as (im1 & em & mon & _ & E & G1 & G2 & _); [apply range_in_range|apply py_range_nodup|cbn; lia|]. exists im1. auto. }
  destruct H1 as (im1 & E1 & S1 & P1). rewrite E1. cbn [bind].
  assert (St : shape cols rows (transpose im1)) by (apply transpose_shape; assumption).
  destruct Ps as [->|(c & traps & dwell & dt & Hset)]; [cbn [bind]; exists im1; auto|]. rewrite (ps_traps _ _ _ _ _ _ Hset), (plain_roe _ _ _ _ _ _ Hset).
  destruct (plain_clocking (transpose im1) serial cols c traps dwell dt (py_range 0 (Z.of_nat rows)) None cols rows Hset eq_refl St Hc)
    as (im2 & em & mon & _ & E & G1 & G2 & _); [|apply range_in_range|apply py_range_nodup|exact I|].
  { intros i j. rewrite (transpose_pixel_all rows cols) by assumption. apply P1. }
  cbn [tw_arg option_map] in E. rewrite E. cbn [bind]. exists (transpose im2). split; [reflexivity|]. split; [apply transpose_shape; assumption|].
  intros i j. rewrite (transpose_pixel_all cols rows) by assumption. apply G2.
Qed.

(** ** Every transfer computed *)
Lemma whole_none ef dt rows express offset : (0 < rows)%nat ->
  standard_express ef dt (py_range 0 (Z.of_nat rows)) express offset (whole rows offset) =
  standard_express ef dt (py_range 0 (Z.of_nat rows)) express offset None.
Proof. intros Hr. unfold whole. apply (window_whole ef dt _ rows express offset (window_ok_range rows Hr)). lia. Qed.
Lemma clock_whole_none im c ef dwell dt b force traps express rows columns offset : (0 < rows)%nat ->
  let r := built (Standard ef) dwell dt b force in
  clock_charge_in_one_direction im c r traps express offset (py_range 0 (Z.of_nat rows)) columns (whole rows offset) =
  clock_charge_in_one_direction im c r traps express offset (py_range 0 (Z.of_nat rows)) columns None.
Proof.
  intros Hr r. assert (E : express_and_monitor r (py_range 0 (Z.of_nat rows)) express offset (whole rows offset) = express_and_monitor r (py_range 0 (Z.of_nat rows)) express offset None).
  { unfold express_and_monitor. cbn [r built make_roe roe_kind_of roe_dtype]. rewrite whole_none by exact Hr. reflexivity. }
  unfold clock_charge_in_one_direction. rewrite E. reflexivity.
Qed.

Lemma full_clocking im d c traps dwell dt columns tw rows cols :
  plain_setting d rows c traps dwell dt -> computes_all d rows -> tw = whole rows (d_offset d) \/ tw = None ->
  shape rows cols im -> (0 < rows)%nat -> (forall i j, 0 <= pixel im i j) ->
  (forall j, In j columns -> (0 <= j < Z.of_nat cols)%Z) -> NoDup columns ->
  exists im',
  clock_direction im d (the_roe d) traps (py_range 0 (Z.of_nat rows)) columns tw = Ok (im', the_roe d) /\
  shape rows cols im' /\ (forall i j, 0 <= pixel im' i j) /\
  (forall i j, ~ In (Z.of_nat j) columns -> pixel im' i j = pixel im i j) /\
  forall i j, (i < rows)%nat -> In (Z.of_nat j) columns ->
    pixel im' i j = readout (site_of c (groups_in traps)) (trap_phases c) (timed_steps (the_roe d))
                      (full_passes rows (d_offset d)) (col_fun im j) (Z.of_nat i).
Proof.
  intros Hps Hall Htw Hs Hr Hp Hc Hnd. rewrite (plain_roe _ _ _ _ _ _ Hps). unfold clock_direction. rewrite (ps_ccd _ _ _ _ _ _ Hps).
  destruct (full_readout im c dwell dt traps (groups_in traps) (d_express d) columns rows cols Hs Hr Hp (ps_plain _ _ _ _ _ _ Hps) (ps_phases _ _ _ _ _ _ Hps)
    (groups_normalised _ (ps_instant _ _ _ _ _ _ Hps)) (proj2 (ps_instant _ _ _ _ _ _ Hps)) Hc Hnd (d_offset d) Hall) as (im' & E2 & E3 & E4 & E5).
  exists im'. split; [destruct Htw as [-> | ->]; [exact E2|rewrite <- clock_whole_none by exact Hr; exact E2]|]. split; [exact E3|]. split; [|split; [exact E4|exact E5]].
  apply nonneg_iff. destruct (clocking_ok _ _ _ _ _ _ _ _ _ _ _ _ _ Hs Hr E2) as [_ _ _ HS]. intros i0 j0. apply HS; [|apply nonneg_iff, Hp]. rnum. apply Rltb_false. lra.
Qed.

(** The clock sequence of such a ROE. *)
Lemma timed_in (r : roe R) d es : In (d, es) (timed_steps r) -> 0 < d /\ In es (roe_clock_sequence r).
Proof.
  unfold timed_steps. rewrite filter_In. intros [H1 H2]. destruct (Rlt_dec 0 d); [|discriminate]. split; [assumption|]. eapply in_combine_r, H1.
Qed.
Lemma fractions_nonneg force N step phase rp rps : nth_error (@generate_clock_sequence R _ force N N) step = Some rps -> nth_error rps phase = Some rp ->
  Forall (Rle 0) (rp_fraction rp).
Proof.
  intros H1 H2. destruct (generate_nth _ _ _ _ _ H1) as (Hs & Hl & Hr). destruct (Hr _ _ H2) as (Hp & ->).
  rewrite rp_eq by lia. cbn [rp_fraction]. destruct (is_split _ _ _); repeat constructor; lra.
Qed.
Lemma electrode_ok dwell dt k d es : (k < length dwell)%nat -> In (d, es) (timed_steps (built (Standard true) dwell dt true true)) ->
  let e := electrode es k in forward e /\
  forall rows row, (0 <= row < Z.of_nat rows)%Z -> lossless (rows + 1) row e.
Proof.
  intros Hk Hin. destruct (timed_in _ _ _ Hin) as [_ Hes]. cbn in Hes. apply In_nth_error in Hes as [step Hstep].
  destruct (standard_sequence_spec true _ _ _ Hstep) as [Hl Hsp].
  destruct (nth_error es k) as [e|] eqn:Ee; [|apply nth_error_None in Ee; lia].
  assert (He : electrode es k = e) by (unfold electrode; apply nth_error_nth, Ee). cbn zeta. rewrite He.
  destruct (Hsp _ _ Ee) as (P1 & P2 & P3 & P4 & P5). pose proof (fractions_nonneg _ _ _ _ _ _ Hstep Ee) as P6.
  split.
  - split; [intros H; apply P1, P2 in H; tauto|]. intros x Hx. apply (P3 x). right. exact Hx.
  - intros rows row Hrow. split; [|split].
    + apply Forall_forall. intros [x f] Hx. split.
      * specialize (P3 x). cbn iota in P3. specialize (P3 (or_intror (in_combine_l _ _ _ _ Hx))). lia.
      * rewrite Forall_forall in P6. apply P6. eapply in_combine_r, Hx.
    + rewrite <- P4 at 1. f_equal. clear - P5. revert P5. generalize (rp_release e) (rp_fraction e). induction l as [|a l IH]; intros [|b l'] H; try discriminate; [reflexivity|].
      cbn [combine map snd]. f_equal. apply IH. cbn in H. lia.
    + intros H. apply P1, P2 in H as (-> & -> & ->). reflexivity.
Qed.
Lemma site_good c groups k : plain_ccd c -> Forall instant_group groups -> (k < ccd_n_phases c)%nat -> good_site (site_of c groups k).
Proof.
  intros Hc Hg Hk. destruct (pc_phase c Hc k Hk) as (full & beta & HP & Hf & Hb). destruct (site_of_ok c groups k Hc Hg Hk) as [H1 H2].
  split; [exact H1|]. cbn [site_of site_groups]. apply Forall_forall. intros g Hgi. apply in_map_iff in Hgi as (g0 & <- & Hg0).
  rewrite Forall_forall in Hg. destruct (Hg g0 Hg0) as [Hne Hph]. split; [|rewrite map_length; destruct g0; [congruence|cbn; lia]].
  apply Forall_forall. intros t Ht. apply in_map_iff in Ht as (t0 & <- & Ht0). rewrite Forall_forall in Hph. apply thinned_physical; [apply (pc_share c Hc)|apply Hph, Ht0].
Qed.

(** ** Charge *)
Lemma Rsum_ext {A} (f g : A -> R) l : (forall x, In x l -> f x = g x) -> Rsum (map f l) = Rsum (map g l).
Proof. intros H. f_equal. apply map_ext_in, H. Qed.
Lemma Rsum_le {A} (f g : A -> R) l : (forall x, In x l -> f x <= g x) -> Rsum (map f l) <= Rsum (map g l).
Proof.
  induction l as [|x l IH]; intros H; [apply Rle_refl|]. cbn [map]. unfold Rsum in *. cbn [fold_right].
  apply Rplus_le_compat; [apply H; left; reflexivity|apply IH; intros y Hy; apply H; right; exact Hy].
Qed.
Lemma Rsum_plus {A} (f g : A -> R) l : Rsum (map (fun x => f x + g x) l) = Rsum (map f l) + Rsum (map g l).
Proof. induction l as [|x l IH]; unfold Rsum in *; cbn [map fold_right]; [lra|]. rewrite IH. lra. Qed.
Lemma Rsum_swap {A B} (f : A -> B -> R) a b :
  Rsum (map (fun x => Rsum (map (f x) b)) a) = Rsum (map (fun y => Rsum (map (fun x => f x y) a)) b).
Proof.
  induction a as [|x a IH]; cbn [map].
  - induction b as [|y b IHb]; [reflexivity|]. cbn [map]. unfold Rsum in *. cbn [fold_right] in *. rewrite <- IHb. lra.
  - unfold Rsum at 1. cbn [fold_right]. fold (Rsum (map (fun x0 => Rsum (map (f x0) b)) a)). rewrite IH, <- Rsum_plus. apply Rsum_ext. intros y _. reflexivity.
Qed.
Lemma map_nth_seq (l : list R) : map (fun j => nth j l 0) (seq 0 (length l)) = l.
Proof.
  apply (nth_ext _ _ 0 0); rewrite map_length, seq_length; [reflexivity|]. intros k Hk.
  rewrite (nth_indep _ 0 (nth 0 l 0)) by (rewrite map_length, seq_length; lia). rewrite (map_nth (fun j => nth j l 0)), seq_nth by lia. reflexivity.
Qed.
Lemma charge_columns rows cols im : shape rows cols im -> charge im = Rsum (map (fun j => total rows (col_fun im j)) (seq 0 cols)).
Proof.
  intros [L FA]. unfold charge, total, col_fun.
  transitivity (Rsum (map (fun i => Rsum (map (fun j => pixel im i j) (seq 0 cols))) (seq 0 rows))).
  - f_equal. apply (nth_ext _ _ 0 0); rewrite !map_length, ?seq_length; [exact L|]. intros i Hi.
    rewrite (nth_indep _ 0 (Rsum [])) by (rewrite map_length; exact Hi). rewrite (map_nth Rsum).
    rewrite (nth_indep (map _ (seq 0 rows)) 0 ((fun i => Rsum (map (fun j => pixel im i j) (seq 0 cols))) 0%nat)) by (rewrite map_length, seq_length; lia).
    rewrite (map_nth (fun i => Rsum (map (fun j => pixel im i j) (seq 0 cols)))), seq_nth by lia. cbn [plus].
    rewrite Forall_forall in FA. assert (Hlen : length (nth i im []) = cols) by (apply FA, nth_In, Hi). rewrite <- Hlen. f_equal. symmetry. apply map_nth_seq.
  - rewrite Rsum_swap. apply Rsum_ext. intros j _. apply Rsum_ext. intros i _. rewrite Nat2Z.id. reflexivity.
Qed.
Lemma charge_transpose rows cols im : shape rows cols im -> (0 < rows)%nat -> charge (transpose im) = charge im.
Proof.
  intros Hs Hr. rewrite (charge_columns cols rows (transpose im)) by (apply transpose_shape; assumption). rewrite (charge_columns rows cols im Hs).
  unfold total. rewrite Rsum_swap. apply Rsum_ext. intros j _. apply Rsum_ext. intros i _. unfold col_fun. rewrite !Nat2Z.id. apply (transpose_pixel_all rows cols); assumption.
Qed.

Section Direction.
Context (im im' : image R) (d : direction R) (c : ccd R) (traps : traps_arg R) (dwell : list R) (dt : dtype) (columns : list Z)
  (rows cols : nat).
Hypothesis Hps : plain_setting d rows c traps dwell dt.
Hypothesis Hs : shape rows cols im.
Hypothesis Hr : (0 < rows)%nat.
Hypothesis Hp : forall i j, 0 <= pixel im i j.
Hypothesis Hs' : shape rows cols im'.
Let reads := readout (site_of c (groups_in traps)) (trap_phases c) (timed_steps (the_roe d)).
Hypothesis Hout : forall i j, ~ In (Z.of_nat j) columns -> pixel im' i j = pixel im i j.

Lemma beyond (i j : nat) : (rows <= i)%nat -> pixel im i j = 0.
Proof. intros H. unfold pixel. rewrite (nth_overflow im) by (destruct Hs as [-> _]; exact H). destruct j; reflexivity. Qed.
Lemma col_nonneg j z : 0 <= col_fun im j z.
Proof. apply Hp. Qed.
Lemma plain_phases k : In k (trap_phases c) -> (k < length dwell)%nat.
Proof. intros H. apply trap_phases_lt in H. pose proof (ps_phases _ _ _ _ _ _ Hps). lia. Qed.
Lemma plain_sites k : In k (trap_phases c) -> good_site (site_of c (groups_in traps) k).
Proof. intros H. apply site_good; [exact (ps_plain _ _ _ _ _ _ Hps)|apply (ps_instant _ _ _ _ _ _ Hps)|apply trap_phases_lt, H]. Qed.
Lemma plain_steps e es : In (e, es) (timed_steps (the_roe d)) -> 0 < e.
Proof. intros H. apply timed_in in H. tauto. Qed.
Lemma full_lossless offset : Forall (Forall (fun '(row, mult, save) => lossless_row (trap_phases c) (timed_steps (the_roe d)) (rows + 1) row /\ mult = 1 /\ save = false)) (full_passes rows offset).
Proof.
  unfold full_passes. apply Forall_forall. intros cells Hc. apply in_map_iff in Hc as (e & <- & _). apply Forall_forall. intros [[row mult] save] Hc.
  apply in_map_iff in Hc as (w & Hw & Hin). injection Hw as <- <- <-. apply in_seq in Hin. split; [|auto].
  intros x es k Hx Hk. rewrite (plain_roe _ _ _ _ _ _ Hps) in Hx. refine (proj2 (electrode_ok dwell dt k x es (plain_phases k Hk) Hx) rows (Z.of_nat w) _). lia.
Qed.

Lemma column_account j : length (groups_in traps) = 1%nat ->
  (forall i, (i < rows)%nat -> pixel im' i j = reads (full_passes rows (d_offset d)) (col_fun im j) (Z.of_nat i)) ->
  let lost := left_behind (site_of c (groups_in traps)) (trap_phases c) (timed_steps (the_roe d)) (full_passes rows (d_offset d)) (col_fun im j) in
  let beyond := reads (full_passes rows (d_offset d)) (col_fun im j) (Z.of_nat rows) in
  0 <= lost /\ 0 <= beyond /\ total rows (col_fun im' j) + lost + beyond = total rows (col_fun im j).
Proof.
  intros H1 Hj lost byd.
  destruct (readout_account (site_of c (groups_in traps)) (trap_phases c) (timed_steps (the_roe d)) (rows + 1)%nat) with (passes := full_passes rows (d_offset d)) (c := col_fun im j) as (A1 & A2 & A3).
  - apply plain_sites.
  - apply trap_phases_nodup.
  - apply plain_steps.
  - intros k _. cbn [site_of site_groups]. rewrite map_length. exact H1.
  - apply full_lossless.
  - apply col_nonneg.
  - split; [exact A2|]. split; [apply A1|]. rewrite Nat.add_1_r in A3. rewrite !total_S in A3.
    fold lost in A3. fold reads in A3. fold byd in A3.
    replace (col_fun im j (Z.of_nat rows)) with 0 in A3 by (unfold col_fun; rewrite Nat2Z.id; symmetry; apply beyond; lia).
    assert (E : total rows (reads (full_passes rows (d_offset d)) (col_fun im j)) = total rows (col_fun im' j)).
    { apply total_ext. intros i Hi. unfold col_fun at 2. rewrite Hj by lia. rewrite Z2Nat.id by lia. reflexivity. }
    rewrite E in A3. lra.
Qed.
Hypothesis Hin : forall i j, (i < rows)%nat -> In (Z.of_nat j) columns -> pixel im' i j = reads (full_passes rows (d_offset d)) (col_fun im j) (Z.of_nat i).
Lemma direction_charge : length (groups_in traps) = 1%nat -> charge im' <= charge im.
Proof.
  intros H1. rewrite (charge_columns rows cols im' Hs'), (charge_columns rows cols im Hs). apply Rsum_le. intros j _.
  destruct (in_dec Z.eq_dec (Z.of_nat j) columns) as [Hj|Hj].
  - destruct (column_account j H1 (fun i Hi => Hin i j Hi Hj)) as (A & B & C). lra.
  - apply Req_le, total_ext. intros i _. unfold col_fun. apply Hout, Hj.
Qed.
Lemma column_same j passes : same_col (reads passes (col_fun im j)) (col_fun im j) ->
  (forall i, (i < rows)%nat -> pixel im' i j = reads passes (col_fun im j) (Z.of_nat i)) -> forall i, pixel im' i j = pixel im i j.
Proof.
  intros H Hj i. destruct (lt_dec i rows) as [Hi|Hi].
  - rewrite Hj by exact Hi. rewrite H. unfold col_fun. rewrite Nat2Z.id. reflexivity.
  - unfold pixel. rewrite (nth_overflow im), (nth_overflow im'); [destruct j; reflexivity|destruct Hs' as [-> _]; lia|destruct Hs as [-> _]; lia].
Qed.
End Direction.

(** ** What leaves an image unchanged (C42) *)
Lemma direction_unchanged im d c traps dwell dt columns rows cols tw :
  plain_setting d rows c traps dwell dt -> tw_ok tw ->
  shape rows cols im -> (0 < rows)%nat -> (forall i j, 0 <= pixel im i j) ->
  (forall j, In j columns -> (0 <= j < Z.of_nat cols)%Z) -> NoDup columns ->
  no_density traps \/ (forall i j, pixel im i j = 0) ->
  clock_direction im d (the_roe d) traps (py_range 0 (Z.of_nat rows)) columns (tw_arg tw) = Ok (im, the_roe d).
Proof.
  intros Hps Htw Hs Hr Hp Hc Hnd H. rewrite (plain_roe _ _ _ _ _ _ Hps) at 1 2.
  destruct (plain_clocking im d rows c traps dwell dt columns tw rows cols Hps eq_refl Hs Hr Hp Hc Hnd Htw) as (im' & em & mon & _ & E & Hs' & _ & Ho & Hi).
  assert (im' = im) as ->; [|exact E]. apply (image_ext rows cols); [assumption..|]. intros i j _ _.
  destruct (in_dec Z.eq_dec (Z.of_nat j) columns) as [Hj|Hj]; [|apply Ho, Hj].
  rewrite <- (plain_roe _ _ _ _ _ _ Hps) in Hi.
  eapply (column_same im im' d c traps rows cols Hs Hr Hs' j); [|intros k Hk; apply Hi; assumption].
  pose proof (plain_sites d c traps dwell dt rows Hps) as HS. pose proof (plain_steps d) as HT. destruct H as [H|H].
  - apply readout_no_density; [|exact HT|intros z; apply Hp]. intros k Hk. split; [apply HS, Hk|].
    cbn [site_of site_groups]. apply Forall_forall. intros g Hg. apply in_map_iff in Hg as (g0 & <- & Hg0). apply Forall_forall. intros t Ht. apply in_map_iff in Ht as (t0 & <- & Ht0).
    unfold no_density in H. rewrite Forall_forall in H. specialize (H g0 Hg0). rewrite Forall_forall in H. cbn [thinned t_density]. rewrite (H t0 Ht0). apply Rmult_0_l.
  - apply readout_zero; [exact HS|exact HT|intros z; apply H].
Qed.

Lemma unchanged_both im parallel serial rows cols :
  shape rows cols im -> (0 < rows)%nat -> (0 < cols)%nat -> (forall i j, 0 <= pixel im i j) ->
  plain_direction parallel rows -> plain_direction serial cols ->
  (forall i j, pixel im i j = 0) \/
  ((forall traps, d_traps parallel = Some traps -> no_density traps) /\ (forall traps, d_traps serial = Some traps -> no_density traps)) ->
  add_cti im parallel serial None = Ok (im, the_roe parallel, the_roe serial).
Proof.
  intros Hs Hr Hc Hp [Wp Pp] [Ws Ps] H. pose proof Hs as [Lim _]. pose proof (shape_columns rows cols im Hs Hr) as Ncol.
  unfold add_cti. rewrite Wp, Ws, Lim, Ncol. cbn [resolve_window resolve_time_window bind].
  assert (H1 : match d_traps parallel with None => Ok (im, the_roe parallel)
      | Some traps => clock_direction im parallel (the_roe parallel) traps (py_range 0 (Z.of_nat rows)) (py_range 0 (Z.of_nat cols)) (Some (py_range 0 (Z.of_nat (rows + d_offset parallel)))) end
      = Ok (im, the_roe parallel)).
  { destruct Pp as [->|(c & traps & dwell & dt & Hset)]; [reflexivity|]. rewrite (ps_traps _ _ _ _ _ _ Hset).
    apply (direction_unchanged im parallel c traps dwell dt _ rows cols (Some (0%Z, Z.of_nat (rows + d_offset parallel)))); auto; [cbn; lia|apply range_in_range|apply py_range_nodup|].
    destruct H as [H|[H _]]; [right; exact H|left; apply H, (ps_traps _ _ _ _ _ _ Hset)]. }
  rewrite H1. cbn [bind].
  destruct Ps as [->|(c & traps & dwell & dt & Hset)]; [reflexivity|]. rewrite (ps_traps _ _ _ _ _ _ Hset).
  pose proof (direction_unchanged (transpose im) serial c traps dwell dt (py_range 0 (Z.of_nat rows)) cols rows None) as G. cbn [tw_arg option_map] in G. rewrite G; auto.
  - cbn [bind]. rewrite (transpose_twice rows cols) by assumption. reflexivity.
  - exact I.
  - apply transpose_shape; assumption.
  - intros i j. rewrite (transpose_pixel_all rows cols) by assumption. apply Hp.
  - apply range_in_range.
  - apply py_range_nodup.
  - destruct H as [H|[_ H]]; [right; intros i j; rewrite (transpose_pixel_all rows cols) by assumption; apply H|left; apply H, (ps_traps _ _ _ _ _ _ Hset)].
Qed.

(** ** Charge (C36) *)
Lemma charge_both im parallel serial rows cols :
  shape rows cols im -> (0 < rows)%nat -> (0 < cols)%nat -> (forall i j, 0 <= pixel im i j) ->
  one_group_direction parallel rows -> one_group_direction serial cols ->
  exists im', add_cti im parallel serial None = Ok (im', the_roe parallel, the_roe serial) /\ charge im' <= charge im.
Proof.
  intros Hs Hr Hc Hp [Wp Pp] [Ws Ps]. pose proof Hs as [Lim _]. pose proof (shape_columns rows cols im Hs Hr) as Ncol.
  unfold add_cti. rewrite Wp, Ws, Lim, Ncol. cbn [resolve_window resolve_time_window bind].
  assert (H1 : exists im1, match d_traps parallel with None => Ok (im, the_roe parallel)
      | Some traps => clock_direction im parallel (the_roe parallel) traps (py_range 0 (Z.of_nat rows)) (py_range 0 (Z.of_nat cols)) (Some (py_range 0 (Z.of_nat (rows + d_offset parallel)))) end
      = Ok (im1, the_roe parallel) /\ shape rows cols im1 /\ (forall i j, 0 <= pixel im1 i j) /\ charge im1 <= charge im).
  { destruct Pp as [->|(c & traps & dwell & dt & Hset & Hall & H1)]; [exists im; split; [|split; [|split]]; auto; lra|]. rewrite (ps_traps _ _ _ _ _ _ Hset).
    destruct (full_clocking im parallel c traps dwell dt (py_range 0 (Z.of_nat cols)) (whole rows (d_offset parallel)) rows cols Hset Hall (or_introl eq_refl) Hs Hr Hp)
      as (im1 & E & G1 & G2 & G3 & G4); [apply range_in_range|apply py_range_nodup|]. exists im1. split; [exact E|]. split; [exact G1|]. split; [exact G2|].
    eapply (direction_charge im im1 parallel c traps dwell dt (py_range 0 (Z.of_nat cols)) rows cols); eassumption. }
  destruct H1 as (im1 & E1 & S1 & P1 & Q1). rewrite E1. cbn [bind].
  assert (St : shape cols rows (transpose im1)) by (apply transpose_shape; assumption).
  destruct Ps as [->|(c & traps & dwell & dt & Hset & Hall & H1)]; [cbn [bind]; exists im1; auto|]. rewrite (ps_traps _ _ _ _ _ _ Hset).
  assert (Pt : forall i j, 0 <= pixel (transpose im1) i j) by (intros i j; rewrite (transpose_pixel_all rows cols) by assumption; apply P1).
  destruct (full_clocking (transpose im1) serial c traps dwell dt (py_range 0 (Z.of_nat rows)) None cols rows Hset Hall (or_intror eq_refl) St Hc Pt)
    as (im2 & E & G1 & G2 & G3 & G4); [apply range_in_range|apply py_range_nodup|].
  rewrite E. cbn [bind]. exists (transpose im2). split; [reflexivity|]. rewrite (charge_transpose cols rows) by assumption.
  apply Rle_trans with (charge (transpose im1)); [|rewrite (charge_transpose rows cols) by assumption; exact Q1].
  eapply (direction_charge (transpose im1) im2 serial c traps dwell dt (py_range 0 (Z.of_nat rows)) cols rows); eassumption.
Qed.

(** ** Parallel readout, column by column *)
Section Parallel.
Context (im : image R) (parallel serial : direction R) (c : ccd R) (traps : traps_arg R) (dwell : list R) (dt : dtype) (rows cols : nat).
Hypothesis Hs : shape rows cols im.
Hypothesis Hr : (0 < rows)%nat.
Hypothesis Hp : forall i j, 0 <= pixel im i j.
Hypothesis Hps : plain_setting parallel rows c traps dwell dt.
Hypothesis Hall : computes_all parallel rows.
Hypothesis Hw : d_window parallel = WNone.
Hypothesis Hser : d_traps serial = None.
Hypothesis Hcols : columns_ok (selected (d_window serial) cols) cols.

Lemma parallel_readout : exists im', add_cti im parallel serial None = Ok (im', the_roe parallel, the_roe serial) /\
  shape rows cols im' /\ (forall i j, 0 <= pixel im' i j) /\
  (forall i j, ~ In (Z.of_nat j) (selected (d_window serial) cols) -> pixel im' i j = pixel im i j) /\
  forall i j, (i < rows)%nat -> In (Z.of_nat j) (selected (d_window serial) cols) ->
    pixel im' i j = readout (site_of c (groups_in traps)) (trap_phases c) (timed_steps (the_roe parallel))
                      (full_passes rows (d_offset parallel)) (col_fun im j) (Z.of_nat i).
Proof.
  destruct Hcols as [Hnd Hrange]. rewrite (add_cti_only_parallel im parallel serial traps (ps_traps _ _ _ _ _ _ Hps) Hser).
  rewrite (shape_columns rows cols im Hs Hr), !resolve_selected, Hw. pose proof (proj1 Hs) as ->.
  destruct (full_clocking im parallel c traps dwell dt (selected (d_window serial) cols) (whole rows (d_offset parallel)) rows cols Hps Hall (or_introl eq_refl) Hs Hr Hp Hrange Hnd)
    as (im' & E & G1 & G2 & G3 & G4).
  cbn [selected]. rewrite <- py_range_0, E. cbn [bind]. exists im'. auto.
Qed.
End Parallel.
