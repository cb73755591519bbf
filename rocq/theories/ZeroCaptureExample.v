(** * Two packets past traps that capture in no time, by both classes.  The slow one is
    evaluated with rational numbers, which agree with the real ones. *)
From Coq Require Import ZArith QArith Qreals List Bool Reals Lra Lia.
From Coquelicot Require Import Rcomplements Rbar Hierarchy RInt.
From Verif Require Import Num Py RFacts CCDModel TrapsModel ManagerModel ROEModel ClockModel MainModel CCDFacts ClockFacts Spec SpecImage SpecReadout SpecColumn SpecHistory SpecZeroCapture
  WmFacts ArrayFacts CutFacts InstantFacts ColumnFacts ReadoutImage ReadoutFull ReadoutInjection ReadoutSpecFacts ReadoutColumnFacts MainColumnFacts MainReadoutFacts ReadoutExamples HomFacts MemoryExample HistoryFacts.
Import ListNotations.

(** The only exponential that occurs is that of -ln 2, in units of ln 2. *)
#[local] Instance QNum : Num Q := {|
  n0 := 0%Q; n1 := 1%Q;
  nadd := fun a b => Qred (a + b); nsub := fun a b => Qred (a - b); nmul := fun a b => Qred (a * b);
  ndiv := fun a b => Qred (a / b); nopp := fun a => Qred (- a);
  nltb := fun a b => negb (Qle_bool b a); nleb := Qle_bool; neqb := Qeq_bool;
  nofZ := inject_Z; nexp := fun _ => 1 # 2; nln := fun x => x; npow := fun x _ => x; nnan := None |}.
Definition unit_fill (n : Q) : result Q :=
  Ok (if Qle_bool n 0 then 0%Q else if Qle_bool 1 n then 1%Q else n).
Open Scope R_scope.
Lemma small_fill n : well_fill small_ccd 0 false (Q2R n) = h_result Q2R (unit_fill n).
Proof.
  rewrite (well_fill_ok small_ccd 0 (Q2R n) 0 1 1) by (reflexivity || lra). cbn [h_result unit_fill]. f_equal.
  pose proof (Q2R_leb n 0) as E0. pose proof (Q2R_leb 1 n) as E1. rewrite Q2R_0 in E0. rewrite Q2R_1 in E1.
  destruct (Req_EM_T (Q2R n) 0) as [Z|Z].
  { rewrite Z in E0. rewrite <- E0. replace (Rleb 0 0) with true by (symmetry; apply Rleb_true; lra). now rewrite Q2R_0. }
  rewrite !Rminus_0_r, Rpow_py_exp_1 by apply unit_clip.
  destruct (Qle_bool n 0); [apply Rleb_true in E0; rewrite Q2R_0; apply clip_low; unfold Rdiv; lra|]. apply Rleb_false in E0.
  destruct (Qle_bool 1 n); [apply Rleb_true in E1; rewrite Q2R_1; apply clip_high; unfold Rdiv; lra|]. apply Rleb_false in E1.
  replace (Q2R n / 1) with (Q2R n) by lra. apply clip_mid. lra.
Qed.

(** [Trap(density=1/8, release_timescale=1)]. *)
Definition eager_trap : trap R := mkTrap (1 / 8) 1 RInf (1 / 1) false CTrap.
Lemma eager_trap_init : trap_init (1 / 8) 1 0 false = Ok eager_trap.
Proof.
  unfold trap_init, trap_init_class, eager_trap. rnum. replace (Reqb 1 0) with false by (symmetry; apply Reqb_false; lra).
  rewrite (proj2 (Reqb_true 0 0) eq_refl). reflexivity.
Qed.
Definition q_eager : trap Q := mkTrap (1 # 8)%Q 1%Q RInf 1%Q false CTrap.
Definition q_eager_probs : list (Q * Q * Q) := [(1%Q, 1%Q, (1 # 2)%Q)].
Lemma eager_probabilities : fill_probabilities [thinned 1 eager_trap] (ln 2) = Ok (map (h_prob Q2R) q_eager_probs).
Proof.
  unfold fill_probabilities, q_eager_probs. cbn [mapM map]. unfold fill_probabilities1. cbn [thinned eager_trap t_capture_rate t_emission_rate]. rnum.
  rewrite (proj2 (Rltb_true 0 (ln 2)) (ln_pos 2 ltac:(lra))). cbn [bind]. unfold release_probability. cbn [thinned eager_trap t_emission_rate]. rnum.
  replace (- (1 / 1) * ln 2) with (- ln 2) by lra. rewrite exp_ln2. unfold h_prob, Q2R. cbn. replace (1 * / 1) with 1 by lra. replace (1 * / 2) with (1 / 2) by lra. reflexivity.
Qed.
Definition at_least_0 (x : Q) : Q := if Qle_bool 0 x then x else 0%Q.
Lemma at_least_0_real x : Q2R (at_least_0 x) = Rmax 0 (Q2R x).
Proof.
  unfold at_least_0. pose proof (Q2R_leb 0 x) as E. rewrite Q2R_0 in E. destruct (Qle_bool 0 x); [apply Rleb_true in E; rewrite Rmax_right by lra; reflexivity|].
  apply Rleb_false in E. rewrite Q2R_0, Rmax_left by lra. reflexivity.
Qed.
Definition left_over (n net : Q) : Q := at_least_0 (Qred (n + net)).
Lemma left_over_real n net : Q2R (left_over n net) = Rmax 0 (Q2R n + Q2R net).
Proof. unfold left_over. rewrite at_least_0_real, Q2R_sum. reflexivity. Qed.
Fixpoint q_past (m : manager Q) (l : list Q) : result (list Q) :=
  match l with
  | [] => Ok []
  | n :: l => do '(net, m') <- slow_step m n unit_fill 1%Q; do l' <- q_past m' l; Ok (left_over n net :: l')
  end.
Lemma q_past_real qt rt probs : fill_probabilities qt 1%Q = Ok probs -> fill_probabilities rt (ln 2) = Ok (map (h_prob Q2R) probs) ->
  forall l (m : manager Q) (m' : manager R) l',
  h_manager Q2R m m' -> m_traps m = qt -> m_traps m' = rt -> q_past m l = Ok l' ->
  exists m2, past_manager (well_fill small_ccd 0 false) (ln 2) m' (map Q2R l) = Ok (map Q2R l', m2).
Proof.
  intros Eq Er. induction l as [|n l IH]; intros m m' l' HM T T' H; cbn [map past_manager q_past] in *; [injection H as <-; eauto|].
  pose proof HM as (K & K' & D & W). unfold manager_step. rewrite K'.
  rewrite (h_step (numF := QNum) (numG := RNum) Q2R Q2R_0 Q2R_1 Q2R_sum Q2R_difference Q2R_product Q2R_over Q2R_negative Q2R_ltb Q2R_leb Q2R_eqb eq_refl m m' n unit_fill (well_fill small_ccd 0 false) 1%Q (ln 2) probs HM small_fill)
    by (rewrite ?T, ?T'; assumption).
  destruct (slow_step m n unit_fill 1%Q) as [[net m1]|e'] eqn:E; cbn [bind h_result fst snd] in *; [|congruence].
  assert (HK : m_kind m1 = KSlow /\ m_traps m1 = m_traps m).
  { rewrite <- K. clear - E. unfold slow_step in E. apply bind_ok in E as (probs & _ & E). apply bind_ok in E as (cloud & _ & E). destruct (_ && _)%bool.
    - apply bind_ok in E as ([? ?] & _ & E). injection E as _ <-. auto.
    - apply bind_ok in E as ([[[? ?] ?] ?] & _ & E). apply bind_ok in E as ([? ?] & _ & E). destruct (_ =? _)%num; [injection E as _ <-; auto|].
      apply bind_ok in E as ([? ?] & _ & E). injection E as _ <-. auto. }
  destruct HK as [HK HT]. apply bind_ok in H as (l2 & H2 & H). injection H as <-.
  destruct (IH m1 (with_wm m' (h_wm Q2R (m_wm m1))) l2) as (m2 & ->); [|congruence|exact T'|exact H2|].
  { split; [exact HK|]. split; [exact K'|]. split; [|reflexivity]. unfold n_traps_per_pixel in *. cbn [with_wm m_traps]. rewrite HT. exact D. }
  cbn [bind map]. exists m2. rewrite left_over_real. reflexivity.
Qed.
Lemma eager_manager : h_manager Q2R (mkManager KSlow [q_eager] (repeat (0%Q, [0%Q]) 5)) (empty_manager 1 [eager_trap] 2).
Proof.
  split; [reflexivity|]. split; [reflexivity|]. split.
  - unfold n_traps_per_pixel, empty_manager. cbn. f_equal. unfold Q2R. cbn. lra.
  - unfold empty_manager, h_wm, h_row. cbn. now rewrite Q2R_0.
Qed.
Lemma eager_past l l' : q_past (mkManager KSlow [q_eager] (repeat (0%Q, [0%Q]) 5)) l = Ok l' ->
  exists m2, past_manager (well_fill small_ccd 0 false) (ln 2) (empty_manager 1 [eager_trap] 2) (map Q2R l) = Ok (map Q2R l', m2).
Proof. apply (q_past_real [q_eager] [thinned 1 eager_trap] q_eager_probs); [reflexivity|exact eager_probabilities|exact eager_manager|reflexivity|reflexivity]. Qed.

Definition two_packets : image R := [[1]; [1 / 2]].
Definition eager : direction R := small_direction small_roe (TOne eager_trap).
Definition instantly : direction R := small_direction small_roe (TOne (instant_version eager_trap)).
Lemma two_shape : shape 2 1 two_packets.
Proof. split; [reflexivity|repeat constructor]. Qed.
Lemma two_nonneg i j : 0 <= pixel two_packets i j.
Proof. unfold pixel, two_packets. destruct i as [|[|[|i]]], j as [|[|j]]; cbn; rnum; lra. Qed.
Lemma group_setting t : single_phase (small_direction small_roe (TOne t)) 2 small_ccd 1 [t] (ln 2) false.
Proof.
  constructor; try reflexivity; try lra; try discriminate.
  - exists (TOne t). auto.
  - exists true, DFloat. reflexivity.
  - apply ln_pos. lra.
  - left. reflexivity.
Qed.
Lemma eager_readout : add_cti two_packets eager no_direction None = Ok ([[7 / 8]; [1897 / 4096]], the_roe eager, the_roe no_direction).
Proof.
  pose proof (history_readout two_packets eager no_direction small_ccd 1 [eager_trap] (ln 2) false 2 1 two_shape ltac:(lia) (group_setting eager_trap) eq_refl eq_refl) as H. cbv zeta in H.
  change (map (column_of two_packets) (seq 0 1)) with [[1; 1 / 2]] in H. change (d_offset eager) with 0%nat in H.
  destruct (eager_past [1; (1 # 2)]%Q [(7 # 8); (271 # 512)]%Q ltac:(vm_compute; reflexivity)) as (m1 & E1).
  destruct (eager_past [(271 # 512)]%Q [(1897 # 4096)]%Q ltac:(vm_compute; reflexivity)) as (m2 & E2).
  change (fun n => well_fill small_ccd 0 false n) with (well_fill small_ccd 0 false) in H.
  cbn [columns_past] in H. unfold column_past in H. cbn [before bind length reading] in H.
  replace (map Q2R [1; (1 # 2)]%Q) with [1; 1 / 2] in E1 by (cbn; unfold Q2R; cbn; repeat f_equal; lra). rewrite E1 in H. cbn [bind map] in H, E2.
  rewrite E2 in H. cbn [bind] in H. destruct H as (im' & E & Hs & _ & Hc). rewrite E. do 3 f_equal. specialize (Hc 0%nat ltac:(lia)). cbn [nth] in Hc.
  apply two_rows; [exact Hs| |].
  - change (pixel im' 0 0) with (pixel im' 0 0). rewrite <- (column_nth im' 0 0), Hc. cbn. unfold Q2R. cbn. lra.
  - rewrite <- (column_nth im' 1 0), Hc. cbn. unfold Q2R. cbn. lra.
Qed.

Lemma instantly_past P : flat 0 1 P -> past_traps [thinned 1 (small_trap (1/8))] small_well (ln 2) P [1; 1/2] = [7/8; 270/512].
Proof.
  intros HP. cbn [past_traps].
  destruct (flat_step small_well (1/8) (ln 2) 0 (1/2) 1 0 1 P HP exp_ln2) as [E1 H1]; try lra; [apply small_well_at; lra|].
  rewrite E1.
  destruct (flat_step small_well (1/8) (ln 2) 1 (1/2) (1/2) (1/16) (9/16) _ H1 exp_ln2) as [E2 H2]; try lra; [apply small_well_at; lra|].
  rewrite E2. f_equal; [lra|]. f_equal. lra.
Qed.
Lemma instantly_past' P : flat 0 1 P -> past_traps [thinned 1 (small_trap (1/8))] small_well (ln 2) P [270/512] = [1890/4096].
Proof.
  intros HP. cbn [past_traps].
  destruct (flat_step small_well (1/8) (ln 2) 0 (1/2) (270/512) 0 (270/512) P HP exp_ln2) as [E1 H1]; try lra; [apply small_well_at; lra|].
  rewrite E1. f_equal. lra.
Qed.
Lemma instantly_readout : add_cti two_packets instantly no_direction None = Ok ([[7 / 8]; [1890 / 4096]], the_roe instantly, the_roe no_direction).
Proof.
  assert (Hset : plain_setting instantly 2 small_ccd (TOne (small_trap (1/8))) [ln 2] DFloat) by (apply small_setting, small_instant; lra).
  destruct (textbook_readout two_packets instantly no_direction small_ccd (TOne (small_trap (1/8))) [small_trap (1/8)] (ln 2) DFloat 2 1 0)
    as (im' & E & H); auto.
  - exact two_shape.
  - exact two_nonneg.
  - left; reflexivity.
  - exact small_columns.
  - apply ln_pos; lra.
  - unfold share; cbn; lra.
  - left; reflexivity.
  - rewrite E. change (column_of two_packets 0) with [1; 1/2] in H. change (d_offset instantly) with 0%nat in H. change (share small_ccd 0) with 1 in H.
    change (depth (nth 0 (ccd_full_well small_ccd) 1) (nth 0 (ccd_fill_power small_ccd) 1)) with small_well in H. cbn [map] in H.
    unfold textbook in H. cbn [length through_pixels read_out] in H. rewrite (instantly_past _ (flat_empty 1)), (instantly_past' _ (flat_empty 1)) in H.
    destruct (plain_returns two_packets instantly no_direction 2 1 two_shape) as (im2 & E2 & Hs & _); try lia; [exact two_nonneg|split; [reflexivity|right; eauto]|split; [reflexivity|left; reflexivity]|].
    assert (im2 = im') as -> by congruence. do 3 f_equal. apply two_rows; [exact Hs| |].
    + rewrite <- (column_nth im' 0 0), H. reflexivity.
    + rewrite <- (column_nth im' 1 0), H. reflexivity.
Qed.
