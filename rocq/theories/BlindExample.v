(** * Two packets past traps that cannot capture, and past traps that do nothing at all. *)
From Coq Require Import ZArith QArith Qreals List Bool Reals Lra Lia SpecFloat FunctionalExtensionality.
From Verif Require Import Num Py RFacts CCDModel TrapsModel ManagerModel ROEModel ClockModel MainModel CCDFacts ClockFacts DoubleNum Spec SpecImage SpecReadout SpecHistory SpecDouble SpecBlind
  ReadoutImage MainReadoutFacts ReadoutExamples HomFacts MemoryExample HistoryFacts ZeroCaptureExample DoubleCalls DoubleFacts.
Import ListNotations.
Open Scope R_scope.

Definition blind_trap : trap R := mkTrap 1 1 (RFin 0) (1 / 1) false CTrap.
Lemma blind_trap_blind : blind blind_trap.
Proof. split; [|split; reflexivity]. constructor; cbn; lra. Qed.
#[local] Existing Instance ZeroCaptureExample.QNum.
Definition q_blind : trap Q := mkTrap 1%Q 1%Q (RFin 0%Q) 1%Q false CTrap.
Definition q_blind_probs : list (Q * Q * Q) := [(0%Q, (1 # 2)%Q, (1 # 2)%Q)].
Lemma blind_probabilities : fill_probabilities [thinned 1 blind_trap] (ln 2) = Ok (map (h_prob Q2R) q_blind_probs).
Proof.
  unfold fill_probabilities, q_blind_probs. cbn [mapM map]. unfold fill_probabilities1. cbn [thinned blind_trap t_capture_rate t_emission_rate]. rnum.
  replace (Reqb (0 + 1 / 1) 0) with false by (symmetry; apply Reqb_false; lra). cbn [bind]. unfold release_probability. cbn [thinned blind_trap t_emission_rate]. rnum.
  replace (- (0 + 1 / 1) * ln 2) with (- ln 2) by lra. replace (- (1 / 1) * ln 2) with (- ln 2) by lra. rewrite exp_ln2.
  cbn [bind]. unfold h_prob, Q2R. cbn. replace (1 - 1 / 1 * ((1 - 1 / 2) / (0 + 1 / 1))) with (1 / 2) by field. unfold Rdiv. now rewrite !Rmult_0_l.
Qed.
Lemma blind_manager : h_manager Q2R (mkManager KSlow [q_blind] (repeat (0%Q, [0%Q]) 5)) (empty_manager 1 [blind_trap] 2).
Proof.
  split; [reflexivity|]. split; [reflexivity|]. split.
  - unfold n_traps_per_pixel, empty_manager. cbn. f_equal. unfold Q2R. cbn. lra.
  - unfold empty_manager, h_wm, h_row. cbn. now rewrite Q2R_0.
Qed.
Lemma blind_past l l' : q_past (mkManager KSlow [q_blind] (repeat (0%Q, [0%Q]) 5)) l = Ok l' ->
  exists m2, past_manager (well_fill small_ccd 0 false) (ln 2) (empty_manager 1 [blind_trap] 2) (map Q2R l) = Ok (map Q2R l', m2).
Proof. apply (q_past_real [q_blind] [thinned 1 blind_trap] q_blind_probs); [reflexivity|exact blind_probabilities|exact blind_manager|reflexivity|reflexivity]. Qed.
Definition blindly : direction R := small_direction small_roe (TOne blind_trap).
Lemma blind_readout : exists im', add_cti two_packets blindly no_direction None = Ok (im', the_roe blindly, the_roe no_direction).
Proof.
  pose proof (history_readout two_packets blindly no_direction small_ccd 1 [blind_trap] (ln 2) false 2 1 two_shape ltac:(lia) (group_setting blind_trap) eq_refl eq_refl) as H. cbv zeta in H.
  change (map (column_of two_packets) (seq 0 1)) with [[1; 1 / 2]] in H. change (d_offset blindly) with 0%nat in H.
  destruct (blind_past [1; (1 # 2)]%Q [1; (1 # 2)]%Q ltac:(vm_compute; reflexivity)) as (m1 & E1).
  destruct (blind_past [(1 # 2)]%Q [(1 # 2)]%Q ltac:(vm_compute; reflexivity)) as (m2 & E2).
  change (fun n => well_fill small_ccd 0 false n) with (well_fill small_ccd 0 false) in H.
  cbn [columns_past] in H. unfold column_past in H. cbn [before bind length reading] in H.
  replace (map Q2R [1; (1 # 2)]%Q) with [1; 1 / 2] in E1 by (cbn; unfold Q2R; cbn; repeat f_equal; lra). rewrite E1 in H. cbn [bind map] in H, E2.
  replace (Q2R (1 # 2)) with (1 / 2) in E2 by (unfold Q2R; cbn; lra). rewrite E2 in H. cbn [bind] in H. destruct H as (im' & E & _). eauto.
Qed.

(** [Trap(density=4, release_timescale=np.inf, capture_timescale=np.inf)] in doubles. *)
Definition frozen_call {num : Num double} (im : list (list double)) : result (image double * roe double * roe double) :=
  do c <- ccd_init (PList [n1]) (Scalar (nofZ 100)) (Scalar n0) (Scalar n1) None;
  do t <- trap_init (nofZ 4) (S754_infinity false) (S754_infinity false) false;
  add_cti im (mkDir (Some c) (Some default_roe) (Some (TFlat [t])) 0 0 WNone) no_direction None.
Definition frozen_acts (num : Num double) : Prop :=
  exists r r', frozen_call (numbers [50; 10]%Z) = Ok ([[double_of_Z 48]; [S754_nan]], r, r').
Definition frozen_check (num : Num double) : bool :=
  match frozen_call (numbers [50; 10]%Z) with Ok ([[a]; [S754_nan]], _, _) => SFeqb a (double_of_Z 48) | _ => false end.

(** A C library's [exp] of zero, of either sign, is one. *)
Definition exp_zero (f : double -> double) (x : double) : double := match x with S754_zero _ => double_of_Z 1 | _ => f x end.
Lemma exp_zeroed f : (forall s, f (S754_zero s) = double_of_Z 1) -> exp_zero f = f.
Proof. intros H. apply functional_extensionality. intros [s|s| |s m e]; cbn [exp_zero]; auto. Qed.
Lemma frozen_checked exp_c log_c pow_c : frozen_check (DoubleNum (exp_zero exp_c) log_c (pow_guard pow_c)) = true.
Proof. vm_compute. reflexivity. Qed.
Lemma eqb_48 y : SFeqb y (double_of_Z 48) = true -> y = double_of_Z 48.
Proof.
  replace (double_of_Z 48) with (S754_finite false 6755399441055744 (-47)) by reflexivity.
  generalize 6755399441055744%positive. intros m48.
  destruct y as [s|s| |s m e]; unfold SFeqb; cbn [SFcompare]; try (destruct s; discriminate); try discriminate.
  destruct s; [discriminate|]. destruct (Z.compare_spec e (-47)); try discriminate.
  destruct (Pos.compare_cont Eq m m48) eqn:E; try discriminate. apply (proj1 (Pos.compare_eq_iff _ _)) in E. subst. reflexivity.
Qed.
Lemma frozen_act exp_c log_c pow_c : frozen_acts (DoubleNum (exp_zero exp_c) log_c (pow_guard pow_c)).
Proof.
  pose proof (frozen_checked exp_c log_c pow_c) as H. unfold frozen_check in H. unfold frozen_acts. set (num := DoubleNum _ _ _) in *.
  destruct (frozen_call _) as [[[im r] r']|e]; [|discriminate]. exists r, r'.
  destruct im as [|[|a [|]] [|[|b [|]] [|]]]; try discriminate; destruct b; try discriminate. apply eqb_48 in H as ->. reflexivity.
Qed.
Lemma pow_guard_of pow_c : (forall x, pow_c x (double_of_Z 1) = x) -> pow_guard pow_c = pow_c.
Proof.
  intros H. apply functional_extensionality. intros x. apply functional_extensionality. intros y. unfold pow_guard.
  destruct (SFeqb y _) eqn:E; [|reflexivity]. apply eqb_one in E as ->. now rewrite H.
Qed.
