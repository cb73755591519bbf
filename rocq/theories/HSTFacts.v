(** * model_for_HST_ACS (main.py:316-396). *)
From Coq Require Import ZArith List Bool Reals Lra Lia.
From Verif Require Import Num Py RFacts CCDModel TrapsModel ManagerModel ROEModel ClockModel MainModel Spec SpecImage SpecReadout SpecHST.
Import ListNotations.
Open Scope R_scope.

Lemma Rltb_dec a b : Rltb a b = if Rlt_dec a b then true else false.
Proof. destruct (Rlt_dec a b) as [H|H]; [apply Rltb_true; exact H|]. apply Rltb_false. lra. Qed.

Lemma launch_eq : launch_date = launch.
Proof. unfold launch_date, launch, nq. rnum. lra. Qed.
Lemma total_eq date : hst_total_trap_density date = traps_on date.
Proof.
  unfold hst_total_trap_density, traps_on, sm4_repair_date, repair, nq. rewrite launch_eq. rnum. rewrite Rltb_dec.
  destruct (Rlt_dec date 2454968); lra.
Qed.
Lemma total_pos date : launch <= date -> 0 < traps_on date.
Proof. intros H. unfold traps_on. unfold launch, repair in *. destruct (Rlt_dec _ _); lra. Qed.
Lemma total_grows date date' : launch <= date -> date < date' -> traps_on date < traps_on date'.
Proof. intros H H'. unfold traps_on. unfold launch, repair in *. destruct (Rlt_dec _ _), (Rlt_dec _ _); lra. Qed.

(** The operating temperature, and the release time of a species. *)
Definition time_at (T t e : R) : R := t * (T / 192.15) * exp (e / (0.00008617343 * 192.15 * T) * (T - 192.15)).
Lemma times_eq date : exists T, (date < cooling /\ T = 196.15 \/ cooling <= date /\ T = 192.15) /\
  hst_release_times date = [time_at T 0.74 0.31; time_at T 7.7 0.34; time_at T 37 0.44].
Proof.
  unfold hst_release_times, hst_operating_temperature, temperature_change_date, cooling, nq, time_at. rnum. rewrite Rltb_dec. destruct (Rlt_dec date 2453920).
  - exists 196.15. split; [left; split; [assumption|reflexivity]|]. cbn [map].
    replace (27315 / 100 - 77) with 196.15 by lra. replace (27315 / 100 - 81) with 192.15 by lra.
    replace (8617343 / 100000000000) with 0.00008617343 by lra. repeat f_equal; lra.
  - exists 192.15. split; [right; split; [lra|reflexivity]|]. cbn [map].
    replace (27315 / 100 - 81) with 192.15 by lra.
    replace (8617343 / 100000000000) with 0.00008617343 by lra. repeat f_equal; lra.
Qed.
Lemma time_now t e : time_at 192.15 t e = t.
Proof. unfold time_at. replace (192.15 - 192.15) with 0 by lra. rewrite Rmult_0_r, exp_0. field. lra. Qed.
Lemma time_warm t e : 0 < t -> 0 < e -> t < time_at 196.15 t e.
Proof.
  intros Ht He. unfold time_at.
  assert (H : 0 < e / (0.00008617343 * 192.15 * 196.15) * (196.15 - 192.15)).
  { apply Rmult_lt_0_compat; [|lra]. apply Rdiv_lt_0_compat; lra. }
  pose proof (exp_increasing _ _ H) as Hx. rewrite exp_0 in Hx.
  rewrite <- (Rmult_1_r t) at 1. rewrite Rmult_assoc. apply Rmult_lt_compat_l; [exact Ht|].
  rewrite <- (Rmult_1_r 1). apply Rmult_gt_0_lt_compat; lra.
Qed.
Lemma time_mono t e t' e' : 0 < t -> t < t' -> e < e' -> time_at 196.15 t e < time_at 196.15 t' e'.
Proof.
  intros Ht Htt He. unfold time_at. apply Rmult_gt_0_lt_compat; [apply exp_pos| |lra|].
  - apply Rmult_lt_0_compat; lra.
  - apply exp_increasing. apply Rmult_lt_compat_r; [lra|]. unfold Rdiv. apply Rmult_lt_compat_r; [|exact He]. apply Rinv_0_lt_compat. lra.
Qed.
Lemma times_spec date : exists t1 t2 t3, hst_release_times date = [t1; t2; t3] /\ 0 < t1 < t2 /\ t2 < t3 /\
  (cooling <= date -> [t1; t2; t3] = release_times_now) /\
  (date < cooling -> 0.74 < t1 /\ 7.7 < t2 /\ 37 < t3).
Proof.
  destruct (times_eq date) as (T & [(Hd & ->)|(Hd & ->)] & ->); do 3 eexists; (split; [reflexivity|]).
  - assert (H1 : 0.74 < time_at 196.15 0.74 0.31) by (apply time_warm; lra).
    assert (H2 : 7.7 < time_at 196.15 7.7 0.34) by (apply time_warm; lra).
    assert (H3 : 37 < time_at 196.15 37 0.44) by (apply time_warm; lra).
    assert (H4 : time_at 196.15 0.74 0.31 < time_at 196.15 7.7 0.34) by (apply time_mono; lra).
    assert (H5 : time_at 196.15 7.7 0.34 < time_at 196.15 37 0.44) by (apply time_mono; lra).
    split; [lra|]. split; [lra|]. split; [intros; unfold cooling in *; lra|]. intros _. lra.
  - rewrite !time_now. unfold release_times_now. split; [lra|]. split; [lra|]. split; [reflexivity|]. intros; unfold cooling in *; lra.
Qed.

Definition hst_ccd : ccd R := mkCCD [1] 1 [84700] [0.478] [0] [BList [84700]].
Lemma hst_plain : plain_ccd hst_ccd.
Proof.
  split.
  - reflexivity.
  - intros [|[|k]]; unfold share; cbn; lra.
  - intros [|k] Hk; [|cbn in Hk; lia]. exists 84700, 0.478. split; [split; reflexivity|]. lra.
Qed.
Definition hst_trap (d t : R) : trap R := mkTrap d t RInf (1 / t) false CInstant.
Lemma hst_trap_physical d t : 0 < d -> 0 < t -> physical (hst_trap d t).
Proof. intros Hd Ht. unfold hst_trap. split; cbn; try lra; try reflexivity; try tauto. Qed.

Lemma hst_before date : date < launch -> model_for_HST_ACS date = Err AssertionError.
Proof.
  intros H. unfold model_for_HST_ACS. rewrite launch_eq. rnum.
  replace (Rleb launch date) with false; [reflexivity|]. symmetry. unfold Rleb. destruct (Rle_dec launch date); [lra|reflexivity].
Qed.
Lemma hst_since date : launch <= date -> exists d1 d2 d3 t1 t2 t3,
  model_for_HST_ACS date = Ok ([hst_trap d1 t1; hst_trap d2 t2; hst_trap d3 t3], hst_ccd, roe_init [1] true true true DFloat) /\
  0 < d1 /\ 0 < d2 /\ 0 < d3 /\ d1 + d2 + d3 = traps_on date /\
  d1 / 1.27 = d2 / 3.38 /\ d2 / 3.38 = d3 / 2.85 /\
  0 < t1 < t2 /\ t2 < t3 /\
  (cooling <= date -> [t1; t2; t3] = release_times_now) /\ (date < cooling -> 0.74 < t1 /\ 7.7 < t2 /\ 37 < t3).
Proof.
  intros H. destruct (times_spec date) as (t1 & t2 & t3 & Et & H1 & H2 & H3 & H4). pose proof (total_pos date H) as Hp.
  exists (1.27 / 7.5 * traps_on date), (3.38 / 7.5 * traps_on date), (2.85 / 7.5 * traps_on date), t1, t2, t3. split.
  - unfold model_for_HST_ACS. rewrite launch_eq. rnum. replace (Rleb launch date) with true by (symmetry; unfold Rleb; destruct (Rle_dec launch date); [reflexivity|lra]).
    rewrite Et. unfold hst_densities, hst_density_weights. rewrite total_eq. cbn [map combine mapM]. unfold trap_instant_init, trap_init_class. rnum.
    rewrite (proj2 (Reqb_true 0 0) eq_refl). rewrite !(proj2 (Reqb_false _ 0)) by lra. cbn [bind]. unfold ccd_init. cbn [set_fractions set_full_well set_fill_power set_notch set_bloom bind].
    unfold hst_trap, hst_ccd. cbn. unfold nq. rnum. repeat f_equal; lra.
  - repeat split; try lra; try assumption; try (apply Rmult_lt_0_compat; lra); try (intros Hd; specialize (H4 Hd); tauto).
Qed.
