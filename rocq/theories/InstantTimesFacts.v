(** * Instant-capture traps with one lifetime, described by the times since they were filled. *)
From Coquelicot Require Import Coquelicot.
From Coq Require Import List Bool Reals Lra Lia.
From Verif Require Import Num Py RFacts CCDModel TrapsModel ManagerModel Spec SpecReadout SpecTime SpecHistory SpecHold SpecRecovery SpecFlatten WmFacts InstantFacts OrderFacts TameFacts TimesOrderFacts TimesGridFacts.
Import ListNotations.
Open Scope R_scope.

Section Instant.
Context (traps : list (trap R)) (dwell : R) (well : R -> R).
Hypothesis Hphys : Forall physical traps.
Hypothesis Hclass : Forall (fun t => t_class t = CInstant) traps.
Hypothesis Hdwell : 0 <= dwell.
Hypothesis Hw : forall a, 0 <= a -> 0 <= well a <= 1.
Notation n := (length traps).
Notation agrees P T := (same_profile n P (filled_by traps T)).
Lemma curve_of s : (s < n)%nat -> exists t, nth_error traps s = Some t /\ forall a, fill_fraction_from_time_elapsed t a = exp (- a / timescale traps s).
Proof.
  intros Hs. destruct (nth_error traps s) as [t|] eqn:E; [|apply nth_error_None in E; lia]. exists t. split; [reflexivity|]. intros a.
  pose proof (proj1 (Forall_forall _ _) Hclass t (nth_error_In _ _ E)) as C. cbn in C.
  assert (T : timescale traps s = t_release_timescale t) by (unfold timescale; apply nth_error_nth, map_nth_error, E).
  rewrite T. unfold fill_fraction_from_time_elapsed. rewrite C. reflexivity.
Qed.
Lemma agrees_wait P T : agrees P T -> agrees (after_release traps dwell P) (wait dwell T).
Proof.
  intros H s x Hs Hx. unfold after_release. rewrite (H s x Hs Hx). destruct (curve_of s Hs) as (t & E & C). unfold filled_by, wait. rewrite E.
  destruct (T s x) as [a|]; cbn [option_map]; [|ring]. rewrite !C, <- exp_plus. f_equal. unfold Rdiv. ring.
Qed.
Lemma agrees_fill v P T : agrees P T -> agrees (fill_to v P) (fill_now v T).
Proof.
  intros H s x Hs Hx. destruct (curve_of s Hs) as (t & E & C). unfold fill_to, filled_by, fill_now. rewrite E. destruct (Rlt_dec x v).
  - rewrite C. unfold Rdiv. rewrite Ropp_0, Rmult_0_l. symmetry. apply exp_0.
  - rewrite (H s x Hs Hx). unfold filled_by. rewrite E. reflexivity.
Qed.
Lemma agrees_held P T : agrees P T -> electrons traps P 0 1 = held traps T.
Proof. intros H. apply electrons_same; [exact H|lra|lra]. Qed.
Lemma agrees_cloud m P T : agrees P T -> cloud_from traps dwell 0 m P = t_cloud traps dwell m T.
Proof. intros H. unfold cloud_from, t_cloud, cloud_after, released. rewrite (agrees_held P T H), (agrees_held _ _ (agrees_wait P T H)). reflexivity. Qed.
Lemma agrees_pass : forall x P T, tidy n P -> agrees P T -> pass traps dwell well 0 P x = t_pass traps dwell well T x.
Proof.
  induction x as [|m x IH]; intros P T HP H; [reflexivity|]. cbn [pass t_pass]. pose proof (agrees_cloud m P T H) as C. pose proof (agrees_wait P T H) as W.
  assert (R0 : 0 <= well (t_cloud traps dwell m T) <= 1) by apply Hw, t_cloud_pos.
  assert (TP : tidy n (after_release traps dwell P)) by now apply tidy_release.
  f_equal.
  - unfold leaves, t_leaves, taken. rewrite C. rewrite <- (agrees_held _ _ (agrees_fill _ _ _ W)), <- (agrees_held _ _ W). rewrite fill_total by assumption. lra.
  - unfold behind, t_behind. rewrite C. apply IH; [now apply tidy_fill|now apply agrees_fill].
Qed.
Lemma instant_as_times x : pass traps dwell well 0 empty_profile x = t_pass traps dwell well never x.
Proof. apply agrees_pass; [apply tidy_empty|]. intros s y _ _. reflexivity. Qed.
Lemma column_as_by rows offset x : column_reads traps dwell well 0 rows offset x = column_by (pass traps dwell well 0 empty_profile) rows offset x.
Proof.
  unfold column_reads, column_by.
  assert (E : forall k y, enters traps dwell well 0 k y = enters_by (pass traps dwell well 0 empty_profile) k y) by (induction k as [|k IH]; intros y; [reflexivity|apply IH]).
  rewrite E. generalize (enters_by (pass traps dwell well 0 empty_profile) offset x).
  induction rows as [|k IH]; intros y; [reflexivity|]. cbn [reads reads_by]. destruct (pass traps dwell well 0 empty_profile y) as [|h l]; [reflexivity|]. cbn [skip]. now rewrite IH.
Qed.
End Instant.
