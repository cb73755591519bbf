(** * Proofs about TrapsModel.v and the fill probabilities of ManagerModel.v. *)
From Coq Require Import ZArith List Bool Reals Lra Lia.
From Coquelicot Require Import Coquelicot.
From Verif Require Import Num Py RFacts CCDModel TrapsModel ManagerModel Spec.
Import ListNotations.
Open Scope R_scope.

Lemma fill_fraction_exp t x : exponential t ->
  fill_fraction_from_time_elapsed t x = exp (- x / t_release_timescale t).
Proof. unfold exponential, fill_fraction_from_time_elapsed. destruct (t_class t); [..|easy]; reflexivity. Qed.
Lemma time_elapsed_ln t f : exponential t ->
  time_elapsed_from_fill_fraction t f = Ok (- t_release_timescale t * ln f).
Proof. unfold exponential, time_elapsed_from_fill_fraction. destruct (t_class t); [..|easy]; reflexivity. Qed.

Lemma fill_fraction_0 t : exponential t -> fill_fraction_from_time_elapsed t 0 = 1.
Proof. intros. rewrite fill_fraction_exp by auto. replace (- 0 / _) with 0 by (unfold Rdiv; ring). apply exp_0. Qed.
Lemma neg_div x tau : 0 < tau -> 0 <= x -> - x / tau <= 0.
Proof.
  intros. unfold Rdiv. rewrite Ropp_mult_distr_l_reverse.
  assert (0 <= x * / tau) by (apply Rmult_le_pos; [lra | left; now apply Rinv_0_lt_compat]). lra.
Qed.
Lemma fill_fraction_range t x : exponential t -> 0 < t_release_timescale t -> 0 <= x ->
  0 < fill_fraction_from_time_elapsed t x <= 1.
Proof.
  intros. rewrite fill_fraction_exp by auto. split; [apply exp_pos|]. apply exp_neg_le_1. now apply neg_div.
Qed.
Lemma fill_fraction_decr t x y : exponential t -> 0 < t_release_timescale t -> x < y ->
  fill_fraction_from_time_elapsed t y < fill_fraction_from_time_elapsed t x.
Proof.
  intros. rewrite !fill_fraction_exp by auto. apply exp_increasing.
  apply Rmult_lt_compat_r; [now apply Rinv_0_lt_compat | lra].
Qed.
Lemma fill_of_time t f : exponential t -> 0 < t_release_timescale t -> 0 < f ->
  exists time, time_elapsed_from_fill_fraction t f = Ok time /\ fill_fraction_from_time_elapsed t time = f.
Proof.
  intros. eexists. rewrite time_elapsed_ln by auto. split; [reflexivity|].
  rewrite fill_fraction_exp by auto. 
  replace (- (- t_release_timescale t * ln f) / t_release_timescale t) with (ln f) by (field; lra).
  now apply exp_ln.
Qed.
Lemma time_of_fill t x : exponential t -> 0 < t_release_timescale t ->
  time_elapsed_from_fill_fraction t (fill_fraction_from_time_elapsed t x) = Ok x.
Proof.
  intros. rewrite fill_fraction_exp, time_elapsed_ln, ln_exp by auto. f_equal. field. lra.
Qed.

Lemma fill_fraction_add t x y : exponential t -> t_release_timescale t <> 0 ->
  fill_fraction_from_time_elapsed t (x + y)
  = fill_fraction_from_time_elapsed t x * fill_fraction_from_time_elapsed t y.
Proof.
  intros. rewrite !fill_fraction_exp, <- exp_plus by auto. f_equal. field. auto.
Qed.

Lemma release_bounds t n dt : exponential t -> 0 < t_release_timescale t -> 0 <= n -> 0 <= dt ->
  0 <= electrons_released_from_electrons_and_dwell_time t n dt <= n.
Proof.
  intros. unfold electrons_released_from_electrons_and_dwell_time; rnum.
  destruct (fill_fraction_range t dt) as [Hl Hu]; auto. split; nra.
Qed.
Lemma release_compose t n t1 t2 : exponential t -> 0 < t_release_timescale t ->
  let r := electrons_released_from_electrons_and_dwell_time t in
  r n t1 + r (n - r n t1) t2 = r n (t1 + t2).
Proof.
  intros He Ht r. subst r. unfold electrons_released_from_electrons_and_dwell_time; rnum.
  rewrite fill_fraction_add by (auto; lra). ring.
Qed.
Lemma release_drop t x dt : exponential t -> 0 < t_release_timescale t ->
  electrons_released_from_time_elapsed_and_dwell_time t x dt
  = fill_fraction_from_time_elapsed t x - fill_fraction_from_time_elapsed t (x + dt).
Proof.
  intros He Ht. rewrite fill_fraction_add by (auto; lra). rewrite !fill_fraction_exp by auto.
  unfold exponential, electrons_released_from_time_elapsed_and_dwell_time in *.
  destruct (t_class t); [..|easy]; rnum; ring.
Qed.

(** ** The fill probabilities. *)
Section Rates.
Variables c e : R.
Hypothesis Hc : 0 < c.
Hypothesis He : 0 < e.
Definition efac (t : R) := (1 - exp (- (c + e) * t)) / (c + e).
Definition pe (t : R) := c * efac t.
Definition pf (t : R) := 1 - e * efac t.
Definition fill_at (f t : R) := f * pf t + (1 - f) * pe t.

Lemma efac_nonneg t : 0 <= t -> 0 <= efac t.
Proof.
  intros. unfold efac. apply Rmult_le_pos; [|left; apply Rinv_0_lt_compat; lra].
  assert (exp (- (c + e) * t) <= 1) by (apply exp_neg_le_1; nra). lra.
Qed.
Lemma pf_pe t : pf t - pe t = exp (- (c + e) * t).
Proof. unfold pf, pe, efac. field. lra. Qed.
Lemma pe_nonneg t : 0 <= t -> 0 <= pe t.
Proof. intros. unfold pe. pose proof (efac_nonneg t H). nra. Qed.
Lemma pf_le_1 t : 0 <= t -> pf t <= 1.
Proof. intros. unfold pf. pose proof (efac_nonneg t H). nra. Qed.
Lemma pe_le_pf t : pe t <= pf t.
Proof. pose proof (pf_pe t). pose proof (exp_pos (- (c + e) * t)). lra. Qed.

Lemma pf_derive t : is_derive pf t (- e * exp (- (c + e) * t)).
Proof. unfold pf, efac. auto_derive; [lra|]. field. lra. Qed.

Lemma release_le_full t : 0 <= t -> exp (- e * t) <= pf t.
Proof.
  intros Ht.
  pose (g := fun x => pf x - exp (- e * x)).
  assert (Hg : forall x, is_derive g x (- e * exp (- (c + e) * x) + e * exp (- e * x))).
  { intros x. unfold g, pf, efac. auto_derive; [lra|]. field. lra. }
  assert (H0 : g 0 = 0).
  { unfold g, pf, efac. rewrite !Rmult_0_r, !exp_0. field. lra. }
  destruct (Req_dec t 0) as [->|]; [unfold g in H0; lra|].
  destruct (MVT_gen g 0 t (fun x => - e * exp (- (c + e) * x) + e * exp (- e * x))) as (x & Hx & E).
  - intros; apply Hg.
  - intros x _. apply continuity_pt_filterlim. apply (ex_derive_continuous g). eexists; apply Hg.
  - rewrite Rmin_left, Rmax_right in Hx by lra.
    assert (exp (- (c + e) * x) <= exp (- e * x)) by (apply exp_mono; nra).
    rewrite H0 in E. unfold g in E.
    assert (0 <= e * (exp (- e * x) - exp (- (c + e) * x)) * t)
      by (apply Rmult_le_pos; [apply Rmult_le_pos|]; lra).
    lra.
Qed.

Lemma fill_at_0 f : fill_at f 0 = f.
Proof. unfold fill_at, pf, pe, efac. rewrite !Rmult_0_r, exp_0. field. lra. Qed.
Lemma fill_at_range f t : 0 <= f <= 1 -> 0 <= t -> 0 <= fill_at f t <= 1.
Proof.
  intros. unfold fill_at. pose proof (pe_nonneg t H0). pose proof (pf_le_1 t H0). pose proof (pe_le_pf t).
  assert (0 <= f * (pf t - pe t)) by (apply Rmult_le_pos; lra).
  assert (0 <= (1 - f) * (pf t - pe t)) by (apply Rmult_le_pos; lra). lra.
Qed.
Lemma fill_at_ode f t :
  is_derive (fill_at f) t (c * (1 - fill_at f t) - e * fill_at f t).
Proof. unfold fill_at, pf, pe, efac. auto_derive; [lra|]. field. lra. Qed.
Lemma fill_at_compose f t1 t2 : fill_at (fill_at f t1) t2 = fill_at f (t1 + t2).
Proof.
  unfold fill_at, pf, pe, efac.
  replace (- (c + e) * (t1 + t2)) with (- (c + e) * t1 + - (c + e) * t2) by ring.
  rewrite exp_plus. field. lra.
Qed.
End Rates.

Lemma fill_probabilities1_fin t dt c : t_capture_rate t = RFin c -> 0 < c -> 0 < t_emission_rate t ->
  fill_probabilities1 dt t
  = Ok (pe c (t_emission_rate t) dt, pf c (t_emission_rate t) dt, exp (- t_emission_rate t * dt)).
Proof.
  intros E Hc He. unfold fill_probabilities1. rewrite E; rnum.
  destruct (Reqb_spec (c + t_emission_rate t) 0); [lra|]. reflexivity.
Qed.
Lemma fill_probabilities1_inf t dt : t_capture_rate t = RInf -> 0 < dt ->
  fill_probabilities1 dt t = Ok (1, 1, exp (- t_emission_rate t * dt)).
Proof.
  intros E Hd. unfold fill_probabilities1. rewrite E; rnum.
  destruct (Rltb_spec 0 dt); [reflexivity|lra].
Qed.

Lemma fill_probabilities_range t dt c : t_capture_rate t = RFin c -> 0 < c -> 0 < t_emission_rate t -> 0 <= dt ->
  exists p_e p_f p_r, fill_probabilities1 dt t = Ok (p_e, p_f, p_r) /\
    0 <= p_e <= 1 /\ 0 <= p_f <= 1 /\ 0 <= p_r <= 1 /\ p_e <= p_f /\ p_r <= p_f.
Proof.
  intros E Hc He Hdt. rewrite (fill_probabilities1_fin t dt c E Hc He).
  set (e := t_emission_rate t) in *. do 3 eexists. split; [reflexivity|].
  pose proof (pe_nonneg c e Hc He dt Hdt). pose proof (pf_le_1 c e Hc He dt Hdt). pose proof (pe_le_pf c e Hc He dt).
  pose proof (release_le_full c e Hc He dt Hdt). pose proof (exp_pos (- e * dt)).
  lra.
Qed.

Lemma rate_equation t c f : t_capture_rate t = RFin c -> 0 < c -> 0 < t_emission_rate t ->
  exists fill : R -> R,
    (forall dt, exists p_e p_f p_r, fill_probabilities1 dt t = Ok (p_e, p_f, p_r) /\
       fill dt = f * p_f + (1 - f) * p_e) /\
    fill 0 = f /\
    forall dt, derivable_pt_lim fill dt (c * (1 - fill dt) - t_emission_rate t * fill dt).
Proof.
  intros E Hc He. exists (fill_at c (t_emission_rate t) f). split; [|split].
  - intros dt. do 3 eexists. split; [apply (fill_probabilities1_fin t dt c E Hc He)|reflexivity].
  - now apply fill_at_0.
  - intros dt. apply is_derive_Reals. now apply fill_at_ode.
Qed.

Lemma two_dwell_times t c f t1 t2 : t_capture_rate t = RFin c -> 0 < c -> 0 < t_emission_rate t ->
  exists e1 f1 r1 e2 f2 r2 e3 f3 r3,
    fill_probabilities1 t1 t = Ok (e1, f1, r1) /\
    fill_probabilities1 t2 t = Ok (e2, f2, r2) /\
    fill_probabilities1 (t1 + t2) t = Ok (e3, f3, r3) /\
    (let g := f * f1 + (1 - f) * e1 in g * f2 + (1 - g) * e2) = f * f3 + (1 - f) * e3 /\
    f * r1 * r2 = f * r3.
Proof.
  intros E Hc He. do 9 eexists.
  do 3 (split; [apply (fill_probabilities1_fin t _ c E Hc He)|]). split.
  - exact (fill_at_compose c (t_emission_rate t) Hc He f t1 t2).
  - rewrite Rmult_assoc, <- exp_plus. do 2 f_equal. ring.
Qed.

Lemma fill_probabilities_instant t dt : t_capture_rate t = RInf -> 0 < dt -> 0 < t_emission_rate t ->
  exists p_r, fill_probabilities1 dt t = Ok (1, 1, p_r) /\ 0 < p_r < 1.
Proof.
  intros E Hdt He. rewrite (fill_probabilities1_inf t dt E Hdt). eexists. split; [reflexivity|].
  split; [apply exp_pos|]. apply exp_neg_lt_1. nra.
Qed.
