(** * The log-normal distribution of lifetimes, and traps with a continuum of lifetimes. *)
From Coq Require Import List Bool Reals Lra Lia.
From Coquelicot Require Import Rcomplements Rbar Hierarchy Continuity Derive AutoDerive ElemFct RInt RInt_analysis RInt_gen.
From Verif Require Import Num Py RFacts CCDModel TrapsModel ManagerModel Spec SpecTime ContinuumModel SpecContinuum GaussFacts ContinuumFacts.
Open Scope R_scope.

Lemma gen_of_antiderivative (p G : R -> R) (Fb : (R -> Prop) -> Prop) {FFb : Filter Fb} la lb :
  (forall x, 0 < x -> is_derive G x (p x)) -> (forall x, 0 < x -> continuous p x) ->
  filterlim G zero_right (locally la) -> filterlim G Fb (locally lb) -> Fb (fun x => 0 < x) ->
  is_RInt_gen p zero_right Fb (lb - la).
Proof.
  intros Hd Hc Ha Hb Hpos. apply filterlimi_locally. intros eps.
  assert (E : 0 < eps / 2) by (pose proof (cond_pos eps); lra).
  pose proof (proj1 (filterlim_locally _ _) Ha (mkposreal _ E)) as Pa. pose proof (proj1 (filterlim_locally _ _) Hb (mkposreal _ E)) as Pb.
  apply (Filter_prod _ _ _ (fun a => ball la (mkposreal _ E) (G a) /\ 0 < a) (fun b => ball lb (mkposreal _ E) (G b) /\ 0 < b)).
  - apply filter_and; [exact Pa|]. exists (mkposreal 1 Rlt_0_1). intros y _ Hy. exact Hy.
  - apply filter_and; [exact Pb|exact Hpos].
  - intros a b [Ba Ha0] [Bb Hb0]. exists (G b - G a). split.
    + cbn [fst snd]. apply (is_RInt_derive G p).
      * intros x [Hx _]. apply Hd. apply Rlt_le_trans with (2 := Hx). now apply Rmin_pos.
      * intros x [Hx _]. apply Hc. apply Rlt_le_trans with (2 := Hx). now apply Rmin_pos.
    + change (Rabs (G a - la) < eps / 2) in Ba. change (Rabs (G b - lb) < eps / 2) in Bb. change (Rabs (G b - G a - (lb - la)) < eps).
      apply Rabs_def2 in Ba. apply Rabs_def2 in Bb. apply Rabs_def1; lra.
Qed.

Section LogNormal.
Context (m sigma : R) (Hm : 0 < m) (Hs : 0 < sigma).
Definition score (x : R) : R := (ln x - ln m) / (sigma * sqrt 2).
Definition cumulative (x : R) : R := / sqrt PI * half_bell (score x).
Lemma sqrt2_pos : 0 < sqrt 2. Proof. apply sqrt_lt_R0. lra. Qed.
Lemma sqrtPI_pos : 0 < sqrt PI. Proof. apply sqrt_lt_R0, PI_RGT_0. Qed.
Lemma score_derive x : 0 < x -> is_derive score x (/ (x * sigma * sqrt 2)).
Proof.
  intros Hx. pose proof sqrt2_pos. unfold score. auto_derive; [exact Hx|]. field. repeat split; lra.
Qed.
Lemma cumulative_derive x : 0 < x -> is_derive cumulative x (log_normal_distribution x m sigma).
Proof.
  intros Hx. pose proof sqrt2_pos as S2. pose proof sqrtPI_pos as SP.
  assert (H : is_derive (fun x => half_bell (score x)) x (scal (/ (x * sigma * sqrt 2)) (bell (score x)))).
  { apply (is_derive_comp half_bell score); [apply half_bell_derive|now apply score_derive]. }
  apply (is_derive_scal _ _ (/ sqrt PI)) in H.
  replace (log_normal_distribution x m sigma) with (/ sqrt PI * (/ (x * sigma * sqrt 2) * bell (score x))); [exact H|].
  unfold log_normal_distribution, bell, score. rewrite sqrt_mult_alt by lra.
  replace (- (ln x - ln m) ^ 2 / (2 * sigma ^ 2)) with (- ((ln x - ln m) / (sigma * sqrt 2)) ^ 2).
  - field. repeat split; lra.
  - replace (((ln x - ln m) / (sigma * sqrt 2)) ^ 2) with ((ln x - ln m) ^ 2 / (sigma ^ 2 * (sqrt 2 * sqrt 2))) by (field; repeat split; lra).
    rewrite sqrt_sqrt by lra. field. lra.
Qed.
Lemma log_normal_continuous x : 0 < x -> continuous (fun x => log_normal_distribution x m sigma) x.
Proof.
  intros Hx. pose proof sqrt2_pos. assert (0 < sqrt (2 * PI)) by (apply sqrt_lt_R0; pose proof PI_RGT_0; lra).
  apply (ex_derive_continuous (fun x => log_normal_distribution x m sigma)). unfold log_normal_distribution. auto_derive.
  repeat split; auto. apply Rgt_not_eq. repeat apply Rmult_lt_0_compat; lra.
Qed.
Lemma log_normal_positive x : 0 < x -> 0 < log_normal_distribution x m sigma.
Proof.
  intros Hx. assert (0 < sqrt (2 * PI)) by (apply sqrt_lt_R0; pose proof PI_RGT_0; lra).
  unfold log_normal_distribution. apply Rdiv_lt_0_compat; [apply exp_pos|]. repeat apply Rmult_lt_0_compat; lra.
Qed.
Lemma score_low : filterlim score zero_right (Rbar_locally m_infty).
Proof.
  intros P [M HM]. pose proof sqrt2_pos. exists (mkposreal (exp (M * (sigma * sqrt 2) + ln m)) (exp_pos _)). intros y Hy Hy0.
  change (Rabs (y - 0) < exp (M * (sigma * sqrt 2) + ln m)) in Hy. rewrite Rminus_0_r, Rabs_right in Hy by lra. apply HM.
  apply ln_increasing in Hy; [|exact Hy0]. rewrite ln_exp in Hy. unfold score.
  assert (0 < sigma * sqrt 2) by nra. apply Rmult_lt_reg_r with (sigma * sqrt 2); [assumption|].
  unfold Rdiv. rewrite Rmult_assoc, Rinv_l by lra. lra.
Qed.
Lemma score_high : filterlim score infinity infinity.
Proof.
  intros P [M HM]. pose proof sqrt2_pos. exists (exp (M * (sigma * sqrt 2) + ln m)). intros y Hy. apply HM.
  apply ln_increasing in Hy; [|apply exp_pos]. rewrite ln_exp in Hy. unfold score.
  assert (0 < sigma * sqrt 2) by nra. apply Rmult_lt_reg_r with (sigma * sqrt 2); [assumption|].
  unfold Rdiv. rewrite (Rmult_assoc (ln y - ln m)), Rinv_l by lra. lra.
Qed.
Lemma scaled_limit (F : (R -> Prop) -> Prop) {FF : Filter F} (f : R -> R) l : filterlim f F (locally l) ->
  filterlim (fun x => / sqrt PI * f x) F (locally (/ sqrt PI * l)).
Proof.
  intros H. apply (filterlim_comp _ _ _ f (fun y => / sqrt PI * y) _ _ _ H). apply (filterlim_scal_r (/ sqrt PI) l (V := R_NormedModule)).
Qed.
Lemma cumulative_low : filterlim cumulative zero_right (locally (- (1/2))).
Proof.
  pose proof sqrtPI_pos. replace (- (1/2)) with (/ sqrt PI * - (sqrt PI / 2)) by (field; lra). apply (scaled_limit _ (fun x => half_bell (score x))).
  apply (filterlim_comp _ _ _ score half_bell _ _ _ score_low half_bell_limit_minus).
Qed.
Lemma cumulative_high : filterlim cumulative infinity (locally (1/2)).
Proof.
  pose proof sqrtPI_pos. replace (1/2) with (/ sqrt PI * (sqrt PI / 2)) by (field; lra). apply (scaled_limit _ (fun x => half_bell (score x))).
  apply (filterlim_comp _ _ _ score half_bell _ _ _ score_high half_bell_limit).
Qed.
Lemma log_normal_lifetimes : lifetimes (fun x => log_normal_distribution x m sigma).
Proof.
  constructor.
  - exact log_normal_continuous.
  - intros x Hx. left. now apply log_normal_positive.
  - replace 1 with (1/2 - - (1/2)) by lra. apply (gen_of_antiderivative _ cumulative); [typeclasses eauto|..].
    + exact cumulative_derive.
    + exact log_normal_continuous.
    + exact cumulative_low.
    + exact cumulative_high.
    + now exists 0.
Qed.
Lemma log_normal_median : is_RInt_gen (fun x => log_normal_distribution x m sigma) zero_right (at_point m) (1/2).
Proof.
  replace (1/2) with (0 - - (1/2)) by lra. apply (gen_of_antiderivative _ cumulative); [typeclasses eauto|..].
  - exact cumulative_derive.
  - exact log_normal_continuous.
  - exact cumulative_low.
  - intros P HP. unfold filtermap, at_point. replace (cumulative m) with 0; [now apply locally_singleton|].
    unfold cumulative, score. rewrite Rminus_diag_eq by reflexivity. unfold Rdiv. rewrite Rmult_0_l. unfold half_bell. rewrite RInt_point. symmetry. apply Rmult_0_r.
  - exact Hm.
Qed.
End LogNormal.

(** ** Traps with a continuum of lifetimes. *)
Section Trap.
Context (distribution : R -> R -> R -> R) (root : (R -> R) -> R -> R) (density mu sigma : R).
Hypotheses (Hmu : mu <> 0) (Hl : lifetimes (fun x => distribution x mu sigma)).
Lemma continuum_built : exists t, continuum_trap distribution root density mu sigma = Ok t /\ t_density t = density /\
  t_class t = CContinuum (continuum_fill distribution mu sigma) (continuum_released distribution mu sigma) (continuum_solve distribution mu sigma root).
Proof.
  unfold continuum_trap, trap_continuum_init, trap_init_class. rnum. replace (Reqb mu 0) with false by (symmetry; now apply Reqb_false).
  replace (Reqb 0 0) with true by (symmetry; now apply Reqb_true). eexists. repeat split.
Qed.
Lemma fill_survival s : continuum_fill distribution mu sigma s = survival (fun x => distribution x mu sigma) s.
Proof. reflexivity. Qed.
Lemma released_drop s dwell : 0 <= s -> 0 <= dwell ->
  continuum_released distribution mu sigma s dwell = continuum_fill distribution mu sigma s - continuum_fill distribution mu sigma (s + dwell).
Proof.
  intros Hs Hd. rewrite !fill_survival, <- (gap_average _ Hl s (s + dwell)) by lra.
  assert (E : average (fun x => distribution x mu sigma) (fun x => exp (- s / x) - exp (- (s + dwell) / x)) =
    continuum_released distribution mu sigma s dwell); [|now rewrite E].
  unfold continuum_released, quad. symmetry. 
  assert (I : is_RInt_gen (fun x => distribution x mu sigma * (exp (- s / x) - exp (- (s + dwell) / x))) zero_right infinity
    (average (fun x => distribution x mu sigma) (fun x => exp (- s / x) - exp (- (s + dwell) / x)))).
  { apply (average_is _ Hl).
    - intros x Hx. now apply gap_continuous.
    - intros x Hx. pose proof (decay_range s x Hs Hx). pose proof (decay_range (s + dwell) x ltac:(lra) Hx). lra. }
  apply is_RInt_gen_unique. revert I. apply is_RInt_gen_ext. apply bounds_eventually. intros a b Ha Hab x [Hx _]. cbn [fst snd] in Hx.
  rewrite Rmin_left in Hx by exact Hab. replace (- (s + dwell) / x) with (- s / x + - dwell / x) by (field; lra). rewrite exp_plus.
  match goal with |- ?u = ?v => change (@eq R u v) end. ring.
Qed.
Lemma released_range s dwell : 0 <= s -> 0 <= dwell ->
  0 <= continuum_released distribution mu sigma s dwell <= continuum_fill distribution mu sigma s.
Proof.
  intros Hs Hd. rewrite released_drop by assumption. rewrite !fill_survival.
  pose proof (survival_falls _ Hl s (s + dwell) ltac:(lra)). pose proof (survival_positive _ Hl (s + dwell) ltac:(lra)). lra.
Qed.
End Trap.
Lemma log_normal_fades root density m sigma t : 0 <= density -> 0 < m -> 0 < sigma -> log_normal_trap root density m sigma = Ok t -> fading t.
Proof.
  intros Hd Hm Hs E. pose proof (log_normal_lifetimes m sigma Hs) as Hl.
  destruct (continuum_built log_normal_distribution root density m sigma ltac:(lra)) as (t' & E' & Ed & Ec).
  unfold log_normal_trap in E. rewrite E in E'. injection E' as <-. constructor.
  - lra.
  - unfold fill_fraction_from_time_elapsed. rewrite Ec, fill_survival, (survival_at_0 _ Hl). lra.
  - intros a b Hab. unfold fill_fraction_from_time_elapsed. rewrite Ec, !fill_survival. now apply (survival_falls _ Hl).
Qed.
