(** * Narrow continua of lifetimes release almost like traps with one lifetime. *)
From Coquelicot Require Import Coquelicot.
From Coq Require Import List Bool Reals Lra Lia.
From Verif Require Import Num Py RFacts CCDModel TrapsModel ManagerModel Spec SpecTime ContinuumModel SpecContinuum GaussFacts ContinuumFacts LogNormalFacts.
Open Scope R_scope.

(** ** Decay, as a function of the logarithm of the lifetime *)
Lemma little_left y : 0 <= y -> 0 <= y * exp (- y) <= 1.
Proof.
  intros Hy. pose proof (exp_pos (- y)) as E. split; [apply Rmult_le_pos; lra|].
  assert (y <= exp y) by (pose proof (exp_ineq1_le y); lra). replace 1 with (exp y * exp (- y)) by (rewrite <- exp_plus, Rplus_opp_r; apply exp_0).
  apply Rmult_le_compat_r; lra.
Qed.
Lemma decay_near s x y : 0 <= s -> 0 < x -> 0 < y -> Rabs (exp (- s / x) - exp (- s / y)) <= Rabs (ln x - ln y).
Proof.
  intros Hs Hx Hy. set (f := fun u => exp (- (s * exp (- u)))). set (df := fun u => (s * exp (- u)) * exp (- (s * exp (- u)))).
  assert (D : forall u, is_derive f u (df u)) by (intros u; unfold f, df; auto_derive; [exact I|ring]).
  assert (V : forall z, 0 < z -> f (ln z) = exp (- s / z)) by (intros z Hz; unfold f; rewrite (exp_Ropp (ln z)), exp_ln by exact Hz; f_equal; field; lra).
  destruct (MVT_gen f (ln y) (ln x) df) as (c & _ & E); [intros u _; apply D|intros u _; apply continuity_pt_filterlim, (ex_derive_continuous f); exists (df u); apply D|].
  rewrite !V in E by assumption. rewrite E, Rabs_mult. pose proof (exp_pos (- c)) as P.
  pose proof (little_left (s * exp (- c)) ltac:(apply Rmult_le_pos; lra)) as L. fold (df c) in L.
  rewrite (Rabs_right (df c)) by lra. pose proof (Rabs_pos (ln x - ln y)). nra.
Qed.

(** ** The mean distance from the median *)
Lemma tail_bell : filterlim (fun z => z * bell z) (Rbar_locally p_infty) (locally 0) /\ filterlim (fun z => z * bell z) (Rbar_locally m_infty) (locally 0).
Proof.
  assert (B : forall z, Rabs z * bell z <= / Rabs z \/ z = 0).
  { intros z. destruct (Req_dec z 0) as [->|Hz]; [now right|left]. unfold bell. pose proof (Rabs_pos_lt z Hz) as P. rewrite <- pow2_abs. set (a := Rabs z) in *.
    pose proof (exp_ineq1_le (a ^ 2)) as E. rewrite exp_Ropp. pose proof (exp_pos (a ^ 2)) as X. apply Rmult_le_reg_r with (a * exp (a ^ 2)); [nra|].
    replace (a * / exp (a ^ 2) * (a * exp (a ^ 2))) with (a * a) by (field; lra). replace (/ a * (a * exp (a ^ 2))) with (exp (a ^ 2)) by (field; lra). nra. }
  assert (K : forall (eps : posreal) z, / eps < Rabs z -> ball 0 eps (z * bell z)).
  { intros eps z Hz. pose proof (cond_pos eps) as He. pose proof (Rinv_0_lt_compat _ He) as Hi. change (Rabs (z * bell z - 0) < eps). rewrite Rminus_0_r, Rabs_mult.
    assert (Z : z <> 0) by (intros ->; rewrite Rabs_R0 in Hz; lra). destruct (B z) as [L|L]; [|contradiction].
    rewrite (Rabs_right (bell z)) by (unfold bell; left; apply exp_pos). apply Rle_lt_trans with (1 := L). rewrite <- (Rinv_inv eps). apply Rinv_lt_contravar; nra. }
  split; apply filterlim_locally; intros eps.
  - exists (/ eps). intros z Hz. apply K. rewrite Rabs_right; [exact Hz|]. pose proof (Rinv_0_lt_compat _ (cond_pos eps)). lra.
  - exists (- / eps). intros z Hz. apply K. pose proof (Rinv_0_lt_compat _ (cond_pos eps)). rewrite Rabs_left; lra.
Qed.
Section LogNormal.
Context (m sigma : R) (Hm : 0 < m) (Hs : 0 < sigma).
Notation p := (fun x => log_normal_distribution x m sigma).
Notation z := (score m sigma).
Let spread (x : R) : R := sigma * (z x ^ 2 + 1 / 2).
Let primitive (x : R) : R := sigma * (/ sqrt PI * (half_bell (z x) - z x * bell (z x) / 2)).
Lemma spread_covers x : 0 < x -> Rabs (ln x - ln m) <= spread x.
Proof.
  intros Hx. pose proof sqrt2_pos as S2. assert (E : ln x - ln m = sigma * sqrt 2 * z x) by (unfold score; field; lra).
  rewrite E, !Rabs_mult, (Rabs_right sigma), (Rabs_right (sqrt 2)) by lra. unfold spread. rewrite Rmult_assoc. apply Rmult_le_compat_l; [lra|].
  rewrite <- (pow2_abs (z x)). pose proof (sqrt_sqrt 2 ltac:(lra)) as Q. pose proof (pow2_ge_0 (Rabs (z x) - sqrt 2 / 2)) as P. nra.
Qed.
Lemma primitive_derive x : 0 < x -> is_derive primitive x (p x * spread x).
Proof.
  intros Hx. pose proof sqrt2_pos as S2. pose proof sqrtPI_pos as SP.
  set (H := fun u => half_bell u - u * bell u / 2).
  assert (DH : forall u, is_derive H u ((u ^ 2 + 1 / 2) * bell u)).
  { intros u. unfold H. replace ((u ^ 2 + 1 / 2) * bell u) with (bell u - (1 / 2 * bell u - u ^ 2 * bell u)) by field.
    apply (is_derive_minus half_bell (fun u => u * bell u / 2)); [apply half_bell_derive|]. unfold bell. auto_derive; [exact I|]. cbn. field. }
  assert (D : is_derive (fun x => H (z x)) x (scal (/ (x * sigma * sqrt 2)) ((z x ^ 2 + 1 / 2) * bell (z x)))).
  { apply (is_derive_comp H z); [apply DH|now apply score_derive]. }
  apply (is_derive_scal _ _ (/ sqrt PI)) in D. apply (is_derive_scal _ _ sigma) in D. unfold primitive. fold H.
  replace (p x * spread x) with (sigma * (/ sqrt PI * (/ (x * sigma * sqrt 2) * ((z x ^ 2 + 1 / 2) * bell (z x))))); [exact D|].
  unfold spread. assert (E : p x = / sqrt PI * (/ (x * sigma * sqrt 2) * bell (z x))).
  { pose proof (cumulative_derive m sigma Hs x Hx) as C.
    assert (C' : is_derive (cumulative m sigma) x (/ sqrt PI * (/ (x * sigma * sqrt 2) * bell (z x)))).
    { unfold cumulative. apply (is_derive_scal (fun x => half_bell (z x)) x (/ sqrt PI)). apply (is_derive_comp half_bell z); [apply half_bell_derive|now apply score_derive]. }
    apply is_derive_unique in C, C'. rewrite <- C, <- C'. reflexivity. }
  rewrite E. ring.
Qed.
Lemma primitive_limit (F : (R -> Prop) -> Prop) (G : (R -> Prop) -> Prop) {FF : Filter F} {GF : Filter G} l : filterlim z F G ->
  filterlim half_bell G (locally l) -> filterlim (fun z => z * bell z) G (locally 0) -> filterlim primitive F (locally (sigma * (/ sqrt PI * l))).
Proof.
  intros Hz Hh Hb. unfold primitive.
  assert (L : filterlim (fun x => half_bell (z x) - z x * bell (z x) / 2) F (locally l)).
  { apply (filterlim_comp _ _ _ z (fun u => half_bell u - u * bell u / 2) F G _ Hz).
    replace l with (plus l (scal (- / 2) (0 : R))) by (unfold plus, scal; cbn; unfold mult; cbn; lra).
    apply (filterlim_ext (fun u => plus (half_bell u) (scal (- / 2) (u * bell u)))); [intros u; unfold plus, scal; cbn; unfold mult; cbn; lra|].
    apply (filterlim_comp_2 (G := locally l) (H := locally (scal (- / 2) (0 : R)))); [exact Hh| |apply (filterlim_plus (V := R_NormedModule))].
    apply (filterlim_comp _ _ _ (fun u => u * bell u) (fun y => scal (- / 2) y) _ _ _ Hb). apply (filterlim_scal_r (- / 2) (0 : R) (V := R_NormedModule)). }
  assert (K : forall c (f : R -> R) l', filterlim f F (locally l') -> filterlim (fun x => c * f x) F (locally (c * l'))).
  { intros c f l' Hf. apply (filterlim_comp _ _ _ f (fun y => c * y) _ _ _ Hf). apply (filterlim_scal_r c l' (V := R_NormedModule)). }
  apply (K sigma), (K (/ sqrt PI)), L.
Qed.
Lemma mean_spread : is_RInt_gen (fun x => p x * spread x) zero_right infinity sigma.
Proof.
  pose proof sqrtPI_pos as SP. destruct tail_bell as [T1 T2].
  replace sigma with (sigma * (/ sqrt PI * (sqrt PI / 2)) - sigma * (/ sqrt PI * - (sqrt PI / 2))) at 1 by (field; lra).
  apply (gen_of_antiderivative _ primitive); [typeclasses eauto|exact primitive_derive| | | |now exists 0].
  - intros x Hx. apply (continuous_mult p spread); [now apply log_normal_continuous|]. apply (ex_derive_continuous spread). unfold spread, score. auto_derive. exact Hx.
  - apply (primitive_limit _ (Rbar_locally m_infty)); [apply score_low; assumption|exact half_bell_limit_minus|exact T2].
  - apply (primitive_limit _ (Rbar_locally p_infty)); [apply score_high; assumption|exact half_bell_limit|exact T1].
Qed.
Lemma narrow_survival s : 0 <= s -> Rabs (continuum_fill log_normal_distribution m sigma s - exp (- s / m)) <= sigma.
Proof.
  intros H. rewrite fill_survival. unfold survival. pose proof (log_normal_lifetimes m sigma Hs) as Hp.
  assert (C : forall x, 0 < x -> continuous (fun x => exp (- s / x)) x) by (intros; now apply decay_continuous).
  assert (B : forall x, 0 < x -> -1 <= exp (- s / x) <= 1) by (intros x Hx; pose proof (decay_range s x H Hx); lra).
  assert (C0 : forall x : R, 0 < x -> continuous (fun _ => exp (- s / m)) x) by (intros; apply continuous_const).
  assert (B0 : forall x : R, 0 < x -> -1 <= exp (- s / m) <= 1) by (intros x Hx; pose proof (decay_range s m H Hm); lra).
  pose proof (average_is p Hp (fun x => exp (- s / x)) C B) as A. pose proof (average_is p Hp (fun _ => exp (- s / m)) C0 B0) as A0.
  assert (E0 : average p (fun _ => exp (- s / m)) = exp (- s / m)).
  { rewrite (average_scal p Hp (exp (- s / m)) (fun _ => 1) (fun _ => exp (- s / m))); [rewrite (average_one p Hp) by reflexivity; ring|intros; apply continuous_const|intros; lra|intros; ring]. }
  rewrite E0 in A0. revert A. generalize (average p (fun x => exp (- s / x))). intros kept A. pose proof (is_RInt_gen_minus _ _ _ _ A A0) as M. pose proof (is_RInt_gen_minus _ _ _ _ A0 A) as M'.
  assert (K : forall x, 0 < x -> Rabs (p x * exp (- s / x) - p x * exp (- s / m)) <= p x * spread x).
  { intros x Hx. pose proof (lt_nonneg p Hp x Hx) as N. rewrite <- Rmult_minus_distr_l, Rabs_mult, (Rabs_right (p x)) by lra. apply Rmult_le_compat_l; [exact N|].
    eapply Rle_trans; [apply decay_near; assumption|now apply spread_covers]. }
  apply Rabs_le. split.
  - pose proof (gen_le _ _ _ _ (fun x Hx => proj2 (proj1 (Rabs_le_between _ _) (eq_ind _ (fun y => y <= _) (K x Hx) _ (Rabs_minus_sym _ _)))) M' mean_spread) as Q. unfold minus, plus, opp in Q. cbn in Q. lra.
  - pose proof (gen_le _ _ _ _ (fun x Hx => proj2 (proj1 (Rabs_le_between _ _) (K x Hx))) M mean_spread) as Q. unfold minus, plus, opp in Q. cbn in Q. lra.
Qed.
End LogNormal.
