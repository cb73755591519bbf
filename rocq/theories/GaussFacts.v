(** * The Gaussian integral. *)
From Coq Require Import Reals Lra Lia.
From Coquelicot Require Import Rcomplements Rbar Hierarchy Continuity Derive AutoDerive RInt RInt_analysis.
Open Scope R_scope.

Definition bell (t : R) : R := exp (- t ^ 2).
Definition half_bell (x : R) : R := RInt bell 0 x.
Definition slices (x t : R) : R := exp (- x ^ 2 * (1 + t ^ 2)) / (1 + t ^ 2).
Definition remainder (x : R) : R := RInt (slices x) 0 1.

Lemma bell_continuous t : continuous bell t.
Proof. apply (ex_derive_continuous bell). unfold bell. auto_derive. exact I. Qed.
Lemma bell_int a b : ex_RInt bell a b.
Proof. apply (ex_RInt_continuous bell). intros; apply bell_continuous. Qed.
Lemma one_plus_sq t : 0 < 1 + t ^ 2.
Proof. pose proof (pow2_ge_0 t). lra. Qed.
Lemma half_bell_derive x : is_derive half_bell x (bell x).
Proof.
  apply (is_derive_RInt bell half_bell 0 x); [|apply bell_continuous].
  apply filter_forall. intros b. exact (RInt_correct bell 0 b (bell_int 0 b)).
Qed.
Lemma slices_derive x t : is_derive (fun u => slices u t) x (- 2 * x * exp (- x ^ 2 * (1 + t ^ 2))).
Proof.
  pose proof (one_plus_sq t). unfold slices. auto_derive; [exact I|]. replace (- (x * (x * 1)) * (1 + t * (t * 1))) with (- x ^ 2 * (1 + t ^ 2)) by ring. field. nra.
Qed.
Lemma slices_continuous x t : continuous (slices x) t.
Proof.
  pose proof (one_plus_sq t). apply (ex_derive_continuous (slices x)). unfold slices. auto_derive. lra.
Qed.
Lemma slices_int x : ex_RInt (slices x) 0 1.
Proof. apply (ex_RInt_continuous (slices x)). intros; apply slices_continuous. Qed.
Lemma inner_int x : RInt (fun t => - 2 * x * exp (- x ^ 2 * (1 + t ^ 2))) 0 1 = - 2 * bell x * half_bell x.
Proof.
  assert (H : is_RInt (fun t => scal x (bell (x * t + 0))) 0 1 (half_bell x)).
  { apply (is_RInt_comp_lin bell x 0 0 1). replace (x * 0 + 0) with 0 by ring. replace (x * 1 + 0) with x by ring. exact (RInt_correct bell 0 x (bell_int 0 x)). }
  apply (is_RInt_scal _ _ _ (- 2 * bell x)) in H. apply is_RInt_unique. eapply is_RInt_ext; [|exact H].
  intros t _. unfold scal; cbn; unfold mult; cbn. unfold bell.
  replace (- (x * (x * 1)) * (1 + t * (t * 1))) with (- x ^ 2 + - (x * t + 0) ^ 2) by ring. rewrite exp_plus. ring.
Qed.
Lemma remainder_derive x : is_derive remainder x (- 2 * bell x * half_bell x).
Proof.
  rewrite <- inner_int. unfold remainder.
  replace (RInt (fun t => - 2 * x * exp (- x ^ 2 * (1 + t ^ 2))) 0 1) with (RInt (fun t => Derive (fun u => slices u t) x) 0 1)
    by (apply RInt_ext; intros t _; apply is_derive_unique, slices_derive).
  apply is_derive_RInt_param.
  - apply filter_forall. intros y t _. eexists. apply slices_derive.
  - intros t _. apply (continuity_2d_pt_ext (fun u v => - 2 * u * exp (- u ^ 2 * (1 + v ^ 2)))).
    + intros u v. symmetry. apply is_derive_unique, slices_derive.
    + apply continuity_2d_pt_mult.
      * apply continuity_2d_pt_mult; [apply continuity_2d_pt_const|apply continuity_2d_pt_id1].
      * apply (continuity_1d_2d_pt_comp exp (fun u v => - u ^ 2 * (1 + v ^ 2))); [apply derivable_continuous_pt, derivable_pt_exp|].
        apply continuity_2d_pt_mult.
        -- apply continuity_2d_pt_opp. apply (continuity_1d_2d_pt_comp (fun u => u ^ 2) (fun u v => u)); [|apply continuity_2d_pt_id1].
           apply derivable_continuous_pt, derivable_pt_pow.
        -- apply continuity_2d_pt_plus; [apply continuity_2d_pt_const|].
           apply (continuity_1d_2d_pt_comp (fun u => u ^ 2) (fun u v => v)); [|apply continuity_2d_pt_id2].
           apply derivable_continuous_pt, derivable_pt_pow.
  - apply filter_forall. intros y. apply slices_int.
Qed.
Lemma remainder_0 : remainder 0 = PI / 4.
Proof.
  unfold remainder. apply is_RInt_unique. apply (is_RInt_ext (fun t => / (1 + t ^ 2))).
  - intros t _. unfold slices. replace (- 0 ^ 2 * (1 + t ^ 2)) with 0 by ring. rewrite exp_0. unfold Rdiv. symmetry. apply Rmult_1_l.
  - rewrite <- atan_1. replace (atan 1) with (minus (atan 1) (atan 0)) by (unfold minus, plus, opp; cbn; rewrite atan_0; ring).
    apply (is_RInt_derive atan (fun t => / (1 + t ^ 2))).
    + intros t _. apply is_derive_Reals. apply derivable_pt_lim_atan.
    + intros t _. pose proof (one_plus_sq t). apply (ex_derive_continuous (fun t => / (1 + t ^ 2))). auto_derive. lra.
Qed.
Lemma gauss_identity x : half_bell x ^ 2 + remainder x = PI / 4.
Proof.
  set (g := fun x => half_bell x ^ 2 + remainder x).
  assert (D : forall y, is_derive g y 0).
  { intros y. unfold g. replace 0 with (2 * half_bell y * bell y + - 2 * bell y * half_bell y) by ring.
    apply (is_derive_plus (fun x => half_bell x ^ 2) remainder).
    - pose proof (is_derive_pow half_bell 2 y (bell y) (half_bell_derive y)) as H. cbn in H.
      replace (2 * half_bell y * bell y) with ((1 + 1) * bell y * (half_bell y * 1)) by ring. exact H.
    - apply remainder_derive. }
  assert (E : g x = g 0).
  { destruct (MVT_gen g 0 x (fun _ => 0)) as (c & _ & Hc).
    - intros y _. apply D.
    - intros y _. apply derivable_continuous_pt. exists 0. now apply is_derive_Reals.
    - lra. }
  fold (g x). rewrite E. unfold g. rewrite remainder_0. unfold half_bell. rewrite RInt_point. unfold zero. cbn. ring.
Qed.
Lemma remainder_bounds x : 0 <= remainder x <= bell x.
Proof.
  unfold remainder. split.
  - apply RInt_ge_0; [lra|apply slices_int|]. intros t _. unfold slices. pose proof (one_plus_sq t).
    left. apply Rdiv_lt_0_compat; [apply exp_pos|exact H].
  - replace (bell x) with (RInt (fun _ => bell x) 0 1) by (rewrite RInt_const; unfold scal; cbn; unfold mult; cbn; ring).
    apply RInt_le; [lra|apply slices_int|apply ex_RInt_const|]. intros t _. unfold slices, bell. pose proof (pow2_ge_0 t).
    apply Rle_trans with (exp (- x ^ 2 * (1 + t ^ 2))).
    + apply Rmult_le_reg_r with (1 + t ^ 2); [lra|]. unfold Rdiv. rewrite Rmult_assoc, Rinv_l by lra. rewrite Rmult_1_r.
      rewrite <- (Rmult_1_r (exp (- x ^ 2 * (1 + t ^ 2)))) at 1. apply Rmult_le_compat_l; [left; apply exp_pos|lra].
    + assert (L : - x ^ 2 * (1 + t ^ 2) <= - x ^ 2) by (pose proof (pow2_ge_0 x); nra).
      destruct L as [L|L]; [left; now apply exp_increasing|right; now rewrite L].
Qed.
Lemma half_bell_nonneg x : 0 <= x -> 0 <= half_bell x.
Proof. intros H. apply RInt_ge_0; [exact H|apply bell_int|]. intros t _. left. apply exp_pos. Qed.
Lemma half_bell_sqrt x : 0 <= x -> half_bell x = sqrt (PI / 4 - remainder x).
Proof.
  intros H. symmetry. rewrite <- (sqrt_Rsqr (half_bell x)) by now apply half_bell_nonneg. f_equal. unfold Rsqr. pose proof (gauss_identity x). lra.
Qed.
Lemma half_bell_odd x : half_bell (- x) = - half_bell x.
Proof.
  unfold half_bell. apply is_RInt_unique.
  pose proof (is_RInt_comp_opp bell 0 (- x) (RInt bell 0 x)) as H. rewrite Ropp_0, Ropp_involutive in H.
  specialize (H (RInt_correct _ _ _ (bell_int 0 x))). apply is_RInt_opp in H.
  eapply is_RInt_ext; [|exact H]. intros t _. unfold opp; cbn. unfold bell. replace ((- t) ^ 2) with (t ^ 2) by ring. ring.
Qed.
Lemma ball_at (y x : R) (eps : posreal) : ball y eps x <-> Rabs (x - y) < eps.
Proof. reflexivity. Qed.
Lemma bell_vanishes : filterlim bell (Rbar_locally p_infty) (locally 0).
Proof.
  apply filterlim_locally. intros eps. exists (/ eps + 1). intros x Hx.
  assert (E : 0 < eps) by apply cond_pos. assert (I : 0 < / eps) by now apply Rinv_0_lt_compat.
  apply ball_at. rewrite Rminus_0_r, Rabs_right by (left; apply exp_pos).
  unfold bell. rewrite exp_Ropp. apply Rle_lt_trans with (/ (1 + x ^ 2)).
  - apply Rinv_le_contravar; [apply one_plus_sq|]. left. apply exp_ineq1. apply Rgt_not_eq. nra.
  - rewrite <- (Rinv_inv eps). apply Rinv_lt_contravar; [apply Rmult_lt_0_compat; [exact I|apply one_plus_sq]|]. nra.
Qed.
Lemma remainder_vanishes : filterlim remainder (Rbar_locally p_infty) (locally 0).
Proof.
  apply filterlim_locally. intros eps. pose proof (proj1 (filterlim_locally _ _) bell_vanishes eps) as H. revert H. apply filter_imp. intros x.
  rewrite !ball_at, !Rminus_0_r.
  pose proof (remainder_bounds x). rewrite !Rabs_right by lra. lra.
Qed.
Lemma half_bell_limit : filterlim half_bell (Rbar_locally p_infty) (locally (sqrt PI / 2)).
Proof.
  apply filterlim_ext_loc with (fun x => sqrt (PI / 4 - remainder x)).
  - exists 0. intros x Hx. symmetry. apply half_bell_sqrt. lra.
  - replace (sqrt PI / 2) with (sqrt (PI / 4 - 0)).
    + apply (filterlim_comp _ _ _ remainder (fun r => sqrt (PI / 4 - r)) _ _ _ remainder_vanishes).
      apply (ex_derive_continuous (fun r => sqrt (PI / 4 - r)) 0). auto_derive. pose proof PI_RGT_0. lra.
    + rewrite Rminus_0_r. replace (PI / 4) with (PI * Rsqr (/ 2)) by (unfold Rsqr; field). rewrite sqrt_mult_alt by (left; apply PI_RGT_0).
      rewrite sqrt_Rsqr by lra. reflexivity.
Qed.
Lemma half_bell_limit_minus : filterlim half_bell (Rbar_locally m_infty) (locally (- (sqrt PI / 2))).
Proof.
  apply filterlim_ext with (fun x => - half_bell (- x)); [intros x; rewrite half_bell_odd; ring|].
  apply (filterlim_comp _ _ _ (fun x => half_bell (- x)) Ropp _ (locally (sqrt PI / 2))).
  - apply (filterlim_comp _ _ _ Ropp half_bell _ (Rbar_locally p_infty)); [|exact half_bell_limit].
    intros P [M HM]. exists (- M). intros x Hx. apply HM. lra.
  - apply (filterlim_opp (K := R_AbsRing) (V := R_NormedModule)).
Qed.
