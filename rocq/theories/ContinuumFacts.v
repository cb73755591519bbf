(** * Facts about continua of release lifetimes. *)
From Coq Require Import Reals Lra Lia.
From Coquelicot Require Import Rcomplements Rbar Hierarchy Continuity Derive AutoDerive ElemFct RInt RInt_analysis RInt_gen.
From Verif Require Import Num Py RFacts TrapsModel ContinuumModel SpecContinuum GaussFacts.
Open Scope R_scope.

Lemma exp_le a b : a <= b -> exp a <= exp b.
Proof. intros [L|L]; [left; now apply exp_increasing|right; now rewrite L]. Qed.
Notation zero_right := (at_right 0).
Notation infinity := (Rbar_locally p_infty).

(** Bounds of integration between 0 and infinity. *)
Lemma bounds_eventually (P : R * R -> Prop) : (forall a b, 0 < a -> a <= b -> P (a, b)) -> filter_prod zero_right infinity P.
Proof.
  intros H. apply (Filter_prod _ _ _ (fun a => 0 < a < 1) (fun b => 1 < b)).
  - exists (mkposreal 1 Rlt_0_1). intros y Hy Hy0. change (Rabs (y - 0) < 1) in Hy. rewrite Rminus_0_r, Rabs_right in Hy by lra. lra.
  - now exists 1.
  - intros a b Ha Hb. apply H; lra.
Qed.
Lemma int_value (f : R -> R) a b (y : R) : is_RInt f a b y -> RInt f a b = y.
Proof. exact (is_RInt_unique f a b y). Qed.
Lemma int_between (f : R -> R) a b : (forall x, 0 < x -> continuous f x) -> 0 < a -> 0 < b -> ex_RInt f a b.
Proof.
  intros Hf Ha Hb. apply (ex_RInt_continuous f). intros z [Hz _]. apply Hf. apply Rlt_le_trans with (2 := Hz). now apply Rmin_pos.
Qed.
Lemma int_dominated (f p : R -> R) a b : (forall x, 0 < x -> continuous f x) -> (forall x, 0 < x -> continuous p x) ->
  (forall x, 0 < x -> Rabs (f x) <= p x) -> 0 < a -> 0 < b -> Rabs (RInt f a b) <= Rabs (RInt p a b).
Proof.
  intros Hf Hp Hd Ha Hb.
  assert (G : forall a b, 0 < a -> a <= b -> Rabs (RInt f a b) <= RInt p a b).
  { clear a b Ha Hb. intros a b Ha Hab. apply Rle_trans with (RInt (fun x => Rabs (f x)) a b).
    - apply abs_RInt_le; [exact Hab|]. apply int_between; [exact Hf|exact Ha|lra].
    - apply RInt_le; [exact Hab| | |].
      + apply int_between; [|exact Ha|lra]. intros x Hx. apply (continuous_comp f Rabs); [now apply Hf|]. apply continuous_Rabs.
      + apply int_between; [exact Hp|exact Ha|lra].
      + intros x Hx. apply Hd. lra. }
  destruct (Rle_dec a b) as [H|H].
  - apply Rle_trans with (RInt p a b); [now apply G|apply Rle_abs].
  - rewrite <- (opp_RInt_swap f) by (apply int_between; auto). rewrite <- (opp_RInt_swap p) by (apply int_between; auto).
    unfold opp; cbn. rewrite !Rabs_Ropp. apply Rle_trans with (RInt p b a); [apply G; lra|apply Rle_abs].
Qed.
Lemma dominated (f p : R -> R) l : (forall x, 0 < x -> continuous f x) -> (forall x, 0 < x -> continuous p x) ->
  (forall x, 0 < x -> Rabs (f x) <= p x) -> is_RInt_gen p zero_right infinity l -> ex_RInt_gen f zero_right infinity.
Proof.
  intros Hf Hp Hd Hl. unfold ex_RInt_gen, is_RInt_gen.
  refine (proj1 (filterlimi_locally_cauchy (U := R_CompleteNormedModule) (F := filter_prod zero_right infinity)
    (fun ab => is_RInt f (fst ab) (snd ab)) _) _).
  - apply bounds_eventually. intros a b Ha Hab. cbn. split.
    + destruct (int_between f a b Hf Ha ltac:(lra)) as [y Hy]. now exists y.
    + intros y1 y2 H1 H2. apply int_value in H1, H2. congruence.
  - intros eps. pose proof (proj1 (filterlimi_locally _ _) Hl (mkposreal (eps / 8) ltac:(pose proof (cond_pos eps); lra))) as [P Q HP HQ HPQ].
    exists (fun ab => (0 < fst ab /\ P (fst ab)) /\ (0 < snd ab /\ Q (snd ab))). split.
    + apply (Filter_prod _ _ _ (fun a => 0 < a /\ P a) (fun b => 0 < b /\ Q b)).
      * apply filter_and; [|exact HP]. exists (mkposreal 1 Rlt_0_1). intros y _ Hy. exact Hy.
      * apply filter_and; [|exact HQ]. now exists 0.
      * intros a b Ha Hb. now split.
    + intros [a b] [c d] [[Ha Pa] [Hb Qb]] [[Hc Pc] [Hd' Qd]] u v Hu Hv. cbn [fst snd] in *.
      apply int_value in Hu, Hv. apply ball_at. rewrite <- Hu, <- Hv.
      assert (E : forall g : R -> R, (forall x, 0 < x -> continuous g x) -> RInt g c d - RInt g a b = RInt g c a + RInt g b d).
      { intros g Hg. rewrite <- (RInt_Chasles g c a d) by (apply int_between; auto). rewrite <- (RInt_Chasles g a b d) by (apply int_between; auto).
        unfold plus; cbn. ring. }
      rewrite E by exact Hf.
      assert (N : forall x y, P x -> Q y -> 0 < x -> 0 < y -> Rabs (RInt p x y - l) < eps / 8).
      { intros x y Px Qy Hx Hy. destruct (HPQ x y Px Qy) as (z & Hz & Bz). apply int_value in Hz. cbn [fst snd] in Hz. rewrite Hz. exact Bz. }
      assert (A1 : Rabs (RInt p c a) <= eps / 4).
      { replace (RInt p c a) with ((RInt p c b - l) - (RInt p a b - l))
          by (rewrite <- (RInt_Chasles p c a b) by (apply int_between; auto); unfold plus; cbn; ring).
        unfold Rminus at 1. eapply Rle_trans; [apply Rabs_triang|]. rewrite Rabs_Ropp. pose proof (N c b Pc Qb Hc Hb). pose proof (N a b Pa Qb Ha Hb). lra. }
      assert (A2 : Rabs (RInt p b d) <= eps / 4).
      { replace (RInt p b d) with ((RInt p a d - l) - (RInt p a b - l))
          by (rewrite <- (RInt_Chasles p a b d) by (apply int_between; auto); unfold plus; cbn; ring).
        unfold Rminus at 1. eapply Rle_trans; [apply Rabs_triang|]. rewrite Rabs_Ropp. pose proof (N a d Pa Qd Ha Hd'). pose proof (N a b Pa Qb Ha Hb). lra. }
      pose proof (int_dominated f p c a Hf Hp Hd Hc Ha). pose proof (int_dominated f p b d Hf Hp Hd Hb Hd').
      eapply Rle_lt_trans; [apply Rabs_triang|]. pose proof (cond_pos eps). lra.
Qed.
Lemma gen_le (f g : R -> R) lf lg : (forall x, 0 < x -> f x <= g x) -> is_RInt_gen f zero_right infinity lf ->
  is_RInt_gen g zero_right infinity lg -> lf <= lg.
Proof.
  intros H Hf Hg. pose proof (is_RInt_gen_minus _ _ _ _ Hg Hf) as Hm. apply Rminus_le_0.
  pose proof (RInt_gen_norm (Fa := zero_right) (Fb := infinity) (fun _ : R => 0) (fun x => minus (g x) (f x)) 0 (minus lg lf)) as N.
  apply Rle_trans with (norm 0).
  - unfold norm; cbn. apply Rabs_pos.
  - apply N.
    + apply bounds_eventually. intros a b Ha Hab. exact Hab.
    + apply bounds_eventually. intros a b Ha Hab x [Hx _]. cbn [fst] in Hx. unfold norm; cbn. unfold abs, minus, plus, opp; cbn. rewrite Rabs_R0.
      specialize (H x ltac:(lra)). lra.
    + apply filterlimi_locally. intros eps. apply bounds_eventually. intros a b Ha Hab. exists 0. split; [|apply ball_center].
      cbn [fst snd]. pose proof (is_RInt_const (V := R_NormedModule) a b 0) as C.
      replace (scal (b - a) (0 : R_NormedModule)) with (0 : R) in C by (unfold scal; cbn; unfold mult; cbn; ring). exact C.
    + exact Hm.
Qed.

(** Part of the integral of a non-negative function, and most of it. *)
Lemma part_le (f : R -> R) l a b : (forall x, 0 < x -> continuous f x) -> (forall x, 0 < x -> 0 <= f x) ->
  is_RInt_gen f zero_right infinity l -> 0 < a -> a <= b -> RInt f a b <= l.
Proof.
  intros Hc Hf Hl Ha Hab. apply Rnot_lt_le. intros Lt.
  pose proof (proj1 (filterlimi_locally _ _) Hl (mkposreal (RInt f a b - l) ltac:(lra))) as [P Q HP HQ HPQ].
  assert (EP : at_right 0 (fun x => P x /\ x <= a)).
  { apply filter_and; [exact HP|]. exists (mkposreal a Ha). intros y Hy Hy0. change (Rabs (y - 0) < a) in Hy.
    rewrite Rminus_0_r, Rabs_right in Hy by lra. lra. }
  assert (EP0 : at_right 0 (fun x => (P x /\ x <= a) /\ 0 < x)).
  { apply filter_and; [exact EP|]. exists (mkposreal 1 Rlt_0_1). intros y _ Hy. exact Hy. }
  apply filter_ex in EP0 as (c & (Pc & Hca) & Hc0).
  assert (EQ : infinity (fun y => Q y /\ b < y)) by (apply filter_and; [exact HQ|now exists b]).
  apply filter_ex in EQ as (d & Qd & Hd).
  destruct (HPQ c d Pc Qd) as (z & Hz & Bz). cbn [fst snd] in Hz. apply int_value in Hz. change (Rabs (z - l) < RInt f a b - l) in Bz.
  rewrite <- Hz in Bz.
  assert (E : RInt f c d = RInt f c a + RInt f a b + RInt f b d).
  { rewrite <- (RInt_Chasles f c a d), <- (RInt_Chasles f a b d) by (apply int_between; auto; lra). unfold plus; cbn. ring. }
  assert (0 <= RInt f c a) by (apply RInt_ge_0; [lra|apply int_between; auto; lra|intros; apply Hf; lra]).
  assert (0 <= RInt f b d) by (apply RInt_ge_0; [lra|apply int_between; auto; lra|intros; apply Hf; lra]).
  rewrite Rabs_right in Bz by lra. lra.
Qed.
Lemma most_of (p : R -> R) eps : lifetimes p -> 0 < eps -> exists a b, 0 < a /\ a <= b /\ 1 - eps < RInt p a b <= 1.
Proof.
  intros Hp He. pose proof (proj1 (filterlimi_locally _ _) (lt_total p Hp) (mkposreal eps He)) as H.
  assert (G : filter_prod zero_right infinity (fun ab => 0 < fst ab /\ fst ab <= snd ab)) by (apply bounds_eventually; intros a b Ha Hab; now split).
  pose proof (filter_and _ _ H G) as K. apply filter_ex in K as ([a b] & (z & Hz & Bz) & Ha & Hab). cbn [fst snd] in *.
  apply int_value in Hz. change (Rabs (z - 1) < eps) in Bz. rewrite <- Hz in Bz. exists a, b. split; [exact Ha|]. split; [exact Hab|]. split.
  - apply Rabs_def2 in Bz. lra.
  - apply (part_le p 1 a b); auto; [apply lt_continuous|apply lt_nonneg|apply lt_total]; exact Hp.
Qed.

(** ** Averages over the lifetimes. *)
Lemma decay_continuous s x : 0 < x -> continuous (fun x => exp (- s / x)) x.
Proof. intros Hx. apply (ex_derive_continuous (fun x => exp (- s / x))). auto_derive. lra. Qed.
Lemma decay_range s x : 0 <= s -> 0 < x -> 0 < exp (- s / x) <= 1.
Proof.
  intros Hs Hx. split; [apply exp_pos|]. rewrite <- exp_0. assert (L : - s / x <= 0).
  { unfold Rdiv. assert (0 < / x) by now apply Rinv_0_lt_compat. nra. }
  destruct L as [L|L]; [left; now apply exp_increasing|right; now rewrite L].
Qed.
Lemma decay_falls s t x : s <= t -> 0 < x -> exp (- t / x) <= exp (- s / x).
Proof.
  intros Hs Hx. assert (L : - t / x <= - s / x). { unfold Rdiv. assert (0 < / x) by now apply Rinv_0_lt_compat. nra. }
  destruct L as [L|L]; [left; now apply exp_increasing|right; now rewrite L].
Qed.
Section Averages.
Context (p : R -> R) (Hp : lifetimes p).
Definition average (g : R -> R) : R := quad (fun x => p x * g x).
Lemma average_is (g : R -> R) : (forall x, 0 < x -> continuous g x) -> (forall x, 0 < x -> -1 <= g x <= 1) ->
  is_RInt_gen (fun x => p x * g x) zero_right infinity (average g).
Proof.
  intros Hg Hb. apply (RInt_gen_correct (fun x => p x * g x)). apply (dominated _ p 1).
  - intros x Hx. apply (continuous_mult p g); [now apply lt_continuous|now apply Hg].
  - apply lt_continuous, Hp.
  - intros x Hx. pose proof (lt_nonneg p Hp x Hx). rewrite Rabs_mult, (Rabs_right (p x)) by lra.
    rewrite <- (Rmult_1_r (p x)) at 2. apply Rmult_le_compat_l; [exact H|]. apply Rabs_le. now apply Hb.
  - apply lt_total, Hp.
Qed.
Lemma average_unique (f g : R -> R) l : (forall x, 0 < x -> f x = p x * g x) -> is_RInt_gen f zero_right infinity l -> average g = l.
Proof.
  intros H Hl. unfold average, quad. apply is_RInt_gen_unique. apply (is_RInt_gen_ext f); [|exact Hl].
  apply bounds_eventually. intros a b Ha Hab x [Hx _]. cbn [fst snd] in Hx. rewrite Rmin_left in Hx by exact Hab. apply H. lra.
Qed.
Lemma average_one g : (forall x, 0 < x -> g x = 1) -> average g = 1.
Proof. intros H. apply (average_unique p); [|apply lt_total, Hp]. intros x Hx. rewrite H by exact Hx. ring. Qed.
Lemma average_le (g h : R -> R) : (forall x, 0 < x -> continuous g x) -> (forall x, 0 < x -> -1 <= g x <= 1) ->
  (forall x, 0 < x -> continuous h x) -> (forall x, 0 < x -> -1 <= h x <= 1) -> (forall x, 0 < x -> g x <= h x) -> average g <= average h.
Proof.
  intros Hg Bg Hh Bh H. apply (gen_le (fun x => p x * g x) (fun x => p x * h x)); [|now apply average_is..].
  intros x Hx. apply Rmult_le_compat_l; [now apply lt_nonneg|now apply H].
Qed.
Lemma average_minus (g h k : R -> R) : (forall x, 0 < x -> continuous g x) -> (forall x, 0 < x -> -1 <= g x <= 1) ->
  (forall x, 0 < x -> continuous h x) -> (forall x, 0 < x -> -1 <= h x <= 1) -> (forall x, 0 < x -> k x = g x - h x) ->
  average k = average g - average h.
Proof.
  intros Hg Bg Hh Bh H. pose proof (is_RInt_gen_minus _ _ _ _ (average_is g Hg Bg) (average_is h Hh Bh)) as M.
  apply (average_unique _ k _) in M; [exact M|]. intros x Hx. rewrite H by exact Hx. unfold minus, plus, opp; cbn. ring.
Qed.
Lemma average_scal c (g k : R -> R) : (forall x, 0 < x -> continuous g x) -> (forall x, 0 < x -> -1 <= g x <= 1) ->
  (forall x, 0 < x -> k x = c * g x) -> average k = c * average g.
Proof.
  intros Hg Bg H. pose proof (is_RInt_gen_scal _ c _ (average_is g Hg Bg)) as M.
  apply (average_unique _ k _) in M; [exact M|]. intros x Hx. rewrite H by exact Hx. unfold scal; cbn; unfold mult; cbn. ring.
Qed.

(** The fraction of the traps that are still full after a time. *)
Definition survival (s : R) : R := average (fun x => exp (- s / x)).
Lemma survival_at_0 : survival 0 = 1.
Proof. apply average_one. intros x Hx. replace (- 0 / x) with 0 by (field; lra). apply exp_0. Qed.
Lemma survival_falls s t : 0 <= s <= t -> survival t <= survival s.
Proof.
  intros H. apply average_le; try (intros x Hx; apply decay_continuous; exact Hx).
  - intros x Hx. pose proof (decay_range t x ltac:(lra) Hx). lra.
  - intros x Hx. pose proof (decay_range s x ltac:(lra) Hx). lra.
  - intros x Hx. apply decay_falls; [lra|exact Hx].
Qed.
(** An average is at least the part of it over an interval. *)
Lemma average_ge (g : R -> R) c a b : (forall x, 0 < x -> continuous g x) -> (forall x, 0 < x -> 0 <= g x <= 1) -> 0 < a -> a <= b ->
  (forall x, a <= x <= b -> c <= g x) -> c * RInt p a b <= average g.
Proof.
  intros Hg Bg Ha Hab Hc. apply Rle_trans with (RInt (fun x => p x * g x) a b).
  - pose proof (int_between p a b (lt_continuous p Hp) Ha ltac:(lra)) as I. pose proof (RInt_scal p a b c I) as E.
    change (RInt (fun x => c * p x) a b = c * RInt p a b) in E. rewrite <- E. apply RInt_le; [exact Hab| | |].
    + apply (ex_RInt_scal p a b c I).
    + apply int_between; [|exact Ha|lra]. intros x Hx. apply (continuous_mult p g); [now apply lt_continuous|now apply Hg].
    + intros x Hx. pose proof (lt_nonneg p Hp x ltac:(lra)). specialize (Hc x ltac:(lra)). nra.
  - apply (part_le (fun x => p x * g x)); auto.
    + intros x Hx. apply (continuous_mult p g); [now apply lt_continuous|now apply Hg].
    + intros x Hx. pose proof (lt_nonneg p Hp x Hx). specialize (Bg x Hx). nra.
    + apply average_is; [exact Hg|]. intros x Hx. specialize (Bg x Hx). lra.
Qed.
Lemma gap_continuous s t x : 0 < x -> continuous (fun x => exp (- s / x) - exp (- t / x)) x.
Proof. intros Hx. apply (continuous_minus (fun x => exp (- s / x)) (fun x => exp (- t / x))); apply decay_continuous; exact Hx. Qed.
Lemma gap_average s t : 0 <= s <= t -> average (fun x => exp (- s / x) - exp (- t / x)) = survival s - survival t.
Proof.
  intros H. apply average_minus; try (intros x Hx; apply decay_continuous; exact Hx); [| |reflexivity].
  - intros x Hx. pose proof (decay_range s x ltac:(lra) Hx). lra.
  - intros x Hx. pose proof (decay_range t x ltac:(lra) Hx). lra.
Qed.
Lemma survival_falls_strictly s t : 0 <= s < t -> survival t < survival s.
Proof.
  intros H. destruct (most_of p (1/2) Hp ltac:(lra)) as (a & b & Ha & Hab & Hm & _).
  pose proof (average_ge (fun x => exp (- s / x) - exp (- t / x)) (exp (- s / a) * (1 - exp (- (t - s) / b))) a b) as G.
  rewrite gap_average in G by lra. 
  assert (P : 0 < exp (- s / a) * (1 - exp (- (t - s) / b))).
  { apply Rmult_lt_0_compat; [apply exp_pos|]. apply Rlt_Rminus. rewrite <- exp_0. apply exp_increasing.
    unfold Rdiv. assert (0 < / b) by (apply Rinv_0_lt_compat; lra). nra. }
  assert (Q : exp (- s / a) * (1 - exp (- (t - s) / b)) * RInt p a b <= survival s - survival t).
  { apply G; auto.
    - intros x Hx. now apply gap_continuous.
    - intros x Hx. pose proof (decay_range s x ltac:(lra) Hx). pose proof (decay_range t x ltac:(lra) Hx). pose proof (decay_falls s t x ltac:(lra) Hx). lra.
    - intros x Hx. replace (exp (- t / x)) with (exp (- s / x) * exp (- (t - s) / x)) by (rewrite <- exp_plus; f_equal; field; lra).
      assert (E1 : exp (- s / a) <= exp (- s / x)).
      { assert (L : - s / a <= - s / x). { unfold Rdiv. assert (/ x <= / a) by (apply Rinv_le_contravar; lra). nra. }
        destruct L as [L|L]; [left; now apply exp_increasing|right; now rewrite L]. }
      assert (E2 : exp (- (t - s) / x) <= exp (- (t - s) / b)).
      { assert (L : - (t - s) / x <= - (t - s) / b). { unfold Rdiv. assert (/ b <= / x) by (apply Rinv_le_contravar; lra). nra. }
        destruct L as [L|L]; [left; now apply exp_increasing|right; now rewrite L]. }
      assert (0 < exp (- s / a)) by apply exp_pos. assert (exp (- (t - s) / b) <= 1) by (apply decay_range; lra). nra. }
  assert (0 < exp (- s / a) * (1 - exp (- (t - s) / b)) * RInt p a b) by (apply Rmult_lt_0_compat; [exact P|lra]). lra.
Qed.
Lemma survival_positive t : 0 <= t -> 0 < survival t.
Proof.
  intros H. destruct (most_of p (1/2) Hp ltac:(lra)) as (a & b & Ha & Hab & Hm & _).
  assert (Q : exp (- t / a) * RInt p a b <= survival t).
  { apply average_ge; auto.
    - intros x Hx. now apply decay_continuous.
    - intros x Hx. pose proof (decay_range t x ltac:(lra) Hx). lra.
    - intros x Hx. assert (L : - t / a <= - t / x). { unfold Rdiv. assert (/ x <= / a) by (apply Rinv_le_contravar; lra). nra. }
      destruct L as [L|L]; [left; now apply exp_increasing|right; now rewrite L]. }
  assert (0 < exp (- t / a) * RInt p a b) by (apply Rmult_lt_0_compat; [apply exp_pos|lra]). lra.
Qed.
Lemma survival_vanishes eps : 0 < eps -> exists T, forall t, T <= t -> 0 <= t -> survival t < eps.
Proof.
  intros He. destruct (most_of p (eps / 2) Hp ltac:(lra)) as (a & b & Ha & Hab & Hm & Hm1).
  exists (b * (2 / eps)). intros t Ht Ht0.
  assert (Q : (1 - exp (- t / b)) * RInt p a b <= survival 0 - survival t).
  { rewrite <- gap_average by lra. apply average_ge; auto.
    - intros x Hx. now apply gap_continuous.
    - intros x Hx. pose proof (decay_range 0 x ltac:(lra) Hx). pose proof (decay_range t x ltac:(lra) Hx). pose proof (decay_falls 0 t x ltac:(lra) Hx). lra.
    - intros x Hx. replace (- 0 / x) with 0 by (field; lra). rewrite exp_0.
      assert (L : - t / x <= - t / b). { unfold Rdiv. assert (/ b <= / x) by (apply Rinv_le_contravar; lra). nra. }
      assert (exp (- t / x) <= exp (- t / b)) by (destruct L as [L|L]; [left; now apply exp_increasing|right; now rewrite L]). lra. }
  rewrite survival_at_0 in Q.
  assert (E : exp (- t / b) < eps / 2).
  { replace (- t / b) with (- (t / b)) by (field; lra). rewrite exp_Ropp.
    assert (U : 2 / eps <= t / b).
    { apply Rmult_le_reg_r with b; [lra|]. unfold Rdiv at 2. rewrite Rmult_assoc, Rinv_l by lra. lra. }
    assert (P : 0 < 2 / eps) by (apply Rdiv_lt_0_compat; lra).
    pose proof (exp_ineq1 (t / b) ltac:(lra)) as X.
    replace (eps / 2) with (/ (2 / eps)) by (field; lra). apply Rinv_lt_contravar; [apply Rmult_lt_0_compat; [exact P|apply exp_pos]|]. lra. }
  assert (0 < exp (- t / b)) by apply exp_pos. nra.
Qed.
(** The traps that are still full are the slow ones: they release more slowly than new ones. *)
Lemma survival_ages_gap s t : 0 < s -> 0 <= t -> exists x0 g0 h0, 0 < x0 /\ g0 = exp (- s / x0) /\ h0 = exp (- t / x0) /\
  (forall x, 0 < x -> 0 <= (exp (- s / x) - g0) * (exp (- t / x) - h0)) /\
  average (fun x => (exp (- s / x) - g0) * (exp (- t / x) - h0)) = survival (s + t) - survival s * survival t.
Proof.
  intros Hs Ht.
  set (g0 := survival s). assert (G0 : 0 < g0) by (apply survival_positive; lra).
  assert (G1 : g0 < 1) by (rewrite <- survival_at_0; apply survival_falls_strictly; lra).
  set (x0 := - s / ln g0).
  assert (Ln : ln g0 < 0) by (rewrite <- ln_1; apply ln_increasing; lra).
  assert (X0 : 0 < x0). { unfold x0. replace (- s / ln g0) with (s / - ln g0) by (field; lra). apply Rdiv_lt_0_compat; lra. }
  assert (E0 : exp (- s / x0) = g0). { unfold x0. replace (- s / (- s / ln g0)) with (ln g0) by (field; lra). apply exp_ln. exact G0. }
  set (h0 := exp (- t / x0)). assert (H0 : 0 < h0 <= 1) by (apply decay_range; lra).
  set (e := fun s x => exp (- s / x)).
  assert (Rg : forall s x, 0 <= s -> 0 < x -> 0 < e s x <= 1) by (intros; now apply decay_range).
  assert (C : forall x, 0 < x -> 0 <= (e s x - g0) * (e t x - h0)).
  { intros x Hx. destruct (Rle_dec x0 x) as [L|L].
    - assert (g0 <= e s x) by (rewrite <- E0; apply exp_le; unfold Rdiv; assert (/ x <= / x0) by (apply Rinv_le_contravar; lra); nra).
      assert (h0 <= e t x) by (apply exp_le; unfold Rdiv; assert (/ x <= / x0) by (apply Rinv_le_contravar; lra); nra). nra.
    - assert (e s x <= g0) by (rewrite <- E0; apply exp_le; unfold Rdiv; assert (/ x0 <= / x) by (apply Rinv_le_contravar; lra); nra).
      assert (e t x <= h0) by (apply exp_le; unfold Rdiv; assert (/ x0 <= / x) by (apply Rinv_le_contravar; lra); nra). nra. }
  (* (e s - g0) (e t - h0) = (e (s+t) - g0 e t) - h0 (e s - g0) *)
  assert (K1 : average (fun x => g0 * e t x) = g0 * survival t).
  { apply (average_scal g0 (e t)); [intros; now apply decay_continuous| |reflexivity]. intros x Hx. specialize (Rg t x Ht Hx). unfold e in *; lra. }
  assert (K2 : average (fun x => e (s + t) x - g0 * e t x) = survival (s + t) - g0 * survival t).
  { rewrite <- K1. apply average_minus; [intros; now apply decay_continuous| | | |reflexivity].
    - intros x Hx. specialize (Rg (s + t) x ltac:(lra) Hx). unfold e in *; lra.
    - intros x Hx. apply (continuous_scal_r g0 (e t)). now apply decay_continuous.
    - intros x Hx. specialize (Rg t x Ht Hx). unfold e in *; nra. }
  assert (K3 : average (fun x => e s x - g0) = 0).
  { replace 0 with (survival s - g0 * 1) by (fold g0; ring). rewrite <- (average_one (fun _ => 1)) by reflexivity.
    rewrite <- (average_scal g0 (fun _ => 1) (fun _ => g0)).
    - apply average_minus; [intros; now apply decay_continuous| |intros; apply continuous_const| |reflexivity].
      + intros x Hx. specialize (Rg s x ltac:(lra) Hx). unfold e in *; lra.
      + intros x Hx. lra.
    - intros; apply continuous_const.
    - intros; lra.
    - intros; ring. }
  assert (K4 : average (fun x => h0 * (e s x - g0)) = 0).
  { rewrite (average_scal h0 (fun x => e s x - g0)); [rewrite K3; ring| | |reflexivity].
    - intros x Hx. apply (continuous_minus (e s) (fun _ => g0)); [now apply decay_continuous|apply continuous_const].
    - intros x Hx. specialize (Rg s x ltac:(lra) Hx). unfold e in *; lra. }
  exists x0, g0, h0. do 3 (split; [easy|]). split; [exact C|]. fold g0.
  change (average (fun x => (e s x - g0) * (e t x - h0)) = survival (s + t) - g0 * survival t).
  rewrite (average_minus (fun x => e (s + t) x - g0 * e t x) (fun x => h0 * (e s x - g0))).
  - rewrite K2, K4. ring.
  - intros x Hx. apply (continuous_minus (e (s + t)) (fun x => g0 * e t x)); [now apply decay_continuous|].
    apply (continuous_scal_r g0 (e t)). now apply decay_continuous.
  - intros x Hx. pose proof (Rg (s + t) x ltac:(lra) Hx). pose proof (Rg t x Ht Hx). unfold e in *; nra.
  - intros x Hx. apply (continuous_scal_r h0 (fun x => e s x - g0)).
    apply (continuous_minus (e s) (fun _ => g0)); [now apply decay_continuous|apply continuous_const].
  - intros x Hx. pose proof (Rg s x ltac:(lra) Hx). unfold e in *; nra.
  - intros x Hx. unfold e. replace (- (s + t) / x) with (- s / x + - t / x) by (field; lra). rewrite exp_plus. ring.
Qed.
Lemma survival_ages s t : 0 <= s -> 0 <= t -> survival s * survival t <= survival (s + t).
Proof.
  intros [Hs|<-] Ht; [|rewrite survival_at_0, Rplus_0_l; lra].
  destruct (survival_ages_gap s t Hs Ht) as (x0 & g0 & h0 & X0 & Eg & Eh & C & K).
  assert (G : 0 <= survival (s + t) - survival s * survival t); [|lra]. rewrite <- K.
  replace 0 with (0 * average (fun _ => 1)) by ring. rewrite <- (average_scal 0 (fun _ => 1) (fun _ => 0)); [|intros; apply continuous_const|intros; lra|intros; ring].
  assert (B1 : 0 < g0 <= 1) by (rewrite Eg; apply decay_range; lra). assert (B2 : 0 < h0 <= 1) by (rewrite Eh; apply decay_range; lra).
  apply average_le; [intros; apply continuous_const|intros; lra| | |exact C].
  - intros x Hx. apply (continuous_mult (fun x => exp (- s / x) - g0) (fun x => exp (- t / x) - h0));
      [apply (continuous_minus (fun x => exp (- s / x)) (fun _ => g0))|apply (continuous_minus (fun x => exp (- t / x)) (fun _ => h0))];
      try (now apply decay_continuous); apply continuous_const.
  - intros x Hx. pose proof (decay_range s x ltac:(lra) Hx). pose proof (decay_range t x Ht Hx).
    assert (-1 <= exp (- s / x) - g0 <= 1) by lra. assert (-1 <= exp (- t / x) - h0 <= 1) by lra. nra.
Qed.
(** Strictly so, if there are traps of every lifetime. *)
Lemma survival_ages_strictly s t : (forall x, 0 < x -> 0 < p x) -> 0 < s -> 0 < t -> survival s * survival t < survival (s + t).
Proof.
  intros Pp Hs Ht. destruct (survival_ages_gap s t Hs ltac:(lra)) as (x0 & g0 & h0 & X0 & Eg & Eh & C & K).
  assert (G : 0 < survival (s + t) - survival s * survival t); [|lra]. rewrite <- K.
  assert (B1 : 0 < g0 <= 1) by (rewrite Eg; apply decay_range; lra). assert (B2 : 0 < h0 <= 1) by (rewrite Eh; apply decay_range; lra).
  assert (Up : forall u x y, 0 < u -> 0 < x -> x < y -> exp (- u / x) < exp (- u / y)).
  { intros u x y Hu Hx Hxy. apply exp_increasing. unfold Rdiv. assert (/ y < / x) by (apply Rinv_lt_contravar; [nra|exact Hxy]). nra. }
  set (c := (exp (- s / (x0 + 1)) - g0) * (exp (- t / (x0 + 1)) - h0)).
  assert (Pc : 0 < c). { unfold c. pose proof (Up s x0 (x0 + 1) Hs X0 ltac:(lra)). pose proof (Up t x0 (x0 + 1) Ht X0 ltac:(lra)). apply Rmult_lt_0_compat; lra. }
  apply Rlt_le_trans with (c * RInt p (x0 + 1) (x0 + 2)).
  - apply Rmult_lt_0_compat; [exact Pc|]. apply RInt_gt_0; [lra| |].
    + intros x Hx. apply Pp. lra.
    + intros x Hx. apply lt_continuous; [exact Hp|lra].
  - apply average_ge; [| |lra|lra|].
    + intros x Hx. apply (continuous_mult (fun x => exp (- s / x) - g0) (fun x => exp (- t / x) - h0));
        [apply (continuous_minus (fun x => exp (- s / x)) (fun _ => g0))|apply (continuous_minus (fun x => exp (- t / x)) (fun _ => h0))];
        try (now apply decay_continuous); apply continuous_const.
    + intros x Hx. split; [now apply C|]. pose proof (decay_range s x ltac:(lra) Hx). pose proof (decay_range t x ltac:(lra) Hx).
      assert (-1 <= exp (- s / x) - g0 <= 1) by lra. assert (-1 <= exp (- t / x) - h0 <= 1) by lra. nra.
    + intros x Hx. unfold c. assert (Up' : forall u, 0 < u -> exp (- u / (x0 + 1)) <= exp (- u / x)).
      { intros u Hu. destruct (Req_dec x (x0 + 1)) as [->|N]; [lra|]. left. apply Up; lra. }
      pose proof (Up' s Hs). pose proof (Up' t Ht). pose proof (Up s x0 (x0 + 1) Hs X0 ltac:(lra)). pose proof (Up t x0 (x0 + 1) Ht X0 ltac:(lra)).
      apply Rmult_le_compat; lra.
Qed.
End Averages.
