(** * Times from the fill fractions of a continuum of lifetimes. *)
From Coq Require Import Reals Lra.
From Coquelicot Require Import Rbar Lub Hierarchy RInt RInt_gen Continuity.
From Verif Require Import Num Py RFacts TrapsModel ContinuumModel SpecContinuum ContinuumFacts LogNormalFacts.
Open Scope R_scope.

Section Survival.
Context (p : R -> R) (Hp : lifetimes p).
Lemma survival_steady eps : 0 < eps -> exists delta, 0 < delta /\ forall s t, 0 <= s <= t -> t - s < delta -> survival p s - survival p t < eps.
Proof.
  intros He. destruct (most_of p (eps / 2) Hp ltac:(lra)) as (a & b & Ha & Hab & Hm & Hm1).
  set (d := Rmin (eps / 2) 1). assert (Hd : 0 < d <= 1) by (unfold d; split; [apply Rmin_glb_lt; lra|apply Rmin_r]). assert (Hd' : d <= eps / 2) by apply Rmin_l.
  exists (a * d). split; [apply Rmult_lt_0_compat; lra|]. intros s t Hst Hlt.
  set (g := fun x => 1 - (exp (- s / x) - exp (- t / x))).
  assert (Cg : forall x, 0 < x -> continuous g x).
  { intros x Hx. unfold g. apply (continuous_minus (fun _ => 1) (fun x => exp (- s / x) - exp (- t / x))); [apply continuous_const|now apply gap_continuous]. }
  assert (Bg : forall x, 0 < x -> 0 <= g x <= 1).
  { intros x Hx. unfold g. pose proof (decay_range s x ltac:(lra) Hx). pose proof (decay_range t x ltac:(lra) Hx). pose proof (decay_falls s t x ltac:(lra) Hx). lra. }
  assert (E : average p g = 1 - (survival p s - survival p t)).
  { rewrite <- (gap_average p Hp s t) by lra. rewrite <- (average_one p Hp (fun _ => 1)) by reflexivity.
    apply (average_minus p Hp (fun _ => 1)); [intros; apply continuous_const|intros; lra|intros; now apply gap_continuous| |reflexivity].
    intros x Hx. pose proof (Bg x Hx). unfold g in H. lra. }
  assert (Q : (1 - d) * RInt p a b <= average p g).
  { apply (average_ge p Hp); auto. intros x Hx. unfold g. replace (exp (- t / x)) with (exp (- s / x) * exp (- ((t - s) / x))) by (rewrite <- exp_plus; f_equal; field; lra).
    pose proof (decay_range s x ltac:(lra) ltac:(lra)). assert (U : (t - s) / x < d).
    { apply Rmult_lt_reg_r with x; [lra|]. unfold Rdiv. rewrite Rmult_assoc, Rinv_l by lra. nra. }
    assert (U0 : 0 <= (t - s) / x) by (apply Rmult_le_pos; [lra|apply Rlt_le, Rinv_0_lt_compat; lra]).
    pose proof (exp_ineq1_le (- ((t - s) / x))). nra. }
  rewrite E in Q. nra.
Qed.
Lemma survival_continuous : continuity (fun s => survival p (Rmax 0 s)).
Proof.
  intros s eps He. destruct (survival_steady eps He) as (d & Hd & H). exists d. split; [exact Hd|]. intros t [_ Ht]. change (Rabs (t - s) < d) in Ht. change (Rabs (survival p (Rmax 0 t) - survival p (Rmax 0 s)) < eps).
  assert (A : Rabs (Rmax 0 t - Rmax 0 s) < d). { unfold Rmax, Rabs in *. repeat match goal with |- context [if ?b then _ else _] => destruct b | H : context [if ?b then _ else _] |- _ => destruct b end; lra. }
  pose proof (Rmax_l 0 s). pose proof (Rmax_l 0 t). destruct (Rle_lt_dec (Rmax 0 s) (Rmax 0 t)) as [L|L].
  - rewrite Rabs_right in A by lra. pose proof (H (Rmax 0 s) (Rmax 0 t) ltac:(lra) ltac:(lra)). pose proof (survival_falls p Hp (Rmax 0 s) (Rmax 0 t) ltac:(lra)).
    rewrite Rabs_left1 by lra. lra.
  - rewrite Rabs_left in A by lra. pose proof (H (Rmax 0 t) (Rmax 0 s) ltac:(lra) ltac:(lra)). pose proof (survival_falls p Hp (Rmax 0 t) (Rmax 0 s) ltac:(lra)).
    rewrite Rabs_right by lra. lra.
Qed.
Lemma survival_reaches f : 0 < f <= 1 -> exists s, 0 <= s /\ survival p s = f.
Proof.
  intros Hf. destruct (survival_vanishes p Hp f ltac:(lra)) as [T HT]. set (T' := Rmax 0 T).
  destruct (IVT_cor (fun s => survival p (Rmax 0 s) - f) 0 T') as [z [Hz E]].
  - apply continuity_minus; [exact survival_continuous|apply continuity_const; intros ? ?; reflexivity].
  - apply Rmax_l.
  - rewrite (Rmax_left 0 0) by lra. rewrite (survival_at_0 p Hp). unfold T'. rewrite (Rmax_right 0 (Rmax 0 T)) by apply Rmax_l.
    pose proof (HT (Rmax 0 T) (Rmax_r 0 T) (Rmax_l 0 T)). nra.
  - exists z. split; [lra|]. rewrite Rmax_right in E by lra. lra.
Qed.
End Survival.

Section Solver.
Context (distribution : R -> R -> R -> R) (root : (R -> R) -> R -> R) (density mu sigma : R) (t : trap R).
Hypotheses (Hmu : mu <> 0) (Hl : lifetimes (fun x => distribution x mu sigma)) (Ht : continuum_trap distribution root density mu sigma = Ok t).
Hypothesis solves : finds_only_root root.
Lemma solver_class : t_class t = CContinuum (continuum_fill distribution mu sigma) (continuum_released distribution mu sigma) (continuum_solve distribution mu sigma root).
Proof. destruct (continuum_built distribution root density mu sigma Hmu) as (t' & E & _ & C). rewrite Ht in E. injection E as ->. exact C. Qed.
Lemma solver_time s : 0 <= s -> time_elapsed_from_fill_fraction t (fill_fraction_from_time_elapsed t s) = Ok s.
Proof.
  intros Hs. unfold time_elapsed_from_fill_fraction, fill_fraction_from_time_elapsed. rewrite solver_class. unfold continuum_solve.
  set (S := survival (fun x => distribution x mu sigma)). change (continuum_fill distribution mu sigma) with S.
  set (eq := fun u => S u - S s). assert (E : root eq (1 / 10 * mu) = s).
  { apply solves; [exact Hs|unfold eq; lra|]. intros u Hu Q. unfold eq in Q. destruct (Rtotal_order u s) as [L|[L|L]]; [|exact L|].
    - pose proof (survival_falls_strictly _ Hl u s ltac:(lra)). fold S in H. lra.
    - pose proof (survival_falls_strictly _ Hl s u ltac:(lra)). fold S in H. lra. }
  rewrite E. rnum. replace (S s - S s) with 0 by lra. replace (Rltb 0 0) with false by (symmetry; apply Rltb_false; lra).
  replace (Rltb 0 _) with true; [reflexivity|]. symmetry. apply Rltb_true. cbn. lra.
Qed.
Lemma solver_fraction f : 0 < f <= 1 -> exists s, 0 <= s /\ time_elapsed_from_fill_fraction t f = Ok s /\ fill_fraction_from_time_elapsed t s = f.
Proof.
  intros Hf. destruct (survival_reaches _ Hl f Hf) as (s & Hs & E). exists s. split; [exact Hs|].
  assert (F : fill_fraction_from_time_elapsed t s = f) by (unfold fill_fraction_from_time_elapsed; rewrite solver_class; exact E).
  split; [|exact F]. rewrite <- F. apply solver_time, Hs.
Qed.
End Solver.

(** A root finder of that kind. *)
Definition best_root (f : R -> R) (start : R) : R := real (Lub_Rbar (fun x => 0 <= x /\ f x = 0)).
Lemma best_root_finds : finds_only_root best_root.
Proof.
  intros f start s Hs E U. unfold best_root. rewrite (is_lub_Rbar_unique _ (Finite s)); [reflexivity|]. split.
  - intros x [Hx Q]. rewrite (U x Hx Q). apply Rle_refl.
  - intros b Hb. apply Hb. now split.
Qed.
