(** * Readouts with settings that differ a little. *)
From Coquelicot Require Import Coquelicot.
From Coq Require Import List Bool Reals Lra Lia.
From Verif Require Import Num Py RFacts CCDModel TrapsModel ManagerModel Spec SpecReadout SpecRecovery SpecCalibration WmFacts InstantFacts ReadoutSpecFacts OrderFacts TameFacts.
Import ListNotations.
Open Scope R_scope.

Section Nearby.
Context (traps traps' : list (trap R)) (dwell dwell' : R).
Let n := length traps.
Hypothesis Hlen : length traps' = length traps.
Hypothesis Hphys : Forall physical traps.
Hypothesis Hphys' : Forall physical traps'.
Hypothesis Hdwell : 0 <= dwell.
Hypothesis Hdwell' : 0 <= dwell'.
Let rho := traps_per_pixel traps.
Let alpha := density_error traps traps'.
Let kappa := release_error dwell dwell' traps traps'.
Notation total P := (electrons traps P 0 1).
Notation rel P := (after_release traps dwell P).
Notation rel' P := (after_release traps' dwell' P).
Notation q s := (exp (- dwell / timescale traps s)).
Notation q' s := (exp (- dwell' / timescale traps' s)).

Lemma density_error_nonneg : forall l l', 0 <= density_error l l'.
Proof. induction l as [|t l IH]; intros [|t' l']; cbn; try lra. pose proof (Rabs_pos (t_density t - t_density t')). specialize (IH l'). lra. Qed.
Lemma release_error_nonneg w w' : forall l l', Forall physical l -> 0 <= release_error w w' l l'.
Proof.
  induction l as [|t l IH]; intros [|t' l'] H; cbn; try lra. inversion H as [|? ? Ht H']; subst. pose proof (Rabs_pos (share_kept w t - share_kept w' t')). specialize (IH l' H').
  pose proof (ph_density t Ht). pose proof (Rmult_le_pos _ _ H1 H0). lra.
Qed.
Lemma alpha_pos : 0 <= alpha. Proof. apply density_error_nonneg. Qed.
Lemma kappa_pos : 0 <= kappa. Proof. now apply release_error_nonneg. Qed.
Lemma rho_pos : 0 <= rho. Proof. now apply density_nonneg. Qed.

(** ** The same profile, other densities *)
Lemma share_of_range (f : R -> R) a b : a <= b -> ex_RInt f a b -> (forall x, a < x < b -> 0 <= f x <= 1) -> 0 <= RInt f a b <= b - a.
Proof.
  intros Hab Hf H. split.
  - apply RInt_ge_0; auto. intros x Hx. apply H, Hx.
  - replace (b - a) with (RInt (fun _ => 1) a b) by (rewrite RInt_const; unfold scal; cbn; unfold mult; cbn; ring).
    apply RInt_le; auto; [apply (ex_RInt_const (V := R_NormedModule))|]. intros x Hx. apply H, Hx.
Qed.
Lemma from_densities (P : profile) a b : a <= b -> forall l l' s, length l' = length l ->
  (forall k, (k < length l)%nat -> ex_RInt (P (s + k)%nat) a b /\ forall x, a < x < b -> 0 <= P (s + k)%nat x <= 1) ->
  Rabs (electrons_from s l P a b - electrons_from s l' P a b) <= density_error l l' * (b - a).
Proof.
  intros Hab. induction l as [|t l IH]; intros [|t' l'] s E H; try discriminate; cbn [electrons_from density_error].
  - rewrite Rminus_eq_0, Rabs_R0. lra.
  - pose proof (H 0%nat ltac:(cbn; lia)) as (H1 & H2). rewrite Nat.add_0_r in *. pose proof (share_of_range (P s) a b Hab H1 H2) as B.
    assert (I : Rabs (electrons_from (S s) l P a b - electrons_from (S s) l' P a b) <= density_error l l' * (b - a)).
    { apply IH; [cbn in E; lia|]. intros k Hk. specialize (H (S k) ltac:(cbn; lia)). rewrite Nat.add_succ_r in H. exact H. }
    replace (t_density t * RInt (P s) a b + electrons_from (S s) l P a b - (t_density t' * RInt (P s) a b + electrons_from (S s) l' P a b))
      with ((t_density t - t_density t') * RInt (P s) a b + (electrons_from (S s) l P a b - electrons_from (S s) l' P a b)) by ring.
    eapply Rle_trans; [apply Rabs_triang|]. rewrite Rabs_mult, (Rabs_pos_eq (RInt (P s) a b)) by lra.
    pose proof (Rmult_le_compat_l _ _ _ (Rabs_pos (t_density t - t_density t')) (proj2 B)). lra.
Qed.
Lemma other_densities P a b : tidy n P -> 0 <= a <= b -> b <= 1 -> Rabs (electrons traps P a b - electrons traps' P a b) <= alpha.
Proof.
  intros HP Ha Hb. assert (B : Rabs (electrons traps P a b - electrons traps' P a b) <= alpha * (b - a)).
  { apply from_densities; [lra|exact Hlen|]. intros k Hk. cbn. split; [apply HP; auto|]. intros x Hx. apply (HP k Hk). lra. }
  pose proof alpha_pos. nra.
Qed.

(** ** The same densities, other shares *)
Lemma from_shares (P Q : profile) w w' a b : 0 <= a -> a <= b -> b <= 1 -> forall l l' s, length l' = length l -> Forall physical l ->
  (forall k, (k < length l)%nat -> ex_RInt (P (s + k)%nat) a b /\ ex_RInt (Q (s + k)%nat) a b /\
     forall x, a < x < b -> Rabs (P (s + k)%nat x - Q (s + k)%nat x) <= Rabs (exp (- w / timescale l k) - exp (- w' / timescale l' k))) ->
  Rabs (electrons_from s l P a b - electrons_from s l Q a b) <= release_error w w' l l'.
Proof.
  intros Ha Hab Hb. induction l as [|t l IH]; intros [|t' l'] s E Hp H; try discriminate; cbn [electrons_from release_error].
  - rewrite Rminus_eq_0, Rabs_R0. lra.
  - inversion Hp as [|? ? Ht Hp']; subst. pose proof (H 0%nat ltac:(cbn; lia)) as (H1 & H2 & H3). rewrite Nat.add_0_r in *.
    assert (I : Rabs (electrons_from (S s) l P a b - electrons_from (S s) l Q a b) <= release_error w w' l l').
    { apply IH; [cbn in E; lia|exact Hp'|]. intros k Hk. specialize (H (S k) ltac:(cbn; lia)). rewrite Nat.add_succ_r in H. exact H. }
    assert (B : Rabs (RInt (P s) a b - RInt (Q s) a b) <= Rabs (share_kept w t - share_kept w' t')).
    { set (d := Rabs (share_kept w t - share_kept w' t')) in *. pose proof (Rabs_pos (share_kept w t - share_kept w' t')) as Hd. fold d in Hd.
      pose proof (RInt_minus (V := R_CompleteNormedModule) (P s) (Q s) a b H1 H2) as Em. change (RInt (fun x => P s x - Q s x) a b = RInt (P s) a b - RInt (Q s) a b) in Em. rewrite <- Em.
      assert (EX : ex_RInt (fun x => P s x - Q s x) a b) by (apply (ex_RInt_minus (V := R_NormedModule) (P s) (Q s)); assumption).
      assert (C : forall e : R, RInt (fun _ => e) a b = e * (b - a)) by (intros e; rewrite RInt_const; unfold scal; cbn; unfold mult; cbn; ring).
      assert (XC : forall e : R, ex_RInt (fun _ => e) a b) by (intros e; apply (ex_RInt_const (V := R_NormedModule))).
      assert (U : RInt (fun x => P s x - Q s x) a b <= d * (b - a)).
      { rewrite <- C. apply RInt_le; auto. intros x Hx. specialize (H3 x Hx). apply Rabs_le_between in H3. change (exp (- w / timescale (t :: l) 0)) with (share_kept w t) in H3. change (exp (- w' / timescale (t' :: l') 0)) with (share_kept w' t') in H3. fold d in H3. lra. }
      assert (L : - d * (b - a) <= RInt (fun x => P s x - Q s x) a b).
      { rewrite <- C. apply RInt_le; auto. intros x Hx. specialize (H3 x Hx). apply Rabs_le_between in H3. change (exp (- w / timescale (t :: l) 0)) with (share_kept w t) in H3. change (exp (- w' / timescale (t' :: l') 0)) with (share_kept w' t') in H3. fold d in H3. lra. }
      apply Rabs_le_between. nra. }
    replace (t_density t * RInt (P s) a b + electrons_from (S s) l P a b - (t_density t * RInt (Q s) a b + electrons_from (S s) l Q a b))
      with (t_density t * (RInt (P s) a b - RInt (Q s) a b) + (electrons_from (S s) l P a b - electrons_from (S s) l Q a b)) by ring.
    eapply Rle_trans; [apply Rabs_triang|]. pose proof (ph_density t Ht) as Hd. rewrite Rabs_mult, (Rabs_pos_eq (t_density t)) by lra.
    pose proof (Rmult_le_compat_l _ _ _ Hd B). lra.
Qed.
Lemma other_shares P Q a b : 0 <= a <= b -> b <= 1 -> integrable traps P a b -> integrable traps Q a b ->
  (forall s x, (s < n)%nat -> a < x < b -> Rabs (P s x - Q s x) <= Rabs (q s - q' s)) ->
  Rabs (electrons traps P a b - electrons traps Q a b) <= kappa.
Proof.
  intros Ha Hb HP HQ H. apply from_shares; [lra|lra|lra|exact Hlen|exact Hphys|]. intros k Hk. cbn. split; [apply HP, Hk|]. split; [apply HQ, Hk|]. intros x Hx. now apply H.
Qed.
Lemma tidy' P : tidy n P <-> tidy (length traps') P. Proof. rewrite Hlen. reflexivity. Qed.
Lemma keep' s : 0 < q' s <= 1. Proof. now apply keep_range. Qed.
Lemma keep0 s : 0 < q s <= 1. Proof. now apply keep_range. Qed.
Lemma tidy_rel P : tidy n P -> tidy n (rel P). Proof. now apply tidy_release. Qed.
Lemma tidy_rel' P : tidy n P -> tidy n (rel' P). Proof. intros H. apply tidy'. apply tidy_release; auto. now apply tidy'. Qed.
Lemma unit_part (p d : R) : 0 <= p <= 1 -> Rabs (p * d) <= Rabs d.
Proof. intros H. rewrite Rabs_mult, (Rabs_pos_eq p) by lra. pose proof (Rabs_pos d). nra. Qed.
Lemma rel_shares P b : tidy n P -> 0 <= b <= 1 -> Rabs (electrons traps (rel P) 0 b - electrons traps (rel' P) 0 b) <= kappa.
Proof.
  intros HP Hb. apply other_shares; [lra|lra|apply tidy_integrable; auto using tidy_rel; lra|apply tidy_integrable; auto using tidy_rel'; lra|].
  intros s x Hs Hx. unfold after_release. destruct (HP s Hs) as [H1 _]. specialize (H1 x ltac:(lra)). rewrite <- Rmult_minus_distr_l. now apply unit_part.
Qed.

(** ** One packet *)
Lemma tidy_difference P : tidy n P -> tidy n (fun s x => P s x - rel' P s x).
Proof.
  intros HP s Hs. destruct (HP s Hs) as [H1 H2]. split.
  - intros x Hx. specialize (H1 x Hx). unfold after_release. pose proof (keep' s). nra.
  - intros a b Ha Hb. apply (ex_RInt_minus (V := R_NormedModule) (P s) (rel' P s)); [apply H2; auto|]. apply (tidy_rel' P HP); auto.
Qed.
Lemma tidy_rest P : tidy n P -> tidy n (fun s x => 1 - P s x).
Proof.
  intros HP s Hs. destruct (HP s Hs) as [H1 H2]. split; [intros x Hx; specialize (H1 x Hx); lra|].
  intros a b Ha Hb. apply (ex_RInt_minus (V := R_NormedModule) (fun _ => 1) (P s)); [apply (ex_RInt_const (V := R_NormedModule))|apply H2; auto].
Qed.
Lemma released_near P : tidy n P -> Rabs (released traps dwell P - released traps' dwell' P) <= alpha + kappa.
Proof.
  intros HP. unfold released. pose proof (rel_shares P 1 HP ltac:(lra)) as K.
  pose proof (other_densities _ 0 1 (tidy_difference P HP) ltac:(lra) ltac:(lra)) as A.
  rewrite electrons_minus in A by (apply tidy_integrable; auto using tidy_rel'; lra).
  rewrite (electrons_minus traps' P (rel' P)) in A by (apply tidy_integrable; try lra; apply tidy'; auto using tidy_rel').
  apply Rabs_le_between in K. apply Rabs_le_between in A. apply Rabs_le_between. lra.
Qed.
Lemma demand_near u v P : 0 <= u <= 1 -> 0 <= v <= 1 -> tidy n P ->
  Rabs (demand traps u (rel P) - demand traps' v (rel' P)) <= rho * Rabs (u - v) + kappa + alpha.
Proof.
  intros Hu Hv HP. pose proof (tidy_rel P HP) as T. pose proof (tidy_rel' P HP) as T'.
  assert (A1 : Rabs (demand traps u (rel P) - demand traps v (rel P)) <= rho * Rabs (u - v)).
  { destruct (Rle_dec u v) as [H|H].
    - pose proof (demand_grows traps Hphys u v (rel P) ltac:(lra) ltac:(lra) T). pose proof (demand_order traps Hphys u v (rel P) (rel P) ltac:(lra) ltac:(lra) T T (below_refl traps _)).
      rewrite (Rabs_left1 (u - v)) by lra. fold rho in H1. apply Rabs_le_between. lra.
    - pose proof (demand_grows traps Hphys v u (rel P) ltac:(lra) ltac:(lra) T). pose proof (demand_order traps Hphys v u (rel P) (rel P) ltac:(lra) ltac:(lra) T T (below_refl traps _)).
      rewrite (Rabs_pos_eq (u - v)) by lra. fold rho in H1. apply Rabs_le_between. lra. }
  assert (A2 : Rabs (demand traps v (rel P) - demand traps v (rel' P)) <= kappa).
  { rewrite (demand_value traps _ v T), (demand_value traps _ v T') by lra. pose proof (rel_shares P v HP Hv) as K. apply Rabs_le_between in K. apply Rabs_le_between. lra. }
  assert (A3 : Rabs (demand traps v (rel' P) - demand traps' v (rel' P)) <= alpha).
  { unfold demand. apply (other_densities _ 0 v (tidy_rest _ T')); lra. }
  apply Rabs_le_between in A1. apply Rabs_le_between in A2. apply Rabs_le_between in A3. apply Rabs_le_between. lra.
Qed.

Context (well well' : R -> R) (floor slope eps : R).
Hypothesis Hg : gradual traps well floor slope.
Hypothesis Hw : forall a, floor <= a -> 0 <= well a <= 1.
Hypothesis Hw' : forall a, floor <= a -> 0 <= well' a <= 1.
Hypothesis Hk : rho * slope <= 1.
Hypothesis Heps : forall a, floor <= a -> Rabs (well a - well' a) <= eps.
Notation cloud := (cloud_from traps dwell floor).
Notation cloud' := (cloud_from traps' dwell' floor).
Lemma cloud_near m P : tidy n P -> Rabs (cloud m P - cloud' m P) <= alpha + kappa.
Proof.
  intros HP. pose proof (released_near P HP) as K. apply Rabs_le_between in K. pose proof alpha_pos. pose proof kappa_pos. unfold cloud_from. apply Rabs_le_between. unfold Rmax. destruct (Rle_dec floor _), (Rle_dec floor _); lra.
Qed.
Lemma well_near a b : floor <= a -> floor <= b -> Rabs (well a - well' b) <= slope * Rabs (a - b) + eps.
Proof.
  intros Ha Hb. pose proof (Heps b Hb) as E. apply Rabs_le_between in E.
  assert (Rabs (well a - well b) <= slope * Rabs (a - b)).
  { destruct (Rle_dec a b) as [H|H].
    - pose proof (gr_grows _ _ _ _ Hg a b ltac:(lra)). rewrite (Rabs_left1 (a - b)) by lra. apply Rabs_le_between. lra.
    - pose proof (gr_grows _ _ _ _ Hg b a ltac:(lra)). rewrite (Rabs_pos_eq (a - b)) by lra. apply Rabs_le_between. lra. }
  apply Rabs_le_between in H. apply Rabs_le_between. lra.
Qed.
Lemma eps_pos : 0 <= eps. Proof. pose proof (Heps floor ltac:(lra)). pose proof (Rabs_pos (well floor - well' floor)). lra. Qed.
Lemma slope_pos : 0 <= slope. Proof. apply (gr_slope _ _ _ _ Hg). Qed.
Lemma depths_near m P : tidy n P -> rho * Rabs (well (cloud m P) - well' (cloud' m P)) <= alpha + kappa + rho * eps.
Proof.
  intros HP. pose proof (well_near (cloud m P) (cloud' m P) (Rmax_l _ _) (Rmax_l _ _)) as W. pose proof (cloud_near m P HP) as C. pose proof rho_pos. pose proof slope_pos. pose proof alpha_pos. pose proof kappa_pos.
  assert (rho * Rabs (well (cloud m P) - well' (cloud' m P)) <= rho * (slope * Rabs (cloud m P - cloud' m P) + eps)) by (now apply Rmult_le_compat_l).
  assert (rho * slope * Rabs (cloud m P - cloud' m P) <= 1 * (alpha + kappa)) by (apply Rmult_le_compat; [now apply Rmult_le_pos|apply Rabs_pos|exact Hk|exact C]). lra.
Qed.
Let err := alpha + kappa + rho * eps.
Lemma err_pos : 0 <= err. Proof. unfold err. pose proof alpha_pos. pose proof kappa_pos. pose proof (Rmult_le_pos _ _ rho_pos eps_pos). lra. Qed.
Lemma leaves_near m P : tidy n P -> Rabs (leaves traps dwell well floor m P - leaves traps' dwell' well' floor m P) <= 3 * err.
Proof.
  intros HP. unfold leaves. pose proof (cloud_near m P HP) as C. pose proof (depths_near m P HP) as D.
  pose proof (demand_near (well (cloud m P)) (well' (cloud' m P)) P (Hw _ (Rmax_l _ _)) (Hw' _ (Rmax_l _ _)) HP) as E.
  pose proof (Rmult_le_pos _ _ rho_pos eps_pos). unfold err. apply Rabs_le_between in C. apply Rabs_le_between in E. apply Rabs_le_between. lra.
Qed.

(** ** What is left in the traps *)
Definition upper (m : R) (P : profile) : profile := fill_to (Rmax (well (cloud m P)) (well' (cloud' m P))) (fun s x => P s x * Rmax (q s) (q' s)).
Lemma tidy_most P : tidy n P -> tidy n (fun s x => P s x * Rmax (q s) (q' s)).
Proof.
  intros HP s Hs. destruct (HP s Hs) as [H1 H2]. pose proof (keep0 s). pose proof (keep' s). pose proof (Rmax_l (q s) (q' s)). pose proof (Rmax_lub _ _ _ (proj2 H) (proj2 H0)). split.
  - intros x Hx. specialize (H1 x Hx). nra.
  - intros a b Ha Hb. apply (ex_RInt_ext (fun x => Rmax (q s) (q' s) * P s x)); [intros x _; apply Rmult_comm|]. apply (ex_RInt_scal (V := R_NormedModule)). apply H2; auto.
Qed.
Lemma most_shares P (r : nat -> R) a : tidy n P -> 0 <= a <= 1 -> (forall s, r s = q s \/ r s = q' s) -> tidy n (fun s x => P s x * r s) ->
  electrons traps (fun s x => P s x * Rmax (q s) (q' s)) a 1 - electrons traps (fun s x => P s x * r s) a 1 <= kappa.
Proof.
  intros HP Ha Hr HT. eapply Rle_trans; [apply Rle_abs|]. apply other_shares; [lra|lra|apply tidy_integrable; auto using tidy_most; lra|apply tidy_integrable; auto; lra|].
  intros s x Hs Hx. destruct (HP s Hs) as [H1 _]. specialize (H1 x ltac:(lra)). rewrite <- Rmult_minus_distr_l. eapply Rle_trans; [now apply unit_part|].
  pose proof (Rabs_pos (q s - q' s)). destruct (Hr s) as [-> | ->]; unfold Rmax; destruct (Rle_dec (q s) (q' s)); rewrite ?Rminus_eq_0, ?Rabs_R0; try lra. rewrite Rabs_minus_sym. lra.
Qed.
Lemma filled_total v X : 0 <= v <= 1 -> tidy n X -> total (fill_to v X) = rho * v + electrons traps X v 1.
Proof.
  intros Hv HX. rewrite (fill_total traps v X Hv HX), (demand_value traps X v HX Hv), (electrons_chasles traps X 0 v 1) by (apply tidy_integrable; auto; lra). unfold rho. lra.
Qed.
Lemma above_part u v X : 0 <= u <= v -> v <= 1 -> tidy n X -> electrons traps X v 1 <= electrons traps X u 1.
Proof.
  intros Hu Hv HX. rewrite (electrons_chasles traps X u v 1) by (apply tidy_integrable; auto; lra). pose proof (electrons_nonneg traps Hphys X u v HX ltac:(lra) ltac:(lra)). lra.
Qed.
Lemma behind_near m P : tidy n P -> tidy n (upper m P) /\
  below_profile n (behind traps dwell well floor m P) (upper m P) /\ below_profile n (behind traps' dwell' well' floor m P) (upper m P) /\
  2 * total (upper m P) - total (behind traps dwell well floor m P) - total (behind traps' dwell' well' floor m P) <= 3 * err.
Proof.
  intros HP. unfold upper, behind. set (v := well (cloud m P)). set (v' := well' (cloud' m P)).
  assert (Bv : 0 <= v <= 1) by (apply Hw, Rmax_l). assert (Bv' : 0 <= v' <= 1) by (apply Hw', Rmax_l).
  pose proof (depths_near m P HP) as D. fold v v' in D. pose proof (tidy_most P HP) as TM. pose proof (tidy_rel P HP) as T. pose proof (tidy_rel' P HP) as T'.
  pose proof (Rmax_l v v') as M1. pose proof (Rmax_r v v') as M2. pose proof (Rmax_lub v v' 1 (proj2 Bv) (proj2 Bv')) as M3. set (w := Rmax v v') in *.
  assert (B : forall s x, (s < n)%nat -> 0 <= x < 1 -> rel P s x <= P s x * Rmax (q s) (q' s) /\ rel' P s x <= P s x * Rmax (q s) (q' s)).
  { intros s x Hs Hx. destruct (HP s Hs) as [H1 _]. specialize (H1 x Hx). unfold after_release. pose proof (Rmax_l (q s) (q' s)). pose proof (Rmax_r (q s) (q' s)). split; apply Rmult_le_compat_l; lra. }
  split; [apply tidy_fill; [lra|exact TM]|]. split; [apply fill_order; [lra|exact TM|]; intros s x Hs Hx; apply B; auto|]. split; [apply fill_order; [lra|exact TM|]; intros s x Hs Hx; apply B; auto|].
  rewrite !filled_total by (assumption || lra).
  pose proof (most_shares P (fun s => q s) w HP ltac:(lra) ltac:(intros; now left) T) as S1. pose proof (most_shares P (fun s => q' s) w HP ltac:(lra) ltac:(intros; now right) T') as S2.
  pose proof (above_part v w _ ltac:(lra) M3 T) as U1. pose proof (above_part v' w _ ltac:(lra) M3 T') as U2.
  change (electrons traps (fun s x => P s x * Rmax (q s) (q' s)) w 1 - electrons traps (rel P) w 1 <= kappa) in S1.
  change (electrons traps (fun s x => P s x * Rmax (q s) (q' s)) w 1 - electrons traps (rel' P) w 1 <= kappa) in S2.
  assert (A : 2 * (rho * w) - rho * v - rho * v' = rho * Rabs (v - v')).
  { unfold w, Rmax. destruct (Rle_dec v v'); [rewrite Rabs_left1 by lra|rewrite Rabs_pos_eq by lra]; ring. }
  pose proof alpha_pos. pose proof kappa_pos. pose proof (Rmult_le_pos _ _ rho_pos eps_pos). unfold err. lra.
Qed.

(** ** One pass *)
Lemma gain_pos : 0 <= 1 - rho * slope. Proof. lra. Qed.
Lemma pass_states x P Q M : tidy n P -> tidy n Q -> tidy n M -> below_profile n P M -> below_profile n Q M ->
  apart (pass traps dwell well floor P x) (pass traps dwell well floor Q x) <= 2 * total M - total P - total Q.
Proof.
  intros HP HQ HM BP BQ.
  destruct (pass_order traps dwell well floor slope Hphys Hdwell Hg Hw gain_pos x x (ordered_refl x) M P HM HP BP) as [O1 S1].
  destruct (pass_order traps dwell well floor slope Hphys Hdwell Hg Hw gain_pos x x (ordered_refl x) M Q HM HQ BQ) as [O2 S2].
  pose proof (apart_below _ _ _ O1 O2). lra.
Qed.
Lemma apart_triangle : forall x y z, length x = length y -> length y = length z -> apart x z <= apart x y + apart y z.
Proof.
  induction x as [|a x IH]; intros [|b y] [|c z] E1 E2; try discriminate; cbn; [lra|]. cbn in E1, E2. specialize (IH y z ltac:(lia) ltac:(lia)).
  replace (a - c) with ((a - b) + (b - c)) by ring. pose proof (Rabs_triang (a - b) (b - c)). lra.
Qed.
Lemma tidy_behind' m P : tidy n P -> tidy n (behind traps' dwell' well' floor m P).
Proof. intros HP. apply tidy'. apply behind_tidy; auto. now apply tidy'. Qed.
Lemma pass_near_settings : forall x P, tidy n P ->
  apart (pass traps dwell well floor P x) (pass traps' dwell' well' floor P x) <= 6 * INR (length x) * err.
Proof.
  induction x as [|m x IH]; intros P HP; cbn [pass apart length]; [change (INR 0) with 0; lra|]. rewrite S_INR.
  pose proof (leaves_near m P HP) as L. destruct (behind_near m P HP) as (TU & B1 & B2 & S).
  pose proof (tidy_behind' m P HP) as T'. assert (T : tidy n (behind traps dwell well floor m P)) by (now apply behind_tidy).
  pose proof (pass_states x _ _ _ T T' TU B1 B2) as A. specialize (IH _ T').
  pose proof (apart_triangle (pass traps dwell well floor (behind traps dwell well floor m P) x) (pass traps dwell well floor (behind traps' dwell' well' floor m P) x) (pass traps' dwell' well' floor (behind traps' dwell' well' floor m P) x)) as TR.
  rewrite !pass_length in TR. specialize (TR eq_refl eq_refl). lra.
Qed.

(** ** Columns *)
Context (th : nat -> R).
Hypothesis Hth0 : floor <= th 0.
Hypothesis Hth : forall p a, th (S p) <= a -> th p <= a - rho * well a.
Hypothesis Hth1 : forall p, th p <= th (S p).
Lemma reads_near_settings : forall k x, apart (reads traps dwell well floor k x) (reads traps' dwell' well' floor k x) <= INR k * (6 * INR (length x) * err).
Proof.
  induction k as [|k IH]; intros x; cbn [reads]; [rewrite apart_refl; cbn; lra|]. rewrite S_INR.
  pose proof err_pos as He. assert (N : 0 <= 6 * INR (length x) * err) by (pose proof (pos_INR (length x)); apply Rmult_le_pos; lra).
  pose proof (pass_near_settings x empty_profile (tidy_empty traps)) as A.
  pose proof (pass_length traps dwell well floor x empty_profile) as L. pose proof (pass_length traps' dwell' well' floor x empty_profile) as L'.
  destruct (pass traps dwell well floor empty_profile x) as [|h l]; destruct (pass traps' dwell' well' floor empty_profile x) as [|h' l']; cbn in L, L'; try lia; cbn [skip apart] in *.
  - pose proof (pos_INR k). pose proof (Rmult_le_pos _ _ H N). lra.
  - pose proof (reads_tame traps dwell well floor slope th Hphys Hdwell Hg Hw gain_pos Hth0 Hth Hth1 k) as T.
    pose proof (tame_apart _ _ _ _ l l' T ltac:(lia)) as A1. specialize (IH l').
    pose proof (apart_triangle (reads traps dwell well floor k l) (reads traps dwell well floor k l') (reads traps' dwell' well' floor k l')) as TR.
    assert (LR : forall (tr : list (trap R)) w we k x, length (reads tr w we floor k x) = length x).
    { clear. intros tr w we. induction k as [|k IH]; intros x; cbn [reads]; [reflexivity|]. rewrite <- (pass_length tr w we floor x empty_profile). destruct (pass tr w we floor empty_profile x); cbn; [reflexivity|now rewrite IH]. }
    rewrite !LR in TR. specialize (TR ltac:(lia) eq_refl).
    assert (INR k * (6 * INR (length l') * err) <= INR k * (6 * INR (length x) * err)).
    { apply Rmult_le_compat_l; [apply pos_INR|]. apply Rmult_le_compat_r; [exact He|]. apply Rmult_le_compat_l; [lra|]. apply le_INR. lia. }
    lra.
Qed.
Lemma enters_length tr w we : forall k x, length (enters tr w we floor k x) = length x.
Proof. induction k as [|k IH]; intros x; cbn [enters]; [reflexivity|]. now rewrite IH, pass_length. Qed.
Lemma enters_near_settings : forall k x, apart (enters traps dwell well floor k x) (enters traps' dwell' well' floor k x) <= INR k * (6 * INR (length x) * err).
Proof.
  induction k as [|k IH]; intros x; cbn [enters]; [rewrite apart_refl; cbn; lra|]. rewrite S_INR.
  pose proof (pass_near_settings x empty_profile (tidy_empty traps)) as A.
  pose proof (enters_tame traps dwell well floor slope th Hphys Hdwell Hg Hw gain_pos Hth0 Hth Hth1 0 k) as T.
  pose proof (tame_apart _ _ _ _ (pass traps dwell well floor empty_profile x) (pass traps' dwell' well' floor empty_profile x) T ltac:(now rewrite !pass_length)) as A1.
  specialize (IH (pass traps' dwell' well' floor empty_profile x)). rewrite pass_length in IH.
  pose proof (apart_triangle (enters traps dwell well floor k (pass traps dwell well floor empty_profile x)) (enters traps dwell well floor k (pass traps' dwell' well' floor empty_profile x)) (enters traps' dwell' well' floor k (pass traps' dwell' well' floor empty_profile x))) as TR.
  rewrite !enters_length, !pass_length in TR. specialize (TR eq_refl eq_refl). lra.
Qed.
Lemma column_near_settings rows offset x : apart (column_reads traps dwell well floor rows offset x) (column_reads traps' dwell' well' floor rows offset x) <= INR (offset + rows) * (6 * INR (length x) * err).
Proof.
  unfold column_reads. rewrite plus_INR. pose proof (enters_near_settings offset x) as A.
  pose proof (reads_tame traps dwell well floor slope th Hphys Hdwell Hg Hw gain_pos Hth0 Hth Hth1 rows) as T.
  pose proof (tame_apart _ _ _ _ (enters traps dwell well floor offset x) (enters traps' dwell' well' floor offset x) T ltac:(now rewrite !enters_length)) as A1.
  pose proof (reads_near_settings rows (enters traps' dwell' well' floor offset x)) as A2. rewrite enters_length in A2.
  assert (LR : forall (tr : list (trap R)) w we k x, length (reads tr w we floor k x) = length x).
  { clear. intros tr w we. induction k as [|k IH]; intros x; cbn [reads]; [reflexivity|]. rewrite <- (pass_length tr w we floor x empty_profile). destruct (pass tr w we floor empty_profile x); cbn; [reflexivity|now rewrite IH]. }
  pose proof (apart_triangle (reads traps dwell well floor rows (enters traps dwell well floor offset x)) (reads traps dwell well floor rows (enters traps' dwell' well' floor offset x)) (reads traps' dwell' well' floor rows (enters traps' dwell' well' floor offset x))) as TR.
  rewrite !LR, !enters_length in TR. specialize (TR eq_refl eq_refl). lra.
Qed.
End Nearby.
