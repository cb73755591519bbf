(** * Readout past instant-capture traps preserves the order of images and does not enlarge
    their differences. *)
From Coq Require Import ZArith List Bool Reals Lra Lia.
From Coquelicot Require Import Rcomplements Rbar Hierarchy RInt.
From Verif Require Import Num Py RFacts CCDModel TrapsModel ManagerModel Spec SpecReadout SpecRecovery WmFacts InstantFacts ReadoutSpecFacts.
Import ListNotations.
Open Scope R_scope.

(** ** Profiles that can be integrated *)
Definition tidy (n : nat) (P : profile) : Prop := forall s, (s < n)%nat ->
  (forall x, 0 <= x < 1 -> 0 <= P s x <= 1) /\ forall a b, 0 <= a <= b -> b <= 1 -> ex_RInt (P s) a b.
Definition below_profile (n : nat) (Q P : profile) : Prop := forall s x, (s < n)%nat -> 0 <= x < 1 -> Q s x <= P s x.

Section Integrals.
Context (traps : list (trap R)).
Let n := length traps.
Hypothesis Hphys : Forall physical traps.

Definition integrable (P : profile) (a b : R) : Prop := forall s, (s < n)%nat -> ex_RInt (P s) a b.
Lemma tidy_integrable P a b : tidy n P -> 0 <= a <= b -> b <= 1 -> integrable P a b.
Proof. intros H Ha Hb s Hs. apply H; auto. Qed.

Lemma from_le (P Q : profile) a b : a <= b -> forall l s, Forall physical l ->
  (forall k, (k < length l)%nat -> ex_RInt (P (s + k)%nat) a b /\ ex_RInt (Q (s + k)%nat) a b /\ forall x, a < x < b -> P (s + k)%nat x <= Q (s + k)%nat x) ->
  electrons_from s l P a b <= electrons_from s l Q a b.
Proof.
  intros Hab. induction l as [|t l IH]; intros s Hp H; [cbn; lra|]. inversion Hp as [|? ? Ht Hp']; subst. cbn [electrons_from].
  pose proof (H 0%nat ltac:(cbn; lia)) as (H1 & H2 & H3). rewrite Nat.add_0_r in *.
  pose proof (RInt_le _ _ a b Hab H1 H2 H3). pose proof (ph_density t Ht).
  assert (electrons_from (S s) l P a b <= electrons_from (S s) l Q a b).
  { apply IH; [exact Hp'|]. intros k Hk. specialize (H (S k) ltac:(cbn; lia)). rewrite Nat.add_succ_r in H. exact H. }
  pose proof (Rmult_le_compat_l (t_density t) _ _ H4 H0). lra.
Qed.
Lemma electrons_le P Q a b : a <= b -> integrable P a b -> integrable Q a b ->
  (forall s x, (s < n)%nat -> a < x < b -> P s x <= Q s x) -> electrons traps P a b <= electrons traps Q a b.
Proof.
  intros Hab H1 H2 H3. apply from_le; [exact Hab|exact Hphys|]. intros k Hk. cbn [Nat.add]. split; [apply H1, Hk|]. split; [apply H2, Hk|]. intros x Hx. apply H3; auto.
Qed.
Lemma from_minus (P Q : profile) a b : forall l s,
  (forall k, (k < length l)%nat -> ex_RInt (P (s + k)%nat) a b /\ ex_RInt (Q (s + k)%nat) a b) ->
  electrons_from s l (fun s x => P s x - Q s x) a b = electrons_from s l P a b - electrons_from s l Q a b.
Proof.
  induction l as [|t l IH]; intros s H; [cbn; lra|]. cbn [electrons_from].
  pose proof (H 0%nat ltac:(cbn; lia)) as (H1 & H2). rewrite Nat.add_0_r in *.
  pose proof (RInt_minus (V := R_CompleteNormedModule) (P s) (Q s) a b H1 H2) as E.
  change (RInt (fun x => P s x - Q s x) a b = RInt (P s) a b - RInt (Q s) a b) in E. rewrite E.
  rewrite IH; [lra|]. intros k Hk. specialize (H (S k) ltac:(cbn; lia)). rewrite Nat.add_succ_r in H. exact H.
Qed.
Lemma electrons_minus P Q a b : integrable P a b -> integrable Q a b ->
  electrons traps (fun s x => P s x - Q s x) a b = electrons traps P a b - electrons traps Q a b.
Proof. intros H1 H2. apply from_minus. intros k Hk. cbn. split; [apply H1, Hk|apply H2, Hk]. Qed.
Lemma from_chasles (P : profile) a b c : forall l s,
  (forall k, (k < length l)%nat -> ex_RInt (P (s + k)%nat) a b /\ ex_RInt (P (s + k)%nat) b c) ->
  electrons_from s l P a c = electrons_from s l P a b + electrons_from s l P b c.
Proof.
  induction l as [|t l IH]; intros s H; [cbn; lra|]. cbn [electrons_from].
  pose proof (H 0%nat ltac:(cbn; lia)) as (H1 & H2). rewrite Nat.add_0_r in *.
  pose proof (RInt_Chasles (V := R_CompleteNormedModule) (P s) a b c H1 H2) as E.
  change (RInt (P s) a b + RInt (P s) b c = RInt (P s) a c) in E. rewrite <- E.
  rewrite IH; [lra|]. intros k Hk. specialize (H (S k) ltac:(cbn; lia)). rewrite Nat.add_succ_r in H. exact H.
Qed.
Lemma electrons_chasles P a b c : integrable P a b -> integrable P b c ->
  electrons traps P a c = electrons traps P a b + electrons traps P b c.
Proof. intros H1 H2. apply from_chasles. intros k Hk. cbn. split; [apply H1, Hk|apply H2, Hk]. Qed.
Lemma from_one a b : forall l s, electrons_from s l (fun _ _ => 1) a b = Rsum (map (@t_density R) l) * (b - a).
Proof.
  induction l as [|t l IH]; intros s; [cbn; lra|]. cbn [electrons_from map]. rewrite IH, RInt_const. unfold Rsum. cbn [fold_right].
  unfold scal. cbn. unfold mult. cbn. lra.
Qed.
Lemma electrons_one a b : electrons traps (fun _ _ => 1) a b = traps_per_pixel traps * (b - a).
Proof. apply from_one. Qed.
Lemma from_ext (P Q : profile) a b : a <= b -> forall l s,
  (forall k x, (k < length l)%nat -> a < x < b -> P (s + k)%nat x = Q (s + k)%nat x) -> electrons_from s l P a b = electrons_from s l Q a b.
Proof.
  intros Hab. induction l as [|t l IH]; intros s H; [reflexivity|]. cbn [electrons_from].
  rewrite (RInt_ext (P s) (Q s) a b); [f_equal; apply IH|].
  - intros k x Hk Hx. specialize (H (S k) x ltac:(cbn; lia) Hx). rewrite Nat.add_succ_r in H. exact H.
  - intros x Hx. rewrite Rmin_left, Rmax_right in Hx by lra. specialize (H 0%nat x ltac:(cbn; lia) Hx). rewrite Nat.add_0_r in H. exact H.
Qed.
Lemma electrons_eq P Q a b : a <= b -> (forall s x, (s < n)%nat -> a < x < b -> P s x = Q s x) -> electrons traps P a b = electrons traps Q a b.
Proof. intros Hab H. apply from_ext; auto. Qed.
Lemma one_integrable a b : integrable (fun _ _ => 1) a b.
Proof. intros s Hs. apply (ex_RInt_const (V := R_NormedModule)). Qed.
Lemma density_nonneg : 0 <= traps_per_pixel traps.
Proof.
  unfold traps_per_pixel, Rsum. induction Hphys as [|t l Ht H IH]; cbn; [lra|]. pose proof (ph_density t Ht). 
  assert (0 <= fold_right Rplus 0 (map (@t_density R) l)) by (apply IH; exact H). lra.
Qed.

Lemma demand_value P v : tidy n P -> 0 <= v <= 1 -> demand traps v P = traps_per_pixel traps * v - electrons traps P 0 v.
Proof.
  intros HP Hv. unfold demand. rewrite electrons_minus; [rewrite electrons_one; lra|apply one_integrable|apply tidy_integrable; auto; lra].
Qed.
Lemma electrons_nonneg P a b : tidy n P -> 0 <= a <= b -> b <= 1 -> 0 <= electrons traps P a b.
Proof.
  intros HP Ha Hb. assert (E : electrons traps (fun _ _ => 0) a b = 0).
  { rewrite (electrons_eq _ (fun s x => 1 - 1)) by (auto; intros; lra). rewrite (electrons_minus (fun _ _ => 1) (fun _ _ => 1)) by apply one_integrable. lra. }
  rewrite <- E. apply electrons_le; [lra|intros s Hs; apply (ex_RInt_const (V := R_NormedModule))|apply tidy_integrable; auto|].
  intros s x Hs Hx. apply (HP s Hs). lra.
Qed.
Lemma electrons_at_most P a b : tidy n P -> 0 <= a <= b -> b <= 1 -> electrons traps P a b <= traps_per_pixel traps * (b - a).
Proof.
  intros HP Ha Hb. rewrite <- electrons_one. apply electrons_le; [lra|apply tidy_integrable; auto|apply one_integrable|].
  intros s x Hs Hx. apply (HP s Hs). lra.
Qed.
End Integrals.

(** ** Release and capture *)
Definition fill_to (v : R) (P : profile) : profile := fun s x => if Rlt_dec x v then 1 else P s x.

Section Compare.
Context (traps : list (trap R)) (dwell : R).
Let n := length traps.
Hypothesis Hphys : Forall physical traps.
Hypothesis Hdwell : 0 <= dwell.
Let rho := traps_per_pixel traps.
Notation total P := (electrons traps P 0 1).
Notation rel P := (after_release traps dwell P).

Lemma keep_range s : 0 < exp (- dwell / timescale traps s) <= 1.
Proof. apply decay_range; [exact Hdwell|apply timescale_pos; exact Hphys]. Qed.
Lemma tidy_release P : tidy n P -> tidy n (rel P).
Proof.
  intros H s Hs. destruct (H s Hs) as [H1 H2]. pose proof (keep_range s). split.
  - intros x Hx. specialize (H1 x Hx). unfold after_release. nra.
  - intros a b Ha Hb. unfold after_release. apply (ex_RInt_ext (fun x => exp (- dwell / timescale traps s) * P s x)).
    + intros x _. apply Rmult_comm.
    + apply (ex_RInt_scal (V := R_NormedModule)). apply H2; auto.
Qed.
Lemma release_order P Q : below_profile n Q P -> below_profile n (rel Q) (rel P).
Proof. intros H s x Hs Hx. unfold after_release. pose proof (keep_range s). specialize (H s x Hs Hx). nra. Qed.
Lemma tidy_empty : tidy n empty_profile.
Proof. intros s _. split; [intros; unfold empty_profile; lra|]. intros. apply (ex_RInt_const (V := R_NormedModule)). Qed.
Lemma below_refl P : below_profile n P P. Proof. intros s x _ _. lra. Qed.

Lemma released_nonneg P : tidy n P -> 0 <= released traps dwell P.
Proof.
  intros H. unfold released. assert (total (rel P) <= total P); [|lra].
  apply electrons_le; [exact Hphys|lra|apply tidy_integrable; auto using tidy_release; lra|apply tidy_integrable; auto; lra|].
  intros s x Hs Hx. pose proof (keep_range s). destruct (H s Hs) as [H1 _]. specialize (H1 x ltac:(lra)). unfold after_release. nra.
Qed.
Lemma released_order P Q : tidy n P -> tidy n Q -> below_profile n Q P -> released traps dwell Q <= released traps dwell P.
Proof.
  intros HP HQ H. unfold released.
  assert (I : forall P, tidy n P -> integrable traps P 0 1) by (intros; apply tidy_integrable; auto; lra).
  rewrite <- (electrons_minus traps P (rel P)) by auto using tidy_release. rewrite <- (electrons_minus traps Q (rel Q)) by auto using tidy_release.
  assert (J : forall P, tidy n P -> integrable traps (fun s x => P s x - rel P s x) 0 1).
  { intros P0 H0 s Hs. apply (ex_RInt_minus (V := R_NormedModule) (P0 s) (rel P0 s)); apply I; auto using tidy_release. }
  apply electrons_le; [exact Hphys|lra|apply J, HQ|apply J, HP|].
  intros s x Hs Hx. pose proof (keep_range s). specialize (H s x Hs ltac:(lra)). unfold after_release. nra.
Qed.

Lemma tidy_fill v P : 0 <= v <= 1 -> tidy n P -> tidy n (fill_to v P).
Proof.
  intros Hv H s Hs. destruct (H s Hs) as [H1 H2]. split.
  - intros x Hx. unfold fill_to. destruct (Rlt_dec x v); [lra|auto].
  - assert (L : forall a b, a <= b -> b <= v -> ex_RInt (fill_to v P s) a b).
    { intros a b Hab Hb. apply (ex_RInt_ext (fun _ => 1)).
      - intros x Hx. rewrite Rmin_left, Rmax_right in Hx by lra. unfold fill_to. destruct (Rlt_dec x v); lra.
      - apply (ex_RInt_const (V := R_NormedModule)). }
    assert (U : forall a b, 0 <= a <= b -> b <= 1 -> v <= a -> ex_RInt (fill_to v P s) a b).
    { intros a b Ha Hb Hva. apply (ex_RInt_ext (P s)).
      - intros x Hx. rewrite Rmin_left, Rmax_right in Hx by lra. unfold fill_to. destruct (Rlt_dec x v); lra.
      - apply H2; auto. }
    intros a b Ha Hb. destruct (Rle_dec b v); [apply L; lra|]. destruct (Rle_dec v a); [apply U; lra|].
    apply (ex_RInt_Chasles (V := R_NormedModule) _ a v b); [apply L|apply U]; lra.
Qed.
Lemma fill_order u v P Q : u <= v -> tidy n P -> below_profile n Q P -> below_profile n (fill_to u Q) (fill_to v P).
Proof.
  intros Huv HP H s x Hs Hx. unfold fill_to. destruct (HP s Hs) as [H1 _]. specialize (H1 x Hx).
  destruct (Rlt_dec x u), (Rlt_dec x v); try lra. 2: apply H; auto.
  specialize (H s x Hs Hx). lra.
Qed.
Lemma fill_total v P : 0 <= v <= 1 -> tidy n P -> total (fill_to v P) = total P + demand traps v P.
Proof.
  intros Hv H. rewrite (demand_value traps P v H Hv).
  assert (T : tidy n (fill_to v P)) by (apply tidy_fill; auto).
  rewrite (electrons_chasles traps (fill_to v P) 0 v 1) by (apply tidy_integrable; auto; lra).
  rewrite (electrons_chasles traps P 0 v 1) by (apply tidy_integrable; auto; lra).
  rewrite (electrons_eq traps (fill_to v P) (fun _ _ => 1) 0 v); [|lra|intros s x _ Hx; unfold fill_to; destruct (Rlt_dec x v); lra].
  rewrite (electrons_eq traps (fill_to v P) P v 1); [|lra|intros s x _ Hx; unfold fill_to; destruct (Rlt_dec x v); lra].
  rewrite electrons_one. lra.
Qed.
Lemma demand_bounds v P : 0 <= v <= 1 -> tidy n P -> 0 <= demand traps v P <= rho * v.
Proof.
  intros Hv H. rewrite (demand_value traps P v H Hv). pose proof (electrons_nonneg traps Hphys P 0 v H ltac:(lra) ltac:(lra)).
  pose proof (electrons_at_most traps Hphys P 0 v H ltac:(lra) ltac:(lra)). unfold rho. lra.
Qed.
Lemma demand_order u v P Q : 0 <= u <= v -> v <= 1 -> tidy n P -> tidy n Q -> below_profile n Q P ->
  demand traps v P - demand traps u Q <= rho * (v - u).
Proof.
  intros Hu Hv HP HQ H. rewrite (demand_value traps P v HP), (demand_value traps Q u HQ) by lra.
  assert (electrons traps Q 0 u <= electrons traps P 0 v); [|unfold rho; lra].
  rewrite (electrons_chasles traps P 0 u v) by (apply tidy_integrable; auto; lra).
  pose proof (electrons_nonneg traps Hphys P u v HP ltac:(lra) ltac:(lra)).
  assert (electrons traps Q 0 u <= electrons traps P 0 u); [|lra].
  apply electrons_le; [exact Hphys|lra|apply tidy_integrable; auto; lra|apply tidy_integrable; auto; lra|].
  intros s x Hs Hx. apply H; auto; lra.
Qed.
Lemma demand_grows u v P : 0 <= u <= v -> v <= 1 -> tidy n P -> demand traps u P <= demand traps v P.
Proof.
  intros Hu Hv HP. rewrite (demand_value traps P v HP), (demand_value traps P u HP) by lra.
  rewrite (electrons_chasles traps P 0 u v) by (apply tidy_integrable; auto; lra).
  pose proof (electrons_at_most traps Hphys P u v HP ltac:(lra) ltac:(lra)). unfold rho in *. lra.
Qed.

(** ** One packet *)
Context (well : R -> R) (floor slope : R).
Hypothesis Hg : gradual traps well floor slope.
Hypothesis Hw : forall a, floor <= a -> 0 <= well a <= 1.
Hypothesis Hk : rho * slope <= 1.

(** The packet with a cloud of at least [floor] electrons. *)
Definition cloud_from (m : R) (P : profile) : R := Rmax floor (m + released traps dwell P).
Definition leaves (m : R) (P : profile) : R := cloud_from m P - demand traps (well (cloud_from m P)) (rel P).
Definition behind (m : R) (P : profile) : profile := fill_to (well (cloud_from m P)) (rel P).
Lemma cloud_floor m P : floor <= cloud_from m P. Proof. apply Rmax_l. Qed.
Lemma behind_tidy m P : tidy n P -> tidy n (behind m P).
Proof. intros H. apply tidy_fill; [apply Hw, cloud_floor|apply tidy_release, H]. Qed.
Lemma leaves_bound m P : tidy n P -> cloud_from m P - rho * well (cloud_from m P) <= leaves m P <= cloud_from m P.
Proof.
  intros H. unfold leaves. pose proof (demand_bounds (well (cloud_from m P)) (rel P) (Hw _ (cloud_floor m P)) (tidy_release P H)). lra.
Qed.
Lemma leaves_enough m P : tidy n P -> demand traps (well (cloud_from m P)) (rel P) <= cloud_from m P.
Proof.
  intros H. pose proof (demand_bounds (well (cloud_from m P)) (rel P) (Hw _ (cloud_floor m P)) (tidy_release P H)).
  pose proof (gr_enough _ _ _ _ Hg _ (cloud_floor m P)). fold rho in H1. lra.
Qed.
Lemma cloud_order m m' P Q : m' <= m -> tidy n P -> tidy n Q -> below_profile n Q P -> cloud_from m' Q <= cloud_from m P.
Proof.
  intros Hm HP HQ H. unfold cloud_from. pose proof (released_order P Q HP HQ H). apply Rle_max_compat_l. lra.
Qed.
Lemma leaves_order m m' P Q : m' <= m -> tidy n P -> tidy n Q -> below_profile n Q P ->
  (1 - rho * slope) * (cloud_from m P - cloud_from m' Q) <= leaves m P - leaves m' Q /\
  below_profile n (behind m' Q) (behind m P) /\
  (leaves m P - leaves m' Q) + (total (behind m P) - total (behind m' Q)) <= (m - m') + (total P - total Q).
Proof.
  intros Hm HP HQ H. pose proof (cloud_order m m' P Q Hm HP HQ H) as Hc.
  pose proof (gr_grows _ _ _ _ Hg (cloud_from m' Q) (cloud_from m P) (conj (cloud_floor _ _) Hc)) as Hgr.
  pose proof (Hw _ (cloud_floor m P)) as W1. pose proof (Hw _ (cloud_floor m' Q)) as W2.
  pose proof (density_nonneg traps Hphys) as Hr.
  pose proof (demand_order (well (cloud_from m' Q)) (well (cloud_from m P)) (rel P) (rel Q) ltac:(lra) ltac:(lra) (tidy_release P HP) (tidy_release Q HQ) (release_order P Q H)) as D.
  split; [|split].
  - unfold leaves. fold rho in Hr. 
    assert (rho * (well (cloud_from m P) - well (cloud_from m' Q)) <= rho * (slope * (cloud_from m P - cloud_from m' Q))) by (apply Rmult_le_compat_l; lra). lra.
  - apply fill_order; [lra|apply tidy_release, HP|apply release_order, H].
  - unfold behind, leaves. rewrite !fill_total by auto using tidy_release.
    assert (cloud_from m P - cloud_from m' Q <= (m + released traps dwell P) - (m' + released traps dwell Q)).
    { unfold cloud_from. pose proof (released_order P Q HP HQ H). unfold Rmax. destruct (Rle_dec floor _), (Rle_dec floor _); lra. }
    unfold released in *. lra.
Qed.
Lemma leaves_same m m' P : m' <= m -> tidy n P -> floor <= m' -> (1 - rho * slope) * (m - m') <= leaves m P - leaves m' P.
Proof.
  intros Hm HP Hf. pose proof (leaves_order m m' P P Hm HP HP (below_refl P)) as [H _].
  pose proof (released_nonneg P HP). unfold cloud_from in H. rewrite !Rmax_right in H by lra. 
  replace (m + released traps dwell P - (m' + released traps dwell P)) with (m - m') in H by lra. exact H.
Qed.
Lemma leaves_floor m P t t' : tidy n P -> floor <= t -> t <= m -> (forall a, t <= a -> t' <= a - rho * well a) -> t' <= leaves m P.
Proof.
  intros HP Hf Hm Ht. pose proof (leaves_bound m P HP). pose proof (released_nonneg P HP).
  assert (t <= cloud_from m P) by (unfold cloud_from; rewrite Rmax_right; lra). specialize (Ht _ H1). lra.
Qed.

(** ** One pass *)
Fixpoint pass (P : profile) (packets : list R) : list R :=
  match packets with
  | [] => []
  | m :: l => leaves m P :: pass (behind m P) l
  end.
End Compare.
