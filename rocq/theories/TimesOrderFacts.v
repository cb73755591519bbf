(** * Traps that record times keep the order of packets and do not enlarge their differences. *)
From Coq Require Import ZArith List Bool Reals Lra Lia.
From Coquelicot Require Import Rcomplements Rbar Hierarchy RInt.
From Verif Require Import Num Py RFacts CCDModel TrapsModel ManagerModel ROEModel ClockModel MainModel Spec SpecReadout SpecTime SpecHistory SpecHold SpecRecovery SpecFlatten WmFacts InstantFacts OrderFacts TameFacts HistoryBoundFacts.
Import ListNotations.
Open Scope R_scope.

(** ** Integrals, for densities that are not negative *)
Section Integrals.
Context (traps : list (trap R)).
Hypothesis Hdens : Forall (fun t => 0 <= t_density t) traps.
Notation n := (length traps).
Lemma dens_from_le (P Q : profile) a b : a <= b -> forall l s, Forall (fun t => 0 <= t_density t) l ->
  (forall k, (k < length l)%nat -> ex_RInt (P (s + k)%nat) a b /\ ex_RInt (Q (s + k)%nat) a b /\ forall x, a < x < b -> P (s + k)%nat x <= Q (s + k)%nat x) ->
  electrons_from s l P a b <= electrons_from s l Q a b.
Proof.
  intros Hab. induction l as [|t l IH]; intros s Hp H; [cbn; lra|]. inversion Hp as [|? ? Ht Hp']; subst. cbn [electrons_from].
  pose proof (H 0%nat ltac:(cbn; lia)) as (H1 & H2 & H3). rewrite Nat.add_0_r in *.
  pose proof (RInt_le _ _ a b Hab H1 H2 H3).
  assert (electrons_from (S s) l P a b <= electrons_from (S s) l Q a b).
  { apply IH; [exact Hp'|]. intros k Hk. specialize (H (S k) ltac:(cbn; lia)). rewrite Nat.add_succ_r in H. exact H. }
  pose proof (Rmult_le_compat_l (t_density t) _ _ Ht H0). lra.
Qed.
Lemma dens_le P Q : integrable traps P 0 1 -> integrable traps Q 0 1 ->
  (forall s x, (s < n)%nat -> 0 < x < 1 -> P s x <= Q s x) -> electrons traps P 0 1 <= electrons traps Q 0 1.
Proof.
  intros H1 H2 H3. apply dens_from_le; [lra|exact Hdens|]. intros k Hk. cbn [Nat.add]. split; [apply H1, Hk|]. split; [apply H2, Hk|]. intros x Hx. apply H3; auto.
Qed.
Lemma minus_integrable P Q : integrable traps P 0 1 -> integrable traps Q 0 1 -> integrable traps (fun s x => P s x - Q s x) 0 1.
Proof. intros H1 H2 s Hs. apply (ex_RInt_minus (V := R_NormedModule) (P s) (Q s)); auto. Qed.
End Integrals.

(** ** Times that can be integrated *)
Definition neat (n : nat) (T : times) : Prop :=
  (forall s x, (s < n)%nat -> 0 < x < 1 -> forall t, T s x = Some t -> 0 <= t) /\
  forall s (f : R -> R), (s < n)%nat -> forall a b, 0 <= a <= b -> b <= 1 -> ex_RInt (fun x => match T s x with Some t => f t | None => 0 end) a b.
(** [T] was filled later than [S], or to a greater depth. *)
Definition later (n : nat) (T S : times) : Prop := forall s x, (s < n)%nat -> 0 < x < 1 ->
  match S s x with None => True | Some t => exists t', T s x = Some t' /\ t' <= t end.
Lemma neat_never n : neat n never.
Proof. split; [discriminate|]. intros. cbn. exact (ex_RInt_const (V := R_NormedModule) a b 0). Qed.
Lemma neat_wait n d T : 0 <= d -> neat n T -> neat n (wait d T).
Proof.
  intros Hd [H1 H2]. split.
  - intros s x Hs Hx t E. unfold wait in E. destruct (T s x) as [t0|] eqn:E0; [|discriminate]. injection E as <-. specialize (H1 s x Hs Hx t0 E0). lra.
  - intros s f Hs a b Ha Hb. apply (ex_RInt_ext (fun x => match T s x with Some t => f (t + d) | None => 0 end)).
    + intros x _. unfold wait. destruct (T s x); reflexivity.
    + now apply (H2 s (fun t => f (t + d))).
Qed.
Lemma neat_fill n v T : neat n T -> neat n (fill_now v T).
Proof.
  intros [H1 H2]. split.
  - intros s x Hs Hx t E. unfold fill_now in E. destruct (Rlt_dec x v); [injection E as <-; lra|]. now apply (H1 s x).
  - intros s f Hs.
    assert (L : forall a b, a <= b -> b <= v -> ex_RInt (fun x => match fill_now v T s x with Some t => f t | None => 0 end) a b).
    { intros a b Hab Hb. apply (ex_RInt_ext (fun _ => f 0)).
      - intros x Hx. rewrite Rmin_left, Rmax_right in Hx by lra. unfold fill_now. destruct (Rlt_dec x v); [reflexivity|lra].
      - apply (ex_RInt_const (V := R_NormedModule)). }
    assert (U : forall a b, 0 <= a <= b -> b <= 1 -> v <= a -> ex_RInt (fun x => match fill_now v T s x with Some t => f t | None => 0 end) a b).
    { intros a b Ha Hb Hva. apply (ex_RInt_ext (fun x => match T s x with Some t => f t | None => 0 end)).
      - intros x Hx. rewrite Rmin_left, Rmax_right in Hx by lra. unfold fill_now. destruct (Rlt_dec x v); [lra|reflexivity].
      - now apply H2. }
    intros a b Ha Hb. destruct (Rle_dec b v); [apply L; lra|]. destruct (Rle_dec v a); [apply U; lra|].
    apply (ex_RInt_Chasles (V := R_NormedModule) _ a v b); [apply L|apply U]; lra.
Qed.
Lemma later_refl n T : later n T T.
Proof. intros s x _ _. destruct (T s x) as [t|]; [exists t; split; [reflexivity|lra]|exact I]. Qed.
Lemma later_wait n d T S : later n T S -> later n (wait d T) (wait d S).
Proof.
  intros H s x Hs Hx. specialize (H s x Hs Hx). unfold wait. destruct (S s x) as [t|]; [|exact I]. destruct H as (t' & -> & Ht). cbn. exists (t' + d). split; [reflexivity|lra].
Qed.
Lemma later_fill n u v T S : u <= v -> neat n S -> later n T S -> later n (fill_now v T) (fill_now u S).
Proof.
  intros Huv [H1 _] H s x Hs Hx. specialize (H s x Hs Hx). unfold fill_now. destruct (Rlt_dec x u), (Rlt_dec x v); try lra.
  - exists 0. split; [reflexivity|lra].
  - destruct (S s x) as [t|] eqn:E; [|exact I]. exists 0. split; [reflexivity|]. now apply (H1 s x).
  - exact H.
Qed.

Section Times.
Context (traps : list (trap R)) (dwell : R).
Notation n := (length traps).
Hypothesis Hflat : Forall flattening traps.
Hypothesis Hdwell : 0 <= dwell.
Let rho := filled_traps traps.
Notation fill s := (fun t => match nth_error traps s with Some sp => fill_fraction_from_time_elapsed sp t | None => 0 end).

Lemma flat_dens : Forall (fun t => 0 <= t_density t) traps.
Proof. eapply Forall_impl; [|exact Hflat]. intros t [[Hf _] _]. exact (fd_density t Hf). Qed.
Lemma flat_species s : (s < n)%nat -> exists sp, nth_error traps s = Some sp /\ flattening sp.
Proof.
  intros Hs. destruct (nth_error traps s) as [sp|] eqn:E; [|apply nth_error_None in E; lia]. exists sp. split; [reflexivity|].
  apply (proj1 (Forall_forall _ _) Hflat). now apply nth_error_In in E.
Qed.
Lemma neat_integrable T : neat n T -> integrable traps (filled_by traps T) 0 1.
Proof.
  intros [_ H] s Hs. apply (ex_RInt_ext (fun x => match T s x with Some t => fill s t | None => 0 end)).
  - intros x _. unfold filled_by. destruct (T s x), (nth_error traps s); reflexivity.
  - apply H; auto; lra.
Qed.
Lemma rho_pos : 0 <= rho.
Proof.
  unfold rho, filled_traps. induction Hflat as [|t l [[Hf Hh] _] H IH]; cbn [map fold_right]; [lra|]. pose proof (fd_density t Hf). specialize (Hh 0 ltac:(lra)).
  specialize (IH H). pose proof (Rmult_le_pos _ _ H0 Hh). lra.
Qed.
Lemma filled_range T s x : neat n T -> (s < n)%nat -> 0 < x < 1 -> 0 <= filled_by traps T s x <= fill s 0.
Proof.
  intros [H _] Hs Hx. destruct (flat_species s Hs) as (sp & E & [Hf Hh] & _). unfold filled_by. rewrite E. destruct (T s x) as [t|] eqn:Et.
  - specialize (H s x Hs Hx t Et). split; [now apply Hh|]. apply (fd_falls sp Hf). lra.
  - split; [lra|]. apply Hh. lra.
Qed.
Lemma filled_later T S s x : neat n T -> neat n S -> later n T S -> (s < n)%nat -> 0 < x < 1 -> filled_by traps S s x <= filled_by traps T s x.
Proof.
  intros HT HS H Hs Hx. pose proof (filled_range T s x HT Hs Hx) as [F0 _]. destruct (flat_species s Hs) as (sp & E & [Hf Hh] & _). unfold filled_by in *. rewrite E in *.
  specialize (H s x Hs Hx). destruct (S s x) as [t|] eqn:Es; [|exact F0]. destruct H as (t' & Et & Ht). rewrite Et. apply (fd_falls sp Hf). split; [|exact Ht]. now apply (proj1 HT s x).
Qed.
Lemma held_later T S : neat n T -> neat n S -> later n T S -> held traps S <= held traps T.
Proof. intros HT HS H. apply dens_le; [exact flat_dens|now apply neat_integrable|now apply neat_integrable|]. intros s x Hs Hx. now apply filled_later. Qed.
Lemma held_wait T : neat n T -> held traps (wait dwell T) <= held traps T.
Proof.
  intros HT. apply held_later; [exact HT|now apply neat_wait|]. intros s x Hs Hx. unfold wait. destruct (T s x) as [t|]; cbn; [|exact I]. exists t. split; [reflexivity|lra].
Qed.
Lemma gone_later T S : neat n T -> neat n S -> later n T S ->
  held traps S - held traps (wait dwell S) <= held traps T - held traps (wait dwell T).
Proof.
  intros HT HS H. unfold held.
  assert (WT := neat_wait n dwell T Hdwell HT). assert (WS := neat_wait n dwell S Hdwell HS).
  rewrite <- !electrons_minus by now apply neat_integrable.
  apply dens_le; [exact flat_dens|now apply minus_integrable; apply neat_integrable|now apply minus_integrable; apply neat_integrable|].
  intros s x Hs Hx. destruct (flat_species s Hs) as (sp & E & [Hf Hh] & Hc). unfold filled_by, wait. rewrite E. specialize (H s x Hs Hx).
  destruct (S s x) as [t|] eqn:Es; cbn [option_map].
  - destruct H as (t' & Et & Ht). rewrite Et. cbn [option_map]. apply Hc; [|exact Hdwell]. split; [now apply (proj1 HT s x)|exact Ht].
  - destruct (T s x) as [t|] eqn:Et; cbn [option_map]; [|lra]. pose proof (proj1 HT s x Hs Hx t Et). pose proof (fd_falls sp Hf t (t + dwell) ltac:(lra)). lra.
Qed.
Lemma from_const (h : nat -> R) a b : forall l s, electrons_from s l (fun s _ => h s) a b = Rsum (map (fun '(k, t) => t_density t * h k) (combine (seq s (length l)) l)) * (b - a).
Proof.
  induction l as [|t l IH]; intros s; [cbn; lra|]. cbn [electrons_from length seq combine map]. rewrite IH, RInt_const. unfold Rsum. cbn [fold_right].
  unfold scal. cbn. unfold mult. cbn. lra.
Qed.
Lemma start_sum : forall l s, (forall k, (k < length l)%nat -> nth_error traps (s + k) = nth_error l k) ->
  Rsum (map (fun '(k, t) => t_density t * fill k 0) (combine (seq s (length l)) l)) = filled_traps l.
Proof.
  induction l as [|t l IH]; intros s H; [reflexivity|]. cbn [length seq combine map]. unfold filled_traps, Rsum. cbn [map fold_right].
  pose proof (H 0%nat ltac:(cbn; lia)) as E. rewrite Nat.add_0_r in E. rewrite E. cbn [nth_error]. f_equal. apply IH. intros k Hk. replace (S s + k)%nat with (s + S k)%nat by lia. apply (H (S k)). cbn. lia.
Qed.
Lemma held_first v : 0 <= v <= 1 -> held traps (fill_now v never) = rho * v.
Proof.
  intros Hv. unfold held. assert (N : neat n (fill_now v never)) by (apply neat_fill, neat_never).
  assert (I : forall a b, 0 <= a <= b -> b <= 1 -> integrable traps (filled_by traps (fill_now v never)) a b).
  { intros a b Ha Hb s Hs. apply (ex_RInt_ext (fun x => match fill_now v never s x with Some t => fill s t | None => 0 end)).
    - intros x _. unfold filled_by. destruct (fill_now v never s x), (nth_error traps s); reflexivity.
    - now apply (proj2 N). }
  rewrite (electrons_chasles traps _ 0 v 1) by (apply I; lra).
  rewrite (electrons_eq traps _ (fun s _ => fill s 0) 0 v); [|lra|].
  2: { intros s x Hs Hx. unfold filled_by, fill_now. destruct (Rlt_dec x v); [|lra]. reflexivity. }
  rewrite (electrons_eq traps _ (fun _ _ => 0) v 1); [|lra|].
  2: { intros s x Hs Hx. unfold filled_by, fill_now. destruct (Rlt_dec x v); [lra|]. reflexivity. }
  unfold electrons. rewrite (from_const (fun s => fill s 0)), (from_const (fun _ => 0)). rewrite (start_sum traps 0) by reflexivity. fold rho.
  replace (Rsum (map (fun '(_, t) => t_density t * 0) (combine (seq 0 (length traps)) traps))) with 0; [lra|].
  generalize (combine (seq 0 (length traps)) traps). induction l as [|[k t] l IH]; [reflexivity|]. cbn [map]. unfold Rsum in *. cbn [fold_right]. rewrite <- IH. lra.
Qed.
(** What a cloud that reaches depth [v] fills. *)
Definition taken (v : R) (T : times) : R := held traps (fill_now v T) - held traps T.
Lemma taken_order u v T S : 0 <= u <= v -> v <= 1 -> neat n T -> neat n S -> later n T S -> taken v T - taken u S <= rho * (v - u).
Proof.
  intros Hu Hv HT HS H. replace (rho * (v - u)) with (held traps (fill_now v never) - held traps (fill_now u never)) by (rewrite !held_first by lra; lra).
  unfold taken, held.
  assert (N : forall v T, neat n T -> neat n (fill_now v T)) by (intros; now apply neat_fill).
  assert (N0 := neat_never n).
  rewrite <- !electrons_minus by auto using neat_integrable, minus_integrable.
  apply dens_le; [exact flat_dens|auto 10 using neat_integrable, minus_integrable|auto 10 using neat_integrable, minus_integrable|].
  intros s x Hs Hx. pose proof (filled_later T S s x HT HS H Hs Hx) as L. pose proof (filled_range T s x HT Hs Hx) as RT. pose proof (filled_range S s x HS Hs Hx) as RS.
  destruct (flat_species s Hs) as (sp & E & _). unfold filled_by, fill_now, never in *. rewrite E in *.
  destruct (Rlt_dec x u), (Rlt_dec x v); try lra; destruct (T s x), (S s x); lra.
Qed.
Lemma taken_range v T : 0 <= v <= 1 -> neat n T -> 0 <= taken v T <= rho * v.
Proof.
  intros Hv HT. split.
  - unfold taken. assert (held traps T <= held traps (fill_now v T)); [|lra]. apply held_later; [now apply neat_fill|exact HT|].
    intros s x Hs Hx. unfold fill_now. destruct (T s x) as [t|] eqn:E; [|exact I]. destruct (Rlt_dec x v); [exists 0|exists t]; (split; [reflexivity|]); [now apply (proj1 HT s x)|lra].
  - unfold taken. rewrite <- held_first by exact Hv. assert (N := neat_fill n v T HT). assert (N' := neat_fill n v never (neat_never n)). unfold held.
    rewrite <- electrons_minus by now apply neat_integrable. apply dens_le; [exact flat_dens|now apply minus_integrable; apply neat_integrable|now apply neat_integrable|].
    intros s x Hs Hx. pose proof (filled_range T s x HT Hs Hx) as RT. destruct (flat_species s Hs) as (sp & E & _). unfold filled_by, fill_now, never in *. rewrite E in *.
    destruct (Rlt_dec x v); destruct (T s x); lra.
Qed.

(** ** One packet *)
Context (well : R -> R) (slope : R).
Hypothesis Hslope : 0 <= slope.
Hypothesis Hzero : well 0 = 0.
Hypothesis Hgrows : forall a b, 0 <= a <= b -> 0 <= well b - well a <= slope * (b - a).
Hypothesis Hwell : forall a, 0 <= a -> 0 <= well a <= 1.
Let gain := 1 - rho * slope.
Hypothesis Hgain : 0 <= gain.
Definition t_cloud (m : R) (T : times) : R := Rmax 0 (cloud_after traps dwell m T).
Definition t_leaves (m : R) (T : times) : R := t_cloud m T - taken (well (t_cloud m T)) (wait dwell T).
Definition t_behind (m : R) (T : times) : times := fill_now (well (t_cloud m T)) (wait dwell T).
Lemma t_cloud_pos m T : 0 <= t_cloud m T. Proof. apply Rmax_l. Qed.
Lemma t_behind_neat m T : neat n T -> neat n (t_behind m T).
Proof. intros H. apply neat_fill. now apply neat_wait. Qed.
Lemma well_capacity a : 0 <= a -> rho * well a <= (1 - gain) * a.
Proof.
  intros Ha. pose proof (Hgrows 0 a ltac:(lra)) as G. rewrite Hzero in G. pose proof rho_pos. pose proof (Rmult_le_compat_l rho (well a) (slope * a) H ltac:(lra)). unfold gain. lra.
Qed.
Lemma t_leaves_range m T : neat n T -> t_cloud m T - rho * well (t_cloud m T) <= t_leaves m T <= t_cloud m T.
Proof. intros H. unfold t_leaves. pose proof (taken_range (well (t_cloud m T)) (wait dwell T) (Hwell _ (t_cloud_pos m T)) (neat_wait _ _ _ Hdwell H)). lra. Qed.
Lemma t_cloud_order m m' T S : m' <= m -> neat n T -> neat n S -> later n T S ->
  t_cloud m' S <= t_cloud m T /\ t_cloud m T - t_cloud m' S <= (m + (held traps T - held traps (wait dwell T))) - (m' + (held traps S - held traps (wait dwell S))).
Proof.
  intros Hm HT HS H. pose proof (gone_later T S HT HS H). unfold t_cloud, cloud_after. split; [apply Rle_max_compat_l; lra|].
  unfold Rmax. destruct (Rle_dec 0 _), (Rle_dec 0 _); lra.
Qed.
Lemma t_leaves_order m m' T S : m' <= m -> neat n T -> neat n S -> later n T S ->
  gain * (t_cloud m T - t_cloud m' S) <= t_leaves m T - t_leaves m' S /\
  later n (t_behind m T) (t_behind m' S) /\
  (t_leaves m T - t_leaves m' S) + (held traps (t_behind m T) - held traps (t_behind m' S)) <= (m - m') + (held traps T - held traps S).
Proof.
  intros Hm HT HS H. destruct (t_cloud_order m m' T S Hm HT HS H) as [Hc1 Hc2].
  pose proof (Hgrows (t_cloud m' S) (t_cloud m T) (conj (t_cloud_pos _ _) Hc1)) as Hgr.
  pose proof (Hwell _ (t_cloud_pos m T)) as W1. pose proof (Hwell _ (t_cloud_pos m' S)) as W2. pose proof rho_pos as Hr.
  assert (WT := neat_wait n dwell T Hdwell HT). assert (WS := neat_wait n dwell S Hdwell HS).
  pose proof (taken_order (well (t_cloud m' S)) (well (t_cloud m T)) (wait dwell T) (wait dwell S) ltac:(lra) ltac:(lra) WT WS (later_wait n dwell T S H)) as D.
  split; [|split].
  - unfold t_leaves, gain.
    assert (rho * (well (t_cloud m T) - well (t_cloud m' S)) <= rho * (slope * (t_cloud m T - t_cloud m' S))) by (apply Rmult_le_compat_l; lra). lra.
  - apply later_fill; [lra|exact WS|now apply later_wait].
  - unfold t_behind, t_leaves, taken in *. lra.
Qed.
Lemma t_leaves_same m m' T : 0 <= m' <= m -> neat n T -> gain * (m - m') <= t_leaves m T - t_leaves m' T.
Proof.
  intros Hm HT. destruct (t_leaves_order m m' T T ltac:(lra) HT HT (later_refl n T)) as [H _].
  pose proof (held_wait T HT). unfold t_cloud in H. rewrite !Rmax_right in H by (unfold cloud_after; lra).
  replace (cloud_after traps dwell m T - cloud_after traps dwell m' T) with (m - m') in H by (unfold cloud_after; lra). exact H.
Qed.
Lemma t_leaves_pos m T : neat n T -> 0 <= t_leaves m T.
Proof.
  intros HT. pose proof (t_leaves_range m T HT) as [H _]. pose proof (well_capacity _ (t_cloud_pos m T)). pose proof (Rmult_le_pos gain (t_cloud m T) Hgain (t_cloud_pos m T)). lra.
Qed.

(** ** One pass *)
Fixpoint t_pass (T : times) (packets : list R) : list R :=
  match packets with
  | [] => []
  | m :: l => t_leaves m T :: t_pass (t_behind m T) l
  end.
Lemma t_pass_length : forall x T, length (t_pass T x) = length x.
Proof. induction x; intros; cbn; auto. Qed.
Lemma t_pass_prefix : forall i x T, t_pass T (firstn i x) = firstn i (t_pass T x).
Proof. induction i; intros [|a x] T; cbn; try reflexivity. rewrite IHi. reflexivity. Qed.
Lemma t_pass_order : forall y x, ordered y x -> forall T S, neat n T -> neat n S -> later n T S ->
  ordered (t_pass S y) (t_pass T x) /\
  Rsum (t_pass T x) - Rsum (t_pass S y) <= Rsum x - Rsum y + (held traps T - held traps S).
Proof.
  induction 1 as [|b a y x Hba H IH]; intros T S HT HS HL; cbn [t_pass].
  - split; [constructor|]. pose proof (held_later T S HT HS HL). lra.
  - destruct (t_leaves_order a b T S Hba HT HS HL) as (O1 & O2 & O3). destruct (t_cloud_order a b T S Hba HT HS HL) as [O4 _].
    destruct (IH (t_behind a T) (t_behind b S)) as [I1 I2]; auto using t_behind_neat.
    split; [constructor; [|exact I1]|].
    + pose proof (Rmult_le_pos gain _ Hgain (proj1 (Rminus_le_0 _ _) O4)). lra.
    + rewrite !Rsum_cons. lra.
Qed.
Lemma t_pass_grow : forall p a b T, neat n T -> b <= a -> 0 <= b ->
  gain * (a - b) <= last (t_pass T (p ++ [a])) 0 - last (t_pass T (p ++ [b])) 0.
Proof.
  induction p as [|h p IH]; intros a b T HT Hab Hb; cbn [app t_pass].
  - cbn [last]. apply t_leaves_same; auto.
  - rewrite !last_cons by (intros E; apply (f_equal (@length R)) in E; rewrite t_pass_length, app_length in E; cbn in E; lia).
    apply IH; auto. now apply t_behind_neat.
Qed.
Lemma t_pass_pos : forall x T, neat n T -> Forall (Rle 0) (t_pass T x).
Proof. induction x as [|m x IH]; intros T HT; cbn [t_pass]; constructor; [now apply t_leaves_pos|]. apply IH. now apply t_behind_neat. Qed.
Lemma t_pass_tame : tame gain 0 0 (t_pass never).
Proof.
  assert (N := neat_never n). constructor.
  - intros. apply t_pass_length.
  - intros. apply t_pass_prefix.
  - intros y x O. apply (t_pass_order y x O); auto using later_refl.
  - intros y x O. destruct (t_pass_order y x O never never N N (later_refl n _)) as [_ K]. lra.
  - intros p a b Hab Hb. now apply t_pass_grow.
  - intros p b Hb. pose proof (t_pass_pos (p ++ [b]) never N) as K. 
    assert (E : t_pass never (p ++ [b]) <> []) by (intros E; apply (f_equal (@length R)) in E; rewrite t_pass_length, app_length in E; cbn in E; lia).
    destruct (exists_last E) as (q & z & Eq). rewrite Eq in *. rewrite last_last. apply Forall_app in K as [_ K]. now inversion K.
Qed.
Lemma t_gain_1 : gain <= 1. Proof. unfold gain. pose proof (Rmult_le_pos _ _ rho_pos Hslope). lra. Qed.
End Times.
