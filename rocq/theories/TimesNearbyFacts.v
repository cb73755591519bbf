(** * Readouts past traps that record times with settings that differ a little. *)
From Coquelicot Require Import Coquelicot.
From Coq Require Import List Bool Reals Lra Lia FunctionalExtensionality.
From Verif Require Import Num Py RFacts CCDModel TrapsModel ManagerModel Spec SpecReadout SpecTime SpecHistory SpecHold SpecRecovery SpecFlatten SpecSlowCalibration WmFacts InstantFacts OrderFacts TameFacts CalibrationFacts HistoryBoundFacts ContractFacts TimesOrderFacts.
Import ListNotations.
Open Scope R_scope.

(** ** What the traps hold *)
Inductive same_times : list (trap R) -> list (trap R) -> R -> Prop :=
| same_none : same_times [] [] 0
| same_more t t' e l l' rest : (forall time, 0 <= time ->
      Rabs (t_density t * fill_fraction_from_time_elapsed t time - t_density t' * fill_fraction_from_time_elapsed t' time) <= e) ->
    same_times l l' rest -> same_times (t :: l) (t' :: l') (e + rest).
Lemma RInt_apart (f g : R -> R) e : ex_RInt f 0 1 -> ex_RInt g 0 1 -> (forall x, 0 < x < 1 -> Rabs (f x - g x) <= e) -> Rabs (RInt f 0 1 - RInt g 0 1) <= e.
Proof.
  intros Hf Hg H.
  pose proof (RInt_minus (V := R_CompleteNormedModule) f g 0 1 Hf Hg) as Em. change (RInt (fun x => f x - g x) 0 1 = RInt f 0 1 - RInt g 0 1) in Em. rewrite <- Em.
  assert (EX : ex_RInt (fun x => f x - g x) 0 1) by (apply (ex_RInt_minus (V := R_NormedModule) f g); assumption).
  assert (C : forall c : R, RInt (fun _ => c) 0 1 = c) by (intros c; rewrite RInt_const; unfold scal; cbn; unfold mult; cbn; ring).
  assert (XC : forall c : R, ex_RInt (fun _ => c) 0 1) by (intros c; apply (ex_RInt_const (V := R_NormedModule))).
  apply Rabs_le_between. split.
  - rewrite <- (C (- e)). apply RInt_le; auto; [lra|]. intros x Hx. specialize (H x Hx). apply Rabs_le_between in H. lra.
  - rewrite <- (C e). apply RInt_le; auto; [lra|]. intros x Hx. specialize (H x Hx). apply Rabs_le_between in H. lra.
Qed.
Lemma curves_length l l' E : same_times l l' E -> length l' = length l.
Proof. induction 1; cbn; congruence. Qed.
Lemma curves_pos l l' E : same_times l l' E -> 0 <= E.
Proof. induction 1 as [|t t' e l l' E Ht H IH]; [lra|]. specialize (Ht 0 ltac:(lra)). pose proof (Rabs_pos (t_density t * fill_fraction_from_time_elapsed t 0 - t_density t' * fill_fraction_from_time_elapsed t' 0)). lra. Qed.
Lemma from_curves traps traps' T : forall l l' E, same_times l l' E -> forall s,
  (forall k, (k < length l)%nat -> nth_error traps (s + k) = nth_error l k /\ nth_error traps' (s + k) = nth_error l' k) -> neat (s + length l) T ->
  Rabs (electrons_from s l (filled_by traps T) 0 1 - electrons_from s l' (filled_by traps' T) 0 1) <= E.
Proof.
  induction 1 as [|t t' e l l' E Ht H IH]; intros s Hn HT; cbn [electrons_from]; [rewrite Rminus_eq_0, Rabs_R0; lra|].
  pose proof (Hn 0%nat ltac:(cbn; lia)) as [E1 E2]. rewrite Nat.add_0_r in E1, E2. cbn [nth_error] in E1, E2.
  specialize (IH (S s)).
  assert (I : Rabs (electrons_from (S s) l (filled_by traps T) 0 1 - electrons_from (S s) l' (filled_by traps' T) 0 1) <= E).
  { apply IH; [|replace (S s + length l)%nat with (s + length (t :: l))%nat by (cbn; lia); exact HT]. intros k Hk. replace (S s + k)%nat with (s + S k)%nat by lia. apply (Hn (S k)). cbn. lia. }
  destruct HT as [H1 H2]. assert (Hs : (s < s + length (t :: l))%nat) by (cbn; lia).
  assert (X : ex_RInt (filled_by traps T s) 0 1).
  { apply (ex_RInt_ext (fun x => match T s x with Some a => fill_fraction_from_time_elapsed t a | None => 0 end)); [|apply H2; auto; lra]. intros x _. unfold filled_by. rewrite E1. destruct (T s x); reflexivity. }
  assert (X' : ex_RInt (filled_by traps' T s) 0 1).
  { apply (ex_RInt_ext (fun x => match T s x with Some a => fill_fraction_from_time_elapsed t' a | None => 0 end)); [|apply H2; auto; lra]. intros x _. unfold filled_by. rewrite E2. destruct (T s x); reflexivity. }
  assert (B : Rabs (t_density t * RInt (filled_by traps T s) 0 1 - t_density t' * RInt (filled_by traps' T s) 0 1) <= e).
  { pose proof (RInt_scal (V := R_CompleteNormedModule) (filled_by traps T s) 0 1 (t_density t) X) as S1. pose proof (RInt_scal (V := R_CompleteNormedModule) (filled_by traps' T s) 0 1 (t_density t') X') as S2.
    change (RInt (fun x => t_density t * filled_by traps T s x) 0 1 = t_density t * RInt (filled_by traps T s) 0 1) in S1.
    change (RInt (fun x => t_density t' * filled_by traps' T s x) 0 1 = t_density t' * RInt (filled_by traps' T s) 0 1) in S2. rewrite <- S1, <- S2.
    apply RInt_apart; [apply (ex_RInt_scal (V := R_NormedModule) (filled_by traps T s) 0 1 (t_density t) X)|apply (ex_RInt_scal (V := R_NormedModule) (filled_by traps' T s) 0 1 (t_density t') X')|].
    intros x Hx. unfold filled_by. rewrite E1, E2. destruct (T s x) as [a|] eqn:Ea; [apply Ht; now apply (H1 s x)|]. rewrite !Rmult_0_r, Rminus_eq_0, Rabs_R0. specialize (Ht 0 ltac:(lra)).
    pose proof (Rabs_pos (t_density t * fill_fraction_from_time_elapsed t 0 - t_density t' * fill_fraction_from_time_elapsed t' 0)). lra. }
  apply Rabs_le_between in B. apply Rabs_le_between in I. apply Rabs_le_between. lra.
Qed.

Section Nearby.
Context (traps traps' : list (trap R)) (dwell E : R).
Notation n := (length traps).
Hypothesis Hnear : same_times traps traps' E.
Hypothesis Hflat : Forall flattening traps.
Hypothesis Hdwell : 0 <= dwell.
Let rho := filled_traps traps.
Lemma held_near T : neat n T -> Rabs (held traps T - held traps' T) <= E.
Proof. intros HT. apply (from_curves traps traps' T traps traps' E Hnear 0); [intros k _; split; reflexivity|exact HT]. Qed.
Lemma same_length : length traps' = n. Proof. now apply (curves_length _ _ E). Qed.
Lemma E_pos : 0 <= E. Proof. now apply (curves_pos traps traps'). Qed.
Lemma rho0 : 0 <= rho. Proof. now apply TimesOrderFacts.rho_pos. Qed.
Context (well well' : R -> R) (slope eps : R).
Hypothesis Hslope : 0 <= slope.
Hypothesis Hgrows : forall a b, 0 <= a <= b -> 0 <= well b - well a <= slope * (b - a).
Hypothesis Hwell : forall a, 0 <= a -> 0 <= well a <= 1.
Hypothesis Hwell' : forall a, 0 <= a -> 0 <= well' a <= 1.
Hypothesis Hgain : 0 <= 1 - rho * slope.
Hypothesis Heps : forall a, 0 <= a -> Rabs (well a - well' a) <= eps.
Notation cloud := (t_cloud traps dwell).
Notation cloud' := (t_cloud traps' dwell).
Let err := E + rho * eps.
Lemma eps0 : 0 <= eps. Proof. pose proof (Heps 0 ltac:(lra)). pose proof (Rabs_pos (well 0 - well' 0)). lra. Qed.
Lemma err0 : 0 <= err. Proof. unfold err. pose proof (Rmult_le_pos _ _ rho0 eps0). pose proof E_pos. lra. Qed.
Lemma clouds_near m T : neat n T -> Rabs (cloud m T - cloud' m T) <= 2 * E.
Proof.
  intros HT. pose proof (held_near T HT) as A. pose proof (held_near (wait dwell T) (neat_wait _ _ _ Hdwell HT)) as B. pose proof E_pos. apply Rabs_le_between in A. apply Rabs_le_between in B. apply Rabs_le_between.
  unfold t_cloud, cloud_after, Rmax. destruct (Rle_dec 0 _), (Rle_dec 0 _); lra.
Qed.
Lemma reach_near m T : neat n T -> rho * Rabs (well (cloud m T) - well' (cloud' m T)) <= 2 * E + rho * eps.
Proof.
  intros HT. pose proof (clouds_near m T HT) as C. pose proof (t_cloud_pos traps dwell m T) as P. pose proof (t_cloud_pos traps' dwell m T) as P'. set (a := cloud m T) in *. set (b := cloud' m T) in *.
  pose proof (Heps b P') as B. pose proof rho0 as Hr.
  assert (W : Rabs (well a - well b) <= slope * Rabs (a - b)).
  { destruct (Rle_dec a b) as [H|H].
    - pose proof (Hgrows a b ltac:(lra)). rewrite (Rabs_left1 (a - b)) by lra. apply Rabs_le_between. lra.
    - pose proof (Hgrows b a ltac:(lra)). rewrite (Rabs_pos_eq (a - b)) by lra. apply Rabs_le_between. lra. }
  assert (D : Rabs (well a - well' b) <= slope * Rabs (a - b) + eps) by (apply Rabs_le_between in W; apply Rabs_le_between in B; apply Rabs_le_between; lra).
  pose proof (Rmult_le_compat_l rho _ _ Hr D) as K. assert (rho * slope * Rabs (a - b) <= 1 * (2 * E)) by (apply Rmult_le_compat; [now apply Rmult_le_pos|apply Rabs_pos|lra|exact C]). lra.
Qed.
Lemma fill_more u v T : 0 <= u <= v -> v <= 1 -> neat n T -> 0 <= held traps (fill_now v T) - held traps (fill_now u T) <= rho * (v - u).
Proof.
  intros Hu Hv HT. pose proof (taken_order traps Hflat u v T T Hu Hv HT HT (later_refl n T)) as A. unfold taken in A. fold rho in A. split; [|lra].
  pose proof (held_later traps Hflat (fill_now v T) (fill_now u T) (neat_fill n v T HT) (neat_fill n u T HT) (later_fill n u v T T (proj2 Hu) HT (later_refl n T))). lra.
Qed.
Lemma fill_apart u v T : 0 <= u <= 1 -> 0 <= v <= 1 -> neat n T -> Rabs (held traps (fill_now u T) - held traps (fill_now v T)) <= rho * Rabs (u - v).
Proof.
  intros Hu Hv HT. destruct (Rle_dec u v) as [H|H].
  - pose proof (fill_more u v T ltac:(lra) ltac:(lra) HT). rewrite (Rabs_left1 (u - v)) by lra. apply Rabs_le_between. lra.
  - pose proof (fill_more v u T ltac:(lra) ltac:(lra) HT). rewrite (Rabs_pos_eq (u - v)) by lra. apply Rabs_le_between. lra.
Qed.
Lemma t_leaves_near m T : neat n T -> Rabs (t_leaves traps dwell well m T - t_leaves traps' dwell well' m T) <= 6 * err.
Proof.
  intros HT. assert (W := neat_wait n dwell T Hdwell HT). pose proof (clouds_near m T HT) as C. pose proof (reach_near m T HT) as D. unfold t_leaves, taken.
  set (v := well (cloud m T)) in *. set (v' := well' (cloud' m T)) in *. assert (Bv : 0 <= v <= 1) by apply Hwell, t_cloud_pos. assert (Bv' : 0 <= v' <= 1) by apply Hwell', t_cloud_pos.
  pose proof (fill_apart v v' _ Bv Bv' W) as F. pose proof (held_near _ (neat_fill n v' _ W)) as H1. pose proof (held_near _ W) as H2. pose proof (Rmult_le_pos _ _ rho0 eps0). pose proof E_pos.
  apply Rabs_le_between in C. apply Rabs_le_between in F. apply Rabs_le_between in H1. apply Rabs_le_between in H2. apply Rabs_le_between. unfold err. lra.
Qed.
Lemma t_behind_near m T x : neat n T ->
  apart (t_pass traps dwell well (t_behind traps dwell well m T) x) (t_pass traps dwell well (t_behind traps' dwell well' m T) x) <= 2 * err.
Proof.
  intros HT. assert (W := neat_wait n dwell T Hdwell HT). pose proof (reach_near m T HT) as D. unfold t_behind.
  set (v := well (cloud m T)) in *. set (v' := well' (cloud' m T)) in *. assert (Bv : 0 <= v <= 1) by apply Hwell, t_cloud_pos. assert (Bv' : 0 <= v' <= 1) by apply Hwell', t_cloud_pos.
  assert (K : forall a b, 0 <= a <= b -> b <= 1 -> apart (t_pass traps dwell well (fill_now a (wait dwell T)) x) (t_pass traps dwell well (fill_now b (wait dwell T)) x) <= rho * (b - a)).
  { intros a b Ha Hb. destruct (t_pass_order traps dwell Hflat Hdwell well slope Hgrows Hwell Hgain x x (ordered_refl x) (fill_now b (wait dwell T)) (fill_now a (wait dwell T)) (neat_fill n b _ W) (neat_fill n a _ W) (later_fill n a b _ _ (proj2 Ha) W (later_refl n _))) as [O S].
    pose proof (fill_more a b _ Ha Hb W). pose proof (apart_below _ _ _ O (ordered_refl _)) as Q. lra. }
  pose proof (Rmult_le_pos _ _ rho0 eps0). pose proof E_pos. unfold err. destruct (Rle_dec v v') as [H1|H1].
  - pose proof (K v v' ltac:(lra) ltac:(lra)). rewrite Rabs_left1 in D by lra. lra.
  - pose proof (K v' v ltac:(lra) ltac:(lra)) as Q. rewrite Rabs_pos_eq in D by lra. rewrite apart_sym. lra.
Qed.
Lemma t_pass_near : forall x T, neat n T -> apart (t_pass traps dwell well T x) (t_pass traps' dwell well' T x) <= INR (length x) * (8 * err).
Proof.
  induction x as [|m x IH]; intros T HT; cbn [t_pass apart length]; [change (INR 0) with 0; lra|]. rewrite S_INR.
  pose proof (t_leaves_near m T HT) as L. pose proof (t_behind_near m T x HT) as B.
  assert (N : neat n (t_behind traps' dwell well' m T)) by (apply neat_fill, neat_wait; assumption). specialize (IH _ N).
  pose proof (apart_triangle (t_pass traps dwell well (t_behind traps dwell well m T) x) (t_pass traps dwell well (t_behind traps' dwell well' m T) x) (t_pass traps' dwell well' (t_behind traps' dwell well' m T) x)) as TR.
  rewrite !t_pass_length in TR. specialize (TR eq_refl eq_refl). lra.
Qed.
End Nearby.

(** ** Other dwell times *)
Section Rescaled.
Context (r dwell dwell' : R).
Hypothesis Hr : dwell * r = dwell'.
Definition rescaled (t : trap R) : trap R :=
  mkTrap (t_density t) (t_release_timescale t) (t_capture_rate t) (t_emission_rate t) (t_surface t) (CContinuum (fun time => fill_fraction_from_time_elapsed t (time * r)) (fun _ _ => 0) (fun _ => 0)).
Definition scaled_times (T : times) : times := fun s x => option_map (fun t => t * r) (T s x).
Lemma rescaled_fill t time : fill_fraction_from_time_elapsed (rescaled t) time = fill_fraction_from_time_elapsed t (time * r).
Proof. reflexivity. Qed.
Lemma rescaled_from traps T : forall l s, electrons_from s (map rescaled l) (filled_by (map rescaled traps) T) 0 1 = electrons_from s l (filled_by traps (scaled_times T)) 0 1.
Proof.
  induction l as [|t l IH]; intros s; [reflexivity|]. cbn [map electrons_from]. rewrite IH. f_equal. cbn [rescaled t_density]. f_equal. apply RInt_ext. intros x _.
  unfold filled_by, scaled_times. rewrite nth_error_map. destruct (T s x), (nth_error traps s); reflexivity.
Qed.
Lemma rescaled_held traps T : held (map rescaled traps) T = held traps (scaled_times T).
Proof. apply rescaled_from. Qed.
Lemma scaled_wait T : scaled_times (wait dwell T) = wait dwell' (scaled_times T).
Proof. extensionality s. extensionality x. unfold scaled_times, wait. destruct (T s x); cbn; [|reflexivity]. f_equal. rewrite <- Hr. ring. Qed.
Lemma scaled_fill v T : scaled_times (fill_now v T) = fill_now v (scaled_times T).
Proof. extensionality s. extensionality x. unfold scaled_times, fill_now. destruct (Rlt_dec x v); cbn; [|reflexivity]. f_equal. ring. Qed.
Lemma rescaled_pass traps well : forall x T, t_pass (map rescaled traps) dwell well T x = t_pass traps dwell' well (scaled_times T) x.
Proof.
  induction x as [|m x IH]; intros T; [reflexivity|]. cbn [t_pass].
  assert (C : t_cloud (map rescaled traps) dwell m T = t_cloud traps dwell' m (scaled_times T)) by (unfold t_cloud, cloud_after; rewrite !rescaled_held, scaled_wait; reflexivity).
  assert (B : scaled_times (t_behind (map rescaled traps) dwell well m T) = t_behind traps dwell' well m (scaled_times T)) by (unfold t_behind; rewrite C, scaled_fill, scaled_wait; reflexivity).
  f_equal; [|rewrite IH, B; reflexivity]. unfold t_leaves, taken. rewrite C, !rescaled_held, scaled_fill, scaled_wait. reflexivity.
Qed.
Lemma scaled_never : scaled_times never = never. Proof. reflexivity. Qed.
Lemma rescaled_near traps traps' E : 0 < dwell -> curves_near dwell dwell' traps traps' E -> same_times traps (map rescaled traps') E.
Proof.
  intros Hd. induction 1 as [|t t' e l l' E Ht H IH]; cbn [map]; constructor; [|exact IH]. intros time Hi. rewrite rescaled_fill. cbn [rescaled t_density].
  assert (K : 0 <= time / dwell) by (unfold Rdiv; apply Rmult_le_pos; [lra|]; left; now apply Rinv_0_lt_compat). specialize (Ht (time / dwell) K).
  replace (time / dwell * dwell) with time in Ht by (field; lra). replace (time / dwell * dwell') with (time * r) in Ht by (rewrite <- Hr; field; lra). exact Ht.
Qed.
End Rescaled.
Lemma t_pass_apart traps traps' dwell dwell' E : 0 < dwell -> curves_near dwell dwell' traps traps' E -> Forall flattening traps -> forall well well' slope eps, 0 <= slope ->
  (forall a b, 0 <= a <= b -> 0 <= well b - well a <= slope * (b - a)) -> (forall a, 0 <= a -> 0 <= well a <= 1) -> (forall a, 0 <= a -> 0 <= well' a <= 1) ->
  0 <= 1 - filled_traps traps * slope -> (forall a, 0 <= a -> Rabs (well a - well' a) <= eps) ->
  forall x, apart (t_pass traps dwell well never x) (t_pass traps' dwell' well' never x) <= INR (length x) * (8 * (E + filled_traps traps * eps)).
Proof.
  intros Hd HE Hf well well' slope eps Hs Hg Hw Hw' Hk He x. set (r := dwell' / dwell). assert (Hr : dwell * r = dwell') by (unfold r; field; lra).
  rewrite <- (scaled_never r), <- (rescaled_pass r dwell dwell' Hr traps' well').
  apply (t_pass_near traps (map (rescaled r) traps') dwell E (rescaled_near r dwell dwell' Hr traps traps' E Hd HE) Hf ltac:(lra) well well' slope eps Hs Hg Hw Hw' Hk He x never (neat_never _)).
Qed.
