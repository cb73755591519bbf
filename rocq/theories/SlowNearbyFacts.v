(** * Readouts past traps of the class [Trap] with settings that differ a little. *)
From Coquelicot Require Import Coquelicot.
From Coq Require Import List Bool Reals Lra Lia.
From Verif Require Import Num Py RFacts CCDModel TrapsModel ManagerModel Spec SpecReadout SpecSlow SpecHistory SpecRecovery SpecCalibration SpecSlowCalibration WmFacts InstantFacts ReadoutSpecFacts SlowFacts OrderFacts TameFacts CalibrationFacts TimesGridFacts SlowOrderFacts.
Import ListNotations.
Open Scope R_scope.

(** The higher of two profiles. *)
Definition higher (X Y : profile) : profile := fun s x => Rmax (X s x) (Y s x).
Lemma ex_RInt_Rabs (f : R -> R) a b : a <= b -> ex_RInt f a b -> ex_RInt (fun x => Rabs (f x)) a b.
Proof. intros Hab H. apply ex_RInt_Reals_1. apply RiemannInt_P16. now apply ex_RInt_Reals_0. Qed.
Lemma tidy_higher n X Y : tidy n X -> tidy n Y -> tidy n (higher X Y).
Proof.
  intros HX HY s Hs. destruct (HX s Hs) as [X1 X2]. destruct (HY s Hs) as [Y1 Y2]. split.
  - intros x Hx. specialize (X1 x Hx). specialize (Y1 x Hx). unfold higher, Rmax. destruct (Rle_dec _ _); lra.
  - intros a b Ha Hb. apply (ex_RInt_ext (fun x => plus (scal (1 / 2) (plus (X s x) (Y s x))) (scal (1 / 2) (Rabs (minus (X s x) (Y s x)))))).
    + intros x _. unfold higher, Rmax, plus, scal, minus, opp, mult; cbn. unfold mult, plus; cbn. unfold Rabs. destruct (Rcase_abs _), (Rle_dec _ _); lra.
    + apply (ex_RInt_plus (V := R_NormedModule)); apply (ex_RInt_scal (V := R_NormedModule)).
      * apply (ex_RInt_plus (V := R_NormedModule)); auto.
      * apply ex_RInt_Rabs; [lra|]. apply (ex_RInt_minus (V := R_NormedModule)); auto.
Qed.
Definition band (u v x : R) : R := if Rlt_dec x (Rmin u v) then 0 else if Rlt_dec x (Rmax u v) then 1 else 0.
Lemma band_int u v : 0 <= u <= 1 -> 0 <= v <= 1 -> ex_RInt (band u v) 0 1 /\ RInt (band u v) 0 1 = Rabs (u - v).
Proof.
  intros Hu Hv. assert (B : 0 <= Rmin u v <= Rmax u v /\ Rmax u v <= 1 /\ Rmax u v - Rmin u v = Rabs (u - v)).
  { unfold Rmin, Rmax. destruct (Rle_dec u v); [rewrite Rabs_left1 by lra|rewrite Rabs_pos_eq by lra]; lra. }
  destruct B as (B1 & B2 & B3). unfold band. set (p := Rmin u v) in *. set (q := Rmax u v) in *. rewrite <- B3.
  assert (I : is_RInt (fun x => if Rlt_dec x p then 0 else if Rlt_dec x q then 1 else 0) 0 1 (q - p)).
  { replace (q - p) with (plus (plus (scal (p - 0) 0) (scal (q - p) 1)) (scal (1 - q) 0)) by (unfold plus, scal, mult; cbn; unfold mult; cbn; lra).
    apply (is_RInt_Chasles (V := R_NormedModule) _ 0 q 1); [apply (is_RInt_Chasles (V := R_NormedModule) _ 0 p q)|].
    - apply (is_RInt_ext (fun _ => 0)); [|apply (is_RInt_const (V := R_NormedModule))]. intros x Hx. rewrite Rmin_left, Rmax_right in Hx by lra. destruct (Rlt_dec x p); lra.
    - apply (is_RInt_ext (fun _ => 1)); [|apply (is_RInt_const (V := R_NormedModule))]. intros x Hx. rewrite Rmin_left, Rmax_right in Hx by lra. destruct (Rlt_dec x p); [lra|]. destruct (Rlt_dec x q); lra.
    - apply (is_RInt_ext (fun _ => 0)); [|apply (is_RInt_const (V := R_NormedModule))]. intros x Hx. rewrite Rmin_left, Rmax_right in Hx by lra. destruct (Rlt_dec x p); [lra|]. destruct (Rlt_dec x q); lra. }
  split; [now exists (q - p)|]. now apply is_RInt_unique.
Qed.
(** Profiles that differ by a constant of each species, and between two pairs of depths. *)
Fixpoint weighted (s : nat) (l : list (trap R)) (k : nat -> R) : R := match l with [] => 0 | t :: r => t_density t * k s + weighted (S s) r k end.
Lemma higher_from u v u' v' (k : nat -> R) (X Y : profile) : 0 <= u <= 1 -> 0 <= v <= 1 -> 0 <= u' <= 1 -> 0 <= v' <= 1 -> forall l s, Forall physical l ->
  (forall j, (j < length l)%nat -> (ex_RInt (X (s + j)%nat) 0 1 /\ ex_RInt (Y (s + j)%nat) 0 1 /\ ex_RInt (higher X Y (s + j)%nat) 0 1) /\
     forall x, 0 <= x < 1 -> Rabs (X (s + j)%nat x - Y (s + j)%nat x) <= k (s + j)%nat + band u v x + band u' v' x) ->
  2 * electrons_from s l (higher X Y) 0 1 - electrons_from s l X 0 1 - electrons_from s l Y 0 1 <= weighted s l k + traps_per_pixel l * (Rabs (u - v) + Rabs (u' - v')).
Proof.
  intros Hu Hv Hu' Hv'. destruct (band_int u v Hu Hv) as [B1 B2]. destruct (band_int u' v' Hu' Hv') as [C1 C2].
  induction l as [|t l IH]; intros s Hp HX; [cbn; lra|]. inversion Hp as [|? ? P1 P2]; subst. specialize (IH (S s) P2).
  assert (H1 := HX 0%nat ltac:(cbn; lia)). rewrite Nat.add_0_r in H1. destruct H1 as ((E1 & E2 & E3) & D).
  assert (I : 2 * electrons_from (S s) l (higher X Y) 0 1 - electrons_from (S s) l X 0 1 - electrons_from (S s) l Y 0 1 <= weighted (S s) l k + traps_per_pixel l * (Rabs (u - v) + Rabs (u' - v'))).
  { apply IH. intros j Hj. specialize (HX (S j) ltac:(cbn; lia)). rewrite Nat.add_succ_r in HX. exact HX. }
  assert (J : 2 * RInt (higher X Y s) 0 1 - RInt (X s) 0 1 - RInt (Y s) 0 1 <= k s + (Rabs (u - v) + Rabs (u' - v'))).
  { assert (J1 : 2 * RInt (higher X Y s) 0 1 - RInt (X s) 0 1 - RInt (Y s) 0 1 = RInt (fun x => 2 * higher X Y s x - X s x - Y s x) 0 1).
    { symmetry. apply is_RInt_unique. apply (RInt_correct (V := R_CompleteNormedModule)) in E1, E2, E3.
      exact (is_RInt_minus (V := R_NormedModule) _ _ _ _ _ _ (is_RInt_minus (V := R_NormedModule) _ _ _ _ _ _ (is_RInt_scal (V := R_NormedModule) _ _ _ 2 _ E3) E1) E2). }
    assert (J2 : k s + (Rabs (u - v) + Rabs (u' - v')) = RInt (fun x => k s + (band u v x + band u' v' x)) 0 1).
    { symmetry. apply is_RInt_unique. rewrite <- B2, <- C2. apply (RInt_correct (V := R_CompleteNormedModule)) in B1, C1.
      assert (K0 : is_RInt (fun _ => k s) 0 1 (k s)).
      { pose proof (is_RInt_const (V := R_NormedModule) 0 1 (k s)) as K. change (is_RInt (fun _ => k s) 0 1 ((1 - 0) * k s)) in K. replace ((1 - 0) * k s) with (k s) in K by ring. exact K. }
      exact (is_RInt_plus (V := R_NormedModule) _ _ _ _ _ _ K0 (is_RInt_plus (V := R_NormedModule) _ _ _ _ _ _ B1 C1)). }
    rewrite J1, J2. apply RInt_le; [lra| | |].
    - exact (ex_RInt_minus (V := R_NormedModule) _ _ _ _ (ex_RInt_minus (V := R_NormedModule) _ _ _ _ (ex_RInt_scal (V := R_NormedModule) _ _ _ 2 E3) E1) E2).
    - exact (ex_RInt_plus (V := R_NormedModule) _ _ _ _ (ex_RInt_const (V := R_NormedModule) 0 1 (k s)) (ex_RInt_plus (V := R_NormedModule) _ _ _ _ B1 C1)).
    - intros x Hx. specialize (D x ltac:(lra)). unfold higher, Rmax. revert D. unfold Rabs. destruct (Rcase_abs _), (Rle_dec _ _); lra. }
  cbn [electrons_from weighted]. change (traps_per_pixel (t :: l)) with (t_density t + traps_per_pixel l). pose proof (Rmult_le_compat_l _ _ _ (ph_density t P1) J). lra.
Qed.
Definition spread_of (dwell dwell' : R) (l l' : list (trap R)) (s : nat) : R :=
  match nth_error l s, nth_error l' s with
  | Some t, Some t' => Rabs (share_kept dwell t - share_kept dwell' t') + (Rabs (if_full t dwell - if_full t' dwell') + Rabs (if_empty t dwell - if_empty t' dwell'))
  | _, _ => 0
  end.
Lemma weighted_spread w w' : forall l l' s k, length l' = length l -> (forall j, (j < length l)%nat -> k (s + j)%nat = spread_of w w' l l' j) -> weighted s l k = release_error w w' l l' + capture_error w w' l l'.
Proof.
  induction l as [|t l IH]; intros [|t' l'] s k E H; try discriminate; cbn [weighted release_error capture_error]; [lra|].
  rewrite (IH l' (S s) k) by (cbn in E; try lia; intros j Hj; specialize (H (S j) ltac:(cbn; lia)); rewrite Nat.add_succ_r in H; exact H).
  specialize (H 0%nat ltac:(cbn; lia)). rewrite Nat.add_0_r in H. rewrite H. cbn. ring.
Qed.
Lemma capture_error_nonneg w w' : forall l l', Forall physical l -> 0 <= capture_error w w' l l'.
Proof.
  induction l as [|t l IH]; intros [|t' l'] H; cbn; try lra. inversion H as [|? ? H1 H2]; subst. specialize (IH l' H2).
  pose proof (Rabs_pos (if_full t w - if_full t' w')). pose proof (Rabs_pos (if_empty t w - if_empty t' w')). pose proof (ph_density t H1). nra.
Qed.

Section Nearby.
Context (traps traps' : list (trap R)) (dwell dwell' : R).
Notation n := (length traps).
Hypothesis Hlen : length traps' = length traps.
Hypothesis Hcap : Forall capturing traps.
Hypothesis Hcap' : Forall capturing traps'.
Hypothesis Hgreed : Forall2 no_greedier traps' traps.
Hypothesis Hdwell : 0 <= dwell.
Hypothesis Hdwell' : 0 <= dwell'.
Let rho := traps_per_pixel traps.
Let alpha := density_error traps traps'.
Let kappa := release_error dwell dwell' traps traps'.
Let gamma := capture_error dwell dwell' traps traps'.
Notation total P := (electrons traps P 0 1).
Notation total' P := (electrons traps' P 0 1).
Lemma n_phys : Forall physical traps.
Proof. eapply Forall_impl; [|exact Hcap]. now intros t [H _]. Qed.
Lemma n_phys' : Forall physical traps'.
Proof. eapply Forall_impl; [|exact Hcap']. now intros t [H _]. Qed.
Lemma n_alpha : 0 <= alpha. Proof. apply density_error_nonneg. Qed.
Lemma n_kappa : 0 <= kappa. Proof. apply release_error_nonneg. exact n_phys. Qed.
Lemma n_gamma : 0 <= gamma. Proof. apply capture_error_nonneg. exact n_phys. Qed.
Lemma n_rho : 0 <= rho. Proof. apply rho_pos. exact n_phys. Qed.
Lemma n_tidy P : tidy n P <-> tidy (length traps') P. Proof. rewrite Hlen. reflexivity. Qed.
Lemma balance_order t t' : capturing t -> capturing t' -> no_greedier t' t -> balance t' <= balance t.
Proof.
  intros Ht Ht' H. pose proof (balance_range t Ht). pose proof (balance_range t' Ht'). destruct Ht as [Hp Hc]. destruct Ht' as [Hp' Hc']. pose proof (capturing_emission t Hp). pose proof (capturing_emission t' Hp').
  unfold no_greedier, balance in *. destruct (t_capture_rate t) as [|c]; [lra|]. destruct (t_capture_rate t') as [|c']; [contradiction|].
  apply (Rmult_le_reg_r ((c + t_emission_rate t) * (c' + t_emission_rate t'))); [apply Rmult_lt_0_compat; lra|]. field_simplify; [|lra|lra]. nra.
Qed.
Lemma pair_species s : (s < n)%nat -> exists t t', nth_error traps s = Some t /\ nth_error traps' s = Some t' /\ capturing t /\ capturing t' /\ no_greedier t' t.
Proof.
  intros Hs. destruct (nth_error traps s) as [t|] eqn:E; [|apply nth_error_None in E; lia]. destruct (nth_error traps' s) as [t'|] eqn:E'; [|apply nth_error_None in E'; lia].
  exists t, t'. split; [reflexivity|]. split; [reflexivity|]. split; [apply (proj1 (Forall_forall _ _) Hcap); now apply nth_error_In in E|]. split; [apply (proj1 (Forall_forall _ _) Hcap'); now apply nth_error_In in E'|].
  clear - Hgreed E E'. revert s E E'. induction Hgreed as [|a b l l' H1 H2 IH]; intros [|s] E E'; cbn in *; try discriminate; [congruence|eauto].
Qed.
Lemma calmer P : calm traps' P -> calm traps P.
Proof.
  intros [H1 H2]. split; [now apply n_tidy|]. intros s t x E Hx. assert (Hs : (s < n)%nat) by (apply nth_error_Some; congruence).
  destruct (pair_species s Hs) as (u & u' & E1 & E2 & C1 & C2 & C3). rewrite E in E1. injection E1 as <-. eapply Rle_trans; [apply (H2 s u' x E2 Hx)|]. now apply balance_order.
Qed.
(** ** The distance of two profiles *)
Definition gap (X Y : profile) : R := 2 * total (higher X Y) - total X - total Y.
Lemma gap_bound X Y u v u' v' : tidy n X -> tidy n Y -> 0 <= u <= 1 -> 0 <= v <= 1 -> 0 <= u' <= 1 -> 0 <= v' <= 1 ->
  (forall s x, (s < n)%nat -> 0 <= x < 1 -> Rabs (X s x - Y s x) <= spread_of dwell dwell' traps traps' s + band u v x + band u' v' x) ->
  gap X Y <= kappa + gamma + rho * (Rabs (u - v) + Rabs (u' - v')).
Proof.
  intros HX HY Hu Hv Hu' Hv' H. unfold gap, kappa, gamma, rho. rewrite <- (weighted_spread dwell dwell' traps traps' 0 (spread_of dwell dwell' traps traps') Hlen) by reflexivity.
  apply higher_from; auto using n_phys. intros j Hj. cbn [Nat.add]. pose proof (tidy_higher n X Y HX HY) as HH. split; [split; [|split]; [apply HX|apply HY|apply HH]; auto; lra|]. intros x Hx. now apply H.
Qed.
Lemma gap_totals X Y : tidy n X -> tidy n Y -> Rabs (total X - total Y) <= gap X Y.
Proof.
  intros HX HY. pose proof (tidy_higher n X Y HX HY) as HH.
  pose proof (total_nonneg traps n_phys (higher X Y) X HH HX ltac:(intros s x _ _; apply Rmax_l)).
  pose proof (total_nonneg traps n_phys (higher X Y) Y HH HY ltac:(intros s x _ _; apply Rmax_r)). unfold gap. apply Rabs_le_between. lra.
Qed.
(** ** One packet *)
Context (well well' : R -> R) (slope eps : R).
Hypothesis Hslope : 0 <= slope.
Hypothesis Hgrows : forall a b, 0 <= a <= b -> 0 <= well b - well a <= slope * (b - a).
Hypothesis Hwell : forall a, 0 <= a -> 0 <= well a <= 1.
Hypothesis Hwell' : forall a, 0 <= a -> 0 <= well' a <= 1.
Hypothesis Hkeep : 0 <= 1 - rho * slope.
Hypothesis Heps : forall a, 0 <= a -> Rabs (well a - well' a) <= eps.
Let err := alpha + kappa + gamma + rho * eps.
Lemma n_eps : 0 <= eps.
Proof. pose proof (Heps 0 ltac:(lra)). pose proof (Rabs_pos (well 0 - well' 0)). lra. Qed.
Lemma n_err : 0 <= err.
Proof. pose proof n_alpha. pose proof n_kappa. pose proof n_gamma. pose proof (Rmult_le_pos _ _ n_rho n_eps). unfold err. lra. Qed.
Lemma band_out u v x : ~ (Rmin u v <= x < Rmax u v) -> band u v x = 0.
Proof. intros H. unfold band. destruct (Rlt_dec _ _); [reflexivity|]. destruct (Rlt_dec _ _); [exfalso; apply H; lra|reflexivity]. Qed.
Lemma band_pos u v x : 0 <= band u v x.
Proof. unfold band. destruct (Rlt_dec _ _); [lra|]. destruct (Rlt_dec _ _); lra. Qed.
Lemma band_in u v x : (x < u /\ v <= x) \/ (x < v /\ u <= x) -> band u v x = 1.
Proof. unfold band, Rmin, Rmax. intros H. destruct (Rle_dec u v); destruct (Rlt_dec x _); try lra; destruct (Rlt_dec x _); lra. Qed.
Lemma unit_apart p q : 0 <= p <= 1 -> 0 <= q <= 1 -> Rabs (p - q) <= 1.
Proof. intros. apply Rabs_le_between. lra. Qed.
Lemma spread_parts s t t' : nth_error traps s = Some t -> nth_error traps' s = Some t' ->
  spread_of dwell dwell' traps traps' s = Rabs (exp (- dwell / timescale traps s) - exp (- dwell' / timescale traps' s)) + (Rabs (if_full t dwell - if_full t' dwell') + Rabs (if_empty t dwell - if_empty t' dwell')).
Proof.
  intros E E'. unfold spread_of, share_kept, timescale. rewrite E, E'. rewrite (nth_error_nth _ _ 1 (map_nth_error (@t_release_timescale R) _ _ E)), (nth_error_nth _ _ 1 (map_nth_error (@t_release_timescale R) _ _ E')). reflexivity.
Qed.
Lemma released_pointwise v v' P s x : tidy n P -> (s < n)%nat -> 0 <= x < 1 ->
  Rabs (release_above traps dwell v P s x - release_above traps' dwell' v' P s x) <= Rabs (exp (- dwell / timescale traps s) - exp (- dwell' / timescale traps' s)) + band v v' x.
Proof.
  intros HP Hs Hx. destruct (HP s Hs) as [R1 _]. specialize (R1 x Hx). pose proof (decay_range dwell (timescale traps s) Hdwell (timescale_pos traps s n_phys)) as K. pose proof (decay_range dwell' (timescale traps' s) Hdwell' (timescale_pos traps' s n_phys')) as K'.
  set (q := exp (- dwell / timescale traps s)) in *. set (q' := exp (- dwell' / timescale traps' s)) in *. pose proof (Rabs_pos (q - q')). pose proof (band_pos v v' x). unfold release_above. fold q q'.
  destruct (Rlt_dec x v), (Rlt_dec x v').
  - rewrite Rminus_eq_0, Rabs_R0. lra.
  - rewrite (band_in v v' x) by lra. pose proof (unit_apart (P s x) (P s x * q') R1 ltac:(nra)). lra.
  - rewrite (band_in v v' x) by lra. pose proof (unit_apart (P s x * q) (P s x) ltac:(nra) R1). lra.
  - rewrite <- Rmult_minus_distr_l. pose proof (unit_part (P s x) (q - q') R1). lra.
Qed.
Notation R0 m P := (s_released traps dwell well m P).
Notation R1 m P := (s_released traps' dwell' well' m P).
Notation E0 m P := (s_behind traps dwell well m P).
Notation E1 m P := (s_behind traps' dwell' well' m P).
Notation C0 m P := (s_cloud traps dwell well m P).
Notation C1 m P := (s_cloud traps' dwell' well' m P).
Section Step.
Context (m : R) (P : profile).
Hypothesis HP' : calm traps' P.
Let HP : calm traps P. Proof. now apply calmer. Qed.
Let nn : 0 <= s_packet m. Proof. apply s_packet_pos. Qed.
Let T0 : calm traps (R0 m P). Proof. now apply s_released_calm. Qed.
Let T1 : calm traps' (R1 m P). Proof. now apply s_released_calm. Qed.
Let U0 : calm traps (E0 m P). Proof. now apply s_behind_calm. Qed.
Let U1 : calm traps' (E1 m P). Proof. now apply s_behind_calm. Qed.
Lemma step_released : gap (R0 m P) (R1 m P) <= kappa + gamma + rho * eps.
Proof.
  pose proof (gap_bound (R0 m P) (R1 m P) (well (s_packet m)) (well' (s_packet m)) 0 0 (proj1 T0) (proj2 (n_tidy _) (proj1 T1)) (Hwell _ nn) (Hwell' _ nn) ltac:(lra) ltac:(lra)) as G.
  rewrite Rminus_eq_0, Rabs_R0, Rplus_0_r in G. eapply Rle_trans; [apply G|].
  - intros s x Hs Hx. destruct (pair_species s Hs) as (t & t' & E & E' & _). rewrite (spread_parts s t t' E E'). pose proof (released_pointwise (well (s_packet m)) (well' (s_packet m)) P s x (proj1 HP) Hs Hx) as K.
    pose proof (Rabs_pos (if_full t dwell - if_full t' dwell')). pose proof (Rabs_pos (if_empty t dwell - if_empty t' dwell')). pose proof (band_pos 0 0 x). unfold s_released. lra.
  - pose proof (Rmult_le_compat_l _ _ _ n_rho (Heps _ nn)). lra.
Qed.
Lemma other_total X Y : tidy n X -> tidy n Y -> below_profile n Y X -> Rabs ((total X - total Y) - (total' X - total' Y)) <= alpha.
Proof.
  intros HX HY HB. set (D := fun s x => X s x - Y s x).
  assert (TD : tidy n D).
  { intros s Hs. destruct (HX s Hs) as [X1 X2]. destruct (HY s Hs) as [Y1 Y2]. split; [intros x Hx; specialize (X1 x Hx); specialize (Y1 x Hx); specialize (HB s x Hs Hx); unfold D; lra|].
    intros a b Ha Hb. apply (ex_RInt_minus (V := R_NormedModule)); auto. }
  pose proof (other_densities traps traps' Hlen D 0 1 TD ltac:(lra) ltac:(lra)) as K.
  assert (M : forall l, length l = n -> electrons l D 0 1 = electrons l X 0 1 - electrons l Y 0 1).
  { intros l Hl. unfold electrons. assert (Q : forall l s, (s + length l = n)%nat -> electrons_from s l D 0 1 = electrons_from s l X 0 1 - electrons_from s l Y 0 1).
    { clear l Hl. induction l as [|t l IH]; intros s Hs; cbn [electrons_from]; [lra|]. cbn in Hs. rewrite IH by lia.
      pose proof (RInt_minus (V := R_CompleteNormedModule) (X s) (Y s) 0 1 (proj2 (HX s ltac:(lia)) 0 1 ltac:(lra) ltac:(lra)) (proj2 (HY s ltac:(lia)) 0 1 ltac:(lra) ltac:(lra))) as Em.
      change (RInt (D s) 0 1 = RInt (X s) 0 1 - RInt (Y s) 0 1) in Em. rewrite Em. ring. }
    apply Q. now rewrite Hl. }
  rewrite (M traps eq_refl), (M traps' Hlen) in K. exact K.
Qed.
Lemma step_clouds : Rabs (C0 m P - C1 m P) <= err.
Proof.
  rewrite (s_cloud_value traps dwell well m P), (s_cloud_value traps' dwell' well' m P).
  assert (B : below_profile n (R1 m P) P).
  { intros s x Hs Hx. destruct (proj1 HP s Hs) as [Q _]. specialize (Q x Hx). unfold s_released, release_above. pose proof (decay_range dwell' (timescale traps' s) Hdwell' (timescale_pos traps' s n_phys')). destruct (Rlt_dec _ _); nra. }
  pose proof (other_total P (R1 m P) (proj1 HP) (proj2 (n_tidy _) (proj1 T1)) B) as A. pose proof (gap_totals (R0 m P) (R1 m P) (proj1 T0) (proj2 (n_tidy _) (proj1 T1))) as G. pose proof step_released as S.
  apply Rabs_le_between in A. apply Rabs_le_between in G. apply Rabs_le_between. unfold err. lra.
Qed.
Lemma step_depths : rho * Rabs (well (C0 m P) - well' (C1 m P)) <= err + rho * eps.
Proof.
  pose proof (s_cloud_pos traps dwell Hcap Hdwell well Hwell m P HP) as K0. pose proof (s_cloud_pos traps' dwell' Hcap' Hdwell' well' Hwell' m P HP') as K1. pose proof step_clouds as S. pose proof (Heps (C1 m P) ltac:(lra)) as E. pose proof n_rho. pose proof n_err.
  assert (W : Rabs (well (C0 m P) - well (C1 m P)) <= slope * Rabs (C0 m P - C1 m P)).
  { destruct (Rle_dec (C0 m P) (C1 m P)) as [H1|H1].
    - pose proof (Hgrows _ _ (conj (Rle_trans _ _ _ nn K0) H1)). rewrite (Rabs_left1 (C0 m P - _)) by lra. apply Rabs_le_between. lra.
    - pose proof (Hgrows (C1 m P) (C0 m P) ltac:(lra)). rewrite (Rabs_pos_eq (C0 m P - _)) by lra. apply Rabs_le_between. lra. }
  assert (V : Rabs (well (C0 m P) - well' (C1 m P)) <= slope * err + eps).
  { replace (well (C0 m P) - well' (C1 m P)) with ((well (C0 m P) - well (C1 m P)) + (well (C1 m P) - well' (C1 m P))) by ring. eapply Rle_trans; [apply Rabs_triang|]. pose proof (Rmult_le_compat_l _ _ _ Hslope S). lra. }
  pose proof (Rmult_le_compat_l _ _ _ n_rho V). assert (rho * slope * err <= 1 * err) by (apply Rmult_le_compat_r; lra). lra.
Qed.
Lemma step_behind : gap (E0 m P) (E1 m P) <= 3 * err.
Proof.
  pose proof (s_cloud_range traps dwell Hcap Hdwell well Hwell m P HP) as B0. pose proof (s_cloud_range traps' dwell' Hcap' Hdwell' well' Hwell' m P HP') as B1.
  pose proof (gap_bound (E0 m P) (E1 m P) (well (s_packet m)) (well' (s_packet m)) (well (C0 m P)) (well' (C1 m P)) (proj1 U0) (proj2 (n_tidy _) (proj1 U1)) (Hwell _ nn) (Hwell' _ nn) B0 B1) as G.
  eapply Rle_trans; [apply G|].
  - intros s x Hs Hx. destruct (pair_species s Hs) as (t & t' & E & E' & Ct & Ct' & _). rewrite (spread_parts s t t' E E').
    pose proof (released_pointwise (well (s_packet m)) (well' (s_packet m)) P s x (proj1 HP) Hs Hx) as K. fold (R0 m P) in K. fold (R1 m P) in K.
    change (release_above traps dwell (well (s_packet m)) P s x) with (R0 m P s x) in K. change (release_above traps' dwell' (well' (s_packet m)) P s x) with (R1 m P s x) in K.
    pose proof (Rabs_pos (if_full t dwell - if_full t' dwell')). pose proof (Rabs_pos (if_empty t dwell - if_empty t' dwell')). pose proof (band_pos (well (C0 m P)) (well' (C1 m P)) x). pose proof (band_pos (well (s_packet m)) (well' (s_packet m)) x). pose proof (Rabs_pos (exp (- dwell / timescale traps s) - exp (- dwell' / timescale traps' s))).
    pose proof (proj1 (proj1 U0 s Hs) x Hx) as V0. pose proof (proj1 (proj2 (n_tidy _) (proj1 U1) s Hs) x Hx) as V1.
    pose proof (proj1 (proj1 T0 s Hs) x Hx) as W0. pose proof (proj1 (proj2 (n_tidy _) (proj1 T1) s Hs) x Hx) as W1.
    assert (Z : (x < well (C0 m P) /\ well' (C1 m P) <= x) \/ (x < well' (C1 m P) /\ well (C0 m P) <= x) \/ (x < well (C0 m P) /\ x < well' (C1 m P)) \/ (well (C0 m P) <= x /\ well' (C1 m P) <= x)) by lra.
    destruct Z as [Z|[Z|[Z|Z]]].
    + rewrite (band_in (well (C0 m P)) (well' (C1 m P)) x) by auto. pose proof (unit_apart _ _ V0 V1). lra.
    + rewrite (band_in (well (C0 m P)) (well' (C1 m P)) x) by auto. pose proof (unit_apart _ _ V0 V1). lra.
    + unfold s_behind, exchange_below. rewrite E, E'. destruct (Rlt_dec x (well (C0 m P))); [|lra]. destruct (Rlt_dec x (well' (C1 m P))); [|lra].
      destruct (towards_balance t dwell Ct Hdwell) as (g & Hg & G1).
      set (a := R0 m P s x) in *. set (b := R1 m P s x) in *.
      replace (a * if_full t dwell + (1 - a) * if_empty t dwell - (b * if_full t' dwell' + (1 - b) * if_empty t' dwell'))
        with (((a * if_full t dwell + (1 - a) * if_empty t dwell) - (b * if_full t dwell + (1 - b) * if_empty t dwell)) + (b * (if_full t dwell - if_full t' dwell') + (1 - b) * (if_empty t dwell - if_empty t' dwell'))) by ring.
      rewrite !G1. eapply Rle_trans; [apply Rabs_triang|]. pose proof (Rabs_triang (b * (if_full t dwell - if_full t' dwell')) ((1 - b) * (if_empty t dwell - if_empty t' dwell'))) as Q.
      pose proof (unit_part b (if_full t dwell - if_full t' dwell') W1). pose proof (unit_part (1 - b) (if_empty t dwell - if_empty t' dwell') ltac:(lra)). pose proof (unit_part g (a - b) Hg) as Q2.
      replace (balance t + (a - balance t) * g - (balance t + (b - balance t) * g)) with (g * (a - b)) by ring. lra.
    + unfold s_behind, exchange_below. rewrite E, E'. destruct (Rlt_dec x (well (C0 m P))); [lra|]. destruct (Rlt_dec x (well' (C1 m P))); [lra|]. lra.
  - pose proof (Rmult_le_compat_l _ _ _ n_rho (Heps _ nn)). pose proof step_depths. pose proof n_err. pose proof n_alpha. pose proof n_kappa. pose proof n_gamma. unfold err in *. lra.
Qed.
Lemma step_leaves : Rabs (s_leaves traps dwell well m P - s_leaves traps' dwell' well' m P) <= 6 * err.
Proof.
  unfold s_leaves.
  assert (B : below_profile n (R1 m P) (E1 m P)).
  { intros s x Hs Hx. unfold s_behind. rewrite exchange_is. destruct (Rlt_dec _ _); [|lra]. apply (swapped_gains traps' dwell' Hcap' Hdwell' (R1 m P) s x T1); [now rewrite Hlen|exact Hx]. }
  pose proof (other_total (E1 m P) (R1 m P) (proj2 (n_tidy _) (proj1 U1)) (proj2 (n_tidy _) (proj1 T1)) B) as A.
  pose proof (gap_totals (R0 m P) (R1 m P) (proj1 T0) (proj2 (n_tidy _) (proj1 T1))) as G. pose proof step_released as S.
  pose proof (gap_totals (E0 m P) (E1 m P) (proj1 U0) (proj2 (n_tidy _) (proj1 U1))) as G2. pose proof step_behind as S2. pose proof step_clouds as S3.
  pose proof n_alpha. pose proof n_kappa. pose proof n_gamma. pose proof (Rmult_le_pos _ _ n_rho n_eps).
  apply Rabs_le_between in A. apply Rabs_le_between in G. apply Rabs_le_between in G2. apply Rabs_le_between in S3. apply Rabs_le_between. unfold err in *. lra.
Qed.
End Step.
(** ** One pass *)
Lemma slow_states x P Q : calm traps P -> calm traps Q -> calm traps (higher P Q) ->
  apart (s_pass traps dwell well P x) (s_pass traps dwell well Q x) <= gap P Q.
Proof.
  intros HP HQ HM.
  destruct (s_pass_order traps dwell Hcap Hdwell well slope Hgrows Hwell Hkeep x x (ordered_refl x) (higher P Q) P HM HP ltac:(intros s y _ _; apply Rmax_l)) as [O1 S1].
  destruct (s_pass_order traps dwell Hcap Hdwell well slope Hgrows Hwell Hkeep x x (ordered_refl x) (higher P Q) Q HM HQ ltac:(intros s y _ _; apply Rmax_r)) as [O2 S2].
  pose proof (apart_below _ _ _ O1 O2). unfold gap. lra.
Qed.
Lemma calm_higher P Q : calm traps P -> calm traps Q -> calm traps (higher P Q).
Proof.
  intros [P1 P2] [Q1 Q2]. split; [now apply tidy_higher|]. intros s t x E Hx. apply Rmax_lub; [now apply (P2 s)|now apply (Q2 s)].
Qed.
Lemma slow_pass_near : forall x P, calm traps' P -> apart (s_pass traps dwell well P x) (s_pass traps' dwell' well' P x) <= 9 * INR (length x) * err.
Proof.
  induction x as [|m x IH]; intros P HP; cbn [s_pass apart length]; [change (INR 0) with 0; lra|]. rewrite S_INR.
  pose proof (calmer P HP) as HP0. pose proof (step_leaves m P HP) as L. pose proof (step_behind m P HP) as S.
  assert (T : calm traps (E0 m P)) by (now apply s_behind_calm). assert (T' : calm traps' (E1 m P)) by (now apply s_behind_calm).
  pose proof (slow_states x _ _ T (calmer _ T') (calm_higher _ _ T (calmer _ T'))) as A. specialize (IH _ T').
  pose proof (apart_triangle traps traps' Hlen (s_pass traps dwell well (E0 m P) x) (s_pass traps dwell well (E1 m P) x) (s_pass traps' dwell' well' (E1 m P) x)) as TR.
  rewrite !s_pass_length in TR. specialize (TR eq_refl eq_refl). lra.
Qed.
End Nearby.

(** ** Columns, for any two maps of packets that are near each other *)
Section Columns.
Context (F G : list R -> list R) (gain e : R).
Hypothesis HF : tame gain 0 0 F.
Hypothesis Hgain : 0 <= gain <= 1.
Hypothesis He : 0 <= e.
Hypothesis HG : forall x, length (G x) = length x.
Hypothesis Hnear : forall x, apart (F x) (G x) <= INR (length x) * e.
Lemma apart_via : forall x y z, length x = length y -> length y = length z -> apart x z <= apart x y + apart y z.
Proof.
  induction x as [|a x IH]; intros [|b y] [|c z] E1 E2; try discriminate; cbn; [lra|]. cbn in E1, E2. specialize (IH y z ltac:(lia) ltac:(lia)).
  replace (a - c) with ((a - b) + (b - c)) by ring. pose proof (Rabs_triang (a - b) (b - c)). lra.
Qed.
Lemma reads_by_length (P : list R -> list R) : (forall x, length (P x) = length x) -> forall k x, length (reads_by P k x) = length x.
Proof. intros HP. induction k as [|k IH]; intros x; cbn [reads_by]; [reflexivity|]. rewrite <- (HP x). destruct (P x); cbn; [reflexivity|now rewrite IH]. Qed.
Lemma enters_by_length (P : list R -> list R) : (forall x, length (P x) = length x) -> forall k x, length (enters_by P k x) = length x.
Proof. intros HP. induction k as [|k IH]; intros x; cbn [enters_by]; [reflexivity|]. now rewrite IH, HP. Qed.
Let HFl x : length (F x) = length x. Proof. apply (tm_length _ _ _ _ HF). Qed.
Lemma reads_by_near : forall k x, apart (reads_by F k x) (reads_by G k x) <= INR k * (INR (length x) * e).
Proof.
  induction k as [|k IH]; intros x; cbn [reads_by]; [rewrite apart_refl; cbn; lra|]. rewrite S_INR.
  assert (N : 0 <= INR (length x) * e) by (apply Rmult_le_pos; [apply pos_INR|exact He]).
  pose proof (Hnear x) as A. pose proof (HFl x) as L. pose proof (HG x) as L'.
  destruct (F x) as [|h l]; destruct (G x) as [|h' l']; cbn in L, L'; try lia; cbn [skip apart] in *.
  - pose proof (pos_INR k). pose proof (Rmult_le_pos _ _ H N). lra.
  - pose proof (tame_apart _ _ _ _ l l' (reads_by_tame F gain HF Hgain k) ltac:(lia)) as A1. specialize (IH l').
    pose proof (apart_via (reads_by F k l) (reads_by F k l') (reads_by G k l')) as TR. rewrite !reads_by_length in TR by assumption. specialize (TR ltac:(lia) eq_refl).
    assert (INR k * (INR (length l') * e) <= INR k * (INR (length x) * e)).
    { apply Rmult_le_compat_l; [apply pos_INR|]. apply Rmult_le_compat_r; [exact He|]. apply le_INR. lia. }
    lra.
Qed.
Lemma enters_by_near : forall k x, apart (enters_by F k x) (enters_by G k x) <= INR k * (INR (length x) * e).
Proof.
  induction k as [|k IH]; intros x; cbn [enters_by]; [rewrite apart_refl; cbn; lra|]. rewrite S_INR.
  pose proof (Hnear x) as A. pose proof (tame_apart _ _ _ _ (F x) (G x) (enters_by_tame F gain HF Hgain k) ltac:(now rewrite HFl, HG)) as A1. specialize (IH (G x)). rewrite HG in IH.
  pose proof (apart_via (enters_by F k (F x)) (enters_by F k (G x)) (enters_by G k (G x))) as TR. rewrite !enters_by_length, HFl, HG in TR by assumption. specialize (TR eq_refl eq_refl). lra.
Qed.
Lemma column_by_near k offset x : apart (column_by F k offset x) (column_by G k offset x) <= INR (offset + k) * (INR (length x) * e).
Proof.
  unfold column_by. rewrite plus_INR. pose proof (enters_by_near offset x) as A.
  pose proof (tame_apart _ _ _ _ (enters_by F offset x) (enters_by G offset x) (reads_by_tame F gain HF Hgain k) ltac:(now rewrite !enters_by_length)) as A1.
  pose proof (reads_by_near k (enters_by G offset x)) as A2. rewrite enters_by_length in A2 by assumption.
  pose proof (apart_via (reads_by F k (enters_by F offset x)) (reads_by F k (enters_by G offset x)) (reads_by G k (enters_by G offset x))) as TR. rewrite !reads_by_length, !enters_by_length in TR by assumption. specialize (TR eq_refl eq_refl). lra.
Qed.
End Columns.
