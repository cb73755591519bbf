(** * Traps that take time to capture keep the order of packets and do not enlarge their differences. *)
From Coq Require Import ZArith List Bool Reals Lra Lia.
From Coquelicot Require Import Rcomplements Rbar Hierarchy RInt.
From Verif Require Import Num Py RFacts CCDModel TrapsModel ManagerModel Spec SpecReadout SpecSlow SpecHistory SpecRecovery WmFacts InstantFacts ReadoutSpecFacts SlowFacts OrderFacts TameFacts.
Import ListNotations.
Open Scope R_scope.

(** The occupancy at which capture and emission balance. *)
Definition balance (t : trap R) : R := match t_capture_rate t with RInf => 1 | RFin c => c / (c + t_emission_rate t) end.
Lemma balance_range t : capturing t -> 0 <= balance t <= 1.
Proof.
  intros (Hp & Hc). pose proof (capturing_emission t Hp) as He. unfold balance. destruct (t_capture_rate t) as [|c]; [lra|]. split.
  - left. apply Rdiv_lt_0_compat; lra.
  - apply (Rmult_le_reg_r (c + t_emission_rate t)); [lra|]. unfold Rdiv. rewrite Rmult_assoc, Rinv_l by lra. lra.
Qed.
(** Inside the cloud a trap comes closer to the balance. *)
Lemma towards_balance t dwell : capturing t -> 0 <= dwell -> exists g, 0 <= g <= 1 /\
  forall p, p * if_full t dwell + (1 - p) * if_empty t dwell = balance t + (p - balance t) * g.
Proof.
  intros (Hp & Hc) Hd. pose proof (capturing_emission t Hp) as He. destruct (t_capture_rate t) as [|c] eqn:E.
  { exists 0. split; [lra|]. intros p. unfold if_full, if_empty, balance. rewrite E. lra. }
  exists (exp (- (c + t_emission_rate t) * dwell)). split.
  - split; [left; apply exp_pos|]. rewrite <- exp_0. apply exp_increasing_le || (destruct (Req_dec dwell 0) as [->|]; [rewrite Rmult_0_r; lra|left; apply exp_increasing; nra]).
  - intros p. unfold if_full, if_empty, balance. rewrite E. cbv zeta. field. lra.
Qed.

Section Slow.
Context (traps : list (trap R)) (dwell : R).
Notation n := (length traps).
Hypothesis Hfin : Forall capturing traps.
Hypothesis Hdwell : 0 <= dwell.
Let rho := traps_per_pixel traps.
Notation total P := (electrons traps P 0 1).
Let Hphys : Forall physical traps.
Proof. eapply Forall_impl; [|exact Hfin]. now intros t [H _]. Qed.
Let keep_range s : 0 < exp (- dwell / timescale traps s) <= 1.
Proof. apply decay_range; [exact Hdwell|now apply timescale_pos]. Qed.

(** Occupancies that readout can reach: no trap is above its balance. *)
Definition calm (P : profile) : Prop := tidy n P /\
  forall s t x, nth_error traps s = Some t -> 0 <= x < 1 -> P s x <= balance t.
Lemma slow_species s : (s < n)%nat -> exists t, nth_error traps s = Some t /\ capturing t.
Proof.
  intros Hs. destruct (nth_error traps s) as [t|] eqn:E; [|apply nth_error_None in E; lia]. exists t. split; [reflexivity|].
  apply (proj1 (Forall_forall _ _) Hfin). now apply nth_error_In in E.
Qed.
Lemma calm_empty : calm empty_profile.
Proof.
  split; [apply tidy_empty|]. intros s t x E _. unfold empty_profile. apply balance_range. apply (proj1 (Forall_forall _ _) Hfin). now apply nth_error_In in E.
Qed.

(** Profiles made of two at a depth. *)
Lemma tidy_split v (A B P : profile) : 0 <= v <= 1 -> tidy n A -> tidy n B ->
  (forall s x, (s < n)%nat -> 0 <= x < 1 -> P s x = if Rlt_dec x v then A s x else B s x) -> tidy n P.
Proof.
  intros Hv HA HB HP s Hs. destruct (HA s Hs) as [A1 A2]. destruct (HB s Hs) as [B1 B2]. split.
  - intros x Hx. rewrite HP by auto. destruct (Rlt_dec x v); auto.
  - assert (L : forall a b, 0 <= a <= b -> b <= 1 -> b <= v -> ex_RInt (P s) a b).
    { intros a b Ha Hb Hbv. apply (ex_RInt_ext (A s)); [|now apply A2]. intros x Hx. rewrite Rmin_left, Rmax_right in Hx by lra. rewrite HP by (auto; lra). destruct (Rlt_dec x v); lra. }
    assert (U : forall a b, 0 <= a <= b -> b <= 1 -> v <= a -> ex_RInt (P s) a b).
    { intros a b Ha Hb Hva. apply (ex_RInt_ext (B s)); [|now apply B2]. intros x Hx. rewrite Rmin_left, Rmax_right in Hx by lra. rewrite HP by (auto; lra). destruct (Rlt_dec x v); lra. }
    intros a b Ha Hb. destruct (Rle_dec b v); [apply L; lra|]. destruct (Rle_dec v a); [apply U; lra|].
    apply (ex_RInt_Chasles (V := R_NormedModule) _ a v b); [apply L|apply U]; lra.
Qed.
Lemma calm_release v P : 0 <= v <= 1 -> calm P -> calm (release_above traps dwell v P).
Proof.
  intros Hv [H1 H2]. split.
  - apply (tidy_split v P (after_release traps dwell P)); auto. now apply tidy_release.
  - intros s t x E Hx. specialize (H2 s t x E Hx). assert (Hs : (s < n)%nat) by (apply nth_error_Some; congruence). destruct (H1 s Hs) as [R1 _]. specialize (R1 x Hx). pose proof (keep_range s).
    unfold release_above. destruct (Rlt_dec x v); [exact H2|]. nra.
Qed.
Definition swapped (P : profile) : profile := fun s x =>
  match nth_error traps s with Some t => P s x * if_full t dwell + (1 - P s x) * if_empty t dwell | None => P s x end.
Lemma tidy_swapped P : calm P -> tidy n (swapped P).
Proof.
  intros [H1 _] s Hs. destruct (slow_species s Hs) as (t & E & Ht). destruct (towards_balance t dwell Ht Hdwell) as (g & Hg & G). pose proof (balance_range t Ht) as Hb.
  destruct (H1 s Hs) as [R1 R2]. split.
  - intros x Hx. specialize (R1 x Hx). unfold swapped. rewrite E, G. nra.
  - intros a b Ha Hb'. apply (ex_RInt_ext (fun x => balance t * (1 - g) + g * P s x)).
    + intros x _. unfold swapped. rewrite E, G. lra.
    + apply (ex_RInt_plus (V := R_NormedModule) (fun _ => balance t * (1 - g)) (fun x => g * P s x)); [apply (ex_RInt_const (V := R_NormedModule))|]. apply (ex_RInt_scal (V := R_NormedModule)). now apply R2.
Qed.
Lemma exchange_is v P s x : exchange_below traps dwell v P s x = if Rlt_dec x v then swapped P s x else P s x.
Proof. unfold exchange_below, swapped. destruct (nth_error traps s); destruct (Rlt_dec x v); reflexivity. Qed.
Lemma calm_exchange v P : 0 <= v <= 1 -> calm P -> calm (exchange_below traps dwell v P).
Proof.
  intros Hv HP. split.
  - apply (tidy_split v (swapped P) P); auto using tidy_swapped. apply HP. intros. apply exchange_is.
  - intros s t x E Hx. destruct HP as [H1 H2]. specialize (H2 s t x E Hx). rewrite exchange_is. destruct (Rlt_dec x v); [|exact H2].
    assert (Hs : (s < n)%nat) by (apply nth_error_Some; congruence). destruct (slow_species s Hs) as (t' & E' & Ht). rewrite E in E'. injection E' as <-.
    destruct (towards_balance t dwell Ht Hdwell) as (g & Hg & G). unfold swapped. rewrite E, G. nra.
Qed.
(** Traps inside the cloud only gain. *)
Lemma swapped_gains P s x : calm P -> (s < n)%nat -> 0 <= x < 1 -> P s x <= swapped P s x.
Proof.
  intros [_ H2] Hs Hx. destruct (slow_species s Hs) as (t & E & Ht). specialize (H2 s t x E Hx). destruct (towards_balance t dwell Ht Hdwell) as (g & Hg & G). unfold swapped. rewrite E, G. nra.
Qed.
Lemma swapped_order P Q s x : (s < n)%nat -> Q s x <= P s x -> 0 <= swapped P s x - swapped Q s x <= P s x - Q s x.
Proof.
  intros Hs H. destruct (slow_species s Hs) as (t & E & Ht). destruct (towards_balance t dwell Ht Hdwell) as (g & Hg & G). unfold swapped. rewrite E, !G. nra.
Qed.

(** Totals, from a comparison at every depth except those between [u] and [v]. *)
Lemma total_fill v : 0 <= v <= 1 -> total (fill_to v empty_profile) = rho * v.
Proof.
  intros Hv. rewrite (fill_total traps v empty_profile Hv (tidy_empty traps)). rewrite (demand_value traps empty_profile v (tidy_empty traps) Hv), electrons_empty.
  rewrite (electrons_eq traps empty_profile (fun _ _ => 1 - 1) 0 v) by (try lra; intros; unfold empty_profile; lra). rewrite (electrons_minus traps (fun _ _ => 1) (fun _ _ => 1)) by apply one_integrable. unfold rho. lra.
Qed.
Lemma total_compare u v (P Q P' Q' : profile) : 0 <= u <= v -> v <= 1 -> tidy n P -> tidy n Q -> tidy n P' -> tidy n Q' ->
  (forall s x, (s < n)%nat -> 0 <= x < 1 -> P' s x - Q' s x <= P s x - Q s x + (if Rlt_dec x u then 0 else if Rlt_dec x v then 1 else 0)) ->
  total P' - total Q' <= total P - total Q + rho * (v - u).
Proof.
  intros Hu Hv HP HQ HP' HQ' H. assert (I : forall P, tidy n P -> integrable traps P 0 1) by (intros; apply tidy_integrable; auto; lra).
  assert (M : forall P Q, integrable traps P 0 1 -> integrable traps Q 0 1 -> integrable traps (fun s x => P s x - Q s x) 0 1).
  { intros P0 Q0 HA HB s Hs. apply (ex_RInt_minus (V := R_NormedModule) (P0 s) (Q0 s)); auto. }
  assert (Fv : tidy n (fill_to v empty_profile)) by (apply tidy_fill; [lra|apply tidy_empty]).
  assert (Fu : tidy n (fill_to u empty_profile)) by (apply tidy_fill; [lra|apply tidy_empty]).
  replace (rho * (v - u)) with (total (fill_to v empty_profile) - total (fill_to u empty_profile)) by (rewrite !total_fill by lra; lra).
  cut (total (fun s x => (P' s x - Q' s x) - (P s x - Q s x)) <= total (fun s x => fill_to v empty_profile s x - fill_to u empty_profile s x)).
  { rewrite (electrons_minus traps (fun s x => P' s x - Q' s x) (fun s x => P s x - Q s x)) by auto. rewrite !electrons_minus by auto. lra. }
  apply electrons_le; [exact Hphys|lra|apply (M (fun s x => P' s x - Q' s x) (fun s x => P s x - Q s x)); auto|auto|].
  intros s x Hs Hx. specialize (H s x Hs ltac:(lra)). unfold fill_to, empty_profile. destruct (Rlt_dec x u), (Rlt_dec x v); lra.
Qed.

(** ** Release above the cloud *)
Lemma release_order v u P Q : u <= v -> calm P -> calm Q -> below_profile n Q P ->
  below_profile n (release_above traps dwell u Q) (release_above traps dwell v P).
Proof.
  intros Huv [HP _] [HQ _] H s x Hs Hx. specialize (H s x Hs Hx). destruct (HQ s Hs) as [R _]. specialize (R x Hx). pose proof (keep_range s).
  unfold release_above. destruct (Rlt_dec x u), (Rlt_dec x v); nra.
Qed.
Lemma release_total v u P Q : 0 <= u <= v -> v <= 1 -> calm P -> calm Q -> below_profile n Q P ->
  total (release_above traps dwell v P) - total (release_above traps dwell u Q) <= total P - total Q + rho * (v - u).
Proof.
  intros Hu Hv HP HQ H. apply total_compare; try lra; try apply HP; try apply HQ; [apply calm_release; auto; lra|apply calm_release; auto; lra|].
  intros s x Hs Hx. specialize (H s x Hs Hx). destruct HQ as [HQ _]. destruct (HQ s Hs) as [R _]. specialize (R x Hx). pose proof (keep_range s).
  unfold release_above. destruct (Rlt_dec x u), (Rlt_dec x v); nra.
Qed.
Lemma release_less v P : 0 <= v <= 1 -> calm P -> total (release_above traps dwell v P) <= total P.
Proof.
  intros Hv HP. apply electrons_le; [exact Hphys|lra|apply tidy_integrable; [apply calm_release; auto|lra|lra]|apply tidy_integrable; [apply HP|lra|lra]|].
  intros s x Hs Hx. destruct HP as [HP _]. destruct (HP s Hs) as [R _]. specialize (R x ltac:(lra)). pose proof (keep_range s). unfold release_above. destruct (Rlt_dec x v); nra.
Qed.
(** ** Exchange below the cloud *)
Lemma exchange_order v u P Q : u <= v -> calm P -> calm Q -> below_profile n Q P ->
  below_profile n (exchange_below traps dwell u Q) (exchange_below traps dwell v P).
Proof.
  intros Huv HP HQ H s x Hs Hx. specialize (H s x Hs Hx). rewrite !exchange_is. pose proof (swapped_gains P s x HP Hs Hx). pose proof (swapped_order P Q s x Hs H).
  destruct (Rlt_dec x u), (Rlt_dec x v); lra.
Qed.
Lemma exchange_total v u P Q : 0 <= u <= v -> v <= 1 -> calm P -> calm Q -> below_profile n Q P ->
  total (exchange_below traps dwell v P) - total (exchange_below traps dwell u Q) <= total P - total Q + rho * (v - u).
Proof.
  intros Hu Hv HP HQ H. apply total_compare; try lra; try apply HP; try apply HQ; [apply calm_exchange; auto; lra|apply calm_exchange; auto; lra|].
  intros s x Hs Hx. specialize (H s x Hs Hx). pose proof (swapped_order P Q s x Hs H). pose proof (tidy_swapped P HP s Hs) as [R _]. specialize (R x Hx).
  destruct HP as [HP _]. destruct (HP s Hs) as [R' _]. specialize (R' x Hx). rewrite !exchange_is. destruct (Rlt_dec x u), (Rlt_dec x v); lra.
Qed.
Lemma exchange_range v P : 0 <= v <= 1 -> calm P -> 0 <= total (exchange_below traps dwell v P) - total P <= rho * v.
Proof.
  intros Hv HP. split.
  - assert (total P <= total (exchange_below traps dwell v P)); [|lra].
    apply electrons_le; [exact Hphys|lra|apply tidy_integrable; [apply HP|lra|lra]|apply tidy_integrable; [apply calm_exchange; auto|lra|lra]|].
    intros s x Hs Hx. rewrite exchange_is. pose proof (swapped_gains P s x HP Hs ltac:(lra)). destruct (Rlt_dec x v); lra.
  - pose proof (exchange_total v 0 P P ltac:(lra) ltac:(lra) HP HP (below_refl traps P)) as K.
    assert (E : total (exchange_below traps dwell 0 P) = total P); [|rewrite E in K; lra].
    apply electrons_eq; [lra|]. intros s x Hs Hx. rewrite exchange_is. destruct (Rlt_dec x 0); lra.
Qed.

(** ** One packet *)
Context (well : R -> R) (slope : R).
Hypothesis Hslope : 0 <= slope.
Hypothesis Hzero : well 0 = 0.
Hypothesis Hgrows : forall a b, 0 <= a <= b -> 0 <= well b - well a <= slope * (b - a).
Hypothesis Hwell : forall a, 0 <= a -> 0 <= well a <= 1.
Let keep := 1 - rho * slope.
Hypothesis Hkeep : 0 <= keep.
Let Hrho : 0 <= rho.
Proof. now apply density_nonneg. Qed.
Definition s_packet (m : R) : R := Rmax 0 m.
Definition s_cloud (m : R) (P : profile) : R := cloud_then traps well dwell (s_packet m) P.
Definition s_released (m : R) (P : profile) : profile := release_above traps dwell (well (s_packet m)) P.
Definition s_behind (m : R) (P : profile) : profile := exchange_below traps dwell (well (s_cloud m P)) (s_released m P).
Definition s_leaves (m : R) (P : profile) : R := s_cloud m P - (total (s_behind m P) - total (s_released m P)).
Lemma s_packet_pos m : 0 <= s_packet m. Proof. apply Rmax_l. Qed.
Lemma s_packet_order m m' : m' <= m -> s_packet m' <= s_packet m /\ s_packet m - s_packet m' <= m - m'.
Proof. intros H. unfold s_packet, Rmax. destruct (Rle_dec 0 m), (Rle_dec 0 m'); lra. Qed.
Lemma s_released_calm m P : calm P -> calm (s_released m P).
Proof. intros H. apply calm_release; [apply Hwell, s_packet_pos|exact H]. Qed.
Lemma s_cloud_value m P : s_cloud m P = s_packet m + (total P - total (s_released m P)).
Proof. reflexivity. Qed.
Lemma s_cloud_pos m P : calm P -> s_packet m <= s_cloud m P.
Proof. intros H. rewrite s_cloud_value. pose proof (release_less (well (s_packet m)) P (Hwell _ (s_packet_pos m)) H). unfold s_released. lra. Qed.
Lemma s_cloud_range m P : calm P -> 0 <= well (s_cloud m P) <= 1.
Proof. intros H. apply Hwell. pose proof (s_cloud_pos m P H). pose proof (s_packet_pos m). lra. Qed.
Lemma s_behind_calm m P : calm P -> calm (s_behind m P).
Proof. intros H. apply calm_exchange; [now apply s_cloud_range|now apply s_released_calm]. Qed.
Lemma capacity a : 0 <= a -> rho * well a <= (1 - keep) * a.
Proof.
  intros Ha. pose proof (Hgrows 0 a ltac:(lra)) as G. rewrite Hzero in G. pose proof (Rmult_le_compat_l rho (well a) (slope * a) Hrho ltac:(lra)). unfold keep. lra.
Qed.
Lemma s_leaves_range m P : calm P -> s_cloud m P - rho * well (s_cloud m P) <= s_leaves m P <= s_cloud m P.
Proof. intros H. unfold s_leaves, s_behind. pose proof (exchange_range (well (s_cloud m P)) (s_released m P) (s_cloud_range m P H) (s_released_calm m P H)). lra. Qed.
Lemma s_leaves_pos m P : calm P -> 0 <= s_leaves m P.
Proof.
  intros H. pose proof (s_leaves_range m P H) as [L _]. assert (0 <= s_cloud m P) by (pose proof (s_cloud_pos m P H); pose proof (s_packet_pos m); lra).
  pose proof (capacity _ H0). pose proof (Rmult_le_pos keep (s_cloud m P) Hkeep H0). lra.
Qed.
Lemma spread u v a b : 0 <= a <= b -> u = well a -> v = well b -> rho * (v - u) <= (1 - keep) * (b - a).
Proof.
  intros Hab -> ->. pose proof (Hgrows a b Hab) as [_ G]. pose proof (Rmult_le_compat_l rho _ _ Hrho G). unfold keep. lra.
Qed.
Lemma s_cloud_order m m' P Q : m' <= m -> calm P -> calm Q -> below_profile n Q P ->
  keep * (s_packet m - s_packet m') <= s_cloud m P - s_cloud m' Q /\ below_profile n (s_released m' Q) (s_released m P).
Proof.
  intros Hm HP HQ H. destruct (s_packet_order m m' Hm) as [O _]. pose proof (s_packet_pos m') as P'. pose proof (Hgrows _ _ (conj P' O)) as [G _].
  pose proof (Hwell _ P') as W'. pose proof (Hwell _ (s_packet_pos m)) as W. split.
  - pose proof (release_total (well (s_packet m)) (well (s_packet m')) P Q ltac:(lra) ltac:(lra) HP HQ H) as K.
    pose proof (spread _ _ (s_packet m') (s_packet m) (conj P' O) eq_refl eq_refl). rewrite !s_cloud_value. unfold s_released. lra.
  - apply release_order; auto. lra.
Qed.
Lemma s_leaves_order m m' P Q : m' <= m -> calm P -> calm Q -> below_profile n Q P ->
  keep * (keep * (s_packet m - s_packet m')) <= s_leaves m P - s_leaves m' Q /\
  below_profile n (s_behind m' Q) (s_behind m P) /\
  (s_leaves m P - s_leaves m' Q) + (total (s_behind m P) - total (s_behind m' Q)) <= (m - m') + (total P - total Q).
Proof.
  intros Hm HP HQ H. destruct (s_cloud_order m m' P Q Hm HP HQ H) as [C B]. destruct (s_packet_order m m' Hm) as [O1 O2].
  assert (CC : s_cloud m' Q <= s_cloud m P) by (assert (0 <= s_packet m - s_packet m') by lra; pose proof (Rmult_le_pos _ _ Hkeep H0); lra).
  assert (C0 : 0 <= s_cloud m' Q) by (pose proof (s_cloud_pos m' Q HQ); pose proof (s_packet_pos m'); lra).
  pose proof (Hgrows _ _ (conj C0 CC)) as [G _]. pose proof (s_cloud_range m P HP). pose proof (s_cloud_range m' Q HQ).
  pose proof (s_released_calm m P HP) as HP1. pose proof (s_released_calm m' Q HQ) as HQ1.
  split; [|split].
  - pose proof (exchange_total (well (s_cloud m P)) (well (s_cloud m' Q)) _ _ ltac:(lra) ltac:(lra) HP1 HQ1 B) as K.
    pose proof (spread _ _ _ _ (conj C0 CC) eq_refl eq_refl). pose proof (Rmult_le_compat_l keep _ _ Hkeep C). unfold s_leaves, s_behind. lra.
  - apply exchange_order; auto. lra.
  - unfold s_leaves. rewrite !s_cloud_value. lra.
Qed.

(** ** One pass *)
Fixpoint s_pass (P : profile) (packets : list R) : list R :=
  match packets with
  | [] => []
  | m :: l => s_leaves m P :: s_pass (s_behind m P) l
  end.
Lemma s_pass_length : forall x P, length (s_pass P x) = length x.
Proof. induction x; intros; cbn; auto. Qed.
Lemma s_pass_prefix : forall i x P, s_pass P (firstn i x) = firstn i (s_pass P x).
Proof. induction i; intros [|a x] P; cbn; try reflexivity. rewrite IHi. reflexivity. Qed.
Lemma calm_le P Q : calm P -> calm Q -> below_profile n Q P -> total Q <= total P.
Proof.
  intros [HP _] [HQ _] H. apply electrons_le; [exact Hphys|lra|apply tidy_integrable; auto; lra|apply tidy_integrable; auto; lra|]. intros s x Hs Hx. apply H; auto; lra.
Qed.
Lemma s_pass_order : forall y x, ordered y x -> forall P Q, calm P -> calm Q -> below_profile n Q P ->
  ordered (s_pass Q y) (s_pass P x) /\
  Rsum (s_pass P x) - Rsum (s_pass Q y) <= Rsum x - Rsum y + (total P - total Q).
Proof.
  induction 1 as [|b a y x Hba H IH]; intros P Q HP HQ HL; cbn [s_pass].
  - split; [constructor|]. pose proof (calm_le P Q HP HQ HL). lra.
  - destruct (s_leaves_order a b P Q Hba HP HQ HL) as (O1 & O2 & O3). destruct (s_packet_order a b Hba) as [O4 _].
    destruct (IH (s_behind a P) (s_behind b Q)) as [I1 I2]; auto using s_behind_calm.
    split; [constructor; [|exact I1]|].
    + pose proof (Rmult_le_pos keep _ Hkeep (Rmult_le_pos keep _ Hkeep (proj1 (Rminus_le_0 _ _) O4))). lra.
    + rewrite !Rsum_cons. lra.
Qed.
Lemma s_leaves_same m m' P : 0 <= m' <= m -> calm P -> keep * keep * (m - m') <= s_leaves m P - s_leaves m' P.
Proof.
  intros Hm HP. destruct (s_leaves_order m m' P P ltac:(lra) HP HP (below_refl traps P)) as [H _]. unfold s_packet in H. rewrite !Rmax_right in H by lra. lra.
Qed.
Lemma s_pass_grow : forall p a b P, calm P -> b <= a -> 0 <= b ->
  keep * keep * (a - b) <= last (s_pass P (p ++ [a])) 0 - last (s_pass P (p ++ [b])) 0.
Proof.
  induction p as [|h p IH]; intros a b P HP Hab Hb; cbn [app s_pass].
  - cbn [last]. apply s_leaves_same; auto.
  - rewrite !last_cons by (intros E; apply (f_equal (@length R)) in E; rewrite s_pass_length, app_length in E; cbn in E; lia).
    apply IH; auto. now apply s_behind_calm.
Qed.
Lemma s_pass_pos : forall x P, calm P -> Forall (Rle 0) (s_pass P x).
Proof. induction x as [|m x IH]; intros P HP; cbn [s_pass]; constructor; [now apply s_leaves_pos|]. apply IH. now apply s_behind_calm. Qed.
Lemma s_pass_tame : tame (keep * keep) 0 0 (s_pass empty_profile).
Proof.
  assert (N := calm_empty). constructor.
  - intros. apply s_pass_length.
  - intros. apply s_pass_prefix.
  - intros y x O. apply (s_pass_order y x O); auto using below_refl.
  - intros y x O. destruct (s_pass_order y x O empty_profile empty_profile N N (below_refl traps _)) as [_ K]. lra.
  - intros p a b Hab Hb. now apply s_pass_grow.
  - intros p b Hb. pose proof (s_pass_pos (p ++ [b]) empty_profile N) as K.
    assert (E : s_pass empty_profile (p ++ [b]) <> []) by (intros E; apply (f_equal (@length R)) in E; rewrite s_pass_length, app_length in E; cbn in E; lia).
    destruct (exists_last E) as (q & z & Eq). rewrite Eq in *. rewrite last_last. apply Forall_app in K as [_ K]. now inversion K.
Qed.

(** ** The recomputed cloud stays inside the levels, and finds enough electrons *)
Definition none_above (top : R) (P : profile) : Prop := forall s x, (s < n)%nat -> top <= x < 1 -> P s x = 0.
Lemma none_empty top : none_above top empty_profile.
Proof. intros s x _ _. reflexivity. Qed.
Lemma released_above_top top v P : 0 <= v <= 1 -> top <= v -> none_above top P -> total (release_above traps dwell v P) = total P.
Proof.
  intros Hv Ht H. apply electrons_eq; [lra|]. intros s x Hs Hx. unfold release_above. destruct (Rlt_dec x v); [reflexivity|]. rewrite (H s x Hs) by lra. lra.
Qed.
Lemma released_at_most top v P : 0 <= v <= top -> top <= 1 -> calm P -> none_above top P -> total P - total (release_above traps dwell v P) <= rho * (top - v).
Proof.
  intros Hv Ht HP H. rewrite <- (released_above_top top top P) at 1 by (auto; lra).
  assert (K := release_total top v P P Hv Ht HP HP (below_refl traps P)). lra.
Qed.
Lemma s_inside m P top : 0 <= top <= 1 -> calm P -> none_above top P -> (top < well (s_packet m) /\ well (s_cloud m P) = well (s_packet m)) \/ (well (s_packet m) <= top /\ well (s_cloud m P) <= top).
Proof.
  intros Ht HP H. pose proof (Hwell _ (s_packet_pos m)) as W. destruct (Rlt_dec top (well (s_packet m))) as [L|L].
  - left. split; [exact L|]. f_equal. rewrite s_cloud_value. unfold s_released. rewrite (released_above_top top) by (auto; lra). lra.
  - right. split; [lra|]. pose proof (s_cloud_pos m P HP) as C. pose proof (released_at_most top (well (s_packet m)) P ltac:(lra) ltac:(lra) HP H) as D.
    pose proof (Hgrows (s_packet m) (s_cloud m P) (conj (s_packet_pos m) C)) as [_ G]. rewrite s_cloud_value in G at 2. unfold s_released in G.
    assert (slope * (s_packet m + (total P - total (release_above traps dwell (well (s_packet m)) P)) - s_packet m) <= slope * (rho * (top - well (s_packet m)))) by (apply Rmult_le_compat_l; lra).
    assert (rho * slope * (top - well (s_packet m)) <= 1 * (top - well (s_packet m))) by (apply Rmult_le_compat_r; unfold keep in Hkeep; lra). lra.
Qed.
Lemma s_behind_none m P top : 0 <= top <= 1 -> calm P -> none_above top P -> none_above (Rmax top (well (s_packet m))) (s_behind m P).
Proof.
  intros Ht HP H s x Hs Hx. pose proof (s_inside m P top Ht HP H) as I. pose proof (Rmax_l top (well (s_packet m))). pose proof (Rmax_r top (well (s_packet m))).
  unfold s_behind. rewrite exchange_is. destruct (Rlt_dec x (well (s_cloud m P))); [lra|]. unfold s_released, release_above. rewrite (H s x Hs) by lra. destruct (Rlt_dec x _); lra.
Qed.
End Slow.
