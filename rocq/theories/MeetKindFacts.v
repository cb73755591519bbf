(** * Groups of traps of each kind, as their managers represent them. *)
From Coq Require Import ZArith List Bool Reals Lra Lia.
From Coquelicot Require Import Rcomplements Rbar Hierarchy RInt.
From Verif Require Import Num Py RFacts CCDModel TrapsModel ManagerModel ROEModel ClockModel MainModel Spec SpecROE SpecImage SpecReadout SpecTime SpecSlow SpecHistory SpecHold SpecFlatten SpecBound SpecRecovery SpecMeet
  WmFacts ArrayFacts CutFacts InstantFacts OrderFacts PhaseOrderFacts ExpressOrderFacts DepthFacts AboveFacts TimeFacts TimeInstantFacts SlowFacts SlowSpecFacts HistorySpecFacts HistoryBoundFacts TimesOrderFacts TimesGridFacts SlowOrderFacts GridFacts ReadoutImage ReadoutSpecFacts TameFacts.
Import ListNotations.
Open Scope R_scope.

Lemma kind_cases g : kind_group g ->
  (kind_for g = KInstant /\ Forall physical g) \/ (kind_for g = KSlow /\ Forall capturing g) \/ (kind_for g = KTime /\ Forall flattening g).
Proof.
  intros [Hne [H|[H|H]]]; [left|right; left|right; right; exact H].
  - split; [|eapply Forall_impl; [|exact H]; intros t [Ht _]; exact Ht]. destruct g as [|t g]; [congruence|]. inversion H as [|? ? [_ E] _]; subst. cbn. now rewrite E.
  - split; [|eapply Forall_impl; [|exact H]; intros t [Ht _]; exact Ht]. destruct g as [|t g]; [congruence|]. inversion H as [|? ? [_ E] _]; subst. cbn. now rewrite E.
Qed.
Lemma kind_thinned f g : kind_for (map (thinned f) g) = kind_for g.
Proof. destruct g as [|t g]; reflexivity. Qed.
Lemma kind_group_thinned f g : 0 < f -> kind_group g -> kind_group (map (thinned f) g).
Proof.
  intros Hf [Hne H]. split; [destruct g; [congruence|discriminate]|]. destruct H as [H|[H|[H1 H]]].
  - left. apply Forall_map. eapply Forall_impl; [|exact H]. intros t [Ht E]. split; [|exact E].
    assert (HP : Forall physical (map (thinned f) [t])) by (apply GridFacts.thinned_physical; [lra|constructor; [exact Ht|constructor]]). inversion HP; assumption.
  - right; left. apply Forall_map. eapply Forall_impl; [|exact H]. intros t [Ht E]. split; [|exact E].
    assert (HP : Forall capturing (map (thinned f) [t])) by (apply thinned_capturing; [lra|constructor; [exact Ht|constructor]]). inversion HP; assumption.
  - right; right. split; [rewrite kind_thinned; exact H1|]. now apply thinned_flattening.
Qed.
Lemma group_traps_thinned f g : group_traps (map (thinned f) g) = f * group_traps g.
Proof. unfold group_traps. rewrite kind_thinned. destruct (kind_for g); [apply full_thinned|apply full_thinned|apply filled_thinned]. Qed.
Lemma group_traps_pos g : kind_group g -> 0 <= group_traps g.
Proof.
  intros H. unfold group_traps. destruct (kind_cases g H) as [[-> Hp]|[[-> Hp]|[-> Hp]]].
  - exact (physical_density _ Hp).
  - apply (physical_density g). eapply Forall_impl; [|exact Hp]. intros t [Ht _]. exact Ht.
  - now apply rho_pos.
Qed.

Section Group.
Context (g : list (trap R)) (full beta : R).
Hypothesis Hg : kind_group g.
Hypothesis Hfull : 0 < full.
Hypothesis Hbeta : 0 < beta.
Notation n := (length g).
Notation well := (depth full beta).
Notation slope := (beta / full).
Let rho := group_traps g.
Let Hn : (0 < n)%nat. Proof. destruct Hg as [H _]. destruct g; [congruence|cbn; lia]. Qed.
Let Hsens : sensitive well := depth_sensitive full beta Hfull Hbeta.
Let Hzero : well 0 = 0 := proj1 Hsens.
Let Hwell a : 0 <= a -> 0 <= well a <= 1.
Proof. intros _. now apply depth_range. Qed.
Let Hslope : 0 <= slope.
Proof. left. now apply Rdiv_lt_0_compat. Qed.
Let Hrho : 0 <= rho := group_traps_pos g Hg.

Definition g_rep (u : nat) (m : manager R) (s : group_state) : Prop :=
  match s with
  | Occupied P =>
      match kind_for g with
      | KSlow => exists w, m = mkManager KSlow g w /\ describes n w (2 * u) P /\ calm g P /\ none_above g (volume w) P /\ 0 <= volume w <= 1
      | KInstant => represents g u m P
      | KTime => False
      end
  | Since T => kind_for g = KTime /\ exists w, m = mkManager KTime g w /\ records n w u T /\ neat n T
  end.
Lemma g_init N : g_rep N (manager_init (kind_for g) g N) (unfilled g).
Proof.
  unfold g_rep, unfilled. destruct (kind_cases g Hg) as [[E Hp]|[[E Hp]|[E Hp]]]; rewrite E.
  - apply init_represents.
  - destruct (init_describes g N KSlow) as [D V]. exists (m_wm (manager_init KSlow g N)). split; [reflexivity|]. rewrite V. split; [replace (2 * N)%nat with (N * 2)%nat by lia; exact D|].
    split; [now apply calm_empty|]. split; [apply none_empty|lra].
  - split; [reflexivity|]. exists (m_wm (manager_init KTime g N)). split; [reflexivity|]. split; [now apply (init_records g N KTime)|apply neat_never].
Qed.

(** States that can be reached, their order, and the electrons they hold. *)
Definition g_ok (s : group_state) : Prop :=
  match s with
  | Occupied P => match kind_for g with KSlow => calm g P | KInstant => tidy n P | KTime => False end
  | Since T => kind_for g = KTime /\ neat n T
  end.
Definition g_le (s s' : group_state) : Prop :=
  match s, s' with
  | Occupied P, Occupied P' => below_profile n P P'
  | Since T, Since T' => later n T' T
  | _, _ => False
  end.
Definition g_amount (s : group_state) : R :=
  match s with Occupied P => electrons g P 0 1 | Since T => held g T end.
Lemma g_ok_start : g_ok (unfilled g).
Proof.
  unfold g_ok, unfilled. destruct (kind_cases g Hg) as [[E Hp]|[[E Hp]|[E Hp]]]; rewrite E.
  - apply tidy_empty.
  - now apply calm_empty.
  - split; [reflexivity|apply neat_never].
Qed.
Lemma g_le_refl s : g_le s s.
Proof. destruct s as [P|T]; cbn; [intros a x _ _; lra|apply later_refl]. Qed.
Lemma g_range s : g_ok s -> 0 <= g_amount s <= rho.
Proof.
  unfold g_ok, g_amount, rho, group_traps. destruct s as [P|T].
  - assert (K : Forall physical g -> tidy n P -> 0 <= electrons g P 0 1 <= full_traps g).
    { intros Hp HP. pose proof (electrons_nonneg g Hp P 0 1 HP ltac:(lra) ltac:(lra)). pose proof (electrons_at_most g Hp P 0 1 HP ltac:(lra) ltac:(lra)) as K. change (full_traps g) with (SpecRecovery.traps_per_pixel g). lra. }
    destruct (kind_cases g Hg) as [[E Hp]|[[E Hp]|[E Hp]]]; rewrite E.
    + exact (K Hp).
    + intros [HP _]. apply K; [|exact HP]. eapply Forall_impl; [|exact Hp]. intros t [Ht _]. exact Ht.
    + intros [].
  - intros [E HT]. rewrite E. destruct (kind_cases g Hg) as [[E' _]|[[E' _]|[_ Hp]]]; [congruence|congruence|].
    pose proof (taken_range g Hp 1 T ltac:(lra) HT) as [K1 _]. unfold taken in K1.
    split.
    + unfold held. eapply Rle_trans; [right; symmetry; apply (electrons_empty g)|]. apply dens_le.
      * now apply flat_dens.
      * apply tidy_integrable; [apply tidy_empty|lra|lra].
      * now apply neat_integrable.
      * intros s x Hs Hx. apply (filled_range g Hp T s x HT Hs Hx).
    + pose proof (held_first g 1 ltac:(lra)) as H1. 
      assert (held g T <= held g (fill_now 1 never)); [|lra]. apply held_later; auto; [apply neat_fill, neat_never|].
      intros s x Hs Hx. destruct (T s x) as [t|] eqn:Et; [|exact I]. unfold fill_now. destruct (Rlt_dec x 1); [|lra]. exists 0. split; [reflexivity|]. exact (proj1 HT s x Hs Hx t Et).
Qed.
Lemma g_more s s' : g_ok s' -> g_ok s -> g_le s' s -> g_amount s' <= g_amount s.
Proof.
  destruct s as [P|T], s' as [P'|T']; cbn; try contradiction.
  - intros H' H HL. assert (K : Forall physical g -> tidy n P -> tidy n P' -> electrons g P' 0 1 <= electrons g P 0 1).
    { intros Hp HP HP'. apply electrons_le; [exact Hp|lra|apply tidy_integrable; auto; lra|apply tidy_integrable; auto; lra|]. intros s x Hs Hx. apply HL; [exact Hs|lra]. }
    destruct (kind_cases g Hg) as [[E Hp]|[[E Hp]|[E Hp]]]; rewrite E in *; [now apply K| |contradiction].
    apply K; [|apply H|apply H']. eapply Forall_impl; [|exact Hp]. intros t [Ht _]. exact Ht.
  - intros [E H'] [_ H] HL. destruct (kind_cases g Hg) as [[E' _]|[[E' _]|[_ Hp]]]; [congruence|congruence|]. now apply held_later.
Qed.

Hypothesis Hroom : kind_for g = KInstant \/ 1 <= beta /\ rho * beta < full.
Let Hgrows : 1 <= beta -> forall a b, 0 <= a <= b -> 0 <= well b - well a <= slope * (b - a).
Proof. intros Hb a b Hab. pose proof (depth_grows full beta a b Hfull Hbeta Hab). pose proof (depth_slope full beta a b Hfull Hb Hab). lra. Qed.
Let small : rho * beta < full -> rho * slope < 1.
Proof. intros H. apply (Rmult_lt_reg_r full); [exact Hfull|]. replace (rho * slope * full) with (rho * beta) by (field; lra). lra. Qed.

(** ** One call, for each kind *)
Section Slow.
Hypothesis E : kind_for g = KSlow.
Hypothesis Hfin : Forall capturing g.
Context (dwell : R) (Hd : 0 < dwell).
Let Hb : 1 <= beta. Proof. destruct Hroom as [H|[H _]]; [congruence|exact H]. Qed.
Let Hk : 0 <= 1 - SpecRecovery.traps_per_pixel g * slope.
Proof. destruct Hroom as [H|[_ H]]; [congruence|]. apply small in H. unfold rho, group_traps in H. rewrite E in H. change (SpecRecovery.traps_per_pixel g) with (full_traps g). lra. Qed.
Let Hd0 : 0 <= dwell. Proof. lra. Qed.
Lemma slow_meets m P : 0 <= m -> calm g P ->
  slow_after g well dwell m P = s_behind g dwell well m P /\ - slow_taken g well dwell m P = s_leaves g dwell well m P - m /\
  cloud_then g well dwell m P = s_cloud g dwell well m P.
Proof.
  intros Hm HP.
  assert (Em : s_packet m = m) by (apply Rmax_right; lra).
  assert (Ec : cloud_then g well dwell m P = s_cloud g dwell well m P) by (unfold s_cloud; rewrite Em; reflexivity).
  assert (Ex : exchanged g well dwell m P = s_behind g dwell well m P) by (unfold exchanged, s_behind, s_released; rewrite Ec, Em; reflexivity).
  assert (Eg : m - gain g well dwell m P = s_leaves g dwell well m P) by (unfold gain, s_leaves; rewrite Ex, s_cloud_value, Em; lra).
  pose proof (s_leaves_pos g dwell Hfin Hd0 well slope Hzero (Hgrows Hb) Hwell Hk m P HP) as L0.
  pose proof (s_cloud_pos g dwell Hfin Hd0 well Hwell m P HP) as C. rewrite Em in C.
  assert (Gc : gain g well dwell m P <= cloud_then g well dwell m P) by (rewrite Ec; lra).
  split; [unfold slow_after; destruct (Rle_dec _ _); [exact Ex|contradiction]|]. split; [|exact Ec].
  unfold slow_taken. rewrite Rmin_left by exact Gc. lra.
Qed.
Lemma slow_g_room m P : 0 <= m -> calm g P -> gain g well dwell m P <= cloud_then g well dwell m P.
Proof.
  intros Hm HP. assert (Em : s_packet m = m) by (apply Rmax_right; lra).
  assert (Ec : cloud_then g well dwell m P = s_cloud g dwell well m P) by (unfold s_cloud; rewrite Em; reflexivity).
  assert (Ex : exchanged g well dwell m P = s_behind g dwell well m P) by (unfold exchanged, s_behind, s_released; rewrite Ec, Em; reflexivity).
  assert (Eg : m - gain g well dwell m P = s_leaves g dwell well m P) by (unfold gain, s_leaves; rewrite Ex, s_cloud_value, Em; lra).
  pose proof (s_leaves_pos g dwell Hfin Hd0 well slope Hzero (Hgrows Hb) Hwell Hk m P HP) as L0.
  pose proof (s_cloud_pos g dwell Hfin Hd0 well Hwell m P HP) as C. rewrite Em in C. rewrite Ec. lra.
Qed.
Lemma slow_g_step u m P x fill : (forall a, 0 <= a -> fill a = Ok (well a)) -> 0 <= x -> g_rep (S u) m (Occupied P) ->
  exists m', manager_step m x fill dwell = Ok (- slow_taken g well dwell x P, m') /\ g_rep u m' (Occupied (slow_after g well dwell x P)).
Proof.
  intros Hf Hx. cbn. rewrite E. intros (w & -> & D & C & N & V).
  destruct (slow_meets x P Hx C) as (E1 & _ & E3).
  assert (Em : s_packet x = x) by (apply Rmax_right; lra).
  pose proof (s_inside g dwell Hfin Hd0 well slope Hslope (Hgrows Hb) Hwell Hk x P (volume w) V C N) as I. rewrite Em in I.
  destruct (slow_enough g w (2 * u) P fill well x dwell Hn Hfin) as (w' & S1 & S2 & S3); auto.
  { replace (2 + 2 * u)%nat with (2 * S u)%nat by lia. exact D. }
  { unfold stays_inside. rewrite E3. destruct I as [[I _]|[_ I]]; [left|right]; exact I. }
  { exact (slow_g_room x P Hx C). }
  exists (mkManager KSlow g w'). split; [exact S1|]. exists w'. split; [reflexivity|]. split; [exact S3|]. rewrite E1.
  split; [exact (s_behind_calm g dwell Hfin Hd0 well Hwell x P C)|].
  pose proof (s_behind_none g dwell Hfin Hd0 well slope Hslope (Hgrows Hb) Hwell Hk x P (volume w) V C N) as K. rewrite Em in K.
  rewrite S2. split; [exact K|]. pose proof (Hwell x Hx). split; [apply Rle_trans with (volume w); [lra|apply Rmax_l]|apply Rmax_lub; lra].
Qed.
Lemma slow_g_order m m' P Q : 0 <= m' <= m -> calm g P -> calm g Q -> below_profile n Q P ->
  - ((1 - (1 - rho * slope) ^ 2) * (m - m')) <= - slow_taken g well dwell m P - - slow_taken g well dwell m' Q /\
  below_profile n (slow_after g well dwell m' Q) (slow_after g well dwell m P).
Proof.
  intros Hm HP HQ HB. destruct (slow_meets m P ltac:(lra) HP) as (E1 & E2 & _). destruct (slow_meets m' Q ltac:(lra) HQ) as (F1 & F2 & _).
  rewrite E1, E2, F1, F2. destruct (s_leaves_order g dwell Hfin Hd0 well slope (Hgrows Hb) Hwell Hk m m' P Q ltac:(lra) HP HQ HB) as (L & B & _).
  split; [|exact B]. unfold s_packet in L. rewrite !Rmax_right in L by lra.
  change (SpecRecovery.traps_per_pixel g) with (full_traps g) in L. unfold rho, group_traps. rewrite E. lra.
Qed.
Lemma slow_g_after m P : 0 <= m -> calm g P -> calm g (slow_after g well dwell m P) /\
  electrons g (slow_after g well dwell m P) 0 1 = electrons g P 0 1 - - slow_taken g well dwell m P.
Proof.
  intros Hm HP. destruct (slow_meets m P Hm HP) as (E1 & E2 & _). rewrite E1, E2. split; [exact (s_behind_calm g dwell Hfin Hd0 well Hwell m P HP)|].
  unfold s_leaves. rewrite s_cloud_value. unfold s_packet. rewrite Rmax_right by lra. lra.
Qed.
Lemma slow_g_alone P : calm g P -> 0 <= - slow_taken g well dwell 0 P.
Proof.
  intros HP. destruct (slow_meets 0 P ltac:(lra) HP) as (_ & E2 & _). rewrite E2.
  pose proof (s_leaves_pos g dwell Hfin Hd0 well slope Hzero (Hgrows Hb) Hwell Hk 0 P HP). lra.
Qed.
End Slow.

Section Timed.
Hypothesis E : kind_for g = KTime.
Hypothesis Hflat : Forall flattening g.
Context (dwell : R) (Hd : 0 < dwell).
Let Hb : 1 <= beta. Proof. destruct Hroom as [H|[H _]]; [congruence|exact H]. Qed.
Let Erho : filled_traps g = rho. Proof. unfold rho, group_traps. now rewrite E. Qed.
Let Hk : 0 <= 1 - filled_traps g * slope.
Proof. destruct Hroom as [H|[_ H]]; [congruence|]. apply small in H. rewrite Erho. lra. Qed.
Let Hd0 : 0 <= dwell. Proof. lra. Qed.
Lemma time_meets m T : 0 <= m -> neat n T ->
  times_after g well dwell m T = t_behind g dwell well m T /\ held g T - held g (times_after g well dwell m T) = t_leaves g dwell well m T - m /\
  wanted g well dwell m T <= cloud_after g dwell m T.
Proof.
  intros Hm HT. pose proof (held_wait g dwell Hflat Hd0 T HT) as G.
  assert (C : 0 <= cloud_after g dwell m T) by (unfold cloud_after; lra).
  assert (Ec : t_cloud g dwell m T = cloud_after g dwell m T) by (unfold t_cloud; apply Rmax_right; lra).
  assert (Et : times_after g well dwell m T = t_behind g dwell well m T) by (unfold times_after, t_behind; rewrite Ec; reflexivity).
  assert (El : t_leaves g dwell well m T = cloud_after g dwell m T - wanted g well dwell m T) by (unfold t_leaves, taken, wanted; rewrite Et; unfold t_behind; rewrite Ec; reflexivity).
  split; [exact Et|]. split; [rewrite El; unfold wanted, cloud_after; lra|].
  pose proof (t_leaves_pos g dwell Hflat Hd0 well slope Hzero (Hgrows Hb) Hwell Hk m T HT) as L. lra.
Qed.
Lemma time_g_step u m T x fill : (forall a, 0 <= a -> fill a = Ok (well a)) -> 0 <= x -> g_rep (S u) m (Since T) ->
  exists m', manager_step m x fill dwell = Ok (held g T - held g (times_after g well dwell x T), m') /\ g_rep u m' (Since (times_after g well dwell x T)).
Proof.
  intros Hf Hx (_ & w & -> & D & N). destruct (time_meets x T Hx N) as (E1 & _ & E3).
  destruct (time_step g w u T fill well x dwell Hn) as (S1 & _); auto.
  { eapply Forall_impl; [|exact Hflat]. intros t [[Ht _] _]. exact Ht. }
  destruct (S1 E3) as (w' & S2 & S3). exists (mkManager KTime g w'). split; [exact S2|]. split; [exact E|]. exists w'. split; [reflexivity|]. split; [exact S3|].
  rewrite E1. now apply t_behind_neat.
Qed.
Lemma time_g_order m m' T S : 0 <= m' <= m -> neat n T -> neat n S -> later n T S ->
  - (rho * slope * (m - m')) <= held g T - held g (times_after g well dwell m T) - (held g S - held g (times_after g well dwell m' S)) /\
  later n (times_after g well dwell m T) (times_after g well dwell m' S).
Proof.
  intros Hm HT HS HL. destruct (time_meets m T ltac:(lra) HT) as (E1 & E2 & _). destruct (time_meets m' S ltac:(lra) HS) as (F1 & F2 & _).
  rewrite E2, F2, E1, F1. destruct (t_leaves_order g dwell Hflat Hd0 well slope (Hgrows Hb) Hwell m m' T S ltac:(lra) HT HS HL) as (L & B & _).
  split; [|exact B]. pose proof (gone_later g dwell Hflat Hd0 T S HT HS HL) as GL. pose proof (held_wait g dwell Hflat Hd0 S HS) as G. pose proof (held_wait g dwell Hflat Hd0 T HT) as G2.
  unfold t_cloud in L. rewrite !Rmax_right in L by (unfold cloud_after; lra). rewrite Erho in *.
  assert (K : (1 - rho * slope) * (m - m') <= (1 - rho * slope) * (cloud_after g dwell m T - cloud_after g dwell m' S)) by (apply Rmult_le_compat_l; [exact Hk|unfold cloud_after; lra]). lra.
Qed.
Lemma time_g_alone T : neat n T -> 0 <= held g T - held g (times_after g well dwell 0 T).
Proof.
  intros HT. destruct (time_meets 0 T ltac:(lra) HT) as (_ & E2 & _). rewrite E2.
  pose proof (t_leaves_pos g dwell Hflat Hd0 well slope Hzero (Hgrows Hb) Hwell Hk 0 T HT). lra.
Qed.
End Timed.

(** ** Any kind *)
Lemma g_step u m s x dwell fill : (forall a, 0 <= a -> fill a = Ok (well a)) -> 0 <= x -> 0 < dwell -> g_rep (S u) m s ->
  exists m', manager_step m x fill dwell = Ok (group_net g well dwell x s, m') /\ g_rep u m' (group_after g well dwell x s).
Proof.
  intros Hf Hx Hd HR. destruct s as [P|T]; unfold group_net, group_after.
  - destruct (kind_cases g Hg) as [[E Hp]|[[E Hp]|[E Hp]]]; rewrite E.
    + cbn in HR |- *. rewrite E in HR |- *. destruct (instant_step_ok g m P u fill well x dwell Hp Hn HR Hsens Hf Hx Hd) as (m' & E1 & E2 & _).
      exists m'. split; [|exact E2]. destruct HR as (l & k & -> & _). exact E1.
    + now apply (slow_g_step E Hp dwell Hd u m P x fill).
    + cbn in HR. rewrite E in HR. contradiction.
  - pose proof HR as [E _]. destruct (kind_cases g Hg) as [[E' _]|[[E' _]|[_ Hp]]]; [congruence|congruence|]. now apply (time_g_step E Hp dwell Hd u m T x fill).
Qed.
Hypothesis Hbeta1 : 1 <= beta.
Hypothesis Hsmall : rho * beta < full.
Let Hgrad : Forall physical g -> kind_for g = KInstant -> gradual g well 0 slope.
Proof.
  intros Hp E. assert (K : SpecRecovery.traps_per_pixel g = rho) by (unfold rho, group_traps; rewrite E; reflexivity).
  assert (Es : slope_of full beta 0 = slope) by (unfold slope_of; destruct (Req_EM_T 0 0); [reflexivity|lra]). rewrite <- Es.
  apply mild_gradual; [exact Hfull|exact Hbeta|rewrite K; exact Hrho|]. left. rewrite K. auto.
Qed.
Let Hneg a : a <= 0 -> well a = 0.
Proof. intros Ha. unfold depth. destruct (Rle_dec a 0); [reflexivity|contradiction]. Qed.
Let Hk1 : kind_for g = KInstant -> SpecRecovery.traps_per_pixel g * slope <= 1.
Proof. intros E. apply small in Hsmall. unfold rho, group_traps in Hsmall. rewrite E in Hsmall. change (SpecRecovery.traps_per_pixel g) with (full_traps g). lra. Qed.
Lemma g_meets dwell m s : 0 < dwell -> 0 <= m -> g_ok s -> g_ok (group_after g well dwell m s) /\ g_amount (group_after g well dwell m s) = g_amount s - group_net g well dwell m s.
Proof.
  intros Hd Hm. destruct s as [P|T]; unfold group_net, group_after; cbn [g_ok g_amount].
  - destruct (kind_cases g Hg) as [[E Hp]|[[E Hp]|[E Hp]]]; rewrite E; intros HP.
    + split; [|apply (net_after g dwell Hp ltac:(lra) well slope (Hgrad Hp E) Hwell Hneg m P Hm HP)].
      apply (tidy_alike n (behind g dwell well 0 m P)); [|apply (behind_tidy g dwell Hp ltac:(lra) well 0 Hwell m P HP)].
      intros s x Hs Hx. symmetry. apply (after_behind g dwell Hp ltac:(lra) well slope (Hgrad Hp E) Hwell Hneg m P HP s x Hs Hx).
    + now apply (slow_g_after E Hp dwell Hd).
    + contradiction.
  - intros [E HT]. destruct (kind_cases g Hg) as [[E' _]|[[E' _]|[_ Hp]]]; [congruence|congruence|].
    destruct (time_meets E Hp dwell Hd m T Hm HT) as (E1 & _). split; [|lra]. split; [exact E|]. rewrite E1. now apply t_behind_neat; [lra|].
Qed.
Lemma g_order dwell m m' s s' : 0 < dwell -> 0 <= m' <= m -> g_ok s' -> g_ok s -> g_le s' s ->
  - (grip (kind_for g) (rho * slope) * (m - m')) <= group_net g well dwell m s - group_net g well dwell m' s' /\
  g_le (group_after g well dwell m' s') (group_after g well dwell m s).
Proof.
  intros Hd Hm. destruct s as [P|T], s' as [P'|T']; cbn [g_ok g_le]; unfold group_net, group_after; try contradiction.
  - destruct (kind_cases g Hg) as [[E Hp]|[[E Hp]|[E Hp]]]; rewrite E; intros HP' HP HB; cbn [grip].
    + assert (K : SpecRecovery.traps_per_pixel g = rho) by (unfold rho, group_traps; rewrite E; reflexivity). split.
      * rewrite <- K. apply (net_order g dwell Hp ltac:(lra) well slope (Hgrad Hp E) Hwell (Hk1 E) m m' P P' Hm HP HP' HB).
      * intros s x Hs Hx. rewrite (after_behind g dwell Hp ltac:(lra) well slope (Hgrad Hp E) Hwell Hneg m P HP s x Hs Hx), (after_behind g dwell Hp ltac:(lra) well slope (Hgrad Hp E) Hwell Hneg m' P' HP' s x Hs Hx).
        apply (leaves_order g dwell Hp ltac:(lra) well 0 slope (Hgrad Hp E) Hwell m m' P P' ltac:(lra) HP HP' HB); assumption.
    + now apply (slow_g_order E Hp dwell Hd).
    + contradiction.
  - intros [E HT'] [_ HT] HL. destruct (kind_cases g Hg) as [[E' _]|[[E' _]|[_ Hp]]]; [congruence|congruence|]. rewrite E. cbn [grip]. now apply (time_g_order E Hp dwell Hd).
Qed.
Lemma g_alone dwell s : 0 < dwell -> g_ok s -> 0 <= group_net g well dwell 0 s.
Proof.
  intros Hd. destruct s as [P|T]; unfold group_net; cbn [g_ok].
  - destruct (kind_cases g Hg) as [[E Hp]|[[E Hp]|[E Hp]]]; rewrite E; intros HP.
    + rewrite (net_alone g dwell Hp ltac:(lra) well slope (Hgrad Hp E) Hwell P HP). now apply (leaves_nonneg g dwell Hp ltac:(lra) well slope (Hgrad Hp E) Hwell).
    + now apply (slow_g_alone E Hp dwell Hd).
    + contradiction.
  - intros [E HT]. destruct (kind_cases g Hg) as [[E' _]|[[E' _]|[_ Hp]]]; [congruence|congruence|]. now apply (time_g_alone E Hp dwell Hd).
Qed.
Lemma grip_range : 0 <= grip (kind_for g) (rho * slope) < 1.
Proof.
  assert (0 <= rho * slope) by (apply Rmult_le_pos; assumption). pose proof (small Hsmall). destruct (kind_for g); cbn [grip]; nra.
Qed.
End Group.
