(** * Traps in wells whose depth is proportional to the charge: a fainter cloud does the same in proportion. *)
From Coquelicot Require Import Coquelicot.
From Coq Require Import ZArith List Bool Reals Lra Lia FunctionalExtensionality.
From Verif Require Import Num Py RFacts CCDModel TrapsModel ManagerModel ROEModel ClockModel MainModel Spec SpecROE SpecImage SpecReadout SpecTime SpecSlow SpecHistory SpecHold SpecFlatten SpecBound SpecRecovery SpecMeet
  WmFacts OrderFacts DepthFacts TimesOrderFacts SlowOrderFacts ReadoutImage ReadoutSpecFacts ReadoutColumnFacts AboveFacts TameFacts MeetKindFacts MeetGroupFacts.
Import ListNotations.
Open Scope R_scope.

Lemma depth_linear full c a : 0 < full -> 0 < c <= 1 -> 0 <= a <= full -> depth full 1 (c * a) = c * depth full 1 a.
Proof.
  intros Hf Hc Ha. unfold depth. destruct (Rle_dec a 0) as [A|A].
  - assert (a = 0) by lra. subst a. rewrite Rmult_0_r. destruct (Rle_dec 0 0); [ring|lra].
  - assert (0 < c * a) by (apply Rmult_lt_0_compat; lra). destruct (Rle_dec (c * a) 0); [lra|].
    assert (A1 : 0 < a / full <= 1) by (split; [apply Rdiv_lt_0_compat; lra|apply Rle_div_l; lra]).
    assert (E : c * a / full = c * (a / full)) by (unfold Rdiv; ring). rewrite E.
    assert (A2 : 0 < c * (a / full) <= 1) by (split; [apply Rmult_lt_0_compat; lra|replace 1 with (1 * 1) by ring; apply Rmult_le_compat; lra]).
    rewrite !Rmin_right by lra. rewrite !Rpower_1 by lra. reflexivity.
Qed.

Section Squeeze.
Context (c : R).
Hypothesis Hc : 0 < c <= 1.
(** The same traps, at depths shrunk by the factor [c]. *)
Definition squeeze (P : profile) : profile := fun s x => P s (x / c).
Definition squeeze_times (T : times) : times := fun s x => T s (x / c).
Definition squeezed (s : group_state) : group_state := match s with Occupied P => Occupied (squeeze P) | Since T => Since (squeeze_times T) end.
(** Nothing is beyond the full depth. *)
Definition bare (P : profile) : Prop := forall s x, 1 <= x -> P s x = 0.
Definition bare_times (T : times) : Prop := forall s x, 1 <= x -> T s x = None.
Definition bare_state (s : group_state) : Prop := match s with Occupied P => bare P | Since T => bare_times T end.

Lemma lt_squeeze x v : x < c * v <-> x / c < v.
Proof. rewrite (Rmult_comm c v). symmetry. apply (Rlt_div_l x v c). lra. Qed.
Lemma dec_squeeze {A} (x v : R) (a b : A) : (if Rlt_dec x (c * v) then a else b) = if Rlt_dec (x / c) v then a else b.
Proof. pose proof (lt_squeeze x v). destruct (Rlt_dec x (c * v)), (Rlt_dec (x / c) v); tauto. Qed.
Lemma squeeze_RInt (f : R -> R) b : ex_RInt f 0 b -> ex_RInt (fun x => f (x / c)) 0 (c * b) /\ RInt (fun x => f (x / c)) 0 (c * b) = c * RInt f 0 b.
Proof.
  intros H. assert (E1 : / c * 0 + 0 = 0) by ring. assert (E2 : / c * (c * b) + 0 = b) by (field; lra).
  assert (H' : ex_RInt f (/ c * 0 + 0) (/ c * (c * b) + 0)) by (rewrite E1, E2; exact H).
  pose proof (ex_RInt_comp_lin f (/ c) 0 0 (c * b) H') as X. pose proof (RInt_comp_lin f (/ c) 0 0 (c * b) H') as V. rewrite E1, E2 in V.
  assert (K : forall x, scal c (scal (/ c) (f (/ c * x + 0))) = f (x / c)).
  { intros x. change (c * (/ c * f (/ c * x + 0)) = f (x / c)). replace (/ c * x + 0) with (x / c) by (unfold Rdiv; ring). field. lra. }
  split.
  - apply (ex_RInt_ext (fun x => scal c (scal (/ c) (f (/ c * x + 0))))); [intros x _; apply K|]. now apply (ex_RInt_scal (V := R_NormedModule)).
  - rewrite <- V. pose proof (RInt_scal (V := R_CompleteNormedModule) _ 0 (c * b) c X) as S. change (RInt (fun x => scal c (scal (/ c) (f (/ c * x + 0)))) 0 (c * b) = c * RInt (fun y => scal (/ c) (f (/ c * y + 0))) 0 (c * b)) in S.
    etransitivity; [|exact S]. apply RInt_ext. intros x _. symmetry. apply K.
Qed.
Lemma squeeze_whole (f : R -> R) : ex_RInt f 0 1 -> (forall x, 1 <= x -> f x = 0) -> RInt (fun x => f (x / c)) 0 1 = c * RInt f 0 1.
Proof.
  intros H H0. destruct (squeeze_RInt f 1 H) as [X V]. rewrite Rmult_1_r in X, V.
  assert (Z : forall x, Rmin c 1 < x < Rmax c 1 -> 0 = f (x / c)).
  { intros x Hx. rewrite Rmin_left in Hx by lra. symmetry. apply H0. apply Rle_div_r; lra. }
  assert (X' : ex_RInt (fun x => f (x / c)) c 1) by (apply (ex_RInt_ext (fun _ => 0)); [exact Z|apply (ex_RInt_const (V := R_NormedModule))]).
  pose proof (RInt_Chasles (V := R_CompleteNormedModule) _ 0 c 1 X X') as S.
  assert (V' : RInt (fun x => f (x / c)) c 1 = 0).
  { rewrite <- (RInt_ext (fun _ => 0)) by exact Z. rewrite (RInt_const (V := R_CompleteNormedModule)). change ((1 - c) * 0 = 0). ring. }
  rewrite V' in S. rewrite V in S. change (c * RInt f 0 1 + 0 = RInt (fun x => f (x / c)) 0 1) in S. lra.
Qed.
Lemma squeeze_electrons g (P : profile) : integrable g P 0 1 -> bare P -> electrons g (squeeze P) 0 1 = c * electrons g P 0 1.
Proof.
  intros H H0. unfold electrons. assert (K : forall l s, (forall i, (i < length l)%nat -> ex_RInt (P (s + i)%nat) 0 1) -> electrons_from s l (squeeze P) 0 1 = c * electrons_from s l P 0 1).
  { induction l as [|t l IH]; intros s Hl; cbn [electrons_from]; [ring|]. pose proof (Hl 0%nat ltac:(cbn; lia)) as X. rewrite Nat.add_0_r in X.
    unfold squeeze at 1. rewrite (squeeze_whole (P s) X (H0 s)). rewrite IH; [ring|]. intros i Hi. specialize (Hl (S i) ltac:(cbn; lia)). now rewrite Nat.add_succ_r in Hl. }
  apply K. intros i Hi. apply H. exact Hi.
Qed.
Lemma squeeze_part g (P : profile) v : integrable g P 0 v -> electrons g (squeeze P) 0 (c * v) = c * electrons g P 0 v.
Proof.
  intros H. unfold electrons. assert (K : forall l s, (forall i, (i < length l)%nat -> ex_RInt (P (s + i)%nat) 0 v) -> electrons_from s l (squeeze P) 0 (c * v) = c * electrons_from s l P 0 v).
  { induction l as [|t l IH]; intros s Hl; cbn [electrons_from]; [ring|]. pose proof (Hl 0%nat ltac:(cbn; lia)) as X. rewrite Nat.add_0_r in X.
    unfold squeeze at 1. rewrite (proj2 (squeeze_RInt (P s) v X)). rewrite IH; [ring|]. intros i Hi. specialize (Hl (S i) ltac:(cbn; lia)). now rewrite Nat.add_succ_r in Hl. }
  apply K. intros i Hi. apply H. exact Hi.
Qed.
Lemma min_squeeze a b : Rmin (c * a) (c * b) = c * Rmin a b.
Proof. unfold Rmin. destruct (Rle_dec a b) as [A|A], (Rle_dec (c * a) (c * b)) as [B|B]; try reflexivity; exfalso; [apply B; apply Rmult_le_compat_l; lra|apply A; apply (Rmult_le_reg_l c); lra]. Qed.
Lemma dec_le_squeeze {A} (a b : R) (x y : A) : (if Rle_dec (c * a) (c * b) then x else y) = if Rle_dec a b then x else y.
Proof. destruct (Rle_dec a b) as [H|H], (Rle_dec (c * a) (c * b)) as [B|B]; try reflexivity; exfalso; [apply B; apply Rmult_le_compat_l; lra|apply H; apply (Rmult_le_reg_l c); lra]. Qed.
Lemma ratio_squeeze a b : b <> 0 -> c * a / (c * b) = a / b.
Proof. intros H. field. split; lra. Qed.

Section Group.
Context (g : list (trap R)) (full top dwell : R).
Hypothesis Hg : kind_group g.
Hypothesis Hfull : 0 < full.
Hypothesis Htop : top + group_traps g <= full.
Hypothesis Hdwell : 0 < dwell.
Notation well := (depth full 1).
Notation n := (length g).
Let Hwell a : 0 <= well a <= 1.
Proof. apply depth_range; lra. Qed.

(** ** Instant capture *)
Section Instant.
Hypothesis Hphys : Forall physical g.
Hypothesis Hkind : kind_for g = KInstant.
Context (m : R) (P : profile).
Hypothesis Hm : 0 <= m <= top.
Hypothesis HP : tidy n P.
Hypothesis H0 : bare P.
Let r := released g dwell P.
Let P1 := after_release g dwell P.
Let tidy1 : tidy n P1.
Proof. apply tidy_release; auto; lra. Qed.
Let bare1 : bare P1.
Proof. intros s x Hx. unfold P1, after_release. rewrite (H0 s x Hx). ring. Qed.
Let r_range : 0 <= r /\ m + r <= full.
Proof.
  split; [apply released_nonneg; auto; lra|]. unfold r, released. pose proof (electrons_nonneg g Hphys P1 0 1 tidy1 ltac:(lra) ltac:(lra)) as K1. pose proof (electrons_at_most g Hphys P 0 1 HP ltac:(lra) ltac:(lra)) as K2.
  unfold group_traps in Htop. rewrite Hkind in Htop. change (full_traps g) with (traps_per_pixel g) in Htop. fold P1. lra.
Qed.
Let r_squeeze : released g dwell (squeeze P) = c * r.
Proof.
  unfold r, released. change (after_release g dwell (squeeze P)) with (squeeze P1). rewrite !squeeze_electrons; auto; [fold P1; ring|now apply tidy_integrable; auto; lra|now apply tidy_integrable; auto; lra].
Qed.
Let v := well (m + r).
Let v_squeeze : well (c * m + c * r) = c * v.
Proof. rewrite <- Rmult_plus_distr_l. apply depth_linear; auto. lra. Qed.
Let demand_squeeze : demand g (c * v) (squeeze P1) = c * demand g v P1.
Proof.
  unfold demand. change (fun s x => 1 - squeeze P1 s x) with (squeeze (fun s x => 1 - P1 s x)). apply squeeze_part. intros s Hs.
  apply (ex_RInt_minus (V := R_NormedModule) (fun _ => 1) (P1 s)); [apply (ex_RInt_const (V := R_NormedModule))|]. apply (tidy1 s Hs); [|apply Hwell]. pose proof (Hwell (m + r)). unfold v. lra.
Qed.
Lemma instant_squeeze_net : transfer_net g well dwell (c * m) (squeeze P) = c * transfer_net g well dwell m P.
Proof.
  unfold transfer_net. cbv zeta. rewrite r_squeeze, v_squeeze. change (after_release g dwell (squeeze P)) with (squeeze P1). unfold captured. rewrite demand_squeeze. rewrite <- Rmult_plus_distr_l, min_squeeze. fold P1 r v. ring.
Qed.
Let enough : demand g v P1 <= m + r.
Proof.
  pose proof (Hwell (m + r)) as V. fold v in V. pose proof r_range as [R1 R2].
  assert (T1 : tidy n (fun s x => 1 - P1 s x)).
  { intros s Hs. destruct (tidy1 s Hs) as [A B]. split; [intros x Hx; specialize (A x Hx); lra|]. intros a b Hab Hb. apply (ex_RInt_minus (V := R_NormedModule) (fun _ => 1) (P1 s)); [apply (ex_RInt_const (V := R_NormedModule))|now apply B]. }
  pose proof (electrons_at_most g Hphys _ 0 v T1 ltac:(lra) ltac:(lra)) as K. unfold demand. eapply Rle_trans; [exact K|].
  assert (G : traps_per_pixel g <= full) by (unfold group_traps in Htop; rewrite Hkind in Htop; change (full_traps g) with (traps_per_pixel g) in Htop; lra).
  assert (D : v * full <= m + r).
  { unfold v, depth. destruct (Rle_dec (m + r) 0); [lra|]. assert (A1 : 0 < (m + r) / full <= 1) by (split; [apply Rdiv_lt_0_compat; lra|apply Rle_div_l; lra]). rewrite Rmin_right by lra. rewrite Rpower_1 by lra. right. field. lra. }
  rewrite Rminus_0_r. assert (traps_per_pixel g * v <= full * v) by (apply Rmult_le_compat_r; lra). lra.
Qed.
Lemma instant_squeeze_after : transfer_after g well dwell (c * m) (squeeze P) = squeeze (transfer_after g well dwell m P).
Proof.
  extensionality s. extensionality x. unfold transfer_after. cbv zeta. rewrite r_squeeze, v_squeeze. change (after_release g dwell (squeeze P)) with (squeeze P1). unfold after_capture. rewrite demand_squeeze, dec_squeeze, <- Rmult_plus_distr_l, dec_le_squeeze. unfold squeeze. fold P1 r v.
  destruct (Rlt_dec (x / c) v); [|reflexivity]. destruct (Rle_dec (demand g v P1) (m + r)) as [D|D]; [reflexivity|contradiction].
Qed.
Lemma instant_bare : bare (transfer_after g well dwell m P).
Proof. intros s x Hx. unfold transfer_after. cbv zeta. unfold after_capture. fold P1 r v. destruct (Rlt_dec x v); [pose proof (Hwell (m + r)); fold v in H; lra|]. now apply bare1. Qed.
End Instant.
(** ** Slow capture *)
Section Slow.
Hypothesis Hcap : Forall capturing g.
Hypothesis Hkind : kind_for g = KSlow.
Context (m : R) (P : profile).
Hypothesis Hm : 0 <= m <= top.
Hypothesis HP : calm g P.
Hypothesis H0 : bare P.
Let Hphys : Forall physical g.
Proof. eapply Forall_impl; [|exact Hcap]. intros t [Ht _]. exact Ht. Qed.
Let v := well m.
Let v_squeeze : well (c * m) = c * v.
Proof. apply depth_linear; auto. pose proof (group_traps_pos g Hg). lra. Qed.
Lemma release_squeeze u Q : release_above g dwell (c * u) (squeeze Q) = squeeze (release_above g dwell u Q).
Proof. extensionality s. extensionality x. unfold release_above, squeeze. apply dec_squeeze. Qed.
Lemma exchange_squeeze u Q : exchange_below g dwell (c * u) (squeeze Q) = squeeze (exchange_below g dwell u Q).
Proof. extensionality s. extensionality x. unfold exchange_below, squeeze. destruct (nth_error g s); [apply dec_squeeze|reflexivity]. Qed.
Let P1 := release_above g dwell v P.
Let calm1 : calm g P1.
Proof. apply calm_release; auto; try lra. apply Hwell. Qed.
Let bare1 : bare P1.
Proof. intros s x Hx. unfold P1, release_above. rewrite (H0 s x Hx). destruct (Rlt_dec x v); ring. Qed.
Let C := cloud_then g well dwell m P.
Let C_range : 0 <= C <= full.
Proof.
  unfold C, cloud_then. fold v P1. pose proof (electrons_nonneg g Hphys P1 0 1 (proj1 calm1) ltac:(lra) ltac:(lra)) as K1. pose proof (electrons_at_most g Hphys P 0 1 (proj1 HP) ltac:(lra) ltac:(lra)) as K2.
  unfold group_traps in Htop. rewrite Hkind in Htop. change (full_traps g) with (traps_per_pixel g) in Htop. split; [|lra].
  assert (electrons g P1 0 1 <= electrons g P 0 1); [|lra]. apply electrons_le; [exact Hphys|lra|apply tidy_integrable; [apply calm1|lra|lra]|apply tidy_integrable; [apply HP|lra|lra]|].
  intros s x Hs Hx. unfold P1, release_above. destruct (Rlt_dec x v); [lra|]. destruct (proj1 HP s Hs) as [A _]. specialize (A x ltac:(lra)).
  pose proof (keep_range g dwell Hphys ltac:(lra) s). nra.
Qed.
Let C_squeeze : cloud_then g well dwell (c * m) (squeeze P) = c * C.
Proof.
  unfold C, cloud_then. rewrite v_squeeze, release_squeeze. fold v P1. rewrite !squeeze_electrons; auto; [ring| |]; (apply tidy_integrable; [first [apply HP|apply calm1]|lra|lra]).
Qed.
Let X := exchanged g well dwell m P.
Let X_squeeze : exchanged g well dwell (c * m) (squeeze P) = squeeze X.
Proof. unfold X, exchanged. rewrite C_squeeze, v_squeeze, release_squeeze. fold v P1 C. rewrite (depth_linear full c C Hfull Hc C_range). apply exchange_squeeze. Qed.
Let calmX : calm g X.
Proof. unfold X, exchanged. fold v P1 C. apply calm_exchange; auto; lra. Qed.
Let bareX : bare X.
Proof. intros s x Hx. unfold X, exchanged. fold v P1 C. unfold exchange_below. rewrite (bare1 s x Hx). pose proof (Hwell C). destruct (nth_error g s); [|reflexivity]. destruct (Rlt_dec x (well C)); [lra|reflexivity]. Qed.
Let G_squeeze : gain g well dwell (c * m) (squeeze P) = c * gain g well dwell m P.
Proof.
  unfold gain. rewrite X_squeeze. fold X. rewrite !squeeze_electrons; auto; [ring| |]; (apply tidy_integrable; [first [apply HP|apply calmX]|lra|lra]).
Qed.
Lemma slow_squeeze_taken : slow_taken g well dwell (c * m) (squeeze P) = c * slow_taken g well dwell m P.
Proof. unfold slow_taken. rewrite G_squeeze, C_squeeze. apply min_squeeze. Qed.
Lemma slow_squeeze_after : slow_after g well dwell (c * m) (squeeze P) = squeeze (slow_after g well dwell m P).
Proof.
  unfold slow_after. rewrite G_squeeze, C_squeeze, dec_le_squeeze. fold C. destruct (Rle_dec (gain g well dwell m P) C) as [L|L]; [exact X_squeeze|].
  unfold short_of. cbv zeta. rewrite G_squeeze, C_squeeze, X_squeeze. fold C X. rewrite ratio_squeeze by lra. reflexivity.
Qed.
Lemma slow_bare : bare (slow_after g well dwell m P).
Proof.
  unfold slow_after. destruct (Rle_dec (gain g well dwell m P) (cloud_then g well dwell m P)); [exact bareX|]. intros s x Hx. unfold short_of. cbv zeta. fold X. rewrite (bareX s x Hx), (H0 s x Hx). ring.
Qed.
End Slow.

(** ** Traps that record times *)
Section Times.
Hypothesis Hflat : Forall flattening g.
Hypothesis Hkind : kind_for g = KTime.
Context (m : R) (T : times).
Hypothesis Hm : 0 <= m <= top.
Hypothesis HT : neat n T.
Hypothesis H0 : bare_times T.
Lemma held_squeeze S : neat n S -> bare_times S -> held g (squeeze_times S) = c * held g S.
Proof.
  intros HS HB. unfold held. change (filled_by g (squeeze_times S)) with (squeeze (filled_by g S)). apply squeeze_electrons; [now apply neat_integrable|]. intros s x Hx. unfold filled_by. now rewrite (HB s x Hx).
Qed.
Let neat1 : neat n (wait dwell T).
Proof. apply neat_wait; auto; lra. Qed.
Let bare1 : bare_times (wait dwell T).
Proof. intros s x Hx. unfold wait. now rewrite (H0 s x Hx). Qed.
Let C := cloud_after g dwell m T.
Let C_range : 0 <= C <= full.
Proof.
  unfold C, cloud_after. pose proof (held_wait g dwell Hflat ltac:(lra) T HT) as A. pose proof (g_range g Hg (Since T) (conj Hkind HT)) as B. pose proof (g_range g Hg (Since (wait dwell T)) (conj Hkind neat1)) as D. cbn [g_amount] in B, D. lra.
Qed.
Let C_squeeze : cloud_after g dwell (c * m) (squeeze_times T) = c * C.
Proof. unfold C, cloud_after. change (wait dwell (squeeze_times T)) with (squeeze_times (wait dwell T)). rewrite !held_squeeze; auto. ring. Qed.
Lemma times_squeeze_after : times_after g well dwell (c * m) (squeeze_times T) = squeeze_times (times_after g well dwell m T).
Proof.
  unfold times_after. rewrite C_squeeze. fold C. rewrite (depth_linear full c C Hfull Hc C_range). change (wait dwell (squeeze_times T)) with (squeeze_times (wait dwell T)).
  extensionality s. extensionality x. unfold fill_now, squeeze_times. apply dec_squeeze.
Qed.
Lemma times_bare : bare_times (times_after g well dwell m T).
Proof. intros s x Hx. unfold times_after, fill_now. pose proof (Hwell (cloud_after g dwell m T)). destruct (Rlt_dec x (well (cloud_after g dwell m T))); [lra|now apply bare1]. Qed.
Lemma times_squeeze_held : held g (squeeze_times T) - held g (times_after g well dwell (c * m) (squeeze_times T)) = c * (held g T - held g (times_after g well dwell m T)).
Proof. rewrite times_squeeze_after. rewrite !held_squeeze; auto; [ring|apply neat_fill, neat1|exact times_bare]. Qed.
End Times.

Lemma group_squeeze m s : 0 <= m <= top -> g_ok g s -> bare_state s ->
  group_net g well dwell (c * m) (squeezed s) = c * group_net g well dwell m s /\
  group_after g well dwell (c * m) (squeezed s) = squeezed (group_after g well dwell m s) /\ bare_state (group_after g well dwell m s).
Proof.
  intros Hm. destruct s as [P|T]; unfold g_ok, group_net, group_after; cbn [squeezed bare_state].
  - destruct (kind_cases g Hg) as [[E Hp]|[[E Hp]|[E Hp]]]; rewrite E; intros HP HB; [| |contradiction].
    + split; [now apply instant_squeeze_net|]. split; [f_equal; now apply instant_squeeze_after|now apply instant_bare].
    + split; [rewrite slow_squeeze_taken by auto; ring|]. split; [f_equal; now apply slow_squeeze_after|now apply slow_bare].
  - intros [E HT] HB. destruct (kind_cases g Hg) as [[E' _]|[[E' _]|[_ Hp]]]; [congruence|congruence|]. split; [now apply times_squeeze_held|]. split; [f_equal; now apply times_squeeze_after|now apply times_bare].
Qed.
Lemma group_bare m s : g_ok g s -> bare_state s -> bare_state (group_after g well dwell m s).
Proof.
  destruct s as [P|T]; unfold group_after; cbn [g_ok bare_state]; intros _ HB; [|now apply times_bare]. destruct (kind_for g); [now apply slow_bare|now apply instant_bare|now apply instant_bare].
Qed.
End Group.

(** ** All groups of a phase *)
Lemma unfilled_squeeze g : squeezed (unfilled g) = unfilled g /\ bare_state (unfilled g).
Proof. unfold unfilled. destruct (kind_for g); split; try reflexivity; intros s x _; reflexivity. Qed.
Lemma groups_squeeze full top dwell m gs : 0 < full -> 0 < dwell -> 0 <= m <= top -> Forall (fun g => kind_group g /\ top + group_traps g <= full) gs -> forall ss, oks gs ss -> Forall bare_state ss ->
  groups_net (mkSite gs (depth full 1)) dwell (c * m) (map squeezed ss) = c * groups_net (mkSite gs (depth full 1)) dwell m ss /\
  groups_after (mkSite gs (depth full 1)) dwell (c * m) (map squeezed ss) = map squeezed (groups_after (mkSite gs (depth full 1)) dwell m ss) /\
  Forall bare_state (groups_after (mkSite gs (depth full 1)) dwell m ss).
Proof.
  intros Hf Hd Hm. induction 1 as [|g gs [Hg Ht] HF IH]; intros [|s ss] HO HB; cbn in HO; try contradiction.
  - cbn. split; [ring|]. split; [reflexivity|constructor].
  - inversion HB as [|? ? B1 B2]; subst. destruct (group_squeeze g full top dwell Hg Hf Ht Hd m s Hm (proj1 HO) B1) as (E1 & E2 & E3). destruct (IH ss (proj2 HO) B2) as (F1 & F2 & F3).
    cbn [map]. rewrite !nets_cons, !afters_cons. rewrite E1, F1, E2, F2. cbn [map]. split; [ring|]. split; [reflexivity|constructor; assumption].
Qed.
Lemma groups_bare full dwell m gs : 0 < full -> forall ss, oks gs ss -> Forall bare_state ss -> Forall bare_state (groups_after (mkSite gs (depth full 1)) dwell m ss).
Proof.
  intros Hf. induction gs as [|g gs IH]; intros [|s ss] HO HB; cbn in HO; try contradiction; [constructor|]. inversion HB; subst. rewrite afters_cons. constructor; [now apply (group_bare g full dwell)|]. now apply IH.
Qed.
End Squeeze.
