(** * How far a packet changes on its way past traps of any kind. *)
From Coq Require Import ZArith List Bool Reals Lra Lia.
From Verif Require Import Num Py RFacts CCDModel TrapsModel ManagerModel ROEModel ClockModel MainModel Spec SpecImage SpecReadout SpecTime SpecSlow SpecHistory SpecHold
  WmFacts ArrayFacts CutFacts InstantFacts ClockFacts ShapeFacts ROEMatrixFacts ReadoutImage TimeFacts TimeInstantFacts ReadoutSpecFacts SlowFacts SlowSpecFacts HistoryFacts HistorySpecFacts ContinuumModel SpecContinuum ContinuumFacts LogNormalFacts.
Import ListNotations.
Open Scope R_scope.

Section Bound.
Context {St : Type} (past : St -> list R -> result (list R * St)) (start : St) (rho : R) (rows : nat).
Definition nearby (d : R) (l l' : list R) : Prop := Forall2 (fun x x' => Rabs (x' - x) <= d) l l'.
Hypothesis Hpast : forall l l' s, (length l <= rows)%nat -> Forall (fun x => 0 <= x) l -> past start l = Ok (l', s) ->
  nearby rho l l' /\ Forall (fun x => 0 <= x) l'.

Lemma nearby_zero l : nearby 0 l l.
Proof. induction l; constructor; [rewrite Rminus_diag_eq, Rabs_R0 by reflexivity; lra|assumption]. Qed.
Lemma nearby_trans a b l l1 l2 : nearby a l l1 -> nearby b l1 l2 -> nearby (a + b) l l2.
Proof.
  intros H. revert l2. induction H as [|x x1 l l1 H0 H IH]; intros l2 K; inversion K as [|? x2 ? l2' K0 K1]; subst; constructor; [|now apply IH].
  replace (x2 - x) with ((x1 - x) + (x2 - x1)) by lra. eapply Rle_trans; [apply Rabs_triang|lra].
Qed.
Lemma nearby_nth d l l' i : nearby d l l' -> (i < length l)%nat -> Rabs (nth i l' 0 - nth i l 0) <= d.
Proof.
  intros H. revert i. induction H as [|x x' l l' H0 H IH]; intros i Hi; cbn [length] in Hi; [lia|]. destruct i; cbn [nth]; [exact H0|apply IH; lia].
Qed.
Lemma nearby_length d l l' : nearby d l l' -> length l' = length l.
Proof. induction 1; cbn [length]; congruence. Qed.

Lemma before_bounded : forall n a l l' s, (length l <= rows)%nat -> Forall (fun x => 0 <= x) l ->
  before past start n a l = Ok (l', s) -> nearby (INR n * rho) l l' /\ Forall (fun x => 0 <= x) l'.
Proof.
  induction n as [|n IH]; intros a l l' s Hl Hn E; cbn [before] in E.
  - injection E as <- <-. split; [|exact Hn]. replace (INR 0 * rho) with 0 by (cbn; ring). apply nearby_zero.
  - apply bind_ok in E as ([l1 s1] & E1 & E2). destruct (Hpast _ _ _ Hl Hn E1) as [N1 P1].
    destruct (IH s1 l1 l' s ltac:(rewrite (nearby_length _ _ _ N1); lia) P1 E2) as [N2 P2]. split; [|exact P2].
    rewrite S_INR. replace ((INR n + 1) * rho) with (rho + INR n * rho) by ring. eapply nearby_trans; eassumption.
Qed.
Lemma reading_bounded : forall n a l l' s, (length l <= rows)%nat -> (length l <= n)%nat -> Forall (fun x => 0 <= x) l ->
  reading past start n a l = Ok (l', s) ->
  length l' = length l /\ Forall (fun x => 0 <= x) l' /\
  forall i, (i < length l)%nat -> Rabs (nth i l' 0 - nth i l 0) <= INR (S i) * rho.
Proof.
  induction n as [|n IH]; intros a l l' s Hl Hln Hn E; cbn [reading] in E.
  - injection E as <- <-. destruct l; [|cbn in Hln; lia]. repeat split; auto. intros i Hi. cbn in Hi. lia.
  - apply bind_ok in E as ([l1 s1] & E1 & E2). destruct (Hpast _ _ _ Hl Hn E1) as [N1 P1].
    inversion N1 as [E3 E4|x x1 r r1 H0 N1' E3 E4]; subst.
    + injection E2 as <- <-. repeat split; auto. intros i Hi. cbn in Hi. lia.
    + apply bind_ok in E2 as ([l2 s2] & E2 & E3). injection E3 as <- <-. inversion P1 as [|? ? P0 P1']; subst. pose proof (nearby_length _ _ _ N1') as L.
      cbn [length] in Hl, Hln. destruct (IH s1 r1 l2 s2 ltac:(lia) ltac:(lia) P1' E2) as (L2 & P2 & B2).
      split; [cbn [length]; lia|]. split; [constructor; assumption|]. intros i Hi. cbn [length] in Hi. destruct i as [|i]; cbn [nth].
      * replace (INR 1 * rho) with rho by (cbn; ring). exact H0.
      * specialize (B2 i ltac:(lia)). pose proof (nearby_nth _ _ _ i N1' ltac:(lia)) as B1. rewrite (S_INR (S i)).
        replace (nth i l2 0 - nth i r 0) with ((nth i l2 0 - nth i r1 0) + (nth i r1 0 - nth i r 0)) by lra.
        eapply Rle_trans; [apply Rabs_triang|lra].
Qed.
Lemma column_bounded offset l l' s : (length l <= rows)%nat -> Forall (fun x => 0 <= x) l ->
  column_past past start offset l = Ok (l', s) ->
  length l' = length l /\ Forall (fun x => 0 <= x) l' /\
  forall i, (i < length l)%nat -> Rabs (nth i l' 0 - nth i l 0) <= INR (i + 1 + offset) * rho.
Proof.
  intros Hl Hn E. unfold column_past in E. apply bind_ok in E as ([l1 s1] & E1 & E2).
  destruct (before_bounded _ _ _ _ _ Hl Hn E1) as [N1 P1]. pose proof (nearby_length _ _ _ N1) as L1.
  destruct (reading_bounded (length l) _ l1 _ _ ltac:(lia) ltac:(lia) P1 E2) as (L2 & P2 & B2). split; [lia|]. split; [exact P2|].
  intros i Hi. specialize (B2 i ltac:(lia)). pose proof (nearby_nth _ _ _ i N1 Hi) as B1.
  replace (i + 1 + offset)%nat with (S i + offset)%nat by lia. rewrite plus_INR.
  replace (nth i l' 0 - nth i l 0) with ((nth i l' 0 - nth i l1 0) + (nth i l1 0 - nth i l 0)) by lra.
  eapply Rle_trans; [apply Rabs_triang|]. rewrite Rmult_plus_distr_r. lra.
Qed.
Lemma columns_bounded offset : forall columns outs, Forall (fun l => (length l <= rows)%nat /\ Forall (fun x => 0 <= x) l) columns ->
  columns_past past false start start offset columns = Ok outs ->
  forall j i, (j < length columns)%nat -> (i < length (nth j columns []))%nat ->
    0 <= nth i (nth j outs []) 0 /\
    Rabs (nth i (nth j outs []) 0 - nth i (nth j columns []) 0) <= INR (i + 1 + offset) * rho.
Proof.
  induction columns as [|l columns IH]; intros outs Hc E j i Hj Hi; cbn [length] in Hj; [lia|]. cbn [columns_past] in E.
  inversion Hc as [|? ? [Hl Hn] Hc']; subst. apply bind_ok in E as ([out a] & E1 & E2). apply bind_ok in E2 as (outs' & E2 & E3). injection E3 as <-.
  destruct (column_bounded _ _ _ _ Hl Hn E1) as (L & P & B).
  destruct j as [|j]; cbn [nth] in *; [|apply IH; auto; lia]. split; [|now apply B]. rewrite Forall_forall in P. apply P, nth_In. lia.
Qed.

(** ** Charge *)
Hypothesis Hsum : forall l l' s, (length l <= rows)%nat -> Forall (fun x => 0 <= x) l -> past start l = Ok (l', s) -> Rsum l' <= Rsum l.
Lemma before_sum : forall n a l l' s, (length l <= rows)%nat -> Forall (fun x => 0 <= x) l -> before past start n a l = Ok (l', s) -> Rsum l' <= Rsum l.
Proof.
  induction n as [|n IH]; intros a l l' s Hl Hn E; cbn [before] in E.
  - injection E as <- <-. lra.
  - apply bind_ok in E as ([l1 s1] & E1 & E2). destruct (Hpast _ _ _ Hl Hn E1) as [N1 P1].
    pose proof (IH s1 l1 l' s ltac:(rewrite (nearby_length _ _ _ N1); lia) P1 E2). pose proof (Hsum _ _ _ Hl Hn E1). lra.
Qed.
Lemma reading_sum : forall n a l l' s, (length l <= rows)%nat -> Forall (fun x => 0 <= x) l -> reading past start n a l = Ok (l', s) -> Rsum l' <= Rsum l.
Proof.
  induction n as [|n IH]; intros a l l' s Hl Hn E; cbn [reading] in E.
  - injection E as <- <-. apply Rsum_nonneg in Hn. exact Hn.
  - apply bind_ok in E as ([l1 s1] & E1 & E2). destruct (Hpast _ _ _ Hl Hn E1) as [N1 P1]. pose proof (Hsum _ _ _ Hl Hn E1) as S1. pose proof (nearby_length _ _ _ N1) as L.
    destruct l1 as [|x r]; [injection E2 as <- <-; exact S1|]. apply bind_ok in E2 as ([l2 s2] & E2 & E3). injection E3 as <- <-.
    inversion P1; subst. cbn [length] in L. pose proof (IH _ r _ _ ltac:(lia) H2 E2). rewrite Rsum_cons in *. lra.
Qed.
Lemma column_sum offset l l' s : (length l <= rows)%nat -> Forall (fun x => 0 <= x) l -> column_past past start offset l = Ok (l', s) -> Rsum l' <= Rsum l.
Proof.
  intros Hl Hn E. unfold column_past in E. apply bind_ok in E as ([l1 s1] & E1 & E2).
  destruct (before_bounded _ _ _ _ _ Hl Hn E1) as [N1 P1]. pose proof (nearby_length _ _ _ N1) as L1.
  pose proof (before_sum _ _ _ _ _ Hl Hn E1). pose proof (reading_sum _ _ l1 _ _ ltac:(lia) P1 E2). lra.
Qed.
Lemma columns_sum offset : forall columns outs, Forall (fun l => (length l <= rows)%nat /\ Forall (fun x => 0 <= x) l) columns ->
  columns_past past false start start offset columns = Ok outs ->
  forall j, Rsum (nth j outs []) <= Rsum (nth j columns []).
Proof.
  induction columns as [|l columns IH]; intros outs Hc E j; cbn [columns_past] in E.
  - injection E as <-. lra.
  - inversion Hc as [|? ? [Hl Hn] Hc']; subst. apply bind_ok in E as ([out a] & E1 & E2). apply bind_ok in E2 as (outs' & E2 & E3). injection E3 as <-.
    destruct j as [|j]; cbn [nth]; [eapply column_sum; eassumption|now apply IH].
Qed.
End Bound.

(** ** Slow traps *)
Lemma describes_electrons traps w spare P : Forall physical traps -> describes (length traps) w spare P ->
  0 <= electrons traps P 0 1 <= Rsum (dens traps).
Proof.
  intros Hp HP. apply describes_levels in HP as (l & k & -> & _ & Hl & Hv & HP).
  pose proof (Rsum_dens_nonneg traps Hp) as Hd. rewrite <- (electrons_same traps (occupancy l) P 0 1 HP) by lra.
  rewrite (electrons_levels traps l (occupancy l)) by auto. split; [now apply (trapped_nonneg (length traps))|].
  eapply Rle_trans; [apply (trapped_le (length traps)); auto; apply map_length|]. apply Rsum_nonneg in Hd. nra.
Qed.
Lemma clipped_near n net rho : 0 <= n -> Rabs net <= rho -> Rabs (Rmax 0 (n + net) - n) <= rho.
Proof. intros Hn H. revert H. unfold Rmax. destruct (Rle_dec 0 (n + net)); unfold Rabs; repeat destruct (Rcase_abs _); lra. Qed.
Lemma slow_bounded traps well dwell : Forall capturing traps -> (0 < length traps)%nat -> sensitive well -> 0 < dwell ->
  forall l l' s spare w P, Forall (fun x => 0 <= x) l -> describes (length traps) w (2 * length l + spare) P ->
  past_slow traps well dwell (volume w, P) l = Ok (l', s) ->
  nearby (Rsum (dens traps)) l l' /\ Forall (fun x => 0 <= x) l'.
Proof.
  intros Hc Hn Hs Hd. induction l as [|n l IH]; intros l' s spare w P Hl HP E; cbn [past_slow] in E.
  - injection E as <- <-. split; constructor.
  - inversion Hl as [|? ? Hfree Hl']; subst.
    replace (2 * length (n :: l) + spare)%nat with (2 + (2 * length l + spare))%nat in HP by (cbn [length]; lia).
    pose proof Hc as Hcap.
    assert (Hphys : Forall physical traps) by (eapply Forall_impl; [|exact Hc]; intros t [Hp _]; exact Hp).
    assert (Step : forall top, stays_inside traps well dwell n (volume w) P -> top = Rmax (volume w) (well n) -> told traps well dwell n P = true ->
      (do '(l', s') <- past_slow traps well dwell (top, slow_after traps well dwell n P) l; Ok (Rmax 0 (n - slow_taken traps well dwell n P) :: l', s')) = Ok (l', s) ->
      nearby (Rsum (dens traps)) (n :: l) l' /\ Forall (fun x => 0 <= x) l').
    { intros top Hin Etop Ht E'. pose (fill := fun a => Ok (well a) : result R).
      destruct (slow_told traps w _ P fill well n dwell Hn Hc HP Hs (fun a _ => eq_refl) Hfree Hd Hin Ht) as (w1 & S1 & V & D).
      destruct (slow_spec traps w _ P fill well n dwell Hn Hcap HP Hs (fun a _ => eq_refl) Hfree Hd Hin) as (net & w2 & S2 & _ & (Q & DQ & Enet) & _).
      rewrite S1 in S2. injection S2 as En _. rewrite Etop, <- V in E'. apply bind_ok in E' as ([l1 s1] & E1 & E2). injection E2 as <- <-.
      destruct (IH _ _ spare w1 _ Hl' D E1) as [N1 P1].
      pose proof (describes_electrons traps w _ P Hphys HP). pose proof (describes_electrons traps w2 _ Q Hphys DQ).
      split; constructor; auto; [|apply Rmax_l]. unfold Rminus at 2. apply clipped_near; [exact Hfree|]. rewrite En, Enet. apply Rabs_le. lra. }
    destruct (told traps well dwell n P) eqn:Htold; cbn [negb] in E; [|discriminate].
    destruct (Rlt_dec (volume w) (well n)) as [Hlt|Hge].
    + eapply Step; [left; exact Hlt| |reflexivity|exact E]. rewrite Rmax_right; lra.
    + destruct (Rle_dec _ (volume w)) as [Hle|]; [|discriminate]. eapply Step; [right; exact Hle| |reflexivity|exact E]. rewrite Rmax_left; lra.
Qed.

(** ** Traps that record times *)
Lemma count_le traps l : Forall fading traps -> live l -> width (length traps) l -> Forall (fun r => Forall (fun t => 0 <= t) (snd r)) l ->
  0 <= dot (curve traps (repeat 0 (length traps))) (dens traps) ->
  count traps l <= volume l * dot (curve traps (repeat 0 (length traps))) (dens traps).
Proof.
  intros Hf Hl Hw Ht H0. unfold count. induction l as [|r l IH]; [unfold volume, trapped, Rsum; cbn; lra|].
  inversion Hl; inversion Ht; inversion Hw; subst. cbn [mapv map fst snd] in *. rewrite trapped_cons, volume_cons. unfold row_trapped; cbn [fst snd].
  rewrite Rmult_plus_distr_r. apply Rplus_le_compat; [|now apply IH]. apply Rmult_le_compat_l; [lra|]. apply dot_le; [|now apply densities_nonneg].
  match goal with H : length (snd r) = length traps |- _ => revert H end.
  match goal with H : Forall (fun t => 0 <= t) (snd r) |- _ => revert H end.
  clear - Hf. generalize (snd r) as ts. unfold curve. induction Hf as [|t traps Hft Hf IH]; intros ts Ht E; destruct ts as [|x ts]; try discriminate; cbn; constructor.
  - inversion Ht; subst. apply (fd_falls _ Hft). lra.
  - apply IH; [now inversion Ht|now injection E].
Qed.
Lemma count_ge traps l : Forall holding traps -> live l -> Forall (fun r => Forall (fun t => 0 <= t) (snd r)) l -> 0 <= count traps l.
Proof.
  intros Hf Hl Ht. unfold count. apply Rsum_nonneg, Forall_map. unfold mapv. apply Forall_map. apply Forall_forall. intros r Hr.
  unfold live in Hl. rewrite Forall_forall in Hl, Ht. specialize (Hl r Hr). specialize (Ht r Hr). unfold row_trapped; cbn [fst snd]. apply Rmult_le_pos; [lra|].
  apply dot_nonneg; [|apply densities_nonneg; eapply Forall_impl; [|exact Hf]; intros t [H _]; exact H].
  revert Ht. generalize (snd r) as ts. unfold curve. clear - Hf. induction Hf as [|t traps [_ Hft] Hf IH]; intros ts Ht; [constructor|].
  destruct ts as [|x ts]; cbn; [constructor|]. inversion Ht; subst. constructor; [auto|exact (IH ts ltac:(assumption))].
Qed.
Lemma start_filled traps : dot (curve traps (repeat 0 (length traps))) (dens traps) = filled_traps traps.
Proof.
  induction traps as [|t traps IH]; [reflexivity|].
  change (dot (curve (t :: traps) (repeat 0 (length (t :: traps)))) (dens (t :: traps)))
    with (fill_fraction_from_time_elapsed t 0 * t_density t + dot (curve traps (repeat 0 (length traps))) (dens traps)).
  change (filled_traps (t :: traps)) with (t_density t * fill_fraction_from_time_elapsed t 0 + filled_traps traps). rewrite IH. ring.
Qed.
Lemma held_range traps w spare T : Forall holding traps -> records (length traps) w spare T -> 0 <= held traps T <= filled_traps traps.
Proof.
  intros Hh HT. assert (Hf : Forall fading traps) by (eapply Forall_impl; [|exact Hh]; intros t [H _]; exact H).
  apply records_levels in HT as (l & k & -> & _ & Hl & Hw & Ht & Hv & HT).
  rewrite <- (held_same traps _ _ HT), <- count_held by auto. split; [now apply count_ge|].
  pose proof (start_nonneg traps Hf) as H0. eapply Rle_trans; [apply count_le; auto|]. rewrite start_filled in *. nra.
Qed.
Lemma times_bounded traps well dwell : Forall holding traps -> (0 < length traps)%nat -> sensitive well -> 0 < dwell ->
  forall l l' T' spare w T, Forall (fun x => 0 <= x) l -> records (length traps) w (length l + spare) T ->
  past_times traps well dwell T l = Ok (l', T') ->
  nearby (filled_traps traps) l l' /\ Forall (fun x => 0 <= x) l' /\
  Rsum l' = Rsum l + held traps T - held traps T' /\ exists w', records (length traps) w' spare T'.
Proof.
  intros Hh Hn Hs Hd. assert (Hc : Forall fading traps) by (eapply Forall_impl; [|exact Hh]; intros t [H _]; exact H).
  induction l as [|n l IH]; intros l' T' spare w T Hl HT E; cbn [past_times] in E.
  - injection E as <- <-. split; [constructor|]. split; [constructor|]. split; [unfold Rsum; cbn; lra|exists w; exact HT].
  - inversion Hl as [|? ? Hfree Hl']; subst. cbn [length Nat.add] in HT.
    assert (Hw : forall a, 0 <= a -> 0 <= well a <= 1).
    { intros a Ha. destruct Hs as [H0 H1]. destruct (Rle_lt_or_eq_dec 0 a Ha) as [Hp|<-]; [pose proof (H1 a Hp); lra|rewrite H0; lra]. }
    destruct (time_step traps w _ T (fun a => Ok (well a)) well n dwell Hn Hc HT (proj1 Hs) Hw (fun a _ => eq_refl) Hfree ltac:(lra)) as (S1 & _ & _).
    destruct (Rle_dec _ _) as [Hle|]; [|discriminate]. destruct (S1 Hle) as (w1 & _ & R1).
    apply bind_ok in E as ([l1 T1] & E1 & E2). injection E2 as <- <-.
    destruct (IH _ _ spare w1 _ Hl' R1 E1) as (N1 & P1 & C1 & W1).
    pose proof (held_range traps w _ T Hh HT). pose proof (held_range traps w1 _ _ Hh R1).
    split; [constructor; [|exact N1]|]. { unfold cloud_after, wanted. apply Rabs_le. lra. }
    split; [constructor; [lra|exact P1]|]. split; [|exact W1]. rewrite !Rsum_cons, C1. unfold cloud_after, wanted. lra.
Qed.
Lemma held_never traps : held traps never = 0.
Proof. unfold held. rewrite (electrons_ext traps _ empty_profile 0 1) by (try lra; intros; reflexivity). apply electrons_empty. Qed.

(** ** Images *)
Lemma column_length im j : length (column_of im j) = length im.
Proof. unfold column_of. apply map_length. Qed.
Lemma column_at (im : image R) i j : nth i (column_of im j) 0 = pixel im i j.
Proof. exact (column_nth im i j). Qed.
Lemma columns_nth im cols j : (j < cols)%nat -> nth j (map (column_of im) (seq 0 cols)) [] = column_of im j.
Proof.
  intros Hj. rewrite (nth_indep _ [] (column_of im 0)) by (rewrite map_length, seq_length; exact Hj). rewrite map_nth, seq_nth by exact Hj. reflexivity.
Qed.
Lemma full_thinned f group : Rsum (dens (map (thinned f) group)) = f * full_traps group.
Proof. unfold dens, full_traps, Rsum. induction group as [|t g IH]; cbn; [ring|]. cbn in IH. rewrite IH. ring. Qed.
Lemma filled_thinned f group : filled_traps (map (thinned f) group) = f * filled_traps group.
Proof.
  unfold filled_traps. induction group as [|t g IH]; cbn [map fold_right]; [ring|]. rewrite IH.
  change (fill_fraction_from_time_elapsed (thinned f t) 0) with (fill_fraction_from_time_elapsed t 0). cbn [thinned t_density]. ring.
Qed.
Lemma thinned_holding f group : 0 < f -> Forall holding group -> Forall holding (map (thinned f) group).
Proof.
  intros Hf H. apply Forall_map. eapply Forall_impl; [|exact H]. intros t [[H1 H2 H3] H4]. split; [|exact H4].
  constructor; [cbn; nra|exact H2|exact H3].
Qed.
Lemma slow_change im parallel serial c fraction group dwell well rows cols outs :
  shape rows cols im -> (0 < rows)%nat -> (forall i j, 0 <= pixel im i j) ->
  single_phase parallel rows c fraction group dwell false -> Forall (fun t => t_class t = CTrap) group -> Forall capturing group ->
  sensitive well -> (forall n, 0 <= n -> well_fill c 0 false n = Ok (well n)) ->
  d_traps serial = None -> d_window serial = WNone ->
  columns_past (past_slow (map (thinned fraction) group) well dwell) false (0, empty_profile) (0, empty_profile) (d_offset parallel)
    (map (column_of im) (seq 0 cols)) = Ok outs ->
  exists im', add_cti im parallel serial None = Ok (im', the_roe parallel, the_roe serial) /\ shape rows cols im' /\
    forall i j, (i < rows)%nat -> (j < cols)%nat ->
      0 <= pixel im' i j /\ Rabs (pixel im' i j - pixel im i j) <= INR (i + 1 + d_offset parallel) * (fraction * full_traps group).
Proof.
  intros Hs Hr Hp Hset Hcl Hfc Hw Hfill Hst Hsw E.
  destruct (slow_image im parallel serial c fraction group dwell well rows cols outs Hs Hr Hp Hset Hcl Hfc Hw Hfill Hst Hsw E) as (im' & E1 & Hs' & Lo & Hcols).
  exists im'. split; [exact E1|]. split; [exact Hs'|]. intros i j Hi Hj.
  pose proof (sp_share _ _ _ _ _ _ _ Hset) as Hpos. pose proof (sp_dwell _ _ _ _ _ _ _ Hset) as Hd. pose proof (sp_group _ _ _ _ _ _ _ Hset) as Hg.
  set (traps := map (thinned fraction) group) in *.
  assert (Hn : (0 < length traps)%nat) by (unfold traps; rewrite map_length; destruct group; [contradiction|cbn; lia]).
  destruct (init_describes traps rows KSlow) as [D V]. cbn [n_watermarks_per_transfer] in D.
  set (m := manager_init KSlow traps rows) in *. rewrite <- V in E.
  assert (Hpast : forall l l' s, (length l <= rows)%nat -> Forall (fun x => 0 <= x) l -> past_slow traps well dwell (volume (m_wm m), empty_profile) l = Ok (l', s) ->
    nearby (Rsum (dens traps)) l l' /\ Forall (fun x => 0 <= x) l').
  { intros l l' s Hl Hnn El. eapply (slow_bounded traps well dwell (thinned_capturing _ _ Hpos Hfc) Hn Hw Hd l l' s (2 * (rows - length l)) (m_wm m) empty_profile Hnn); [|exact El].
    replace (2 * length l + 2 * (rows - length l))%nat with (rows * 2)%nat by lia. exact D. }
  destruct Hs as [Hlen Hs]. destruct Hs' as [Hlen' Hs'].
  destruct (columns_bounded _ _ _ rows Hpast (d_offset parallel) _ outs (columns_fit im rows cols (conj Hlen Hs) Hp) E j i) as [B1 B2].
  - rewrite map_length, seq_length. exact Hj.
  - rewrite columns_nth by exact Hj. rewrite column_length, Hlen. exact Hi.
  - rewrite columns_nth in B2 by exact Hj. rewrite <- (Hcols j Hj) in B1, B2. rewrite column_at in B1. rewrite !column_at in B2.
    unfold traps in B2. rewrite full_thinned in B2. auto.
Qed.
Lemma times_change im parallel serial c fraction group dwell well rows cols im' roe1 roe2 :
  shape rows cols im -> (0 < rows)%nat -> (forall i j, 0 <= pixel im i j) ->
  single_phase parallel rows c fraction group dwell false -> kind_for group = KTime -> Forall holding group ->
  sensitive well -> (forall n, 0 <= n -> well_fill c 0 false n = Ok (well n)) ->
  d_traps serial = None -> d_window serial = WNone ->
  add_cti im parallel serial None = Ok (im', roe1, roe2) ->
  shape rows cols im' /\
  forall j, (j < cols)%nat -> Rsum (column_of im' j) <= Rsum (column_of im j) /\
  forall i, (i < rows)%nat ->
    0 <= pixel im' i j /\ Rabs (pixel im' i j - pixel im i j) <= INR (i + 1 + d_offset parallel) * (fraction * filled_traps group).
Proof.
  intros Hs Hr Hp Hset Hcl Hh Hw Hfill Hst Hsw Eadd.
  assert (Hfc : Forall fading group) by (eapply Forall_impl; [|exact Hh]; intros t [H _]; exact H).
  pose proof (times_image im parallel serial c fraction group dwell well rows cols Hs Hr Hp Hset Hcl Hfc Hw Hfill Hst Hsw) as H.
  destruct (columns_past _ _ _ _ _ _) as [outs|e] eqn:E; [|congruence]. destruct H as (im1 & E1 & Hs' & Lo & Hcols). rewrite E1 in Eadd. injection Eadd as <- <- <-.
  split; [exact Hs'|]. intros j Hj.
  pose proof (sp_share _ _ _ _ _ _ _ Hset) as Hpos. pose proof (sp_dwell _ _ _ _ _ _ _ Hset) as Hd. pose proof (sp_group _ _ _ _ _ _ _ Hset) as Hg.
  set (traps := map (thinned fraction) group) in *.
  assert (Hn : (0 < length traps)%nat) by (unfold traps; rewrite map_length; destruct group; [contradiction|cbn; lia]).
  assert (D : records (length traps) (m_wm (manager_init KTime traps rows)) rows never) by (apply init_records; reflexivity).
  set (m := manager_init KTime traps rows) in *.
  assert (Hp0 : forall l l' s, (length l <= rows)%nat -> Forall (fun x => 0 <= x) l -> past_times traps well dwell never l = Ok (l', s) ->
    (nearby (filled_traps traps) l l' /\ Forall (fun x => 0 <= x) l') /\ Rsum l' <= Rsum l).
  { intros l l' s Hl Hnn El.
    destruct (times_bounded traps well dwell (thinned_holding _ _ Hpos Hh) Hn Hw Hd l l' s (rows - length l) (m_wm m) never Hnn) as (N & P & C & w' & W); [|exact El|].
    - replace (length l + (rows - length l))%nat with rows by lia. exact D.
    - split; [auto|]. rewrite C, held_never. pose proof (held_range traps w' _ s (thinned_holding _ _ Hpos Hh) W). lra. }
  assert (Hpast : forall l l' s, (length l <= rows)%nat -> Forall (fun x => 0 <= x) l -> past_times traps well dwell never l = Ok (l', s) ->
    nearby (filled_traps traps) l l' /\ Forall (fun x => 0 <= x) l') by (intros l l' s H1 H2 H3; apply (Hp0 l l' s H1 H2 H3)).
  assert (Hsum : forall l l' s, (length l <= rows)%nat -> Forall (fun x => 0 <= x) l -> past_times traps well dwell never l = Ok (l', s) -> Rsum l' <= Rsum l)
    by (intros l l' s H1 H2 H3; apply (Hp0 l l' s H1 H2 H3)).
  pose proof (columns_fit im rows cols Hs Hp) as Hfit. destruct Hs as [Hlen Hs]. destruct Hs' as [Hlen' Hs']. split.
  - pose proof (columns_sum _ _ _ rows Hpast Hsum (d_offset parallel) _ outs Hfit E j) as K. rewrite columns_nth in K by exact Hj. rewrite (Hcols j Hj). exact K.
  - intros i Hi. destruct (columns_bounded _ _ _ rows Hpast (d_offset parallel) _ outs Hfit E j i) as [B1 B2].
    + rewrite map_length, seq_length. exact Hj.
    + rewrite columns_nth by exact Hj. rewrite column_length, Hlen. exact Hi.
    + rewrite columns_nth in B2 by exact Hj. rewrite <- (Hcols j Hj) in B1, B2. rewrite column_at in B1. rewrite !column_at in B2.
      unfold traps in B2. rewrite filled_thinned in B2. auto.
Qed.
Lemma log_normal_holds root density m sigma t : 0 <= density -> 0 < m -> 0 < sigma -> log_normal_trap root density m sigma = Ok t -> holding t.
Proof.
  intros Hd Hm Hs E. split; [now apply (log_normal_fades root density m sigma)|]. pose proof (log_normal_lifetimes m sigma Hs) as Hl.
  destruct (continuum_built log_normal_distribution root density m sigma ltac:(lra)) as (t' & E' & Ed & Ec).
  unfold log_normal_trap in E. rewrite E in E'. injection E' as <-. intros time Ht. unfold fill_fraction_from_time_elapsed. rewrite Ec, fill_survival.
  apply Rlt_le, (survival_positive _ Hl). exact Ht.
Qed.
