(** * Recording times is equivalent to recording fill fractions while charge is plentiful. *)
From Coq Require Import ZArith List Bool Reals Lra Lia.
From Coquelicot Require Import Rcomplements Rbar Hierarchy RInt.
From Verif Require Import Num Py RFacts CCDModel TrapsModel ManagerModel Spec SpecTime TrapsFacts WmFacts ArrayFacts CutFacts
  InstantFacts CaptureFacts InstantSpecFacts ClockFacts ShapeFacts BalanceFacts TimeFacts.
Import ListNotations.
Open Scope R_scope.

Lemma exponential_fading t : exponential t -> physical t -> fading t.
Proof.
  intros He Hp. pose proof (ph_timescale _ Hp). constructor.
  - apply (ph_density _ Hp).
  - rewrite fill_fraction_0 by auto. lra.
  - intros a b Hab. destruct (Req_dec a b) as [->|]; [lra|].
    apply Rlt_le, fill_fraction_decr; auto. lra.
Qed.
Lemma fading_all traps : Forall exponential traps -> Forall physical traps -> Forall fading traps.
Proof. intros He Hp. induction He; inversion Hp; subst; constructor; auto using exponential_fading. Qed.

Lemma timescale_nth traps s t : nth_error traps s = Some t -> timescale traps s = t_release_timescale t.
Proof.
  unfold timescale. revert s. induction traps as [|u traps IH]; intros [|s] H; cbn in *; try discriminate.
  - now injection H as ->.
  - now apply IH.
Qed.
Lemma wait_filled traps dwell T : Forall exponential traps -> Forall physical traps ->
  same_profile (length traps) (filled_by traps (wait dwell T)) (after_release traps dwell (filled_by traps T)).
Proof.
  intros He Hp s x Hs _. unfold filled_by, wait, after_release.
  destruct (nth_error traps s) as [t|] eqn:Et; [|apply nth_error_None in Et; lia].
  rewrite (timescale_nth _ _ _ Et). apply nth_error_In in Et.
  rewrite Forall_forall in He, Hp. specialize (He t Et). specialize (Hp t Et). pose proof (ph_timescale _ Hp).
  destruct (T s x) as [a|]; cbn [option_map]; [|ring].
  rewrite fill_fraction_add by (auto; lra). f_equal.
  rewrite fill_fraction_exp by auto. reflexivity.
Qed.
Lemma curve_range traps ts : Forall exponential traps -> Forall physical traps -> Forall (fun t => 0 <= t) ts ->
  Forall (fun f => 0 <= f <= 1) (curve traps ts).
Proof.
  intros He. revert ts. unfold curve. induction He as [|t traps Ht He IH]; intros [|x ts] Hp Hx; cbn; try constructor.
  - inversion Hp; inversion Hx; subst. pose proof (fill_fraction_range t x Ht (ph_timescale _ H1) ltac:(auto)). lra.
  - inversion Hp; inversion Hx; subst. now apply IH.
Qed.
Lemma curve_good traps l : Forall exponential traps -> Forall physical traps -> live l -> width (length traps) l ->
  Forall (fun r => Forall (fun t => 0 <= t) (snd r)) l -> good (length traps) (mapv (curve traps) l).
Proof.
  intros He Hp Hl Hw Ht. apply Forall_forall. intros r Hr. apply in_map_iff in Hr as (q & <- & Hq).
  unfold live, width in *. rewrite Forall_forall in Hl, Hw, Ht. split; [exact (Hl q Hq)|]. cbn [snd]. split.
  - unfold curve. apply zip_with_length; auto.
  - apply curve_range; auto.
Qed.

(** The empty traps below the cloud, counted by [demand] and by filling them. *)
Lemma wanted_demand traps w spare T v : (0 < length traps)%nat -> Forall exponential traps -> Forall physical traps ->
  records (length traps) w spare T -> 0 <= v <= 1 ->
  held traps (fill_now v T) - held traps T = demand traps v (filled_by traps T).
Proof.
  intros Hn He Hp Hr Hv. apply records_levels in Hr as (l & k & _ & _ & Hl & Hw & Ht & Hvol & HT).
  set (n := length traps) in *. set (L := mapv (curve traps) l).
  assert (HL : good n L) by now apply curve_good.
  assert (VL : volume L <= 1) by (unfold L; now rewrite mapv_volume).
  assert (Hocc : same_profile n (occupancy (L ++ Zs n 2)) (filled_by traps T)).
  { intros s x Hs Hx. rewrite occupancy_app_Zs by (try lra; apply live_nonneg, (good_live n); auto).
    unfold L. rewrite filled_occupancy by auto. unfold filled_by. now rewrite HT by auto. }
  rewrite <- (demand_same traps v _ _ Hocc) by lra.
  assert (EL : held traps T = trapped (dens traps) L).
  { unfold held. rewrite <- (electrons_same traps _ _ 0 1 Hocc) by lra. now apply (electrons_total traps L n). }
  rewrite EL.
  destruct (Req_dec v 0) as [->|Hv0].
  - assert (E : held traps (fill_now 0 T) = held traps T).
    { apply held_same. intros s x Hs Hx. unfold fill_now. destruct (Rlt_dec x 0); [lra|reflexivity]. }
    rewrite E, EL. unfold demand, electrons.
    assert (Z : forall ts s, electrons_from s ts (fun s x => 1 - occupancy (L ++ Zs n 2) s x) 0 0 = 0).
    { induction ts as [|t ts IH]; intros s; [reflexivity|]. cbn [electrons_from]. rewrite IH, RInt_point. unfold zero; cbn. ring. }
    rewrite Z. ring.
  - set (D := demand traps v (occupancy (L ++ Zs n 2))).
    destruct (plenty_ok traps L 0 (fun _ => Ok v) (Rmax 1 D) v Hp Hn HL VL eq_refl) as (l' & k' & _ & G & V' & _ & _ & O' & T').
    + pose proof (Rmax_l 1 D). lra.
    + lra.
    + apply Rmax_r.
    + fold n in O'. fold D in T'.
      assert (E : held traps (fill_now v T) = trapped (dens traps) l').
      { unfold held. rewrite <- (electrons_total traps l' n 0) by auto.
        apply electrons_same; [|lra|lra]. intros s x Hs Hx.
        rewrite occupancy_app_Zs by (try lra; apply live_nonneg, (good_live n); auto). rewrite O' by (auto; lra).
        rewrite Hocc by auto. unfold fill_now, filled_by.
        destruct (nth_error traps s) as [t|] eqn:Et; [|apply nth_error_None in Et; unfold n in Hs; lia].
        destruct (Rlt_dec x v); [|reflexivity]. apply fill_fraction_0. apply nth_error_In in Et.
        rewrite Forall_forall in He. now apply He. }
      rewrite E, T'. fold n. fold D. ring.
Qed.

Lemma time_instant traps wt wi spare T P fill well n_free dwell :
  let n := length traps in
  (0 < n)%nat -> Forall physical traps -> Forall exponential traps ->
  records n wt (S spare) T -> describes n wi (S spare) P -> same_profile n (filled_by traps T) P ->
  sensitive well -> (forall a, 0 <= a -> fill a = Ok (well a)) -> 0 <= n_free -> 0 < dwell ->
  let net := transfer_net traps well dwell n_free P in
  let P' := transfer_after traps well dwell n_free P in
  exists wi', manager_step (mkManager KInstant traps wi) n_free fill dwell = Ok (net, mkManager KInstant traps wi') /\
    describes n wi' spare P' /\
    (enough traps well dwell n_free P -> exists wt' T',
       manager_step (mkManager KTime traps wt) n_free fill dwell = Ok (net, mkManager KTime traps wt') /\
       records n wt' spare T' /\ same_profile n (filled_by traps T') P') /\
    (~ enough traps well dwell n_free P -> manager_step (mkManager KTime traps wt) n_free fill dwell = Err TypeError).
Proof.
  intros n Hn Hp He Ht Hi HTP Hs Hfill Hnf Hd net P'. set (v := well (n_free + released traps dwell P)).
  assert (Hrep : represents traps (S spare) (mkManager KInstant traps wi) P) by (apply represents_describes; auto).
  destruct (instant_step_ok traps _ P spare fill well n_free dwell Hp Hn Hrep Hs Hfill Hnf Hd) as (m' & E1 & E2 & E3 & _).
  apply represents_describes in E2 as (K1 & K2 & E2). fold n in E2.
  assert (Em : m' = mkManager KInstant traps (m_wm m')) by (destruct m'; cbn in *; now subst).
  exists (m_wm m'). split; [unfold manager_step; cbn [m_kind]; now rewrite <- Em|]. split; [exact E2|].
  assert (Hw0 : well 0 = 0) by apply Hs.
  assert (Hwr : forall a, 0 <= a -> 0 <= well a <= 1) by (intros; now apply sensitive_range).
  pose proof (time_step traps wt spare T fill well n_free dwell Hn (fading_all _ He Hp) Ht Hw0 Hwr Hfill Hnf ltac:(lra)) as (S1 & S2 & Hc0).
  fold n in S1.
  assert (Hwait : same_profile n (filled_by traps (wait dwell T)) (after_release traps dwell P)).
  { eapply same_trans; [now apply wait_filled|]. now apply after_release_same. }
  assert (Ec : cloud_after traps dwell n_free T = n_free + released traps dwell P).
  { unfold cloud_after, released, held. rewrite (electrons_same traps _ _ 0 1 HTP) by lra.
    rewrite (electrons_same traps _ _ 0 1 Hwait) by lra. reflexivity. }
  assert (Hvr : 0 <= v <= 1) by (unfold v; rewrite <- Ec; now apply Hwr).
  assert (Ew : wanted traps well dwell n_free T = demand traps v (after_release traps dwell P)).
  { unfold wanted, times_after. rewrite Ec. fold v. 
    rewrite <- (demand_same traps v _ _ Hwait) by auto.
    apply records_levels in Ht as (l & k & _ & Hk & Hl & Hwd & Htt & Hvol & HT).
    apply (wanted_demand traps (mapv (map (fun t => t + dwell)) l ++ Zs n (S k)) 0); auto.
    apply levels_records; auto; [now apply mapv_live|now apply wait_width| |now rewrite mapv_volume|lia|].
    - clear -Htt Hd. induction Htt as [|r l Hr Ht IH]; constructor; auto. cbn [snd]. clear -Hr Hd. induction Hr; constructor; auto. lra.
    - intros s x Hs' Hx. rewrite (wait_elapsed n) by auto. now apply (wait_same n). }
  rewrite Ew, Ec in S1, S2. split.
  - intros Hen. destruct (S1 Hen) as (wt' & A1 & A2). set (T' := times_after traps well dwell n_free T) in *.
    assert (HP' : same_profile n (filled_by traps T') (transfer_after traps well dwell n_free P)).
    { intros s x Hs' Hx. unfold T', times_after, transfer_after, after_capture. rewrite Ec. fold v.
      unfold filled_by at 1, fill_now.
      destruct (nth_error traps s) as [t|] eqn:Et; [|apply nth_error_None in Et; unfold n in Hs'; lia].
      destruct (Rlt_dec x v).
      - destruct (Rle_dec _ _) as [_|Hc]; [|exfalso; apply Hc; exact Hen].
        apply fill_fraction_0. apply nth_error_In in Et. rewrite Forall_forall in He. now apply He.
      - rewrite <- Hwait by auto. unfold filled_by. rewrite Et. reflexivity. }
    exists wt', T'. split; [|auto].
    rewrite A1. do 2 f_equal. unfold held. rewrite (electrons_same traps _ _ 0 1 HTP) by lra.
    rewrite (electrons_same traps _ _ 0 1 HP') by lra. unfold net. lra.
  - intros Hen. apply S2. now apply Rnot_le_lt.
Qed.

(** ** Histories. *)
Lemma run_time traps fill well ops : Forall physical traps -> Forall exponential traps -> (0 < length traps)%nat ->
  sensitive well -> (forall n, 0 <= n -> fill n = Ok (well n)) ->
  Forall (fun '(n, dwell) => 0 <= n /\ 0 < dwell) ops ->
  forall spare wt wi T P, records (length traps) wt (length ops + spare) T ->
  describes (length traps) wi (length ops + spare) P -> same_profile (length traps) (filled_by traps T) P ->
  (plentiful traps well ops P -> exists wt' T',
     run_manager fill ops (mkManager KTime traps wt) = Ok (history_nets traps well ops P, mkManager KTime traps wt') /\
     records (length traps) wt' spare T' /\
     same_profile (length traps) (filled_by traps T') (history_profile traps well ops P)) /\
  (~ plentiful traps well ops P -> run_manager fill ops (mkManager KTime traps wt) = Err TypeError).
Proof.
  intros Hp He Hn Hs Hf Hops. induction Hops as [|[n dwell] ops [Hfree Hd] Hops IH]; intros spare wt wi T P Ht Hi HTP.
  - cbn [plentiful run_manager history_nets history_profile length plus] in *. split; [|tauto].
    intros _. exists wt, T. auto.
  - cbn [length plus] in Ht, Hi.
    destruct (time_instant traps wt wi (length ops + spare) T P fill well n dwell Hn Hp He Ht Hi HTP Hs Hf Hfree Hd)
      as (wi' & _ & Hi' & S1 & S2).
    cbn [plentiful run_manager history_nets history_profile].
    assert (Hdec : enough traps well dwell n P \/ ~ enough traps well dwell n P) by (unfold enough; destruct (Rle_dec (demand traps (well (n + released traps dwell P)) (after_release traps dwell P)) (n + released traps dwell P)); auto).
    destruct Hdec as [Hen|Hen].
    + destruct (S1 Hen) as (wt' & T' & E & Ht' & HTP'). rewrite E. cbn [bind].
      destruct (IH spare wt' wi' T' _ Ht' Hi' HTP') as [I1 I2]. split.
      * intros [_ Hpl]. destruct (I1 Hpl) as (wt2 & T2 & E2 & R2 & Q2). rewrite E2. cbn [bind]. exists wt2, T2. auto.
      * intros Hnp. rewrite I2 by tauto. reflexivity.
    + rewrite S2 by auto. cbn [bind]. split; [tauto|reflexivity].
Qed.
Lemma init_records traps N k : n_watermarks_per_transfer k = 1%nat -> records (length traps) (m_wm (manager_init k traps N)) N never.
Proof.
  intros Hk. unfold manager_init. cbn [m_wm]. rewrite Hk. exists [], (1 + N * 1)%nat. cbn [app]. unfold zero_row; rnum.
  split; [reflexivity|]. split; [lia|]. split; [constructor|]. split.
  - pose proof (volume_Zs (length traps) (1 + N * 1)) as H. unfold Zs, zrow in H. rewrite H. lra.
  - intros s x Hs Hx. unfold never. induction (1 + N * 1)%nat as [|k' IH]; [reflexivity|]. cbn [repeat elapsed].
    destruct (Rlt_dec x 0); [lra|]. now rewrite Rminus_0_r.
Qed.
Lemma history_time traps N fill well ops : Forall physical traps -> Forall exponential traps -> (0 < length traps)%nat ->
  sensitive well -> (forall n, 0 <= n -> fill n = Ok (well n)) ->
  Forall (fun '(n, dwell) => 0 <= n /\ 0 < dwell) ops -> (length ops <= N)%nat ->
  (plentiful traps well ops empty_profile -> exists mt mi,
     run_manager fill ops (manager_init KTime traps N) = Ok (history_nets traps well ops empty_profile, mt) /\
     run_manager fill ops (manager_init KInstant traps N) = Ok (history_nets traps well ops empty_profile, mi) /\
     exists T, records (length traps) (m_wm mt) (N - length ops) T /\
       same_profile (length traps) (filled_by traps T) (occupancy (m_wm mi))) /\
  (~ plentiful traps well ops empty_profile -> run_manager fill ops (manager_init KTime traps N) = Err TypeError).
Proof.
  intros Hp He Hn Hs Hf Hops Hlen.
  destruct (run_time traps fill well ops Hp He Hn Hs Hf Hops (N - length ops) (m_wm (manager_init KTime traps N))
              (m_wm (manager_init KInstant traps N)) never empty_profile) as [H1 H2].
  - replace (length ops + (N - length ops))%nat with N by lia. now apply init_records.
  - replace (length ops + (N - length ops))%nat with N by lia.
    pose proof (init_represents traps N) as Hi. now apply represents_describes in Hi as (_ & _ & Hi).
  - intros s x _ _. reflexivity.
  - change (mkManager KTime traps (m_wm (manager_init KTime traps N))) with (manager_init KTime traps N) in *. split; [|exact H2].
    intros Hpl. destruct (H1 Hpl) as (wt & T & E & R & S).
    destruct (history_spec traps N fill well ops Hp Hn Hs Hf Hops Hlen) as (mi & E' & _ & _ & (lv & fr & _ & _ & D) & _).
    exists (mkManager KTime traps wt), mi. split; [exact E|]. split; [exact E'|]. exists T. split; [exact R|].
    eapply same_trans; [exact S|]. intros s x Hs' Hx. symmetry. now apply D.
Qed.
