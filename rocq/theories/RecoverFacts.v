(** * Readout of images with negative pixels, and the recovery of images. *)
From Coq Require Import ZArith List Bool Reals Lra Lia FunctionalExtensionality.
From Coquelicot Require Import Rcomplements Rbar Hierarchy RInt.
From Verif Require Import Num Py RFacts CCDModel TrapsModel ManagerModel ROEModel ClockModel MainModel Spec SpecImage SpecReadout SpecHistory SpecRecovery
  WmFacts ArrayFacts CutFacts ClockFacts CCDFacts MainFacts InstantFacts ReadoutImage RemoveFacts HistoryFacts HistorySpecFacts OrderFacts TameFacts.
Import ListNotations.
Open Scope R_scope.

(** ** A packet that stays below zero *)
Lemma capture_negative m n (fill : filling R) v m' : n <= 0 -> fill n = Ok v -> fill 0 = Ok v ->
  n_electrons_captured m 0 fill = Ok (0, m') -> n_electrons_captured m n fill = Ok (0, m').
Proof.
  intros Hn Ef E0. unfold n_electrons_captured. rewrite Ef, E0. cbn [bind]. rnum.
  assert (B : forall x, x <= 0 -> Rltb 0 x = false) by (intros; apply Rltb_false; lra).
  rewrite (B n Hn), (B 0 ltac:(lra)), andb_false_r.
  match goal with |- bind ?res _ = _ -> _ => destruct res as [[w wi]|e] end; cbn [bind]; [|discriminate].
  match goal with |- bind ?res _ = _ -> _ => destruct res as [[w2 wi2]|e] end; cbn [bind]; [|discriminate].
  destruct (Reqb _ _) eqn:Eq; [auto|]. apply Reqb_false in Eq.
  replace (0 / (n_trapped m w2 - n_trapped m (m_wm m))) with 0 by (unfold Rdiv; lra).
  rewrite (B 0 ltac:(lra)). cbn [andb bind]. intros E. injection E as E _. lra.
Qed.
Lemma instant_step_any traps m P free fill well n dwell :
  Forall physical traps -> (0 < length traps)%nat ->
  represents traps (S free) m P -> sensitive well -> (forall n, fill n = Ok (well (Rmax 0 n))) -> 0 < dwell ->
  exists net m', instant_step m n fill dwell = Ok (net, m') /\
    represents traps free m' (then_traps traps well dwell n P) /\ Rmax 0 (n + net) = left_over traps well dwell n P.
Proof.
  intros Hp Hn HR Hs Hfill Hd.
  destruct (release_ok traps m P (S free) dwell Hp Hn HR Hd) as (l & k & m1 & E1 & -> & Hk & G & V & NF & S1 & Hr).
  set (nt := length traps) in *. set (r := released traps dwell P) in *.
  destruct k as [|k]; [lia|]. set (c0 := cloud traps dwell n P).
  assert (Hc0 : 0 <= c0) by apply Rmax_l.
  pose proof (sensitive_range well c0 Hs Hc0) as Hv.
  destruct (capture_ok traps l k fill c0 (well c0)) as (c & l' & k' & Ec & Hc & G' & V' & L1 & L2 & O' & T'); auto.
  { apply (prep_not_full nt); auto; lra. }
  { rewrite Hfill, Rmax_right by lra. reflexivity. }
  { intros H. apply (proj2 Hs c0 H). }
  { intros ->. apply Hs. }
  fold nt in Ec, Hc, G', O'.
  assert (Hcs : c = captured traps c0 (well c0) (after_release traps dwell P)).
  { rewrite Hc. apply captured_same; auto. }
  assert (HS : same_profile nt (occupancy (l' ++ Zs nt k')) (then_traps traps well dwell n P)).
  { intros s x Hsn Hx. rewrite occupancy_app_Zs by (try lra; apply live_nonneg, (good_live nt), G').
    rewrite O' by (auto; lra). apply after_capture_same; auto. }
  assert (Hc1 : c <= c0) by (rewrite Hcs; apply Rmin_l).
  assert (Hc2 : 0 <= c).
  { rewrite Hc. unfold captured. apply Rmin_glb; [lra|]. apply dem_nonneg with (n_free := c0); auto. }
  exists (r - c), (mkManager KInstant traps (l' ++ Zs nt k')). split; [|split].
  - unfold instant_step. rewrite E1. rnum. fold r.
    destruct (Rle_dec 0 (n + r)) as [Hpos|Hneg].
    + assert (Ec0 : c0 = n + r) by (unfold c0, cloud; rewrite Rmax_right; auto). rewrite <- Ec0. rewrite Ec. reflexivity.
    + assert (Ec0 : c0 = 0) by (unfold c0, cloud; rewrite Rmax_left; auto; fold r; lra). 
      assert (Ez : c = 0).
      { rewrite Hcs, Ec0, (proj1 Hs). unfold captured. rewrite Rmin_left; [reflexivity|].
        unfold demand. rewrite (electrons_eq traps _ (fun _ _ => 1) 0 0); [rewrite electrons_one|lra|intros; lra]. lra. }
      rewrite Ec0, Ez in Ec.
      rewrite (capture_negative _ (n + r) fill (well 0) (mkManager KInstant traps (l' ++ Zs nt k'))); [rewrite Ez; reflexivity|lra| |rewrite Hfill, Rmax_left by lra; reflexivity|exact Ec].
      rewrite Hfill, Rmax_left by lra. reflexivity.
  - destruct k' as [|k']; [lia|]. exists l', k'. repeat split; auto. lia.
  - unfold left_over. fold c0. rewrite <- Hcs. unfold c0, cloud in *. fold r in Hc1 |- *. unfold Rmax in *.
    destruct (Rle_dec 0 (n + r)), (Rle_dec 0 (n + (r - c))); lra.
Qed.

(** ** Columns and images *)
Section Column.
Context (traps : list (trap R)) (well : R -> R) (dwell : R).
Notation clouds := (past_clouds traps well dwell).
Lemma clouds_length : forall l P, length (clouds P l) = length l.
Proof. induction l; intros; cbn; auto. Qed.
Context {St : Type} (past : St -> list R -> result (list R * St)) (start : St) (rows : nat).
Hypothesis Hpast : forall l, (length l <= rows)%nat -> exists s, past start l = Ok (clouds empty_profile l, s).
Lemma reading_clouds : forall n last l, (length l <= rows)%nat -> exists s, reading past start n last l = Ok (read_clouds traps well dwell n l, s).
Proof.
  induction n as [|n IH]; intros last l Hl; cbn [reading read_clouds]; [eauto|].
  destruct (Hpast l Hl) as [s E]. rewrite E. cbn [bind]. pose proof (clouds_length l empty_profile) as L.
  destruct (clouds empty_profile l) as [|x rest]; [eauto|]. cbn [length] in L.
  destruct (IH s rest ltac:(lia)) as [s' E']. rewrite E'. cbn [bind]. eauto.
Qed.
Lemma before_clouds : forall n last l, (length l <= rows)%nat ->
  (exists s, before past start n last l = Ok (through_clouds traps well dwell n l, s)) /\ length (through_clouds traps well dwell n l) = length l.
Proof.
  induction n as [|n IH]; intros last l Hl; cbn [before through_clouds]; [eauto|].
  destruct (Hpast l Hl) as [s E]. rewrite E. cbn [bind]. rewrite <- (clouds_length l empty_profile). apply IH. rewrite clouds_length. exact Hl.
Qed.
Lemma column_past_clouds offset l : (length l <= rows)%nat -> exists s, column_past past start offset l = Ok (column_clouds traps well dwell offset l, s).
Proof.
  intros Hl. unfold column_past, column_clouds. destruct (before_clouds offset start l Hl) as [[s E] L]. rewrite E. cbn [bind].
  apply reading_clouds. lia.
Qed.
Lemma columns_past_clouds offset columns : Forall (fun l => (length l <= rows)%nat) columns ->
  columns_past past false start start offset columns = Ok (map (column_clouds traps well dwell offset) columns).
Proof.
  induction 1 as [|l columns Hl _ IH]; cbn [columns_past map]; [reflexivity|].
  destruct (column_past_clouds offset l Hl) as [s E]. rewrite E. cbn [bind]. rewrite IH. reflexivity.
Qed.
End Column.
Lemma instant_follows traps fill well dwell : Forall physical traps -> (0 < length traps)%nat ->
  sensitive well -> (forall n, fill n = Ok (well (Rmax 0 n))) -> 0 < dwell ->
  forall l spare m P, represents traps (length l + spare) m P ->
  exists m', past_manager fill dwell m l = Ok (past_clouds traps well dwell P l, m').
Proof.
  intros Hp Hn Hs Hf Hd. induction l as [|n l IH]; intros spare m P HP; cbn [past_manager past_clouds]; [eauto|].
  cbn [length Nat.add] in HP. destruct (instant_step_any traps m P _ fill well n dwell Hp Hn HP Hs Hf Hd) as (net & m1 & E & R1 & EL).
  assert (K : manager_step m n fill dwell = instant_step m n fill dwell).
  { destruct HP as (l0 & k0 & -> & _). reflexivity. }
  rewrite K, E. cbn [bind]. destruct (IH spare m1 _ R1) as [m2 E2]. rewrite E2. cbn [bind]. rewrite EL. eauto.
Qed.
Lemma depth_fill_any c k beta full n : phase_params c k 0 beta full -> 0 < full -> 0 < beta ->
  well_fill c k false n = Ok (depth full beta (Rmax 0 n)).
Proof.
  intros Hc Hf Hb. destruct (Rle_dec 0 n) as [Hn|Hn]; [rewrite Rmax_right by lra; apply depth_fill; auto|].
  rewrite Rmax_left by lra. destruct Hc as [H1 H2 H3]. rewrite (well_fill_ok c k n 0 beta full H1 H2 H3) by lra. f_equal.
  unfold depth. destruct (Rle_dec 0 0); [|lra]. destruct (Req_EM_T n 0); [lra|].
  assert (n / full < 0) by (unfold Rdiv; pose proof (Rinv_0_lt_compat full Hf); nra).
  replace ((n - 0) / (full - 0)) with (n / full) by (f_equal; lra). rewrite Rmin_right by lra. rewrite Rmax_left by lra.
  unfold Rpow_py. destruct (Req_EM_T 0 0); [|lra]. destruct (Req_EM_T beta 0); [lra|reflexivity].
Qed.
Lemma any_image im parallel serial c fraction group dwell full beta rows cols :
  shape rows cols im -> (0 < rows)%nat ->
  single_phase parallel rows c fraction group dwell false -> instant_group group ->
  phase_params c 0 0 beta full -> 0 < full -> 0 < beta ->
  d_traps serial = None -> d_window serial = WNone ->
  exists im', add_cti im parallel serial None = Ok (im', the_roe parallel, the_roe serial) /\ shape rows cols im' /\
    forall j, (j < cols)%nat -> column_of im' j =
      column_clouds (map (thinned fraction) group) (depth full beta) dwell (d_offset parallel) (column_of im j).
Proof.
  intros Hs Hr Hset [Hne Hgr] Hpp Hf Hb Hst Hsw.
  pose proof (history_readout im parallel serial c fraction group dwell false rows cols Hs Hr Hset Hst Hsw) as H. cbv zeta in H.
  pose proof (sp_share _ _ _ _ _ _ _ Hset) as Hpos. pose proof (sp_dwell _ _ _ _ _ _ _ Hset) as Hd.
  assert (Hn : (0 < length (map (thinned fraction) group))%nat) by (rewrite map_length; destruct group; [contradiction|cbn; lia]).
  assert (Hk : empty_manager fraction group rows = manager_init KInstant (map (thinned fraction) group) rows).
  { unfold empty_manager, manager_init, kind_for, zero_row. rewrite map_length. destruct group as [|t g]; [contradiction|].
    inversion Hgr as [|? ? [_ Ht] _]; subst. rewrite Ht. cbn [n_watermarks_per_transfer]. rnum. do 2 f_equal. lia. }
  rewrite Hk in H. clear Hk.
  rewrite (columns_past_clouds (map (thinned fraction) group) (depth full beta) dwell _ _ rows) in H.
  - destruct H as (im' & E & S & L & K). exists im'. split; [exact E|]. split; [exact S|]. intros j Hj.
    rewrite (K j Hj). rewrite (nth_indep _ [] (column_clouds (map (thinned fraction) group) (depth full beta) dwell (d_offset parallel) (column_of im 0))) by (rewrite L; exact Hj).
    rewrite map_nth. f_equal. rewrite (map_nth (column_of im)). rewrite seq_nth by exact Hj. reflexivity.
  - intros l Hl. apply (instant_follows _ _ (depth full beta) dwell) with (spare := (rows - length l)%nat); auto.
    + apply Forall_map. eapply Forall_impl; [|exact Hgr]. intros t [Ht _]. apply thinned_physical; [lra|exact Ht].
    + apply depth_sensitive; auto.
    + intros n. apply depth_fill_any; auto.
    + replace (length l + (rows - length l))%nat with rows by lia. apply init_represents.
  - apply Forall_forall. intros l Hin. apply in_map_iff in Hin as (j & <- & _). unfold column_of. rewrite map_length. destruct Hs as [Hs _]. lia.
Qed.

(** ** The same as passes of clouds with a floor *)
Section Same.
Context (traps : list (trap R)) (well : R -> R) (dwell floor slope : R) (th : nat -> R).
Hypothesis Hphys : Forall physical traps.
Hypothesis Hdwell : 0 <= dwell.
Hypothesis Hg : gradual traps well floor slope.
Hypothesis Hw : forall a, floor <= a -> 0 <= well a <= 1.
Hypothesis Hth0 : floor <= th 0.
Hypothesis Hth : forall p a, th (S p) <= a -> th p <= a - traps_per_pixel traps * well a.
Hypothesis Hth1 : forall p, th p <= th (S p).
Notation n := (length traps).
(** Either every cloud is allowed, or the pixels are high enough. *)
Definition high (t : R) (l : list R) : Prop := floor = 0 \/ Forall (Rle t) l.
Lemma pass_same t : floor <= t -> forall l P, tidy n P -> high t l ->
  past_clouds traps well dwell P l = pass traps dwell well floor P l.
Proof.
  intros Ht. induction l as [|m l IH]; intros P HP Hh; cbn [past_clouds pass]; [reflexivity|].
  assert (Ec : cloud traps dwell m P = cloud_from traps dwell floor m P).
  { unfold cloud, cloud_from. destruct Hh as [->|Hh]; [reflexivity|]. inversion Hh; subst.
    pose proof (released_nonneg traps dwell Hphys Hdwell P HP). pose proof (gr_floor _ _ _ _ Hg). rewrite !Rmax_right by lra. reflexivity. }
  pose proof (leaves_enough traps dwell Hphys Hdwell well floor slope Hg Hw m P HP) as He.
  assert (E1 : left_over traps well dwell m P = leaves traps dwell well floor m P).
  { unfold left_over, leaves. rewrite Ec. unfold captured. rewrite Rmin_right by exact He. reflexivity. }
  assert (E2 : then_traps traps well dwell m P = behind traps dwell well floor m P).
  { unfold then_traps, behind. rewrite Ec. apply functional_extensionality. intros s. apply functional_extensionality. intros x.
    unfold after_capture, fill_to. destruct (Rlt_dec _ _); [|reflexivity]. destruct (Rle_dec _ _); [reflexivity|contradiction]. }
  rewrite E1, E2. f_equal. apply IH; [apply behind_tidy; auto|]. destruct Hh as [H|H]; [left; exact H|right; inversion H; auto].
Qed.
Lemma pass_high k : forall l P, tidy n P -> high (th (S k)) l -> high (th k) (pass traps dwell well floor P l).
Proof.
  intros l P HP [H|H]; [left; exact H|right]. revert P HP. induction H as [|m l Hm H IH]; intros P HP; cbn [pass]; constructor.
  - apply (leaves_floor traps dwell Hphys Hdwell well floor Hw m P (th (S k)) (th k) HP); [|exact Hm|apply Hth]. 
    apply (th_floor floor th Hth0 Hth1).
  - apply IH. apply behind_tidy; auto.
Qed.
Lemma reads_same : forall k l, (length l <= k)%nat -> high (th k) l -> read_clouds traps well dwell k l = reads traps dwell well floor k l.
Proof.
  induction k as [|k IH]; intros l Hl Hh; cbn [read_clouds reads].
  - destruct l; [reflexivity|cbn in Hl; lia].
  - rewrite (pass_same (th (S k))); [|apply (th_floor floor th Hth0 Hth1)|apply tidy_empty|exact Hh].
    pose proof (pass_high k l empty_profile (tidy_empty traps) Hh) as Hp.
    pose proof (pass_length traps dwell well floor l empty_profile) as L.
    destruct (pass traps dwell well floor empty_profile l) as [|x rest]; cbn [skip]; [reflexivity|]. f_equal. apply IH; [cbn in L; lia|].
    destruct Hp as [H|H]; [left; exact H|right; inversion H; auto].
Qed.
Lemma enters_same q : forall k l, high (th (k + q)) l -> through_clouds traps well dwell k l = enters traps dwell well floor k l /\
  high (th q) (enters traps dwell well floor k l) /\ length (enters traps dwell well floor k l) = length l.
Proof.
  induction k as [|k IH]; intros l Hh; cbn [through_clouds enters]; [auto|].
  rewrite (pass_same (th (S k + q))); [|apply (th_floor floor th Hth0 Hth1)|apply tidy_empty|exact Hh].
  rewrite <- (pass_length traps dwell well floor l empty_profile). apply IH. apply pass_high; [apply tidy_empty|exact Hh].
Qed.
Lemma column_same offset l : high (th (offset + length l)) l ->
  column_clouds traps well dwell offset l = column_reads traps dwell well floor (length l) offset l.
Proof.
  intros Hh. unfold column_clouds, column_reads. destruct (enters_same (length l) offset l Hh) as (E & H & L). rewrite E. apply reads_same; [lia|exact H].
Qed.
End Same.
