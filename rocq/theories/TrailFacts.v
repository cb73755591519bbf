(** * The trail behind a bright pixel: single species or mixtures, below the notch. *)
From Coq Require Import ZArith List Bool Reals Lra Lia.
From Coquelicot Require Import Rcomplements Rbar Hierarchy RInt.
From Verif Require Import Num Py RFacts CCDModel TrapsModel ManagerModel ROEModel ClockModel MainModel Spec SpecImage SpecReadout SpecBalance SpecHistory SpecTrail
  TrapsFacts CCDFacts WmFacts ArrayFacts CutFacts InstantFacts CaptureFacts InstantSpecFacts ClockFacts ShapeFacts BalanceFacts TimeFacts StoredFacts NotchFacts
  MainFacts ColumnFacts ReadoutImage ReadoutFull MainReadoutFacts HistoryFacts RecoverImageFacts.
Import ListNotations.
Open Scope R_scope.

(** ** No level to collapse *)
Lemma fold_min_le ks : forall k, (fold_left Nat.min ks k <= k)%nat.
Proof. induction ks as [|a ks IH]; intros k; cbn; [lia|]. specialize (IH (Nat.min k a)). lia. Qed.
Lemma collapse_index_le filled n (w : wmarks R) : (0 < n)%nat ->
  (collapse_index filled n w <= np_argmax (map (fun r => negb (neqb (nth 0 (vals r) n0) filled)) w))%nat.
Proof. intros H. destruct n; [lia|]. unfold collapse_index. cbn [seq map]. apply fold_min_le. Qed.
Lemma keep_all filled n (w wi : wmarks R) : (collapse_index filled n w <= 1)%nat -> collapse_with_copy filled n w wi = Ok (w, wi).
Proof. intros H. unfold collapse_with_copy. rewrite (proj2 (Nat.leb_le _ _) H). reflexivity. Qed.

Lemma Rsum_more x l : Rsum (x :: l) = x + Rsum l. Proof. reflexivity. Qed.
Section Manager.
Context (traps : list (trap R)) (dwell : R) (fill : filling R).
Hypothesis Hph : Forall physical traps.
Hypothesis Hne : (0 < length traps)%nat.
Hypothesis Hd : 0 < dwell.
Let n := length traps.

Lemma same_trapped w : n_trapped (mkManager KInstant traps w) w = stored KInstant traps w.
Proof. now apply blind_n_trapped. Qed.
Lemma any_trapped m' w : m_kind m' = KInstant -> m_traps m' = traps -> n_trapped m' w = stored KInstant traps w.
Proof. apply blind_n_trapped. Qed.

(** Traps that were never filled: the first level has no volume, whatever its values. *)
Definition blank (k : nat) (m : manager R) : Prop :=
  exists b, m = mkManager KInstant traps ((0, repeat b n) :: Zs n (S k)) /\ (b = 0 \/ b = 1).
Lemma blank_index (b : R) k : b = 0 \/ b = 1 -> (collapse_index 1%R n ((0%R, repeat b n) :: Zs n k) <= 1)%nat.
Proof.
  intros Hb. eapply Nat.le_trans; [apply collapse_index_le; exact Hne|]. cbn [map]. unfold np_argmax. cbn [find_true vals snd].
  assert (E : nth 0 (repeat b n) n0 = b) by (unfold n; destruct (length traps); [lia|reflexivity]). rewrite E.
  destruct (negb (neqb b 1)) eqn:E1; [cbn; lia|].
  destruct k as [|k]; [cbn; lia|]. cbn [Zs repeat map find_true vals zrow snd]. assert (E2 : nth 0 (repeat 0 n) n0 = 0) by (unfold n; destruct (length traps); [lia|reflexivity]). rewrite E2.
  rnum. replace (Reqb 0 1) with false by (symmetry; apply Reqb_false; lra). cbn. lia.
Qed.
Lemma blank_stored (b : R) k : stored KInstant traps ((0, repeat b n) :: Zs n k) = 0.
Proof.
  change ((0, repeat b n) :: Zs n k) with ([(0, repeat b n)] ++ Zs n k).
  rewrite stored_app, stored_Zs, stored_fractions by discriminate. rewrite trapped_cons, trapped_nil. unfold row_trapped; cbn [fst snd]. ring.
Qed.

(** A packet inside the notch. *)
Lemma quiet_step k m p : blank k m -> 0 <= p -> fill p = Ok 0 -> exists m', manager_step m p fill dwell = Ok (0, m') /\ blank k m'.
Proof.
  intros (b & -> & Hb) Hp Hf. destruct (Req_dec p 0) as [->|Hp0].
  - unfold manager_step, instant_step. cbn [m_kind]. unfold n_electrons_released. cbn [m_wm]. rewrite max_index_head0.
    change (Z.to_nat (-1 + 1)) with 0%nat. rewrite slice_none. cbn [m_traps m_kind]. rewrite !any_trapped by reflexivity. rewrite blank_stored.
    rnum. rewrite Rminus_0_r, Rplus_0_r. unfold with_wm. cbn [m_kind m_traps].
    unfold n_electrons_captured. cbn [m_wm]. rewrite max_index_head0, Hf. cbn [bind]. rnum.
    replace (Rltb 0 0) with false by (symmetry; apply Rltb_false; lra). rewrite Bool.andb_false_r.
    cbn [Z.eqb Pos.eqb]. rewrite Bool.orb_true_r. unfold instant_cloud_below, slow_split. rnum.
    replace (Rltb 0 0) with false by (symmetry; apply Rltb_false; lra). cbn [andb bind].
    unfold index_above_cloud. rnum. rewrite (proj2 (Reqb_true 0 0) eq_refl). change (Z.to_nat (-1 + 1)) with 0%nat. rewrite slice_none.
    cbn [m_kind m_traps filled_value]. rnum. fold n. rewrite keep_all by (apply blank_index; exact Hb). cbn [bind].
    rewrite !any_trapped by reflexivity. rewrite (proj2 (Reqb_true _ _) eq_refl). cbn [bind with_wm m_kind m_traps]. rewrite Rminus_0_r.
    eexists. split; [reflexivity|]. exists b. auto.
  - rewrite (blind_step traps _ _ fill p dwell 0 (max_index_head0 _ _)) by (first [lra|exact Hf]).
    fold n. rewrite blank_stored. rewrite (proj2 (Reqb_true 0 0) eq_refl). eexists. split; [reflexivity|]. exists 1. auto.
Qed.

(** The traps [i] transfers after they were filled up to the depth [V]. *)
Definition remains (i : nat) : list R := map (fun t => exp (- dwell / t_release_timescale t) ^ i) traps.
Definition fading_state (V : R) (k i : nat) : manager R := mkManager KInstant traps ((V, remains i) :: Zs n (S k)).
Definition trail (V : R) (i : nat) : R := V * (still_full traps dwell i - still_full traps dwell (S i)).

Lemma remains_dot i : dot (remains i) (dens traps) = still_full traps dwell i.
Proof.
  unfold remains, still_full, dens, dot. clear. induction traps as [|t ts IH]; [reflexivity|]. cbn [map combine]. unfold Rsum in *. cbn in *. rewrite IH. ring.
Qed.
Lemma remains_stored V i q : stored KInstant traps ((V, remains i) :: Zs n q) = V * still_full traps dwell i.
Proof.
  change ((V, remains i) :: Zs n q) with ([(V, remains i)] ++ Zs n q).
  rewrite stored_app, stored_Zs, stored_fractions by discriminate. rewrite trapped_cons, trapped_nil. unfold row_trapped; cbn [fst snd].
  rewrite remains_dot. ring.
Qed.
Lemma release_one (t : trap R) : physical t -> release_probability dwell t = exp (- dwell / t_release_timescale t).
Proof. intros [_ H1 H2]. unfold release_probability. rnum. rewrite H2. f_equal. field. lra. Qed.
Lemma remains_release i : released_values (fading_state 1 0 0) dwell (remains i) = remains (S i).
Proof.
  unfold released_values, fading_state. cbn [m_kind m_traps]. unfold remains, zip_with. clear Hne n.
  induction Hph as [|t ts Ht Hts IH]; [reflexivity|]. cbn [map combine]. rewrite IH by assumption. f_equal. rewrite release_one by exact Ht. cbn [pow]. rnum. ring.
Qed.
Lemma factor_range (t : trap R) : physical t -> 0 < exp (- dwell / t_release_timescale t) < 1.
Proof.
  intros [_ H _]. split; [apply exp_pos|]. rewrite <- exp_0. apply exp_increasing.
  assert (0 < dwell / t_release_timescale t) by (apply Rdiv_lt_0_compat; assumption). replace (- dwell / t_release_timescale t) with (- (dwell / t_release_timescale t)) by (field; lra). lra.
Qed.
Lemma remains_not_full i q V : (collapse_index 1%R n ((V, remains (S i)) :: Zs n q) <= 1)%nat.
Proof.
  eapply Nat.le_trans; [apply collapse_index_le; exact Hne|]. cbn [map]. unfold np_argmax. cbn [find_true vals snd].
  assert (E : nth 0 (remains (S i)) n0 < 1).
  { unfold remains. destruct traps as [|t ts]; [cbn in Hne; lia|]. cbn [map nth]. inversion Hph as [|? ? Ht _]; subst.
    apply pow_lt_1_compat; [pose proof (factor_range t Ht); lra|lia]. }
  change (vals (V, remains (S i))) with (remains (S i)). set (f := nth 0 (remains (S i)) n0) in *. rnum. replace (Reqb f 1) with false by (symmetry; apply Reqb_false; lra). cbn. lia.
Qed.
Lemma trail_step V k i p : 0 < V -> fill (p + trail V i) = Ok 0 -> 0 <= p + trail V i ->
  manager_step (fading_state V k i) p fill dwell = Ok (trail V i, fading_state V k (S i)).
Proof.
  intros HV Hf Hp. unfold manager_step, instant_step, fading_state. cbn [m_kind]. unfold n_electrons_released. cbn [m_wm].
  assert (Hmax : forall j, max_watermark_index ((V, remains j) :: Zs n (S k)) = 0%Z).
  { intros j. change ((V, remains j) :: Zs n (S k)) with ([(V, remains j)] ++ Zs n (S k)). rewrite max_index_Zs by (repeat constructor; exact HV). reflexivity. }
  rewrite Hmax. change (Z.to_nat (0 + 1)) with 1%nat.
  change (map_vals_slice 0 1 ?f ((V, remains i) :: Zs n (S k))) with (map_vals_slice 0 (length [(V, remains i)]) f ([(V, remains i)] ++ Zs n (S k))).
  rewrite slice_pre. unfold mapv. cbn [map app fst snd].
  change (released_values (mkManager KInstant traps ((V, remains i) :: Zs n (S k))) dwell (remains i)) with (released_values (fading_state 1 0 0) dwell (remains i)).
  rewrite remains_release. rewrite !any_trapped by reflexivity. rewrite !remains_stored. rnum.
  replace (V * still_full traps dwell i - V * still_full traps dwell (S i)) with (trail V i) by (unfold trail; ring).
  unfold with_wm. cbn [m_kind m_traps].
  unfold n_electrons_captured. cbn [m_wm]. rewrite Hmax, Hf. cbn [bind]. cbn [Z.eqb andb].
  unfold index_above_cloud. rnum. rewrite (proj2 (Reqb_true 0 0) eq_refl). cbn [Z.leb Z.compare orb]. unfold instant_cloud_below, slow_split. rnum.
  replace (Rltb 0 0) with false by (symmetry; apply Rltb_false; lra). cbn [andb bind]. change (Z.to_nat (-1 + 1)) with 0%nat. rewrite slice_none.
  cbn [m_kind m_traps filled_value]. rnum. fold n. rewrite keep_all by apply remains_not_full. cbn [bind].
  rewrite !any_trapped by reflexivity. rewrite (proj2 (Reqb_true _ _) eq_refl). cbn [bind with_wm m_kind m_traps]. rewrite Rminus_0_r. reflexivity.
Qed.
Lemma hot_step k m p V : blank k m -> 0 < p -> fill p = Ok V -> traps_of traps * V <= p -> 0 <= traps_of traps -> 0 < V ->
  manager_step m p fill dwell = Ok (- (traps_of traps * V), fading_state V k 0).
Proof.
  intros (b & -> & _) Hp Hf HD Ht HV. rewrite (blind_step traps _ _ fill p dwell V (max_index_head0 _ _) Hp Hf). fold n.
  assert (E1 : repeat 1 n = remains 0). { unfold remains, n. clear. induction traps as [|t ts IH]; [reflexivity|]. cbn [length repeat map pow]. rewrite IH. reflexivity. }
  assert (E0 : still_full traps dwell 0 = traps_of traps). { unfold still_full, traps_of. f_equal. apply map_ext. intros t. cbn [pow]. ring. }
  rewrite E1, remains_stored, E0. rewrite (Rmult_comm V). unfold fading_state.
  destruct (Reqb_spec (traps_of traps * V) 0) as [H|H]; [rewrite H, Ropp_0; reflexivity|].
  destruct (Rltb_spec (p / (traps_of traps * V)) 1) as [H1|_]; [|reflexivity].
  exfalso. assert (0 < traps_of traps * V) by nra. apply (Rmult_lt_compat_r (traps_of traps * V)) in H1; [|assumption]. unfold Rdiv in H1. rewrite Rmult_assoc, Rinv_l in H1; lra.
Qed.

(** ** A column *)
Context (well : R -> R) (notch : R).
Hypothesis Hfill : forall p, 0 <= p -> fill p = Ok (well p).
Hypothesis Hwell : forall p, 0 <= p -> 0 <= well p <= 1.
Hypothesis Hquiet : forall p, p <= notch -> well p = 0.
Hypothesis Hloud : forall p, notch < p -> 0 < well p.
Let rho := traps_of traps.
Hypothesis Hrho : rho <= notch.

Lemma still_full_decreasing i : 0 <= still_full traps dwell (S i) <= still_full traps dwell i.
Proof.
  unfold still_full. clear - Hph Hd. induction Hph as [|t ts Ht Hts IH]; cbn [map].
  - unfold Rsum. cbn. lra.
  - rewrite !Rsum_more. specialize (IH Hts). pose proof (factor_range t Ht) as F. destruct Ht as [Hden _ _]. 
    set (x := exp (- dwell / t_release_timescale t)) in *. change (x ^ S i) with (x * x ^ i). assert (0 <= x ^ i) by (apply pow_le; lra). assert (0 <= x * x ^ i <= x ^ i) by nra. nra.
Qed.
Lemma rho_nonneg : 0 <= rho.
Proof.
  unfold rho, traps_of. clear - Hph. induction Hph as [|t ts Ht Hts IH]; cbn [map]; [unfold Rsum; cbn; lra|]. rewrite Rsum_more. specialize (IH Hts). destruct Ht as [Hden _ _]. lra.
Qed.
Lemma trail_nonneg A i : 0 <= A -> 0 <= trail A i.
Proof. intros H. unfold trail. pose proof (still_full_decreasing i). nra. Qed.
Lemma trail_0 i : trail 0 i = 0.
Proof. unfold trail. ring. Qed.
Lemma trail_plus A B i : trail (A + B) i = trail A i + trail B i.
Proof. unfold trail. ring. Qed.

Fixpoint add_trail (A : R) (i : nat) (l : list R) : list R :=
  match l with [] => [] | p :: l' => p + trail A i :: add_trail A (S i) l' end.
Fixpoint fits (A : R) (i : nat) (l : list R) : Prop :=
  match l with [] => True | p :: l' => (0 <= p /\ p + trail A i <= notch) /\ fits A (S i) l' end.
Definition quiet (l : list R) : Prop := Forall (fun p => 0 <= p <= notch) l.
Lemma add_trail_twice A B : forall l i, add_trail B i (add_trail A i l) = add_trail (A + B) i l.
Proof. induction l as [|p l IH]; intros i; [reflexivity|]. cbn [add_trail]. rewrite IH, trail_plus. f_equal. ring. Qed.
Lemma add_trail_0 : forall l i, add_trail 0 i l = l.
Proof. induction l as [|p l IH]; intros i; [reflexivity|]. cbn [add_trail]. rewrite IH, trail_0, Rplus_0_r. reflexivity. Qed.
Lemma add_trail_length A : forall l i, length (add_trail A i l) = length l.
Proof. induction l as [|p l IH]; intros i; [reflexivity|]. cbn [add_trail length]. rewrite IH. reflexivity. Qed.
Lemma fits_rest A B : 0 <= A -> forall l i, fits (A + B) i l -> fits B i (add_trail A i l).
Proof.
  intros HA. induction l as [|p l IH]; intros i; [exact (fun H => H)|]. cbn [fits add_trail]. intros [[H1 H2] H3]. rewrite trail_plus in H2.
  pose proof (trail_nonneg A i HA). split; [lra|auto].
Qed.
Lemma fits_less A B : 0 <= B -> forall l i, fits (A + B) i l -> fits A i l.
Proof.
  intros HB. induction l as [|p l IH]; intros i; [exact (fun H => H)|]. cbn [fits]. intros [[H1 H2] H3]. rewrite trail_plus in H2.
  pose proof (trail_nonneg B i HB). split; [lra|auto].
Qed.
Lemma fits_quiet A : 0 <= A -> forall l i, fits A i l -> quiet l.
Proof.
  intros HA. induction l as [|p l IH]; intros i H; [constructor|]. cbn [fits] in H. destruct H as [[H1 H2] H3]. pose proof (trail_nonneg A i HA). constructor; [lra|eapply IH; exact H3].
Qed.
Lemma fits_quiet_after A : 0 <= A -> forall l i, fits A i l -> quiet (add_trail A i l).
Proof.
  intros HA. induction l as [|p l IH]; intros i H; [constructor|]. cbn [fits] in H. destruct H as [[H1 H2] H3]. pose proof (trail_nonneg A i HA). constructor; [lra|eapply IH; exact H3].
Qed.

Lemma past_quiet k : forall l m, blank k m -> quiet l -> exists m', past_manager fill dwell m l = Ok (l, m') /\ blank k m'.
Proof.
  induction l as [|p l IH]; intros m Hm Hl; [exists m; auto|]. inversion Hl as [|? ? Hp Hl']; subst. cbn [past_manager].
  destruct (quiet_step k m p Hm (proj1 Hp)) as (m1 & -> & H1); [rewrite Hfill by lra; rewrite Hquiet by lra; reflexivity|]. cbn [bind].
  destruct (IH m1 H1 Hl') as (m2 & -> & H2). cbn [bind]. exists m2. split; [|exact H2]. rewrite Rplus_0_r, Rmax_right by lra. reflexivity.
Qed.
Lemma past_trail k A : 0 < A -> forall l i, fits A i l -> exists m', past_manager fill dwell (fading_state A k i) l = Ok (add_trail A i l, m').
Proof.
  intros HA. induction l as [|p l IH]; intros i Hl; [eexists; reflexivity|]. cbn [fits] in Hl. destruct Hl as [[H1 H2] H3]. cbn [past_manager add_trail].
  pose proof (trail_nonneg A i ltac:(lra)) as Ht. rewrite trail_step; [|exact HA|rewrite Hfill by lra; rewrite Hquiet by lra; reflexivity|lra]. cbn [bind].
  destruct (IH (S i) H3) as (m' & ->). cbn [bind]. exists m'. rewrite Rmax_right by lra. reflexivity.
Qed.
Lemma past_app fl d : forall a b m, past_manager fl d m (a ++ b) =
  do '(a', m1) <- past_manager fl d m a; do '(b', m2) <- past_manager fl d m1 b; Ok (a' ++ b', m2).
Proof.
  induction a as [|x a IH]; intros b m; cbn [app past_manager bind].
  - destruct (past_manager fl d m b) as [[b' m2]|e]; reflexivity.
  - destruct (manager_step m x fl d) as [[net m1]|e]; [|reflexivity]. cbn [bind]. rewrite IH.
    destruct (past_manager fl d m1 a) as [[a' m2]|e]; [|reflexivity]. cbn [bind].
    destruct (past_manager fl d m2 b) as [[b' m3]|e]; reflexivity.
Qed.
Lemma hot_enough p : 0 <= p -> rho * well p <= p.
Proof.
  intros Hp. pose proof rho_nonneg. pose proof (Hwell p Hp). destruct (Rle_or_lt p notch) as [H1|H1]; [rewrite Hquiet by exact H1; lra|nra].
Qed.
Lemma past_hot k m pre p post : blank k m -> quiet pre -> 0 <= p -> fits (well p) 0 post ->
  exists m', past_manager fill dwell m (pre ++ p :: post) = Ok (pre ++ (p - rho * well p) :: add_trail (well p) 0 post, m').
Proof.
  intros Hm Hpre Hp Hpost. rewrite past_app. destruct (past_quiet k pre m Hm Hpre) as (m1 & -> & Hm1). cbn [bind].
  pose proof (hot_enough p Hp) as He. pose proof rho_nonneg as Hr. pose proof (Hwell p Hp) as Hw.
  destruct (Rle_or_lt p notch) as [Hn|Hn].
  - rewrite (Hquiet p Hn) in *. destruct (past_quiet k (p :: post) m1 Hm1) as (m2 & -> & _).
    { constructor; [lra|]. eapply (fits_quiet 0); [lra|exact Hpost]. }
    cbn [bind]. exists m2. rewrite add_trail_0. replace (p - rho * 0) with p by ring. reflexivity.
  - pose proof (Hloud p Hn) as Hv. cbn [past_manager]. rewrite (hot_step k m1 p (well p) Hm1) by (auto; lra). cbn [bind].
    destruct (past_trail k (well p) Hv post 0 Hpost) as (m2 & ->). cbn [bind]. exists m2. fold rho. rewrite Rmax_right by lra. reflexivity.
Qed.

Let S0 := fun k => mkManager KInstant traps ((0, repeat 0 n) :: Zs n (S k)).
Lemma S0_blank k : blank k (S0 k). Proof. exists 0. auto. Qed.
Lemma quiet_reading k : forall l last, quiet l -> exists s, reading (past_manager fill dwell) (S0 k) (length l) last l = Ok (l, s).
Proof.
  induction l as [|p l IH]; intros last Hl; [eexists; reflexivity|]. cbn [length reading].
  destruct (past_quiet k (p :: l) (S0 k) (S0_blank k) Hl) as (m' & -> & _). cbn [bind].
  inversion Hl; subst. destruct (IH m' ltac:(assumption)) as (s & ->). cbn [bind]. eexists; reflexivity.
Qed.
Lemma swept_nonneg : forall j p, 0 <= p -> 0 <= swept well rho j p.
Proof.
  induction j as [|j IH]; intros p Hp; cbn [swept]; [lra|]. pose proof (Hwell p Hp). pose proof (hot_enough p Hp). specialize (IH (p - rho * well p) ltac:(lra)). lra.
Qed.
Lemma hot_reading k : forall pre last p post, quiet pre -> 0 <= p -> fits (swept well rho (S (length pre)) p) 0 post ->
  exists s, reading (past_manager fill dwell) (S0 k) (length (pre ++ p :: post)) last (pre ++ p :: post) =
    Ok (pre ++ (p - rho * swept well rho (S (length pre)) p) :: add_trail (swept well rho (S (length pre)) p) 0 post, s).
Proof.
  induction pre as [|x pre IH]; intros last p post Hpre Hp Hpost.
  - cbn [length swept app] in *. rewrite Rplus_0_r in *. cbn [reading].
    destruct (past_hot k (S0 k) [] p post (S0_blank k) Hpre Hp Hpost) as (m' & E). cbn [app] in E. rewrite E. cbn [bind].
    destruct (quiet_reading k (add_trail (well p) 0 post) m') as (s & Es); [apply fits_quiet_after; [apply Hwell; exact Hp|exact Hpost]|].
    rewrite add_trail_length in Es. rewrite Es. cbn [bind]. eexists; reflexivity.
  - cbn [length] in *. remember (S (length pre)) as K. cbn [swept] in *. cbn [app length reading].
    pose proof (hot_enough p Hp) as He. pose proof (swept_nonneg K (p - rho * well p) ltac:(lra)) as Hs. pose proof (Hwell p Hp) as Hw.
    destruct (past_hot k (S0 k) (x :: pre) p post (S0_blank k) Hpre Hp) as (m' & E); [eapply fits_less; [exact Hs|exact Hpost]|].
    cbn [app] in E. rewrite E. cbn [bind]. inversion Hpre; subst.
    destruct (IH m' (p - rho * well p) (add_trail (well p) 0 post) ltac:(assumption) ltac:(lra)) as (s & Es); [apply fits_rest; [lra|exact Hpost]|].
    rewrite app_length in *. cbn [length] in *. rewrite add_trail_length in Es. rewrite Es. cbn [bind]. exists s. rewrite add_trail_twice.
    do 3 f_equal. f_equal. f_equal. ring.
Qed.
Lemma hot_before k : forall offset pre last p post, quiet pre -> 0 <= p -> fits (swept well rho (offset + S (length pre)) p) 0 post ->
  exists s, (do '(l, s1) <- before (past_manager fill dwell) (S0 k) offset last (pre ++ p :: post);
             reading (past_manager fill dwell) (S0 k) (length (pre ++ p :: post)) s1 l) =
    Ok (pre ++ (p - rho * swept well rho (offset + S (length pre)) p) :: add_trail (swept well rho (offset + S (length pre)) p) 0 post, s).
Proof.
  induction offset as [|o IH]; intros pre last p post Hpre Hp Hpost.
  - cbn [before bind Nat.add]. apply hot_reading; assumption.
  - cbn [Nat.add] in *. remember (o + S (length pre))%nat as K. cbn [swept] in *. cbn [before].
    pose proof (hot_enough p Hp) as He. pose proof (swept_nonneg K (p - rho * well p) ltac:(lra)) as Hs. pose proof (Hwell p Hp) as Hw.
    destruct (past_hot k (S0 k) pre p post (S0_blank k) Hpre Hp) as (m' & E); [eapply fits_less; [exact Hs|exact Hpost]|].
    rewrite E. cbn [bind].
    destruct (IH pre m' (p - rho * well p) (add_trail (well p) 0 post) ltac:(assumption) ltac:(lra)) as (s & Es); [subst K; apply fits_rest; [lra|exact Hpost]|].
    rewrite app_length in *. cbn [length] in *. rewrite add_trail_length in Es. rewrite <- HeqK in Es. rewrite Es. exists s. rewrite add_trail_twice.
    do 3 f_equal. f_equal. ring.
Qed.
End Manager.

(** ** Images *)
Lemma thinned_still fraction group dwell i : still_full (map (thinned fraction) group) dwell i = fraction * still_full group dwell i.
Proof.
  unfold still_full. induction group as [|t g IH]; [unfold Rsum; cbn; ring|]. cbn [map]. rewrite !Rsum_more, IH. cbn [thinned t_density t_release_timescale]. ring.
Qed.
Lemma thinned_traps_of fraction group : traps_of (map (thinned fraction) group) = fraction * traps_of group.
Proof.
  unfold traps_of. induction group as [|t g IH]; [unfold Rsum; cbn; ring|]. cbn [map]. rewrite !Rsum_more, IH. cbn [thinned t_density]. ring.
Qed.
Lemma above_notch_fill c notch beta full n : phase_params c 0 notch beta full -> 0 < beta -> 0 <= notch < full ->
  well_fill c 0 false n = Ok (above_notch notch full beta n).
Proof.
  intros [H1 H2 H3] Hb Hn. erewrite well_fill_ok by (eauto; lra). f_equal. unfold above_notch.
  destruct (Req_EM_T n 0) as [->|Hz]; [destruct (Rle_dec 0 notch); [reflexivity|lra]|].
  destruct (Rle_dec n notch) as [H|H].
  - rewrite clip_low by (apply frac_le_0; lra). apply Rpow_py_0. lra.
  - assert (0 < (n - notch) / (full - notch)) by (apply Rdiv_lt_0_compat; lra).
    assert (0 < Rmin 1 ((n - notch) / (full - notch))) by (apply Rmin_glb_lt; lra).
    rewrite Rmax_right by lra. unfold Rpow_py. destruct (Req_EM_T _ 0); [lra|reflexivity].
Qed.
Lemma above_notch_range notch full beta n : 0 < beta -> notch < full -> 0 <= above_notch notch full beta n <= 1.
Proof.
  intros Hb Hn. unfold above_notch. destruct (Rle_dec n notch) as [H|H]; [lra|].
  assert (0 < (n - notch) / (full - notch)) by (apply Rdiv_lt_0_compat; lra).
  assert (0 < Rmin 1 ((n - notch) / (full - notch)) <= 1) by (split; [apply Rmin_glb_lt; lra|apply Rmin_l]).
  set (x := Rmin 1 _) in *. split; [left; apply exp_pos|]. replace 1 with (Rpower 1 beta) by (unfold Rpower; rewrite ln_1, Rmult_0_r; apply exp_0). apply Rle_Rpower_l; lra.
Qed.

Lemma nth_add_trail traps dwell A : forall l s i, (i < length l)%nat -> nth i (add_trail traps dwell A s l) 0 = nth i l 0 + trail traps dwell A (s + i).
Proof.
  induction l as [|p l IH]; intros s i H; [cbn in H; lia|]. destruct i as [|i]; cbn [add_trail nth]; [rewrite Nat.add_0_r; reflexivity|].
  cbn [length] in H. rewrite IH by lia. do 2 f_equal. lia.
Qed.
Lemma fits_nth traps dwell notch A : forall l s, (forall i, (i < length l)%nat -> 0 <= nth i l 0 /\ nth i l 0 + trail traps dwell A (s + i) <= notch) ->
  fits traps dwell notch A s l.
Proof.
  induction l as [|p l IH]; intros s H; [exact I|]. cbn [fits]. split.
  - specialize (H 0%nat ltac:(cbn; lia)). rewrite Nat.add_0_r in H. exact H.
  - apply IH. intros i Hi. specialize (H (S i) ltac:(cbn; lia)). cbn [nth] in H. replace (S s + i)%nat with (s + S i)%nat by lia. exact H.
Qed.
Lemma no_state_columns {St} (past : St -> list R -> result (list R * St)) start offset : forall cols outs,
  Forall2 (fun packets out => exists s, column_past past start offset packets = Ok (out, s)) cols outs ->
  columns_past past false start start offset cols = Ok outs.
Proof. intros cols outs H. induction H as [|p o ps os (s & E) _ IH]; [reflexivity|]. cbn [columns_past]. rewrite E. cbn [bind]. rewrite IH. reflexivity. Qed.

Lemma trail_image im parallel serial c fraction group dwell notch beta full rows cols (hot : nat -> nat) :
  let offset := d_offset parallel in
  let loss j := swept (above_notch notch full beta) (fraction * traps_of group) (hot j + 1 + offset) (pixel im (hot j) j) in
  shape rows cols im -> (0 < rows)%nat -> (forall i j, 0 <= pixel im i j) ->
  single_phase parallel rows c fraction group dwell false ->
  Forall (fun t => t_class t = CInstant) group -> Forall physical group ->
  phase_params c 0 notch beta full -> 0 < beta -> 0 <= notch < full -> fraction * traps_of group <= notch ->
  (forall j, (j < cols)%nat -> (hot j < rows)%nat) ->
  (forall i j, (i < rows)%nat -> (j < cols)%nat -> i <> hot j -> with_trail group fraction dwell (loss j) (hot j) i (pixel im i j) <= notch) ->
  d_traps serial = None -> d_window serial = WNone ->
  exists im', add_cti im parallel serial None = Ok (im', the_roe parallel, the_roe serial) /\ shape rows cols im' /\
    forall i j, (i < rows)%nat -> (j < cols)%nat ->
      pixel im' i j = with_trail group fraction dwell (loss j) (hot j) i (pixel im i j).
Proof.
  intros offset loss Hs Hr Hnn Hset Hcl Hphys Hpar Hb Hnf Hrho Hhot Hfit Hst Hsw.
  pose proof (history_readout im parallel serial c fraction group dwell false rows cols Hs Hr Hset Hst Hsw) as H. cbv zeta in H. fold offset in H.
  pose proof (sp_share _ _ _ _ _ _ _ Hset) as Hpos. pose proof (sp_dwell _ _ _ _ _ _ _ Hset) as Hd. pose proof (sp_group _ _ _ _ _ _ _ Hset) as Hg.
  set (traps := map (thinned fraction) group) in *.
  assert (Hn : (0 < length traps)%nat) by (unfold traps; rewrite map_length; destruct group; [contradiction|cbn; lia]).
  assert (Htp : Forall physical traps) by (apply Forall_map; eapply Forall_impl; [|exact Hphys]; intros t Ht; apply thinned_physical; [lra|exact Ht]).
  destruct rows as [|rows']; [lia|]. set (rows := S rows') in *.
  assert (Hk : empty_manager fraction group rows = mkManager KInstant traps ((0, repeat 0 (length traps)) :: Zs (length traps) (S rows'))).
  { assert (Ek : kind_for group = KInstant).
    { unfold kind_for. clear - Hcl Hg. destruct group as [|t g]; [contradiction|]. inversion Hcl as [|? ? Ht _]; subst. rewrite Ht. reflexivity. }
    unfold empty_manager. rewrite Ek. fold traps. replace (length traps) with (length group) by (unfold traps; rewrite map_length; reflexivity). reflexivity. }
  set (m0 := mkManager KInstant traps ((0, repeat 0 (length traps)) :: Zs (length traps) (S rows'))) in *. rewrite Hk in H.
  set (fill := fun n => well_fill c 0 false n) in *. set (well := above_notch notch full beta) in *.
  set (outs := map (fun j => map (fun i => with_trail group fraction dwell (loss j) (hot j) i (pixel im i j)) (seq 0 rows)) (seq 0 cols)).
  assert (K : columns_past (past_manager fill dwell) false m0 m0 offset (map (column_of im) (seq 0 cols)) = Ok outs).
  { apply no_state_columns. unfold outs.
    assert (Hall : forall j, In j (seq 0 cols) -> exists s, column_past (past_manager fill dwell) m0 offset (column_of im j) =
        Ok (map (fun i => with_trail group fraction dwell (loss j) (hot j) i (pixel im i j)) (seq 0 rows), s)).
    2:{ clear - Hall. induction (seq 0 cols) as [|j js IH]; [constructor|]. cbn [map]. constructor; [apply Hall; left; reflexivity|apply IH; intros; apply Hall; right; assumption]. }
    intros j Hj. apply in_seq in Hj. specialize (Hhot j ltac:(lia)). set (h := hot j) in *.
    assert (Lc : length (column_of im j) = rows) by (unfold column_of; rewrite map_length; apply Hs).
    assert (Nc : forall i, nth i (column_of im j) 0 = pixel im i j) by (intros i; apply nth_column).
    set (pre := firstn h (column_of im j)). set (p := pixel im h j). set (post := skipn (S h) (column_of im j)).
    assert (Ec : column_of im j = pre ++ p :: post).
    { unfold pre, post, p. rewrite <- Nc. rewrite <- (firstn_skipn h (column_of im j)) at 1. f_equal.
      rewrite skipn_nth, (nth_error_nth' _ 0) by lia. reflexivity. }
    assert (Lpre : length pre = h) by (unfold pre; rewrite firstn_length; lia).
    assert (Lpost : length post = (rows - S h)%nat) by (unfold post; rewrite skipn_length; lia).
    assert (Npre : forall i, (i < h)%nat -> nth i pre 0 = pixel im i j).
    { intros i Hi. rewrite <- Nc, Ec, app_nth1 by lia. reflexivity. }
    assert (Npost : forall i, (i < length post)%nat -> nth i post 0 = pixel im (S h + i) j).
    { intros i Hi. rewrite <- Nc, Ec, app_nth2 by lia. rewrite Lpre. replace (S h + i - h)%nat with (S i) by lia. reflexivity. }
    assert (El : swept well (traps_of traps) (offset + S (length pre)) p = loss j).
    { unfold loss, traps. rewrite thinned_traps_of, Lpre. fold h p well. f_equal. lia. }
    assert (Tr : forall i, trail traps dwell (loss j) i = loss j * (fraction * (still_full group dwell i - still_full group dwell (S i)))).
    { intros i. unfold trail, traps. rewrite !thinned_still. ring. }
    destruct (hot_before traps dwell fill Htp Hn Hd well notch) with (k := rows') (offset := offset) (pre := pre) (last := m0) (p := p) (post := post) as (s & E).
    - intros q _. apply above_notch_fill; assumption.
    - intros q _. apply above_notch_range; lra.
    - intros q Hq. unfold well, above_notch. destruct (Rle_dec q notch); [reflexivity|lra].
    - intros q Hq. unfold well, above_notch. destruct (Rle_dec q notch); [lra|apply exp_pos].
    - unfold traps. rewrite thinned_traps_of. exact Hrho.
    - apply Forall_forall. intros x Hx. apply (In_nth _ _ 0) in Hx as (i & Hi & <-). rewrite Npre by lia. split; [apply Hnn|].
      specialize (Hfit i j ltac:(lia) ltac:(lia) ltac:(fold h; lia)). fold h in Hfit. unfold with_trail in Hfit. rewrite (proj2 (Nat.ltb_lt i h)) in Hfit by lia. exact Hfit.
    - apply Hnn.
    - rewrite El. apply fits_nth. intros i Hi. rewrite Npost by exact Hi. split; [apply Hnn|]. rewrite Tr. cbn [Nat.add].
      specialize (Hfit (S h + i)%nat j ltac:(lia) ltac:(lia) ltac:(fold h; lia)). fold h in Hfit. unfold with_trail in Hfit.
      rewrite (proj2 (Nat.ltb_ge (S h + i) h)), (proj2 (Nat.eqb_neq (S h + i) h)) in Hfit by lia.
      replace (S h + i - h - 1)%nat with i in Hfit by lia. replace (S h + i - h)%nat with (S i) in Hfit by lia. exact Hfit.
    - exists s. rewrite El in E. unfold column_past. rewrite Ec. fold m0 in E. rewrite E. f_equal. f_equal.
      apply nth_ext with (d := 0) (d' := 0).
      + rewrite map_length, seq_length, app_length. cbn [length]. rewrite add_trail_length, Lpre, Lpost. lia.
      + intros i Hi. rewrite app_length in Hi. cbn [length] in Hi. rewrite add_trail_length, Lpre, Lpost in Hi.
        assert (Hi' : (i < rows)%nat) by lia.
        erewrite (nth_indep (map _ _)); [|rewrite map_length, seq_length; exact Hi'].
        rewrite (map_nth (fun i => with_trail group fraction dwell (loss j) h i (pixel im i j)) (seq 0 rows) 0%nat i), seq_nth by exact Hi'. cbn [Nat.add].
        unfold with_trail. destruct (Nat.ltb_spec i h) as [H1|H1]; [|destruct (Nat.eqb_spec i h) as [H2|H2]].
        * rewrite app_nth1 by lia. apply Npre. lia.
        * subst i. rewrite app_nth2 by lia. rewrite Lpre, Nat.sub_diag. cbn [nth]. unfold traps. rewrite thinned_traps_of. reflexivity.
        * rewrite app_nth2 by lia. rewrite Lpre. replace (i - h)%nat with (S (i - h - 1)) at 1 by lia. cbn [nth].
          rewrite nth_add_trail by lia. rewrite Npost by lia. rewrite Tr. replace (S h + (i - h - 1))%nat with i by lia. cbn [Nat.add].
          replace (S (i - h - 1)) with (i - h)%nat by lia. reflexivity. }
  rewrite K in H. destruct H as (im' & E & Hs' & Lo & Hc). exists im'. split; [exact E|]. split; [exact Hs'|].
  intros i j Hi Hj. rewrite <- nth_column, Hc by exact Hj. unfold outs.
  erewrite (nth_indep (map _ _)); [|rewrite map_length, seq_length; exact Hj].
  rewrite (map_nth (fun j => map (fun i => with_trail group fraction dwell (loss j) (hot j) i (pixel im i j)) (seq 0 rows)) (seq 0 cols) 0%nat j), seq_nth by exact Hj. cbn [Nat.add].
  erewrite (nth_indep (map _ _)); [|rewrite map_length, seq_length; exact Hi].
  rewrite (map_nth (fun i => with_trail group fraction dwell (loss j) (hot j) i (pixel im i j)) (seq 0 rows) 0%nat i), seq_nth by exact Hi. reflexivity.
Qed.

(** ** A single species *)
Lemma one_species (t : trap R) dwell i : still_full [t] dwell i - still_full [t] dwell (S i) =
  t_density t * (1 - exp (- dwell / t_release_timescale t)) * exp (- dwell / t_release_timescale t) ^ i.
Proof. unfold still_full, Rsum. cbn [map fold_right pow]. ring. Qed.
Lemma trail_timescale im parallel serial c fraction t dwell notch beta full rows cols (hot : nat -> nat) im' r1 r2 j i :
  let offset := d_offset parallel in
  let loss j := swept (above_notch notch full beta) (fraction * traps_of [t]) (hot j + 1 + offset) (pixel im (hot j) j) in
  shape rows cols im -> (0 < rows)%nat -> (forall i j, 0 <= pixel im i j) ->
  single_phase parallel rows c fraction [t] dwell false ->
  t_class t = CInstant -> physical t -> 0 < t_density t ->
  phase_params c 0 notch beta full -> 0 < beta -> 0 <= notch < full -> fraction * traps_of [t] <= notch ->
  (forall j, (j < cols)%nat -> (hot j < rows)%nat) ->
  (forall i j, (i < rows)%nat -> (j < cols)%nat -> i <> hot j -> with_trail [t] fraction dwell (loss j) (hot j) i (pixel im i j) <= notch) ->
  d_traps serial = None -> d_window serial = WNone ->
  add_cti im parallel serial None = Ok (im', r1, r2) ->
  (j < cols)%nat -> notch < pixel im (hot j) j -> (hot j < i)%nat -> (S i < rows)%nat ->
  0 < pixel im' (S i) j - pixel im (S i) j < pixel im' i j - pixel im i j /\
  t_release_timescale t = dwell / ln ((pixel im' i j - pixel im i j) / (pixel im' (S i) j - pixel im (S i) j)).
Proof.
  intros offset loss Hs Hr Hnn Hset Hcl Hphys Hden Hpar Hb Hnf Hrho Hhot Hfit Hst Hsw E Hj Hbright Hi Hi'.
  assert (P1 : Forall physical [t]) by (constructor; [exact Hphys|constructor]).
  assert (P2 : Forall (fun t => t_class t = CInstant) [t]) by (constructor; [exact Hcl|constructor]).
  destruct (trail_image im parallel serial c fraction [t] dwell notch beta full rows cols hot Hs Hr Hnn Hset P2 P1 Hpar Hb Hnf Hrho Hhot Hfit Hst Hsw) as (im2 & E2 & _ & H). rewrite E in E2. injection E2 as <- _ _.
  pose proof (sp_share _ _ _ _ _ _ _ Hset) as Hpos. pose proof (sp_dwell _ _ _ _ _ _ _ Hset) as Hd.
  assert (P3 : Forall physical (map (thinned fraction) [t])) by (constructor; [apply thinned_physical; [lra|exact Hphys]|constructor]).
  rewrite !H by lia. fold offset. change (swept _ _ _ _) with (loss j). unfold with_trail.
  rewrite !(proj2 (Nat.ltb_ge _ (hot j))), !(proj2 (Nat.eqb_neq _ (hot j))) by lia.
  set (q := (i - hot j - 1)%nat). replace (S i - hot j - 1)%nat with (S q) by (unfold q; lia). replace (S i - hot j)%nat with (S (S q)) by (unfold q; lia).
  replace (i - hot j)%nat with (S q) by (unfold q; lia). rewrite !one_species. pose proof (factor_range dwell Hd t Hphys) as F.
  set (x := exp (- dwell / t_release_timescale t)) in *.
  assert (Hloss : 0 < loss j).
  { unfold loss. replace (hot j + 1 + offset)%nat with (S (hot j + offset)) by lia. cbn [swept].
    assert (W : 0 < above_notch notch full beta (pixel im (hot j) j)) by (unfold above_notch; destruct (Rle_dec _ notch); [lra|apply exp_pos]).
    assert (Rng : forall p, 0 <= p -> 0 <= above_notch notch full beta p <= 1) by (intros; apply above_notch_range; lra).
    assert (Q : forall p, p <= notch -> above_notch notch full beta p = 0) by (intros p Hp; unfold above_notch; destruct (Rle_dec p notch); [reflexivity|lra]).
    pose proof (swept_nonneg (map (thinned fraction) [t]) P3 (above_notch notch full beta) notch Rng Q) as SN.
    rewrite thinned_traps_of in SN. specialize (SN Hrho).
    pose proof (hot_enough (map (thinned fraction) [t]) P3 (above_notch notch full beta) notch Rng Q) as HE.
    rewrite thinned_traps_of in HE. specialize (HE Hrho (pixel im (hot j) j) (Hnn _ _)).
    specialize (SN (hot j + offset)%nat (pixel im (hot j) j - fraction * traps_of [t] * above_notch notch full beta (pixel im (hot j) j)) (proj1 (Rminus_le_0 _ _) HE)).
    apply Rplus_lt_le_0_compat; [exact W|exact SN]. }
  assert (Hx : 0 < x ^ q) by (apply pow_lt; lra). 
  set (A := loss j * (fraction * (t_density t * (1 - x) * x ^ q))).
  assert (HA : 0 < A). { unfold A. repeat apply Rmult_lt_0_compat; lra. }
  replace (pixel im (S i) j + loss j * (fraction * (t_density t * (1 - x) * x ^ S q)) - pixel im (S i) j) with (A * x) by (unfold A; cbn [pow]; ring).
  replace (pixel im i j + A - pixel im i j) with A by ring.
  split; [nra|]. replace (A / (A * x)) with (/ x) by (field; lra). rewrite ln_Rinv by lra. unfold x. rewrite ln_exp.
  destruct Hphys as [_ Ht _]. field. lra.
Qed.
