(** * The trap manager for capture that takes time. *)
From Coq Require Import ZArith List Bool Reals Lra Lia.
From Coquelicot Require Import Rcomplements Rbar Hierarchy RInt.
From Verif Require Import Num Py RFacts CCDModel TrapsModel ManagerModel Spec SpecSlow TrapsFacts WmFacts ArrayFacts CutFacts
  InstantFacts CaptureFacts WatermarkFacts ClockFacts ShapeFacts BalanceFacts TimeFacts.
Import ListNotations.
Open Scope R_scope.

(** ** The probabilities. *)
Definition pr (dwell : R) (t : trap R) : R * R * R := (if_empty t dwell, if_full t dwell, release_probability dwell t).
Lemma capturing_emission t : physical t -> 0 < t_emission_rate t.
Proof. intros H. rewrite (ph_emission _ H). apply Rdiv_lt_0_compat; [lra|apply (ph_timescale _ H)]. Qed.
Lemma pr_ok t dwell : capturing t -> 0 < dwell -> fill_probabilities1 dwell t = Ok (pr dwell t).
Proof.
  intros [Hp Hc] Hd. pose proof (capturing_emission t Hp) as He. unfold pr, if_empty, if_full.
  destruct (t_capture_rate t) as [|c] eqn:Ec.
  - rewrite fill_probabilities1_inf by auto. reflexivity.
  - rewrite (fill_probabilities1_fin t dwell c) by auto. unfold pe, pf, efac, release_probability. rnum.
    f_equal. f_equal. f_equal; field; lra.
Qed.
Lemma probs_ok traps dwell : Forall capturing traps -> 0 < dwell ->
  fill_probabilities traps dwell = Ok (map (pr dwell) traps).
Proof.
  intros H Hd. unfold fill_probabilities. induction H as [|t traps Ht H IH]; [reflexivity|].
  cbn [mapM map]. rewrite pr_ok by auto. cbn [bind]. rewrite IH. reflexivity.
Qed.
Lemma pr_range t dwell : capturing t -> 0 <= dwell -> 0 <= if_empty t dwell <= 1 /\ 0 <= if_full t dwell <= 1.
Proof.
  intros [Hp Hc] Hd. pose proof (capturing_emission t Hp) as He. unfold if_empty, if_full.
  destruct (t_capture_rate t) as [|c]; [lra|]. cbv zeta.
  pose proof (pe_nonneg c _ Hc He dwell Hd). pose proof (pf_le_1 c _ Hc He dwell Hd). pose proof (pe_le_pf c _ Hc He dwell).
  unfold pe, pf, efac in *. set (E := exp _) in *.
  replace (c / (c + t_emission_rate t) * (1 - E)) with (c * ((1 - E) / (c + t_emission_rate t))) by (field; lra).
  replace (t_emission_rate t / (c + t_emission_rate t) * (1 - E)) with (t_emission_rate t * ((1 - E) / (c + t_emission_rate t))) by (field; lra).
  lra.
Qed.
Lemma capturing_physical traps : Forall capturing traps -> Forall physical traps.
Proof. apply Forall_impl. now intros t []. Qed.

(** ** The two updates of a level. *)
Definition exch (traps : list (trap R)) (dwell : R) (fs : list R) : list R :=
  zip_with (fun f p => f * p_full p + (1 - f) * p_empty p) fs (map (pr dwell) traps).
Lemma zip_map {A B C} (f : R -> B -> C) (g : A -> B) fs l : zip_with f fs (map g l) = zip_with (fun x t => f x (g t)) fs l.
Proof. revert l. unfold zip_with. induction fs as [|x fs IH]; intros [|t l]; cbn; [reflexivity..|]. now rewrite IH. Qed.
Lemma zip_nth {A B} (f : R -> B -> A) fs l s t d : nth_error l s = Some t -> (s < length fs)%nat ->
  nth s (zip_with f fs l) d = f (nth s fs 0) t.
Proof.
  unfold zip_with. revert l s. induction fs as [|x fs IH]; intros [|u l] [|s] H Hs; cbn in *; try discriminate; try lia.
  - now injection H as ->.
  - apply IH; auto. lia.
Qed.
Lemma rel_probs traps dwell fs : zip_with (fun f p => f * p_release p) fs (map (pr dwell) traps) = rel traps dwell fs.
Proof. rewrite zip_map. reflexivity. Qed.
Lemma exch_length traps dwell fs : length fs = length traps -> length (exch traps dwell fs) = length traps.
Proof. intros. apply zip_with_length; auto. now rewrite map_length. Qed.
Lemma exch_nth traps dwell fs s t : nth_error traps s = Some t -> length fs = length traps ->
  nth s (exch traps dwell fs) 0 = nth s fs 0 * if_full t dwell + (1 - nth s fs 0) * if_empty t dwell.
Proof.
  intros Ht Hl. unfold exch. rewrite zip_map. rewrite (zip_nth _ fs traps s t 0 Ht); [reflexivity|].
  rewrite Hl. apply nth_error_Some. congruence.
Qed.
Lemma exch_range traps dwell fs : Forall capturing traps -> 0 <= dwell -> length fs = length traps ->
  Forall (fun f => 0 <= f <= 1) fs -> Forall (fun f => 0 <= f <= 1) (exch traps dwell fs).
Proof.
  intros Hc Hd Hl Hf. apply Forall_nth_iff. intros i Hi. rewrite exch_length in Hi by auto.
  destruct (nth_error traps i) as [t|] eqn:Et; [|apply nth_error_None in Et; lia].
  rewrite (exch_nth _ _ _ _ t) by auto. apply nth_error_In in Et. rewrite Forall_forall in Hc.
  destruct (pr_range t dwell (Hc t Et) Hd) as [H1 H2].
  assert (H3 : 0 <= nth i fs 0 <= 1) by (rewrite Forall_forall in Hf; apply Hf, nth_In; lia).
  split; nra.
Qed.
Lemma exch_good traps dwell l : Forall capturing traps -> 0 <= dwell -> good (length traps) l ->
  good (length traps) (mapv (exch traps dwell) l).
Proof.
  intros Hc Hd Hl. apply Forall_forall. intros r Hr. apply in_map_iff in Hr as (q & <- & Hq).
  unfold good in Hl. rewrite Forall_forall in Hl. destruct (Hl q Hq) as (A & B & C).
  split; [exact A|]. split; [now apply exch_length|now apply exch_range].
Qed.
Lemma occupancy_mapv_inside f g (l : wmarks R) s x : nonneg l -> 0 <= x < volume l ->
  (forall r, In r l -> nth s (f (snd r)) 0 = g (nth s (snd r) 0)) ->
  occupancy (mapv f l) s x = g (occupancy l s x).
Proof.
  intros Hn. revert x. induction Hn as [|[v fs] l Hv Hn IH]; intros x Hx H; [rewrite volume_nil in Hx; lra|].
  cbn [mapv map fst snd] in *. rewrite !occupancy_cons. rewrite volume_cons in Hx. cbn [fst] in *. destruct (Rlt_dec x v).
  - apply (H (v, fs)). now left.
  - apply IH; [lra|]. intros r Hr. apply H. now right.
Qed.

(** ** Blending two arrays with the same volumes. *)
Lemma blend_app e a b c d : length a = length c -> blend e (a ++ b) (c ++ d) = blend e a c ++ blend e b d.
Proof.
  revert c. induction a as [|x a IH]; intros [|y c] H; try discriminate; [reflexivity|].
  cbn [app]. rewrite !blend_cons. cbn [app]. f_equal. apply IH. now injection H.
Qed.
Lemma blend_same_vol e a b : map fst a = map fst b -> map fst (blend e a b) = map fst a /\ length (blend e a b) = length a.
Proof.
  revert b. induction a as [|x a IH]; intros [|y b] H; try discriminate; [split; reflexivity|].
  cbn [map] in H. injection H as H1 H2. rewrite blend_cons. cbn [map fst length].
  destruct (IH b H2) as [-> ->]. auto.
Qed.
Lemma blend_good n e a b : good n a -> good n b -> map fst a = map fst b -> 0 <= e <= 1 -> good n (blend e a b).
Proof.
  intros Ha. revert b. induction Ha as [|r a (H1 & H2 & H3) Ha IH]; intros [|q b] Hb E He; try discriminate; [constructor|].
  inversion Hb as [|q' b' (G1 & G2 & G3) Gb]; subst. cbn [map] in E. injection E as E1 E2. rewrite blend_cons. constructor.
  - split; [exact H1|]. cbn [fst snd]. split; [apply zip_with_length; auto|].
    unfold zip_with. clear -H3 G3 He. revert G3. generalize (snd q). induction H3 as [|f fs Hf H3 IH]; intros [|g gs] G3; cbn; try constructor.
    + inversion G3; subst. split; nra.
    + inversion G3; subst. now apply IH.
  - now apply IH.
Qed.
Lemma blend_trapped n ds e a b : width n a -> width n b -> map fst a = map fst b ->
  trapped ds (blend e a b) = e * trapped ds a + (1 - e) * trapped ds b.
Proof.
  intros Ha. revert b. induction Ha as [|r a H1 Ha IH]; intros [|q b] Hb E; try discriminate; [cbn; unfold trapped; cbn; ring|].
  inversion Hb; subst. cbn [map] in E. injection E as E1 E2. rewrite blend_cons, !trapped_cons, IH by auto.
  unfold row_trapped; cbn [fst snd]. rewrite dot_zip by congruence. rewrite <- E1. ring.
Qed.

Lemma if_below_1 t dwell : finite_capture t -> 0 < dwell -> if_empty t dwell < 1 /\ if_full t dwell < 1.
Proof.
  intros (Hp & c & Ec & Hc) Hd. unfold if_empty, if_full. rewrite Ec.
  pose proof (capturing_emission t Hp) as He. set (e := t_emission_rate t) in *.
  assert (Hx : 0 < exp (- (c + e) * dwell) < 1).
  { split; [apply exp_pos|]. rewrite <- exp_0. apply exp_increasing. nra. }
  assert (H1 : 0 < c / (c + e) < 1).
  { split; [apply Rdiv_lt_0_compat; lra|]. apply (Rmult_lt_reg_r (c + e)); [lra|]. unfold Rdiv. rewrite Rmult_assoc, Rinv_l; lra. }
  assert (H2 : 0 < e / (c + e)) by (apply Rdiv_lt_0_compat; lra).
  split; nra.
Qed.
Lemma exch_not_full traps dwell fs : (0 < length traps)%nat -> Forall finite_capture traps -> 0 < dwell ->
  length fs = length traps -> Forall (fun f => 0 <= f <= 1) fs -> nth 0 (exch traps dwell fs) 0 < 1.
Proof.
  intros Hn Hf Hd Hl Hr. destruct traps as [|t ts]; [cbn in Hn; lia|].
  rewrite (exch_nth (t :: ts) dwell fs 0 t eq_refl Hl).
  inversion Hf; subst. destruct (if_below_1 t dwell) as [H3 H4]; auto.
  assert (0 <= nth 0 fs 0 <= 1) by (destruct fs as [|f fs]; [discriminate|]; inversion Hr; subst; auto).
  destruct (pr_range t dwell) as [[H5 _] [H6 _]]; [|lra|].
  - destruct H1 as (Hp & c & Ec & Hc). split; [exact Hp|]. rewrite Ec. exact Hc.
  - destruct (Req_dec (nth 0 fs 0) 0) as [E|E]; [rewrite E; lra|]. nra.
Qed.
Lemma occupancy_blend n e a b s : width n a -> width n b -> map fst a = map fst b -> (s < n)%nat ->
  forall x, occupancy (blend e a b) s x = e * occupancy a s x + (1 - e) * occupancy b s x.
Proof.
  intros Ha Hb E Hs. revert b Hb E. induction Ha as [|r a Hr Ha IH]; intros [|q b] Hb E x; try discriminate; [cbn [blend zip_with combine map occupancy]; ring|].
  inversion Hb; subst. cbn [map] in E. injection E as E1 E2. rewrite blend_cons. destruct r as [v fs], q as [v2 gs]. cbn [fst snd] in *. subst v2. rewrite !occupancy_cons.
  destruct (Rlt_dec x v); [|apply IH; assumption].
  clear - Hs H1. revert s Hs gs H1. induction fs as [|y fs IHl]; intros s Hs [|z gs] H; try discriminate.
  - cbn [length] in Hs. lia.
  - destruct s as [|s]; [reflexivity|]. cbn [length nth zip_with combine map] in *. apply (IHl s); [lia|congruence].
Qed.

(** ** The end of the method. *)
Definition slow_tail (m : manager R) (initial n_free : R) (w1 w_initial : wmarks R) : result (R * manager R) :=
  let n_species := length (m_traps m) in
  do '(w2, wi2) <- collapse_with_copy (filled_value (m_kind m)) n_species w1 w_initial;
  let final := n_trapped m w2 in
  if (final =? initial)%num then Ok (n0, with_wm m w2)
  else
    let enough := (n_free / (final - initial))%num in
    do '(w3, final3) <-
      (if ((n0 <? enough) && (enough <? n1))%num%bool then
         do w' <- not_enough m w2 wi2 enough;
         Ok (w', n_trapped m w')
       else Ok (w2, final));
    let w4 := collapse (filled_value (m_kind m)) n_species w3 in
    Ok ((initial - final3)%num, with_wm m w4).

Lemma slow_tail_ok traps w n_free L Li k :
  let n := length traps in
  let ds := dens traps in
  let m := mkManager KSlow traps w in
  (0 < n)%nat -> good n L -> good n Li -> map fst L = map fst Li -> 0 <= n_free ->
  (n_free = 0 -> trapped ds L <= trapped ds Li) ->
  exists l' k', 
    slow_tail m (trapped ds Li) n_free (L ++ Zs n (S k)) (Li ++ Zs n (S k))
      = Ok (trapped ds Li - trapped ds l', mkManager KSlow traps (l' ++ Zs n (S k'))) /\
    good n l' /\ volume l' = volume L /\ (length l' + k' = length L + k)%nat /\ (length l' <= length L)%nat /\
    (trapped ds L - trapped ds Li <= n_free -> 
       forall s x, (s < n)%nat -> 0 <= x -> occupancy l' s x = occupancy L s x) /\
    (n_free < trapped ds L - trapped ds Li -> trapped ds l' = trapped ds Li + n_free /\
       (occupancy L 0 0 < 1 -> forall s x, (s < n)%nat -> 0 <= x ->
          let e := n_free / (trapped ds L - trapped ds Li) in
          occupancy l' s x = e * occupancy L s x + (1 - e) * occupancy Li s x)).
Proof.
  intros n ds m Hn HL HLi Hvol Hnf Hz. unfold slow_tail. cbv zeta. cbn [m_kind m_traps m filled_value]. fold n.
  destruct (collapse_with_copy_sound n L Li k Hn HL (good_width _ _ HLi) Hvol)
    as (l2 & li2 & k2 & d & E & G1 & (_ & G2) & V12 & N1 & N2 & V1 & V2 & T12 & O1 & D0 & D1 & D2 & _).
  specialize (G2 HLi). destruct (T12 ds ltac:(unfold ds; now rewrite map_length)) as [T1 T2].
  rnum. change (IZR 1) with 1. rewrite E. cbn [bind].
  assert (En : forall l k, n_trapped m (l ++ Zs n k) = trapped ds l).
  { intros. unfold n_trapped; cbn [m_kind m]. rewrite cy_n_trapped_eq, trapped_app, trapped_Zs. unfold n_traps_per_pixel, ds; cbn [m_traps m]. ring. }
  change {| m_kind := KSlow; m_traps := traps; m_wm := w |} with m. rewrite En, T1.
  set (tL := trapped ds L) in *. set (tI := trapped ds Li) in *.
  destruct (Reqb_spec tL tI) as [Z|Z].
  - exists l2, k2. split; [unfold with_wm; cbn [m_kind m_traps m]; rewrite T1, Z; do 2 f_equal; ring|].
    repeat (split; [auto; lia|]). lra.
  - destruct (Rltb 0 (n_free / (tL - tI)) && Rltb (n_free / (tL - tI)) 1) eqn:Eb.
    + apply andb_true_iff in Eb as [B1 B2]. apply Rltb_true in B1. apply Rltb_true in B2.
      cbn [not_enough bind m_kind m]. set (e := n_free / (tL - tI)) in *.
      rewrite blend_app by (rewrite <- (map_length fst l2), V12; apply map_length). rewrite blend_self.
      assert (GB : good n (blend e l2 li2)) by (apply blend_good; auto; lra).
      destruct (blend_same_vol e l2 li2 V12) as [BV BN].
      destruct (collapse_sound n (blend e l2 li2) k2 Hn GB) as (l3 & k3 & E3 & G3 & N3 & N4 & V3 & T3 & O3).
      assert (Ht3 : trapped ds l3 = tI + n_free).
      { rewrite T3 by (unfold ds; now rewrite map_length).
        rewrite (blend_trapped n) by (auto using good_width). rewrite T1, T2. unfold e. field. lra. }
      exists l3, k3. change {| m_kind := KSlow; m_traps := traps; m_wm := w |} with m. rewrite En. rewrite E3.
      split; [unfold with_wm; cbn [m_kind m_traps m]; do 2 f_equal; rewrite T3 by (unfold ds; now rewrite map_length); reflexivity|].
      split; [auto|]. split; [rewrite V3; rewrite <- V1; now apply fst_volume|]. split; [lia|]. split; [lia|].
      split; [|intros _; split; [exact Ht3|]].
      2: { intros Hh s x Hs' Hx. cbv zeta. fold e. rewrite O3 by auto. rewrite (occupancy_blend n) by (auto using good_width).
           assert (d = 0) as -> by (destruct (Rle_lt_or_eq_dec 0 d D0) as [Hp|<-]; [|reflexivity]; rewrite D1 in Hh by (auto; lra); lra).
           rewrite O1, D2 by auto. reflexivity. }
      intros Hle. exfalso.
      destruct (Rlt_dec 0 (tL - tI)) as [Hp|Hp].
      * apply (Rmult_lt_compat_r (tL - tI)) in B2; auto. unfold e, Rdiv in B2. rewrite Rmult_assoc, Rinv_l in B2 by lra. lra.
      * assert (Hneg : / (tL - tI) < 0) by (apply Rinv_lt_0_compat; lra). unfold e, Rdiv in B1. nra.
    + cbn [bind]. destruct (collapse_sound n l2 k2 Hn G1) as (l3 & k3 & E3 & G3 & N3 & N4 & V3 & T3 & O3).
      rewrite E3. exists l3, k3.
      split; [unfold with_wm; cbn [m_kind m_traps m]; rewrite T3 by (unfold ds; now rewrite map_length); rewrite T1; reflexivity|].
      split; [auto|]. split; [congruence|]. split; [lia|]. split; [lia|]. split.
      * intros _ s x Hs Hx. rewrite O3, O1; auto.
      * intros Hlt. exfalso. destruct (Req_dec n_free 0) as [H0|H0]; [specialize (Hz H0); lra|].
        assert (Q1 : 0 < n_free / (tL - tI)) by (apply Rdiv_lt_0_compat; lra).
        assert (Q2 : n_free / (tL - tI) < 1) by (apply (Rmult_lt_reg_r (tL - tI)); [lra|]; unfold Rdiv; rewrite Rmult_assoc, Rinv_l by lra; lra).
        apply andb_false_iff in Eb as [B1|B1]; apply Rltb_false in B1; lra.
Qed.

(** ** Splitting at a cloud inside the levels, for two arrays with the same volumes. *)
Lemma cut_good n l v : good n l -> good n (below v l) /\ good n (above v l).
Proof.
  intros H. destruct (cut_live l v (good_live _ _ H)) as [A1 A2].
  destruct (cut_vals (fun fs => length fs = n) l v (good_width _ _ H)) as [B1 B2].
  assert (H3 : Forall (fun r => Forall (fun f => 0 <= f <= 1) (snd r)) l) by (eapply Forall_impl; [|exact H]; now intros r (_ & _ & ?)).
  destruct (cut_vals (fun fs => Forall (fun f => 0 <= f <= 1) fs) l v H3) as [C1 C2].
  unfold live in A1, A2. rewrite Forall_forall in A1, A2, B1, B2, C1, C2.
  split; apply Forall_forall; intros r Hr; (split; [auto|split; auto]).
Qed.
Lemma split_inside l li n k v mx : live l -> map fst l = map fst li -> 0 <= v <= volume l ->
  mx = (Z.of_nat (length l) - 1)%Z ->
  let idx := index_above_cloud v (l ++ Zs n (S k)) mx in
  exists k',
    slow_split (l ++ Zs n (S k)) (li ++ Zs n (S k)) v idx mx
    = Ok (below v l ++ above v l ++ Zs n k', below v li ++ above v li ++ Zs n k',
          (Z.of_nat (length (below v l) + length (above v l)) - 1)%Z)
    /\ (idx + 1)%Z = Z.of_nat (length (below v l))
    /\ (idx <= mx)%Z
    /\ (length (below v l) + length (above v l) + k' = length l + S k)%nat.
Proof.
  intros Hl Hli Hv Hmx idx. destruct (Req_dec v 0) as [->|Hv0].
  - exists (S k). subst idx. rewrite index_above_zero. unfold slow_split; rnum.
    destruct (Rltb_spec 0 0) as [H|_]; [lra|]. cbn [andb]. unfold below, above. rewrite !cut_0 by lra. cbn [fst snd app length Nat.add].
    rewrite Hmx. repeat split; lia.
  - destruct (slow_split_cut l li n k v mx Hl Hli ltac:(lra)) as (k' & E1 & E2 & E3).
    exists k'. fold idx in E1, E2. rewrite E1. split; [do 2 f_equal; lia|]. split; [auto|]. split; [|auto].
    destruct (locate l v Hl ltac:(lra)) as (a & r & b & El & Hr).
    unfold idx. rewrite El in *. apply Forall_app in Hl as [Ha Hb]. inversion Hb; subst.
    rewrite <- app_assoc at 1. cbn [app].
    rewrite index_above_at; auto using live_nonneg; try lra.
    + rewrite app_length; cbn [length]; lia.
    + apply nonneg_app; auto using live_nonneg, nonneg_Zs.
Qed.

Section SlowStep.
Variables (traps : list (trap R)) (l : wmarks R) (k : nat) (fill : filling R) (well : R -> R) (n_free dwell : R).
Let n := length traps.
Let ds := dens traps.
Let W := l ++ Zs n (S (S (S k))).
Let m := mkManager KSlow traps W.
Let P : profile := occupancy l.
Hypothesis Hn : (0 < n)%nat.
Hypothesis Hc : Forall capturing traps.
Hypothesis Hl : good n l.
Hypothesis Hvol : volume l <= 1.
Hypothesis Hs : sensitive well.
Hypothesis Hfill : forall a, 0 <= a -> fill a = Ok (well a).
Hypothesis Hnf : 0 <= n_free.
Hypothesis Hd : 0 < dwell.
Let n' := cloud_then traps well dwell n_free P.
Let G := gain traps well dwell n_free P.
Hypothesis Hfit : volume l < well n_free \/ well n' <= volume l.

Let Hph : Forall physical traps := capturing_physical traps Hc.
Let Hlive : live l := good_live n l Hl.

Lemma slow_n_trapped w' (a : wmarks R) q : n_trapped (mkManager KSlow traps w') (a ++ Zs n q) = trapped ds a.
Proof. unfold n_trapped; cbn [m_kind]. rewrite cy_n_trapped_eq, trapped_app, trapped_Zs. unfold n_traps_per_pixel; cbn [m_traps]. fold ds. ring. Qed.
Lemma electrons_levels (a : wmarks R) (Q : profile) : good n a -> volume a <= 1 -> 
  (forall s x, (s < n)%nat -> 0 <= x < 1 -> occupancy a s x = Q s x) -> electrons traps Q 0 1 = trapped ds a.
Proof.
  intros Ha Hv HQ. unfold ds. rewrite <- (electrons_total traps a n 0) by auto. apply electrons_same; [|lra|lra].
  intros s x Hs' Hx. rewrite occupancy_app_Zs by (try lra; apply live_nonneg, (good_live n); auto). symmetry. now apply HQ.
Qed.
Lemma P_electrons : electrons traps P 0 1 = trapped ds l.
Proof. apply electrons_levels; auto. Qed.

Lemma release_le : electrons traps (release_above traps dwell (well n_free) P) 0 1 <= electrons traps P 0 1.
Proof.
  set (v := well n_free). assert (Hv : 0 <= v <= 1) by now apply sensitive_range.
  destruct (prep_good n v l Hl ltac:(lra)) as [GB GA].
  assert (GR : good n (mapv (rel traps dwell) (prep_above v l))) by (apply rel_good; auto; lra).
  destruct (prep_volumes n v l Hlive ltac:(lra)) as [VB VA].
  assert (E : electrons traps (release_above traps dwell v P) 0 1 = trapped ds (prep_below n v l ++ mapv (rel traps dwell) (prep_above v l))).
  { apply electrons_levels.
    - apply good_app; auto.
    - rewrite volume_app, mapv_volume, VB, VA. pose proof (Rmax_lub (volume l) v 1). lra.
    - intros s x Hs' Hx. rewrite occupancy_app by (try lra; apply live_nonneg, (good_live n); auto).
      unfold release_above, P. rewrite <- (prep_occ n v l Hl ltac:(lra) s x) by lra.
      rewrite occupancy_app by (try lra; apply live_nonneg, (good_live n); auto). rewrite VB. destruct (Rlt_dec x v); [reflexivity|].
      apply rel_occ; auto. }
  rewrite E, P_electrons, <- (prep_trapped n v l ds), trapped_app.
  apply Rplus_le_compat_l.
  clear -GA Hph Hd. fold n in GA. induction (prep_above v l) as [|r A IH]; [cbn; lra|]. 
  inversion GA as [|r' A' (H1 & H2 & H3) GA']; subst. cbn [mapv map fst snd]. rewrite !trapped_cons. apply Rplus_le_compat; [|now apply IH].
  unfold row_trapped; cbn [fst snd]. apply Rmult_le_compat_l; [lra|]. apply dot_le; [|apply Rsum_dens_nonneg; auto].
  apply Forall2_nth_R; [rewrite rel_length; auto; unfold n in *; lia|]. intros i Hi. rewrite rel_length in Hi by auto.
  rewrite rel_nth by auto. pose proof (decay_range dwell (timescale traps i) ltac:(lra) (timescale_pos traps i Hph)).
  assert (0 <= nth i (snd r) 0) by (rewrite Forall_forall in H3; apply H3, nth_In; unfold n in *; lia). nra.
Qed.

Lemma n'_nonneg : 0 <= n'.
Proof. pose proof release_le. unfold n', cloud_then. lra. Qed.

(** Levels ready for the exchange: [B] below the recomputed cloud and [A] above it, after the
    release, and the levels [Li] of the same volumes before it. *)
Lemma exchange_ok B A Li q : good n B -> good n A -> good n Li -> map fst (B ++ A) = map fst Li ->
  volume B = well n' -> volume (B ++ A) <= 1 -> trapped ds Li = trapped ds l ->
  (forall s x, (s < n)%nat -> 0 <= x -> occupancy (B ++ A) s x = release_above traps dwell (well n_free) P s x) ->
  (forall s x, (s < n)%nat -> 0 <= x -> occupancy Li s x = P s x) ->
  0 <= n' ->
  exists l' k',
    slow_tail m (trapped ds l) n' (mapv (exch traps dwell) B ++ A ++ Zs n (S q)) (Li ++ Zs n (S q))
      = Ok (trapped ds l - trapped ds l', mkManager KSlow traps (l' ++ Zs n (S k'))) /\
    good n l' /\ volume l' = volume (B ++ A) /\ (length l' + k' = length (B ++ A) + q)%nat /\ (length l' <= length (B ++ A))%nat /\
    (G <= n' -> trapped ds l - trapped ds l' = - G /\
       forall s x, (s < n)%nat -> 0 <= x < 1 -> occupancy l' s x = exchanged traps well dwell n_free P s x) /\
    (n' < G -> trapped ds l - trapped ds l' = - n' /\
       (Forall finite_capture traps -> forall s x, (s < n)%nat -> 0 <= x < 1 -> occupancy l' s x = short_of traps well dwell n_free P s x)).
Proof.
  intros HB HA HLi Hv HVB Hv1 HT HO HOi Hn'.
  set (L := mapv (exch traps dwell) B ++ A).
  assert (GL : good n L) by (apply good_app; split; auto; apply exch_good; auto; lra).
  assert (VL : volume L = volume (B ++ A)) by (unfold L; rewrite !volume_app, mapv_volume; reflexivity).
  assert (FL : map fst L = map fst Li) by (rewrite <- Hv; unfold L; rewrite !map_app, mapv_fst; reflexivity).
  assert (OL : forall s x, (s < n)%nat -> 0 <= x < 1 -> occupancy L s x = exchanged traps well dwell n_free P s x).
  { intros s x Hs' Hx. unfold exchanged, exchange_below. fold n'.
    destruct (nth_error traps s) as [t|] eqn:Et; [|apply nth_error_None in Et; unfold n in Hs'; lia].
    rewrite <- HO by (auto; lra). unfold L.
    rewrite !occupancy_app by (try lra; apply live_nonneg; try apply mapv_live; now apply (good_live n)).
    rewrite mapv_volume, HVB. destruct (Rlt_dec x (well n')); [|reflexivity].
    apply (occupancy_mapv_inside (exch traps dwell) (fun f => f * if_full t dwell + (1 - f) * if_empty t dwell)).
    - apply live_nonneg, (good_live n); auto.
    - lra.
    - intros q0 Hq0. apply (exch_nth traps dwell (snd q0) s t Et).
      pose proof (good_width _ _ HB) as Hw. unfold width in Hw. rewrite Forall_forall in Hw. now apply Hw. }
  assert (EG : trapped ds L - trapped ds Li = G).
  { unfold G, gain. rewrite P_electrons, HT. rewrite <- (electrons_levels L (exchanged traps well dwell n_free P)); auto. lra. }
  assert (HG0 : n' = 0 -> trapped ds L <= trapped ds Li).
  { intros E0. assert (well n' = 0) by (rewrite E0; apply Hs).
    assert (B = []) by (destruct B; [reflexivity|]; pose proof (live_volume_pos _ (good_live n _ HB) ltac:(discriminate)); lra).
    subst B. unfold L. cbn [mapv map app] in *. rewrite HT, <- P_electrons.
    rewrite <- (electrons_levels A (release_above traps dwell (well n_free) P)); auto.
    2: { intros; apply HO; auto; lra. }
    apply release_le. }
  destruct (slow_tail_ok traps W n' L Li q Hn GL HLi FL Hn' HG0) as (l' & k' & E & G' & V' & N' & N2' & O' & T').
  exists l', k'. fold n ds m in E, O', T'. rewrite HT in E. rewrite app_assoc. fold L. split; [exact E|].
  split; [auto|]. split; [congruence|]. split; [unfold L in N'; rewrite !app_length, mapv_length in *; lia|].
  split; [unfold L in N2'; rewrite !app_length, mapv_length in *; lia|].
  rewrite EG in O', T'. split.
  - intros Hle. specialize (O' Hle). split.
    + rewrite <- EG, HT. rewrite <- (electrons_levels l' (exchanged traps well dwell n_free P)), <- (electrons_levels L (exchanged traps well dwell n_free P)); auto; try lra.
      intros s x Hs' Hx. rewrite O' by (auto; lra). now apply OL.
    + intros s x Hs' Hx. rewrite O' by (auto; lra). now apply OL.
  - intros Hlt. destruct (T' Hlt) as [Ht Ho]. split; [rewrite Ht, HT; ring|]. intros Hfc s x Hs' Hx.
    assert (Hnp : n' <> 0) by (intros E0; specialize (HG0 E0); lra).
    assert (Hwp : 0 < well n') by (apply Hs; lra).
    destruct B as [|r B]; [rewrite volume_nil in HVB; lra|].
    rewrite Ho; auto; try lra.
    + unfold short_of. fold n' G. rewrite HOi, OL by (auto; lra). reflexivity.
    + unfold L. cbn [mapv map app]. rewrite occupancy_cons. cbn [fst snd]. inversion HB as [|? ? (R1 & R2 & R3) _]; subst.
      destruct (Rlt_dec 0 (fst r)); [|lra]. apply exch_not_full; auto.
Qed.

Lemma slow_step_full : exists net l' k', 
  slow_step m n_free fill dwell = Ok (net, mkManager KSlow traps (l' ++ Zs n (S k'))) /\
  good n l' /\ volume l' = Rmax (volume l) (well n_free) /\ (k <= k')%nat /\ net = trapped ds l - trapped ds l' /\
  (G <= n' -> net = - G /\
     forall s x, (s < n)%nat -> 0 <= x < 1 -> occupancy l' s x = exchanged traps well dwell n_free P s x) /\
  (n' < G -> net = - n' /\
     (Forall finite_capture traps -> forall s x, (s < n)%nat -> 0 <= x < 1 -> occupancy l' s x = short_of traps well dwell n_free P s x)).
Proof.
  set (v := well n_free). assert (Hv : 0 <= v <= 1) by now apply sensitive_range.
  pose proof n'_nonneg as Hn'. assert (Hv' : 0 <= well n' <= 1) by now apply sensitive_range.
  unfold slow_step. cbv zeta. change (m_wm m) with W. change (m_traps m) with traps. change (m_kind m) with KSlow.
  rewrite probs_ok by auto. cbn [bind].
  assert (Hin : n_trapped m W = trapped ds l) by apply slow_n_trapped. rewrite Hin.
  assert (Hmx : max_watermark_index W = (Z.of_nat (length l) - 1)%Z) by now apply max_index_Zs.
  rewrite Hmx, Hfill by auto. fold v. cbn [bind]. rnum.
  destruct ((Z.of_nat (length l) - 1 =? -1)%Z && Rltb 0 n_free) eqn:Eb.
  - (* first capture *)
    apply andb_true_iff in Eb as [Eb Ef]. apply Z.eqb_eq in Eb. apply Rltb_true in Ef.
    assert (El : l = []) by (destruct l; [reflexivity|cbn [length] in Eb; lia]).
    assert (Hvp : 0 < v) by (unfold v; now apply Hs).
    assert (E0 : trapped ds l = 0) by (rewrite El; apply trapped_nil). rewrite E0.
    assert (En' : n' = n_free).
    { unfold n', cloud_then. rewrite P_electrons, E0.
      rewrite (electrons_levels [] (release_above traps dwell (well n_free) P)).
      - rewrite trapped_nil. ring.
      - constructor.
      - rewrite volume_nil. lra.
      - intros s x Hs' Hx. unfold release_above, P. rewrite El. cbn. destruct (Rlt_dec _ _); ring. }
    set (pes := map p_empty (map (pr dwell) traps)).
    assert (Epes : exch traps dwell (repeat 0 n) = pes).
    { unfold exch, pes, n. rewrite map_map. clear. induction traps as [|t ts IH]; [reflexivity|].
      cbn [length repeat map]. unfold zip_with in *. cbn [combine map]. rewrite IH. f_equal. unfold p_full, p_empty; cbn. ring. }
    assert (Gz : good n [(v, repeat 0 n)]).
    { constructor; [|constructor]. split; [cbn; lra|]. split; [apply repeat_length|apply repeat_range; lra]. }
    assert (GL : good n [(v, pes)]) by (rewrite <- Epes; apply (exch_good traps dwell [(v, repeat 0 n)]); auto; lra).
    assert (Vmax : Rmax (volume []) v = v) by (rewrite volume_nil; apply Rmax_right; lra).
    assert (VL : volume [(v, pes)] = v) by (rewrite volume_cons, volume_nil; cbn; lra).
    assert (OL : forall s x, (s < n)%nat -> 0 <= x < 1 -> occupancy [(v, pes)] s x = exchanged traps well dwell n_free P s x).
    { intros s x Hs' Hx. unfold exchanged, exchange_below. fold n'. rewrite En'. fold v.
      destruct (nth_error traps s) as [t|] eqn:Et; [|apply nth_error_None in Et; unfold n in Hs'; lia].
      rewrite occupancy_cons. unfold release_above, P. rewrite El. cbn [occupancy].
      rewrite <- Epes, (exch_nth traps dwell (repeat 0 n) s t Et (repeat_length 0 n)), nth_zeros.
      destruct (Rlt_dec x v); [reflexivity|ring]. }
    assert (EG : trapped ds [(v, pes)] = G).
    { unfold G, gain. rewrite P_electrons, E0. rewrite (electrons_levels [(v, pes)] (exchanged traps well dwell n_free P)); auto; [ring|lra]. }
    unfold slow_first_capture. cbv zeta. change (m_wm m) with W. fold pes.
    unfold W. rewrite El. cbn [app].
    change (set_row0 (Zs n (S (S (S k)))) (v, pes)) with ([(v, pes)] ++ Zs n (S (S k))).
    change (set_vol (Zs n (S (S (S k)))) 0 v) with ([(v, repeat 0 n)] ++ Zs n (S (S k))).
    fold W.
    assert (EF : n_trapped m ([(v, pes)] ++ Zs n (S (S k))) = G) by (unfold m; rewrite slow_n_trapped; exact EG).
    rewrite EF. rnum.
    assert (Hbad : n_free / G < 1 -> G <> 0 -> n_free < G).
    { intros Hlt HG. assert (HGp : 0 <= G) by (rewrite <- EG; apply (trapped_nonneg n); auto; apply Rsum_dens_nonneg; auto).
      apply (Rmult_lt_compat_r G) in Hlt; [|lra]. unfold Rdiv in Hlt. rewrite Rmult_assoc, Rinv_l in Hlt by lra. lra. }
    destruct (Reqb_spec G 0) as [Z|Z].
    + exists 0, [(v, pes)], (S k). cbn [bind]. unfold with_wm; cbn [m_kind m_traps m].
      split; [reflexivity|]. split; [auto|]. split; [rewrite VL; symmetry; exact Vmax|]. split; [lia|]. split; [rewrite EG, Z; ring|].
      split; [intros _; split; [lra|auto]|rewrite En', Z; lra].
    + destruct (Rltb_spec (n_free / G) 1) as [Hlt|Hge].
      * specialize (Hbad Hlt Z). cbn [not_enough bind m_kind m]. rewrite blend_app, blend_self by reflexivity.
        set (e := n_free / G) in *. 
        assert (He : 0 < e) by (apply Rdiv_lt_0_compat; lra).
        assert (GB : good n (blend e [(v, pes)] [(v, repeat 0 n)])) by (apply blend_good; auto; lra).
        assert (ET : trapped ds (blend e [(v, pes)] [(v, repeat 0 n)]) = n_free).
        { rewrite (blend_trapped n) by (auto using good_width). rewrite EG, trapped_cons, trapped_nil. unfold row_trapped; cbn [fst snd].
          rewrite dot_zeros. unfold e. field. auto. }
        exists (- n_free), (blend e [(v, pes)] [(v, repeat 0 n)]), (S k).
        assert (EB : n_trapped m (blend e [(v, pes)] [(v, repeat 0 n)] ++ Zs n (S (S k))) = n_free) by (unfold m; rewrite slow_n_trapped; exact ET).
        cbn [bind]. rewrite EB. unfold with_wm; cbn [m_kind m_traps m].
        split; [reflexivity|]. split; [auto|]. split; [|split; [lia|split; [rewrite ET; ring|split; [intros; lra|intros _; split; [rewrite En'; reflexivity|]]]]].
        2: { intros _ s x Hs' Hx. rewrite (occupancy_blend n) by (auto using good_width). unfold short_of. fold n' G. rewrite En'. fold e. rewrite OL by auto.
             f_equal. f_equal. rewrite occupancy_cons. cbn [fst snd occupancy]. unfold P. rewrite El, nth_zeros. cbn [occupancy]. destruct (Rlt_dec x v); reflexivity. }
        rewrite <- (fst_volume [(v, pes)]); [rewrite VL; symmetry; exact Vmax|]. reflexivity.
      * exists (- G), [(v, pes)], (S k). cbn [bind]. unfold with_wm; cbn [m_kind m_traps m].
        split; [reflexivity|]. split; [auto|]. split; [rewrite VL; symmetry; exact Vmax|]. split; [lia|]. split; [rewrite EG; ring|].
        split; [auto|]. intros Hlt. exfalso.
        assert (Q2 : n_free / G < 1) by (apply (Rmult_lt_reg_r G); [lra|]; unfold Rdiv; rewrite Rmult_assoc, Rinv_l by lra; lra). lra.
  - (* levels in use, or no electrons *)
    destruct (Rle_dec v (volume l)) as [Hle|Hgt].
    + (* the cloud is inside the levels *)
      assert (Hfit' : well n' <= volume l) by (destruct Hfit as [H|H]; [fold v in H; lra|auto]).
      destruct (split_inside l l n (S (S k)) v (Z.of_nat (length l) - 1) Hlive eq_refl ltac:(lra) eq_refl) as (k1 & E1 & E2 & E2' & E3).
      fold W in E1, E2, E2'. set (idx := index_above_cloud v W (Z.of_nat (length l) - 1)) in *.
      replace ((idx <=? Z.of_nat (length l) - 1) || (Z.of_nat (length l) - 1 =? -1))%Z with true
        by (symmetry; apply orb_true_intro; left; now apply Z.leb_le).
      unfold slow_cloud_below. cbv zeta. change (m_wm m) with W. rewrite E1. cbn [bind].
      pose proof (cut_length l v) as HC1.
      destruct (cut_good n l v Hl) as [GB GA]. set (B := below v l) in *. set (A := above v l) in *.
      assert (VBA : volume B = v /\ volume A = volume l - v) by (apply cut_volume; auto; lra). destruct VBA as [VB VA].
      rewrite E2. replace (Z.to_nat (Z.of_nat (length B + length A) - 1 + 1)) with (length B + length A)%nat by lia.
      rewrite Nat2Z.id.
      change (fun fs : list R => zip_with (fun f p => f * p_release p) fs (map (pr dwell) traps))
        with (fun fs : list R => zip_with (fun f p => f * p_release p) fs (map (pr dwell) traps)).
      rewrite slice_mid.
      assert (Erel : mapv (fun fs : list R => zip_with (fun f p => (f * p_release p)%num) fs (map (pr dwell) traps)) A = mapv (rel traps dwell) A).
      { unfold mapv. apply map_ext. intros r. f_equal. apply rel_probs. }
      rewrite Erel. clear Erel.
      set (A' := mapv (rel traps dwell) A). assert (GA' : good n A') by (apply rel_good; auto; lra).
      set (l2 := B ++ A'). set (li := B ++ A).
      assert (G2 : good n l2) by (apply good_app; auto). assert (Gi : good n li) by (apply good_app; auto).
      assert (V2 : volume l2 = volume l) by (unfold l2, A'; rewrite volume_app, mapv_volume, VB, VA; lra).
      assert (F2 : map fst l2 = map fst li) by (unfold l2, li, A'; rewrite !map_app, mapv_fst; reflexivity).
      assert (O2 : forall s x, (s < n)%nat -> 0 <= x -> occupancy l2 s x = release_above traps dwell v P s x).
      { intros s x Hs' Hx. unfold l2. rewrite occupancy_app by (auto; apply live_nonneg, (good_live n); auto).
        unfold release_above, P. rewrite <- (cut_occ l v s x Hlive Hx). fold B A.
        rewrite occupancy_app by (auto; apply live_nonneg, (good_live n); auto). rewrite VB.
        destruct (Rlt_dec x v); [reflexivity|]. apply rel_occ; auto. }
      assert (L2 : length l2 = (length B + length A)%nat) by (unfold l2, A'; now rewrite app_length, mapv_length).
      assert (ET2 : n_free + (trapped ds l - n_trapped m (B ++ A' ++ Zs n k1)) = n').
      { unfold n', cloud_then. rewrite P_electrons. rewrite app_assoc. fold l2. unfold m. rewrite slow_n_trapped. fold v.
        rewrite (electrons_levels l2 (release_above traps dwell v P)); auto; [lra|]. intros; apply O2; auto; lra. }
      rnum. rewrite ET2. rewrite Hfill by auto. cbn [bind]. set (v' := well n') in *.
      rewrite !app_assoc. fold l2 li.
      destruct k1 as [|k1]; [lia|].
      assert (Hmx2 : (Z.of_nat (length B + length A) - 1)%Z = (Z.of_nat (length l2) - 1)%Z) by (rewrite L2; reflexivity).
      rewrite Hmx2.
      destruct (split_inside l2 li n k1 v' (Z.of_nat (length l2) - 1) (good_live _ _ G2) F2 ltac:(lra) eq_refl) as (k2 & E4 & E5 & _ & E6).
      rewrite E4. cbn [bind sb_free sb_wm sb_wm_initial sb_index]. rewrite E5, Nat2Z.id, slice_pre.
      pose proof (cut_length l2 v') as HC2.
      destruct (cut_good n l2 v' G2) as [GB2 GA2]. destruct (cut_good n li v' Gi) as [GBi GAi].
      destruct (cut_same l2 li v' F2) as [F3 F4].
      assert (VC : volume (below v' l2) = v' /\ volume (above v' l2) = volume l2 - v') by (apply cut_volume; [now apply (good_live n)|lra]).
      destruct VC as [VC1 VC2]. destruct k2 as [|k2]; [lia|].
      destruct (exchange_ok (below v' l2) (above v' l2) (below v' li ++ above v' li) k2) as (l' & k' & T1 & T2 & T3 & T4 & T4' & T5 & T6); auto.
      * apply good_app; auto.
      * rewrite !map_app, F3, F4. reflexivity.
      * rewrite volume_app, VC1, VC2. lra.
      * rewrite trapped_app. rewrite cut_trapped. unfold li. rewrite trapped_app. apply cut_trapped.
      * intros s x Hs' Hx. rewrite cut_occ by (auto; now apply (good_live n)). now apply O2.
      * intros s x Hs' Hx. rewrite cut_occ by (auto; now apply (good_live n)). unfold li, B, A, P. now apply cut_occ.
      * exists (trapped ds l - trapped ds l'), l', k'. split.
        -- unfold slow_tail in T1. cbv zeta in T1. change (m_kind m) with KSlow in T1. change (m_traps m) with traps in T1.
           rewrite <- app_assoc in T1. exact T1.
        -- split; [auto|]. split; [fold v; rewrite Rmax_left by lra; rewrite T3, volume_app, VC1, VC2; lra|]. split; [|split; [reflexivity|auto]].
           rewrite app_length in T4, T4'. lia.
    + (* a new level on top *)
      assert (Hvp : volume l < v) by lra. clear Hgt.
      assert (Hv0 : 0 <= volume l) by (apply nonneg_volume, live_nonneg; auto).
      assert (En' : n' = n_free).
      { unfold n', cloud_then. fold v.
        rewrite (electrons_levels l (release_above traps dwell v P)); auto; [rewrite P_electrons; ring|].
        intros s x Hs' Hx. unfold release_above. destruct (Rlt_dec x v); [reflexivity|].
        unfold P. rewrite occupancy_above; [ring|now apply live_nonneg|lra]. }
      assert (Hl0 : (0 < length l)%nat).
      { apply andb_false_iff in Eb as [Eb|Eb]; [apply Z.eqb_neq in Eb; lia|]. apply Rltb_false in Eb.
        exfalso. assert (n_free = 0) by lra. assert (v = 0) by (unfold v; rewrite H; apply Hs). lra. }
      assert (Eidx : index_above_cloud v W (Z.of_nat (length l) - 1) = (Z.of_nat (length l) - 1 + 1)%Z).
      { apply index_above_none; try lra; unfold W.
        - apply nonneg_app; auto using live_nonneg, nonneg_Zs.
        - rewrite volume_app, volume_Zs. lra. }
      rewrite Eidx.
      replace ((Z.of_nat (length l) - 1 + 1 <=? Z.of_nat (length l) - 1) || (Z.of_nat (length l) - 1 =? -1))%Z with false
        by (symmetry; apply orb_false_intro; [apply Z.leb_gt|apply Z.eqb_neq]; lia).
      unfold W. rewrite new_top by (auto; lia). cbn [bind].
      set (B := l ++ [(v - volume l, repeat 0 n)]).
      assert (GB : good n B).
      { apply good_app; split; auto. constructor; [|constructor]. split; [cbn; lra|]. split; [apply repeat_length|apply repeat_range; lra]. }
      assert (VB : volume B = v) by (unfold B; rewrite volume_app, volume_cons, volume_nil; cbn [fst]; lra).
      replace (l ++ (v - volume l, repeat 0 n) :: Zs n (S (S k))) with (B ++ Zs n (S (S k))) by (unfold B; now rewrite <- app_assoc).
      replace (Z.to_nat (Z.of_nat (length l) - 1 + 1 + 1)) with (length B) by (unfold B; rewrite app_length; cbn [length]; lia).
      rewrite slice_pre.
      destruct (exchange_ok B [] B (S k)) as (l' & k' & T1 & T2 & T3 & T4 & T4' & T5 & T6); auto.
      * constructor.
      * now rewrite app_nil_r.
      * rewrite En'. exact VB.
      * rewrite app_nil_r. lra.
      * unfold B. rewrite trapped_app, trapped_cons, trapped_nil. unfold row_trapped; cbn [fst snd]. rewrite dot_zeros. ring.
      * intros s x Hs' Hx. rewrite app_nil_r. unfold B. rewrite occupancy_app by (auto; now apply live_nonneg).
        rewrite occupancy_cons. cbn [fst snd occupancy]. rewrite nth_zeros. fold v. unfold release_above, P.
        assert (EQ : volume l <= x -> occupancy l s x = 0) by (intros; apply occupancy_above; [now apply live_nonneg|auto]).
        destruct (Rlt_dec x (volume l)); destruct (Rlt_dec x v); try lra; try (rewrite EQ by lra); destruct (Rlt_dec _ _); lra.
      * intros s x Hs' Hx. unfold B, P. rewrite occupancy_app by (auto; now apply live_nonneg). destruct (Rlt_dec x (volume l)) as [|Hge]; [reflexivity|].
        rewrite occupancy_cons. cbn [fst snd occupancy]. rewrite nth_zeros, occupancy_above by (try apply live_nonneg; auto; lra). destruct (Rlt_dec _ _); reflexivity.
      * rewrite app_nil_r in T3, T4, T4'. unfold B in T4, T4'. rewrite app_length in T4, T4'. cbn [length] in T4, T4'.
        exists (trapped ds l - trapped ds l'), l', k'. split.
        -- unfold slow_tail in T1. cbv zeta in T1. change (m_kind m) with KSlow in T1. change (m_traps m) with traps in T1.
           cbn [app] in T1. rewrite En' in T1. exact T1.
        -- split; [auto|]. split; [fold v; rewrite Rmax_right; lra|]. split; [lia|split; [reflexivity|auto]].
Qed.
End SlowStep.
