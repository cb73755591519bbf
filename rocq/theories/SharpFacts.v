(** * Readouts whose packets stay between two numbers of electrons: how much they can change. *)
From Coq Require Import ZArith List Bool Reals Lra Lia FunctionalExtensionality Sorted.
From Coquelicot Require Import Rcomplements Rbar Hierarchy RInt.
From Verif Require Import Num Py RFacts CCDModel TrapsModel ManagerModel ROEModel ClockModel Spec SpecReadout SpecColumn SpecRecovery SpecSharp WmFacts InstantFacts OrderFacts ReadoutSpecFacts TameFacts ReadoutColumnFacts PhaseOrderFacts DepthFacts SteadyFacts ExpressOrderFacts BoundFacts AboveFacts TopFacts.
Import ListNotations.
Open Scope R_scope.

(** ** What traps filled to a depth release *)
Lemma go_sum (I : nat -> R) (g : trap R -> R) : forall (l : list (trap R)) s0, (forall k t, nth_error l k = Some t -> I (s0 + k)%nat = g t) ->
  (fix go s ts := match ts with [] => 0 | t :: ts' => @t_density R t * I s + go (S s) ts' end) s0 l = Rsum (map (fun t : trap R => t_density t * g t) l).
Proof.
  induction l as [|t l IH]; intros s0 H; [reflexivity|]. cbn [map]. change (Rsum (?x :: ?y)) with (x + Rsum y). rewrite IH.
  - specialize (H 0%nat t eq_refl). rewrite Nat.add_0_r in H. now rewrite H.
  - intros k u Hk. specialize (H (S k) u Hk). rewrite Nat.add_succ_r in H. exact H.
Qed.
Lemma step_integral v cst : 0 <= v <= 1 -> is_RInt (fun x => (if Rlt_dec x v then 1 else 0) * cst) 0 1 (v * cst).
Proof.
  intros Hv. replace (v * cst) with (plus (scal (v - 0) cst) (scal (1 - v) 0)) by (unfold plus, scal; cbn; unfold mult; cbn; ring).
  apply (is_RInt_Chasles (V := R_NormedModule) _ 0 v 1).
  - apply (is_RInt_ext (fun _ => cst)); [|apply (is_RInt_const (V := R_NormedModule))]. intros x Hx. rewrite Rmin_left, Rmax_right in Hx by lra. destruct (Rlt_dec x v); lra.
  - apply (is_RInt_ext (fun _ => 0)); [|apply (is_RInt_const (V := R_NormedModule))]. intros x Hx. rewrite Rmin_left, Rmax_right in Hx by lra. destruct (Rlt_dec x v); lra.
Qed.
Lemma Rsum_minus {A} (f g : A -> R) l : Rsum (map f l) - Rsum (map g l) = Rsum (map (fun a => f a - g a) l).
Proof. induction l as [|a l IH]; [cbn; lra|]. cbn [map]. change (Rsum (?x :: ?y)) with (x + Rsum y). rewrite <- IH. lra. Qed.
Lemma up_to_released traps dwell v : 0 <= v <= 1 -> released traps dwell (up_to v) = traps_emptied dwell traps * v.
Proof.
  intros Hv. unfold released, electrons.
  rewrite (electrons_value traps (up_to v) 0 1 (fun _ => v * 1)).
  2: { intros s. eapply is_RInt_ext; [|apply (step_integral v 1 Hv)]. intros x _. unfold up_to, fill_to, empty_profile. destruct (Rlt_dec x v); lra. }
  rewrite (electrons_value traps (after_release traps dwell (up_to v)) 0 1 (fun s => v * exp (- dwell / timescale traps s))).
  2: { intros s. eapply is_RInt_ext; [|apply (step_integral v (exp (- dwell / timescale traps s)) Hv)]. intros x _. unfold after_release, up_to, fill_to, empty_profile. destruct (Rlt_dec x v); lra. }
  rewrite (go_sum (fun _ => v * 1) (fun _ => v * 1)) by reflexivity.
  rewrite (go_sum (fun s => v * exp (- dwell / timescale traps s)) (fun t => v * exp (- dwell / t_release_timescale t))).
  - rewrite Rsum_minus. unfold traps_emptied. rewrite (Rmult_comm (Rsum _) v), <- Rsum_scaled. f_equal. apply map_ext. intros t. lra.
  - intros k t Hk. unfold timescale. cbn [Nat.add]. erewrite nth_error_nth; [reflexivity|]. rewrite nth_error_map, Hk. reflexivity.
Qed.
Lemma emptied_range traps dwell : Forall physical traps -> 0 <= dwell -> 0 <= traps_emptied dwell traps <= traps_per_pixel traps.
Proof.
  intros H Hd. unfold traps_emptied, traps_per_pixel. induction H as [|t l Ht H IH]; [cbn; lra|]. cbn [map]. change (Rsum (?x :: ?y)) with (x + Rsum y).
  pose proof (ph_density t Ht) as D. pose proof (ph_timescale t Ht) as T.
  assert (E : 0 < exp (- dwell / t_release_timescale t) <= 1).
  { split; [apply exp_pos|]. assert (X : 0 <= dwell * / t_release_timescale t) by (apply Rmult_le_pos; [exact Hd|left; now apply Rinv_0_lt_compat]). unfold Rdiv. rewrite <- Ropp_mult_distr_l. destruct X as [X|X]; [|rewrite <- X, Ropp_0, exp_0; lra]. left. rewrite <- exp_0. apply exp_increasing. lra. }
  assert (0 <= t_density t * (1 - exp (- dwell / t_release_timescale t))) by (apply Rmult_le_pos; lra).
  assert (0 <= t_density t * exp (- dwell / t_release_timescale t)) by (apply Rmult_le_pos; lra). lra.
Qed.
Definition filled (traps : list (trap R)) (v : R) (P : profile) : Prop := tidy (length traps) P /\ forall s x, (s < length traps)%nat -> v <= x < 1 -> P s x = 0.
Lemma filled_released traps dwell v P : Forall physical traps -> 0 <= dwell -> 0 <= v <= 1 -> filled traps v P -> released traps dwell P <= traps_emptied dwell traps * v.
Proof.
  intros Hp Hd Hv [HT HZ]. rewrite <- (up_to_released traps dwell v Hv). apply released_order; auto; [now apply up_to_tidy|].
  intros s x Hs Hx. unfold up_to, fill_to. destruct (Rlt_dec x v); [now apply (HT s Hs)|]. rewrite (HZ s x Hs) by lra. unfold empty_profile. lra.
Qed.

(** ** Readouts past two kinds of wells that agree above [floor] *)
Section Sharp.
Context (sites sites' : nat -> site) (phases : list nat) (steps : list (R * list (roe_phase R)))
  (group : nat -> list (trap R)) (slope v : nat -> R) (most floor top lose back : R) (rows : Z -> Prop).
Notation well k := (site_well (sites k)).
Hypothesis Hsite : forall k, In k phases -> site_groups (sites k) = [group k].
Hypothesis Hphys : forall k, In k phases -> Forall physical (group k).
Hypothesis Hg : forall k, In k phases -> gradual (group k) (well k) 0 (slope k).
Hypothesis Hw : forall k a, In k phases -> 0 <= a -> 0 <= well k a <= 1.
Hypothesis Hz : forall k a, In k phases -> a <= 0 -> well k a = 0.
Hypothesis Hsteps : forall d es, In (d, es) steps -> 0 < d.
Hypothesis Hel : forall d es k, In (d, es) steps -> In k phases -> let e := electrode es k in
  rp_high e = true /\ rp_capture e = 0%Z /\ combine (rp_release e) (rp_fraction e) = [(0%Z, 1)].
Hypothesis Hgroups : forall k, site_groups (sites' k) = site_groups (sites k).
Hypothesis Hwells : forall k n, In k phases -> floor <= n -> site_well (sites' k) n = well k n.
Hypothesis Hfloor : 0 <= floor.
Hypothesis Hv : forall k a, In k phases -> 0 <= a <= top + back -> well k a <= v k.
Hypothesis Hv1 : forall k, In k phases -> 0 <= v k <= 1.
Hypothesis Hlose : forall k, In k phases -> traps_per_pixel (group k) * v k <= lose.
Hypothesis Hlose0 : 0 <= lose.
Hypothesis Hback0 : 0 <= back.
Hypothesis Hback : forall k d es, In k phases -> In (d, es) steps -> traps_emptied d (group k) * v k <= back.
Context (low high : Z -> R).
Hypothesis Hlow : forall z, rows z -> floor <= low z.
Hypothesis Hhigh : forall z, rows z -> high z <= top.
Definition all_filled (T : traps_state) : Prop := forall k, In k phases -> exists P, T k = [P] /\ filled (group k) (v k) P.
Definition within (b : Z -> R) (st : column * traps_state) : Prop := all_filled (snd st) /\ forall z, rows z -> low z + b z * lose <= fst st z <= high z - b z * back.
Lemma within_less b b' st : (forall z, rows z -> b' z <= b z) -> within b st -> within b' st.
Proof.
  intros H [S1 S2]. split; [exact S1|]. intros z Hz'. specialize (H z Hz'). specialize (S2 z Hz').
  pose proof (Rmult_le_compat_r lose _ _ Hlose0 H). pose proof (Rmult_le_compat_r back _ _ Hback0 H). lra.
Qed.
Lemma expose_within row mult dwell es k st b : rows row -> 0 <= mult -> In (dwell, es) steps -> In k phases -> (forall z, rows z -> 0 <= b z) ->
  within (fun z => b z + mult * own z row) st ->
  expose sites' row mult dwell es st k = expose sites row mult dwell es st k /\ within b (expose sites row mult dwell es st k).
Proof.
  intros Hrow Hm Hin Hk Hb [HF HS]. destruct (Hel dwell es k Hin Hk) as (E1 & E2 & E3). pose proof (Hsteps dwell es Hin) as Hd.
  destruct st as [c T]. cbn [fst snd] in *. destruct (HF k Hk) as (P & ET & HP). destruct HP as [HT HZ].
  assert (R0 : 0 <= released (group k) dwell P) by (apply released_nonneg; [apply Hphys, Hk|lra|exact HT]).
  assert (R1 : released (group k) dwell P <= back) by (eapply Rle_trans; [apply (filled_released (group k) dwell (v k) P (Hphys k Hk) ltac:(lra) (Hv1 k Hk)); split; assumption|now apply (Hback k dwell es)]).
  assert (Hown : own row row = 1) by (unfold own; now rewrite Z.eqb_refl).
  pose proof (HS row Hrow) as Hcr. rewrite Hown, Rmult_1_r in Hcr. specialize (Hb row Hrow) as Hbr.
  assert (M1 : 0 <= (b row + mult) * lose) by (apply Rmult_le_pos; lra). assert (M2 : 0 <= (b row + mult) * back) by (apply Rmult_le_pos; lra).
  pose proof (Hlow row Hrow) as Lr. pose proof (Hhigh row Hrow) as Ur.
  assert (CR : floor <= c row <= top) by lra.
  set (r := released (group k) dwell P) in *. set (n := c row) in *.
  assert (W : site_well (sites' k) (n + r) = well k (n + r)) by (apply Hwells; [exact Hk|lra]).
  assert (WV : well k (n + r) <= v k) by (apply Hv; [exact Hk|lra]).
  split.
  - unfold expose. rewrite E1, E2, Z.add_0_r, ET. unfold site_net, site_after. rewrite (Hgroups k), (Hsite k Hk). cbn [combine map].
    unfold transfer_net, transfer_after. fold n r. rewrite W. reflexivity.
  - pose proof (tidy_release (group k) dwell (Hphys k Hk) ltac:(lra) P HT) as HTr. pose proof (Hw k (n + r) Hk ltac:(lra)) as WR. split.
    + intros k' Hk'. unfold expose. cbn [snd]. unfold put. destruct (Nat.eqb_spec k' k) as [->|]; [|now apply HF].
      rewrite E1, E2, Z.add_0_r, ET. unfold site_after. rewrite (Hsite k Hk). cbn [combine map]. fold n. eexists. split; [reflexivity|]. split.
      * eapply tidy_alike; [|exact (behind_tidy (group k) dwell (Hphys k Hk) ltac:(lra) (well k) 0 (fun a => Hw k a Hk) n P HT)].
        intros s x Hs Hx. symmetry. apply (after_behind (group k) dwell (Hphys k Hk) ltac:(lra) (well k) (slope k) (Hg k Hk) (fun a => Hw k a Hk) (fun a => Hz k a Hk) n P HT s x Hs Hx).
      * intros s x Hs Hx. unfold transfer_after. fold r. unfold after_capture. destruct (Rlt_dec x (well k (n + r))); [lra|]. unfold after_release. rewrite (HZ s x Hs Hx). lra.
    + intros z Hz'. specialize (HS z Hz'). unfold expose. cbn [fst]. rewrite E3. cbn [deposit fold_left]. rewrite Rmult_1_r, Z.add_0_r. unfold give, own in *. rewrite (Z.eqb_sym z row).
      destruct (Z.eqb_spec row z) as [->|Hne]; [|rewrite Rmult_0_r, Rplus_0_r in HS; exact HS].
      rewrite E1, E2, Z.add_0_r, ET. unfold site_net. rewrite (Hsite k Hk). cbn [combine map Rsum fold_right]. fold n.
      rewrite (net_value (group k) dwell (Hphys k Hk) ltac:(lra) (well k) (slope k) (Hg k Hk) (fun a => Hw k a Hk)) by (first [exact HT|lra]). fold r.
      pose proof (demand_bounds (group k) (Hphys k Hk) (well k (n + r)) (after_release (group k) dwell P) WR HTr) as DB. pose proof (density_nonneg (group k) (Hphys k Hk)) as D0.
      pose proof (Rmult_le_compat_l _ _ _ D0 WV) as DV. pose proof (Hlose k Hk) as DL. set (dem := demand _ _ _) in *.
      assert (L1 : - lose * mult <= (r - dem + 0) * mult) by (apply Rmult_le_compat_r; lra). assert (L2 : (r - dem + 0) * mult <= back * mult) by (apply Rmult_le_compat_r; lra).
      assert (X : low z + b z * lose <= n + (r - dem + 0) * mult <= high z - b z * back) by lra.
      assert (0 <= b z * lose) by (apply Rmult_le_pos; lra). split; [eapply Rle_trans; [apply X|apply Rmax_r]|]. apply Rmax_lub; lra.
Qed.
Let K := INR (length steps) * INR (length phases).
Lemma K_pos : 0 <= K. Proof. apply Rmult_le_pos; apply pos_INR. Qed.
Lemma pixel_within row mult st b : rows row -> 0 <= mult -> (forall z, rows z -> 0 <= b z) ->
  within (fun z => b z + mult * own z row * K) st ->
  transfer_pixel sites' phases steps row mult st = transfer_pixel sites phases steps row mult st /\ within b (transfer_pixel sites phases steps row mult st).
Proof.
  intros Hrow Hm Hb Hs. unfold transfer_pixel. assert (O : forall z, 0 <= mult * own z row) by (intros z; apply Rmult_le_pos; [lra|apply own_pos]).
  apply (fold_same rows within _ _ (fun _ z => mult * own z row * INR (length phases)) within_less); [| |exact Hb|].
  - intros a z _. apply Rmult_le_pos; [apply O|apply pos_INR].
  - intros [d es] s b' Hin Hb' Hs'.
    apply (fold_same rows within _ _ (fun k z => mult * own z row) within_less); [| |exact Hb'|].
    + intros k z _. apply O.
    + intros k s' b2 Hk Hb2 Hs2. now apply expose_within.
    + revert Hs'. apply within_less. intros z _. rewrite Rsum_same. lra.
  - revert Hs. apply within_less. intros z _. rewrite Rsum_same. unfold K. lra.
Qed.
Notation row_of cell := (fst (fst (cell : Z * R * bool))).
Definition good_row (cell : Z * R * bool) : Prop := rows (row_of cell) /\ 0 <= snd (fst cell).
Definition within3 (b : Z -> R) (st : column * traps_state * traps_state) : Prop := within b (fst (fst st), snd (fst st)) /\ all_filled (snd st).
Lemma cells_within cells : Forall good_row cells -> forall st b, (forall z, rows z -> 0 <= b z) ->
  within3 (fun z => b z + weight (own z) cells * K) st ->
  fold_left (pass_cell sites' phases steps) cells st = fold_left (pass_cell sites phases steps) cells st /\ within3 b (fold_left (pass_cell sites phases steps) cells st).
Proof.
  intros Hc st b Hb Hs. rewrite Forall_forall in Hc.
  apply (fold_same rows within3 _ _ (fun cell z => snd (fst cell) * own z (row_of cell) * K)); [| | |exact Hb|].
  - intros b1 b2 s H [H1 H2]. split; [now apply (within_less b1)|exact H2].
  - intros [[row mult] sv] z Hin. destruct (Hc _ Hin) as [_ Hm]. cbn [fst snd] in *. apply Rmult_le_pos; [|exact K_pos]. apply Rmult_le_pos; [lra|apply own_pos].
  - intros [[row mult] sv] [[c T] saved] b' Hin Hb' [H1 H2]. destruct (Hc _ Hin) as [Hr Hm]. cbn [fst snd] in *. unfold pass_cell.
    destruct (pixel_within row mult (c, T) b' Hr Hm Hb' H1) as [E S1]. rewrite E. destruct (transfer_pixel sites phases steps row mult (c, T)) as [c' T']. split; [reflexivity|].
    split; [exact S1|]. cbn [fst snd]. destruct sv; [exact (proj1 S1)|exact H2].
  - destruct Hs as [H1 H2]. split; [|exact H2]. revert H1. apply within_less. intros z _. unfold weight.
    apply Rplus_le_compat_l. apply Req_le. clear. induction cells as [|[[row mult] sv] cells IH]; [cbn; lra|]. cbn [map fst snd]. change (Rsum (?u :: ?v)) with (u + Rsum v). rewrite IH. lra.
Qed.
Lemma passes_within passes : Forall (Forall good_row) passes -> forall st b, (forall z, rows z -> 0 <= b z) ->
  within (fun z => b z + Rsum (map (weight (own z)) passes) * K) st ->
  fold_left (transfer_pass sites' phases steps) passes st = fold_left (transfer_pass sites phases steps) passes st /\ within b (fold_left (transfer_pass sites phases steps) passes st).
Proof.
  intros Hc st b Hb Hs. rewrite Forall_forall in Hc.
  apply (fold_same rows within _ _ (fun cells z => weight (own z) cells * K) within_less); [| |exact Hb|].
  - intros cells z Hin. apply Rmult_le_pos; [|exact K_pos]. specialize (Hc _ Hin). unfold weight. apply Rsum_nonneg, Forall_map. eapply Forall_impl; [|exact Hc]. intros [[row mult] sv] [_ Hm]. cbn in Hm. apply Rmult_le_pos; [lra|apply own_pos].
  - intros cells [c saved] b' Hin Hb' H1. unfold transfer_pass.
    destruct (cells_within cells (Hc _ Hin) (c, saved, saved) b' Hb') as [E S1]; [split; [exact H1|exact (proj1 H1)]|].
    rewrite E. destruct (fold_left (pass_cell sites phases steps) cells (c, saved, saved)) as [[c' T'] saved']. split; [reflexivity|].
    destruct S1 as [[_ S2] S3]. split; [exact S3|exact S2].
  - revert Hs. apply within_less. intros z _. apply Rplus_le_compat_l. apply Req_le. clear. induction passes as [|cells passes IH]; [cbn; lra|]. cbn [map]. change (Rsum (?u :: ?v)) with (u + Rsum v). rewrite IH. lra.
Qed.
Lemma readout_within passes (c : column) : Forall (Forall good_row) passes ->
  (forall z, rows z -> low z + Rsum (map (weight (own z)) passes) * K * lose <= c z <= high z - Rsum (map (weight (own z)) passes) * K * back) ->
  readout sites' phases steps passes c = readout sites phases steps passes c /\ forall z, rows z -> low z <= readout sites phases steps passes c z <= high z.
Proof.
  intros Hp Hs. unfold readout. assert (EE : all_empty sites' = all_empty sites) by (apply functional_extensionality; intros k; unfold all_empty; now rewrite Hgroups). rewrite EE.
  destruct (passes_within passes Hp (c, all_empty sites) (fun _ => 0)) as [E [_ S]]; [intros; lra| |rewrite E; split; [reflexivity|]; intros z Hz'; specialize (S z Hz'); lra].
  split; [|intros z Hz'; cbn [fst]; rewrite Rplus_0_l; now apply Hs]. intros k Hk. cbn [snd]. unfold all_empty. rewrite (Hsite k Hk). cbn [map]. eexists. split; [reflexivity|]. split; [apply tidy_empty|reflexivity].
Qed.
End Sharp.
