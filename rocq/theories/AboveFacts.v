(** * Readouts in which no packet falls below a number of electrons: the depth of smaller clouds
    makes no difference. *)
From Coq Require Import ZArith List Bool Reals Lra Lia FunctionalExtensionality Sorted.
From Coquelicot Require Import Rcomplements Rbar Hierarchy RInt.
From Verif Require Import Num Py RFacts CCDModel TrapsModel ManagerModel ROEModel ClockModel Spec SpecReadout SpecColumn SpecRecovery WmFacts InstantFacts OrderFacts ReadoutSpecFacts TameFacts ReadoutColumnFacts PhaseOrderFacts DepthFacts SteadyFacts ExpressOrderFacts BoundFacts.
Import ListNotations.
Open Scope R_scope.

(** ** A well with a bottom: as [depth] above [floor], and growing steadily below. *)
Definition bottomed (full beta floor n : R) : R :=
  if Rle_dec floor n then depth full beta n else if Rle_dec n 0 then 0 else depth full beta floor / floor * n.
Lemma depth_chord full beta floor a b : 0 < full -> 0 < beta < 1 -> 0 < floor -> floor <= a <= b ->
  depth full beta b - depth full beta a <= depth full beta floor / floor * (b - a).
Proof.
  intros Hf Hb Hfl Hab. assert (Ds : forall x, 0 < x -> 0 <= depth full beta x) by (intros x Hx; rewrite depth_pos by lra; unfold Rpower; left; apply exp_pos).
  pose proof (Ds floor Hfl) as D0. assert (S0 : 0 <= depth full beta floor / floor) by (apply Rmult_le_pos; [exact D0|left; now apply Rinv_0_lt_compat]).
  destruct (Rle_dec full a) as [Ha|Ha].
  - rewrite (depth_pos full beta b), (depth_pos full beta a) by lra. unfold share_of. rewrite !Rmin_left by (apply (Rmult_le_reg_r full); [exact Hf|]; unfold Rdiv; rewrite Rmult_assoc, Rinv_l by lra; lra).
    rewrite Rminus_eq_0. apply Rmult_le_pos; lra.
  - rewrite !(depth_pos full beta) by lra. pose proof (share_range full a Hf ltac:(lra)) as Ra. pose proof (share_range full b Hf ltac:(lra)) as Rb. pose proof (share_grows full a b Hf ltac:(lra)) as Gab.
    destruct (power_between beta (share_of full a) (share_of full b) ltac:(lra) ltac:(lra) ltac:(lra)) as (c & Hc & ->).
    assert (Ef : share_of full floor = floor / full) by (unfold share_of; apply Rmin_right; apply (Rmult_le_reg_r full); [exact Hf|]; unfold Rdiv; rewrite Rmult_assoc, Rinv_l by lra; lra).
    pose proof (share_range full floor Hf Hfl) as Rf. pose proof (share_grows full floor a Hf ltac:(lra)) as Gfa.
    assert (P1 : Rpower c (beta - 1) <= Rpower (share_of full floor) (beta - 1)).
    { unfold Rpower. destruct (Req_dec c (share_of full floor)) as [->|Hne]; [lra|]. assert (L : ln (share_of full floor) < ln c) by (apply ln_increasing; lra).
      left. apply exp_increasing. nra. }
    assert (P2 : Rpower (share_of full floor) beta / floor = Rpower (share_of full floor) (beta - 1) / full).
    { replace (Rpower (share_of full floor) beta) with (Rpower (share_of full floor) (beta - 1) * share_of full floor).
      - rewrite Ef at 2. field. lra.
      - rewrite <- (Rpower_1 (share_of full floor)) at 2 by lra. rewrite <- Rpower_plus. f_equal. lra. }
    rewrite P2. set (p := Rpower (share_of full floor) (beta - 1)) in *. assert (Q0 : 0 < Rpower c (beta - 1)) by apply exp_pos. set (q := Rpower c (beta - 1)) in *.
    assert (SD : share_of full b - share_of full a <= (b - a) / full).
    { unfold share_of. rewrite (Rmin_right 1 (a / full)) by (apply (Rmult_le_reg_r full); [exact Hf|]; unfold Rdiv; rewrite Rmult_assoc, Rinv_l by lra; lra).
      pose proof (Rmin_r 1 (b / full)). replace ((b - a) / full) with (b / full - a / full) by (field; lra). lra. }
    assert (beta * q <= p) by nra. assert (0 <= share_of full b - share_of full a) by lra.
    apply Rle_trans with (p * (share_of full b - share_of full a)); [apply Rmult_le_compat_r; assumption|].
    replace (p / full * (b - a)) with (p * ((b - a) / full)) by (field; lra). apply Rmult_le_compat_l; [lra|exact SD].
Qed.
Lemma depth_range full beta n : 0 < full -> 0 < beta -> 0 <= depth full beta n <= 1.
Proof.
  intros Hf Hb. unfold depth. destruct (Rle_dec n 0) as [|H]; [lra|]. change (Rmin 1 (n / full)) with (share_of full n). pose proof (share_range full n Hf ltac:(lra)) as Hs.
  split; [left; apply exp_pos|]. apply power_le_1; lra.
Qed.
Section Bottomed.
Context (full beta floor : R).
Hypothesis Hfull : 0 < full.
Hypothesis Hbeta : 0 < beta < 1.
Hypothesis Hfloor : 0 < floor.
Let sl := depth full beta floor / floor.
Lemma bottomed_slope : 0 <= sl.
Proof. unfold sl. apply Rmult_le_pos; [apply depth_range; lra|left; now apply Rinv_0_lt_compat]. Qed.
Lemma bottomed_low n : 0 <= n <= floor -> bottomed full beta floor n = sl * n.
Proof.
  intros Hn. unfold bottomed, sl. destruct (Rle_dec floor n) as [H|H]; [replace n with floor by lra; field; lra|]. destruct (Rle_dec n 0); [replace n with 0 by lra; lra|reflexivity].
Qed.
Lemma bottomed_high n : floor <= n -> bottomed full beta floor n = depth full beta n.
Proof. intros Hn. unfold bottomed. now destruct (Rle_dec floor n). Qed.
Lemma bottomed_zero n : n <= 0 -> bottomed full beta floor n = 0.
Proof. intros Hn. unfold bottomed. destruct (Rle_dec floor n); [lra|]. now destruct (Rle_dec n 0). Qed.
Lemma bottomed_grows a b : 0 <= a <= b -> 0 <= bottomed full beta floor b - bottomed full beta floor a <= sl * (b - a).
Proof.
  intros Hab. pose proof bottomed_slope as S0.
  assert (HH : forall a b, floor <= a <= b -> 0 <= bottomed full beta floor b - bottomed full beta floor a <= sl * (b - a)).
  { intros x y Hxy. rewrite !bottomed_high by lra. split; [|apply depth_chord; assumption]. pose proof (depth_grows full beta x y Hfull ltac:(lra) ltac:(lra)). lra. }
  assert (HL : forall a b, 0 <= a <= b -> b <= floor -> 0 <= bottomed full beta floor b - bottomed full beta floor a <= sl * (b - a)).
  { intros x y Hxy Hy. rewrite !bottomed_low by lra. assert (0 <= sl * (y - x)) by (apply Rmult_le_pos; lra). lra. }
  destruct (Rle_dec b floor) as [H|H]; [now apply HL|]. destruct (Rle_dec floor a) as [H'|H']; [now apply HH|].
  pose proof (HL a floor ltac:(lra) ltac:(lra)). pose proof (HH floor b ltac:(lra)). lra.
Qed.
Lemma bottomed_range n : 0 <= n -> 0 <= bottomed full beta floor n <= 1.
Proof.
  intros Hn. split.
  - pose proof (bottomed_grows 0 n ltac:(lra)) as H. rewrite (bottomed_zero 0) in H by lra. lra.
  - destruct (Rle_dec floor n) as [H|H]; [rewrite bottomed_high by exact H; apply depth_range; lra|].
    pose proof (bottomed_grows n floor ltac:(lra)) as G. rewrite (bottomed_high floor) in G by lra. pose proof (depth_range full beta floor Hfull ltac:(lra)). lra.
Qed.
Lemma bottomed_gradual traps : 0 <= traps_per_pixel traps -> traps_per_pixel traps * sl <= 1 -> gradual traps (bottomed full beta floor) 0 sl.
Proof.
  intros Hd Hs. split; [lra|apply bottomed_slope|apply bottomed_grows|].
  intros a Ha. pose proof (bottomed_grows 0 a ltac:(lra)) as H. rewrite (bottomed_zero 0), !Rminus_0_r in H by lra.
  apply Rle_trans with (traps_per_pixel traps * (sl * a)); [apply Rmult_le_compat_l; lra|]. rewrite <- Rmult_assoc. rewrite <- (Rmult_1_l a) at 2. apply Rmult_le_compat_r; lra.
Qed.
End Bottomed.

(** ** Readouts past two kinds of wells that agree above [floor] *)
Section Same.
Context (sites sites' : nat -> site) (phases : list nat) (steps : list (R * list (roe_phase R)))
  (group : nat -> list (trap R)) (slope : nat -> R) (gam most floor : R) (rows : Z -> Prop).
Notation well k := (site_well (sites k)).
Hypothesis Hnodup : NoDup phases.
Hypothesis Hsite : forall k, In k phases -> site_groups (sites k) = [group k].
Hypothesis Hphys : forall k, In k phases -> Forall physical (group k).
Hypothesis Hg : forall k, In k phases -> gradual (group k) (well k) 0 (slope k).
Hypothesis Hw : forall k a, In k phases -> 0 <= a -> 0 <= well k a <= 1.
Hypothesis Hz : forall k a, In k phases -> a <= 0 -> well k a = 0.
Hypothesis Hgam : 0 <= gam <= 1.
Hypothesis Hmost : 1 <= most.
Hypothesis Hgain : forall k, In k phases -> most * (traps_per_pixel (group k) * slope k) <= 1 - gam.
Hypothesis Hsteps : forall d es, In (d, es) steps -> 0 < d.
Hypothesis Hel : forall d es k, In (d, es) steps -> In k phases -> let e := electrode es k in
  rp_high e = true /\ rp_capture e = 0%Z /\ combine (rp_release e) (rp_fraction e) = [(0%Z, 1)].
Hypothesis Hgroups : forall k, site_groups (sites' k) = site_groups (sites k).
Hypothesis Hwells : forall k n, In k phases -> floor <= n -> site_well (sites' k) n = well k n.
Hypothesis Hrows : forall z, rows z -> (0 <= z)%Z.
Notation between := (between phases group).
Definition safe (beta : Z -> R) (st : column * traps_state) : Prop := between st st /\ forall z, rows z -> floor + beta z <= fst st z.
Lemma safe_less beta beta' st : (forall z, rows z -> beta' z <= beta z) -> safe beta st -> safe beta' st.
Proof. intros H [S1 S2]. split; [exact S1|]. intros z Hz'. specialize (H z Hz'). specialize (S2 z Hz'). lra. Qed.
Lemma expose_same row mult dwell es k st beta : rows row -> 0 <= mult <= most -> In (dwell, es) steps -> In k phases -> (forall z, rows z -> 0 <= beta z) ->
  safe (fun z => beta z + mult * own z row * traps_per_pixel (group k)) st ->
  expose sites' row mult dwell es st k = expose sites row mult dwell es st k /\ safe beta (expose sites row mult dwell es st k).
Proof.
  intros Hrow Hm Hin Hk Hbeta [HB HS]. pose proof (Hrows row Hrow) as Hrow0. destruct (Hel dwell es k Hin Hk) as (E1 & E2 & E3). pose proof (Hsteps dwell es Hin) as Hd.
  destruct st as [c T]. cbn [fst snd] in *. destruct HB as [Hc HL]. pose proof (HL k Hk) as (P & P' & ET & ET' & HP & _). cbn [snd] in ET, ET'.
  pose proof (density_nonneg (group k) (Hphys k Hk)) as D0.
  assert (R0 : 0 <= released (group k) dwell P) by (apply released_nonneg; [apply Hphys, Hk|lra|exact HP]).
  assert (Hown : own row row = 1) by (unfold own; now rewrite Z.eqb_refl).
  pose proof (HS row Hrow) as Hcr. rewrite Hown, Rmult_1_r in Hcr.
  assert (W : floor <= c row -> site_well (sites' k) (c row + released (group k) dwell P) = well k (c row + released (group k) dwell P)) by (intros Hfl; apply Hwells; [exact Hk|lra]).
  assert (EQ : floor <= c row -> expose sites' row mult dwell es (c, T) k = expose sites row mult dwell es (c, T) k).
  { intros Hfl. unfold expose. rewrite E1, E2, Z.add_0_r, ET. unfold site_net, site_after. rewrite (Hgroups k), (Hsite k Hk). cbn [combine map].
    unfold transfer_net, transfer_after. rewrite (W Hfl). reflexivity. }
  split.
  - apply EQ. specialize (Hbeta row Hrow). assert (0 <= mult * traps_per_pixel (group k)) by (apply Rmult_le_pos; lra). lra.
  - split.
    + apply (expose_weighted sites phases steps group slope gam most Hnodup Hsite Hphys Hg Hw Hz Hgam Hmost Hgain Hsteps) with (l := [Z.to_nat row]); try assumption; [|constructor; [intros []|constructor]|now left|split; assumption].
      intros d' es' k' Hin' Hk'. destruct (Hel d' es' k' Hin' Hk') as (F1 & F2 & F3). cbv zeta. rewrite F3. split; [repeat constructor; (lia || lra)|]. split; [cbn; lra|]. intros _. split; [exact F2|reflexivity].
    + intros z Hz'. specialize (HS z Hz'). unfold expose. cbn [fst]. rewrite E3. cbn [deposit fold_left]. rewrite Rmult_1_r, Z.add_0_r. unfold give, own in *. rewrite (Z.eqb_sym z row).
      destruct (Z.eqb_spec row z) as [->|Hne]; [|rewrite Rmult_0_r, Rmult_0_l, Rplus_0_r in HS; exact HS].
      eapply Rle_trans; [|apply Rmax_r]. rewrite E1, E2, Z.add_0_r, ET. unfold site_net. rewrite (Hsite k Hk). cbn [combine map Rsum fold_right].
      rewrite (net_value (group k) dwell (Hphys k Hk) ltac:(lra) (well k) (slope k) (Hg k Hk) (fun a => Hw k a Hk)) by (first [exact HP|apply Hc]).
      assert (CZ : 0 <= c z + released (group k) dwell P) by (pose proof (Hc z) as H0; cbn [fst] in H0; lra).
      pose proof (demand_bounds (group k) (Hphys k Hk) (well k (c z + released (group k) dwell P)) (after_release (group k) dwell P) (Hw k _ Hk CZ) (tidy_release (group k) dwell (Hphys k Hk) ltac:(lra) P HP)) as DB.
      pose proof (Hw k (c z + released (group k) dwell P) Hk CZ) as WR.
      set (v := well k _) in *. set (dem := demand _ v _) in *. set (r := released (group k) dwell P) in *. assert (VV : traps_per_pixel (group k) * v <= traps_per_pixel (group k) * 1) by (apply Rmult_le_compat_l; lra).
      assert (LL : - traps_per_pixel (group k) * mult <= (r - dem + 0) * mult) by (apply Rmult_le_compat_r; [lra|]; lra). lra.
Qed.
(** ** Folds *)
Lemma fold_same {S A} (P : (Z -> R) -> S -> Prop) (f g : S -> A -> S) (cost : A -> Z -> R) : (forall b b' s, (forall z, rows z -> b' z <= b z) -> P b s -> P b' s) -> forall l,
  (forall a z, In a l -> 0 <= cost a z) ->
  (forall a s b, In a l -> (forall z, rows z -> 0 <= b z) -> P (fun z => b z + cost a z) s -> f s a = g s a /\ P b (g s a)) ->
  forall s b, (forall z, rows z -> 0 <= b z) -> P (fun z => b z + Rsum (map (fun a => cost a z) l)) s -> fold_left f l s = fold_left g l s /\ P b (fold_left g l s).
Proof.
  intros HP. induction l as [|a l IH]; intros Hcost Hstep s b Hb Hs.
  - split; [reflexivity|]. revert Hs. apply HP. intros z _. cbn. lra.
  - cbn [fold_left]. assert (C0 : forall z, 0 <= Rsum (map (fun a => cost a z) l)).
    { intros z. apply Rsum_nonneg, Forall_map, Forall_forall. intros x Hx. apply Hcost. now right. }
    destruct (Hstep a s (fun z => b z + Rsum (map (fun a => cost a z) l)) (or_introl eq_refl)) as [E S1].
    + intros z Hz'. specialize (Hb z Hz'). specialize (C0 z). lra.
    + revert Hs. apply HP. intros z _. cbn [map]. change (Rsum (?x :: ?y)) with (x + Rsum y). lra.
    + rewrite E. apply IH; try assumption; [intros x z Hx; apply Hcost; now right|intros x s' b' Hx; apply Hstep; now right].
Qed.
Lemma own_pos z row : 0 <= own z row.
Proof. unfold own. destruct (_ =? _)%Z; lra. Qed.
Let rho := Rsum (map (fun k => traps_per_pixel (group k)) phases).
Lemma rho_pos ks : incl ks phases -> 0 <= Rsum (map (fun k => traps_per_pixel (group k)) ks).
Proof. intros H. apply Rsum_nonneg, Forall_map, Forall_forall. intros k Hk. apply density_nonneg, Hphys, H, Hk. Qed.
Lemma Rsum_scaled {A} x (f : A -> R) l : Rsum (map (fun a => x * f a) l) = x * Rsum (map f l).
Proof. induction l as [|a l IH]; [cbn; lra|]. cbn [map]. change (Rsum (?u :: ?v)) with (u + Rsum v). rewrite IH. lra. Qed.
Lemma Rsum_same {A} x (l : list A) : Rsum (map (fun _ => x) l) = INR (length l) * x.
Proof. induction l as [|a l IH]; [cbn; lra|]. cbn [map length]. change (Rsum (?u :: ?v)) with (u + Rsum v). rewrite IH, S_INR. lra. Qed.
Lemma pixel_same row mult st beta : rows row -> 0 <= mult <= most -> (forall z, rows z -> 0 <= beta z) ->
  safe (fun z => beta z + mult * own z row * (INR (length steps) * rho)) st ->
  transfer_pixel sites' phases steps row mult st = transfer_pixel sites phases steps row mult st /\ safe beta (transfer_pixel sites phases steps row mult st).
Proof.
  intros Hrow Hm Hb Hs. unfold transfer_pixel.
  apply (fold_same safe _ _ (fun _ z => mult * own z row * rho) safe_less); [| |exact Hb|].
  - intros a z _. apply Rmult_le_pos; [apply Rmult_le_pos; [lra|apply own_pos]|]. apply rho_pos, incl_refl.
  - intros [d es] s b Hin Hb' Hs'.
    apply (fold_same safe _ _ (fun k z => mult * own z row * traps_per_pixel (group k)) safe_less); [| |exact Hb'|].
    + intros k z Hk. apply Rmult_le_pos; [apply Rmult_le_pos; [lra|apply own_pos]|]. apply density_nonneg, Hphys, Hk.
    + intros k s' b' Hk Hb2 Hs2. now apply expose_same.
    + revert Hs'. apply safe_less. intros z _. rewrite Rsum_scaled. unfold rho. lra.
  - revert Hs. apply safe_less. intros z _. rewrite Rsum_same. lra.
Qed.
Notation row_of cell := (fst (fst (cell : Z * R * bool))).
Definition fine_cell (cell : Z * R * bool) : Prop := rows (row_of cell) /\ 0 <= snd (fst cell) <= most.
Definition safe3 (beta : Z -> R) (st : column * traps_state * traps_state) : Prop := safe beta (fst (fst st), snd (fst st)) /\ lower phases group (snd st) (snd st).
Lemma cells_same cells : Forall fine_cell cells -> forall st beta, (forall z, rows z -> 0 <= beta z) ->
  safe3 (fun z => beta z + weight (own z) cells * (INR (length steps) * rho)) st ->
  fold_left (pass_cell sites' phases steps) cells st = fold_left (pass_cell sites phases steps) cells st /\ safe3 beta (fold_left (pass_cell sites phases steps) cells st).
Proof.
  intros Hc st beta Hb Hs. rewrite Forall_forall in Hc. assert (K0 : 0 <= INR (length steps) * rho) by (apply Rmult_le_pos; [apply pos_INR|apply rho_pos, incl_refl]).
  apply (fold_same safe3 _ _ (fun cell z => snd (fst cell) * own z (row_of cell) * (INR (length steps) * rho))); [| | |exact Hb|].
  - intros b b' s H [H1 H2]. split; [now apply (safe_less b)|exact H2].
  - intros [[row mult] sv] z Hin. destruct (Hc _ Hin) as [_ Hm]. cbn [fst snd] in *. apply Rmult_le_pos; [|exact K0]. apply Rmult_le_pos; [lra|apply own_pos].
  - intros [[row mult] sv] [[c T] saved] b Hin Hb' [H1 H2]. destruct (Hc _ Hin) as [Hr Hm]. cbn [fst snd] in *. unfold pass_cell.
    destruct (pixel_same row mult (c, T) b Hr Hm Hb' H1) as [E S1]. rewrite E. destruct (transfer_pixel sites phases steps row mult (c, T)) as [c' T']. split; [reflexivity|].
    split; [exact S1|]. cbn [fst snd]. destruct sv; [exact (proj2 (proj1 S1))|exact H2].
  - destruct Hs as [H1 H2]. split; [|exact H2]. revert H1. apply safe_less. intros z _. unfold weight.
    apply Rplus_le_compat_l. apply Req_le. clear. induction cells as [|[[row mult] sv] cells IH]; [cbn; lra|]. cbn [map fst snd]. change (Rsum (?u :: ?v)) with (u + Rsum v). rewrite IH. lra.
Qed.
Lemma passes_same passes : Forall (Forall fine_cell) passes -> forall st beta, (forall z, rows z -> 0 <= beta z) ->
  safe (fun z => beta z + Rsum (map (weight (own z)) passes) * (INR (length steps) * rho)) st ->
  fold_left (transfer_pass sites' phases steps) passes st = fold_left (transfer_pass sites phases steps) passes st /\ safe beta (fold_left (transfer_pass sites phases steps) passes st).
Proof.
  intros Hc st beta Hb Hs. rewrite Forall_forall in Hc. assert (K0 : 0 <= INR (length steps) * rho) by (apply Rmult_le_pos; [apply pos_INR|apply rho_pos, incl_refl]).
  apply (fold_same safe _ _ (fun cells z => weight (own z) cells * (INR (length steps) * rho)) safe_less); [| |exact Hb|].
  - intros cells z Hin. apply Rmult_le_pos; [|exact K0]. specialize (Hc _ Hin). unfold weight. apply Rsum_nonneg, Forall_map. eapply Forall_impl; [|exact Hc]. intros [[row mult] sv] [_ Hm]. cbn in Hm. apply Rmult_le_pos; [lra|apply own_pos].
  - intros cells [c saved] b Hin Hb' H1. unfold transfer_pass.
    destruct (cells_same cells (Hc _ Hin) (c, saved, saved) b Hb') as [E S1]; [split; [exact H1|exact (proj2 (proj1 H1))]|].
    rewrite E. destruct (fold_left (pass_cell sites phases steps) cells (c, saved, saved)) as [[c' T'] saved']. split; [reflexivity|].
    destruct S1 as [[[S1 _] S2] S3]. split; [split; [exact S1|exact S3]|exact S2].
  - revert Hs. apply safe_less. intros z _. apply Rplus_le_compat_l. apply Req_le. clear. induction passes as [|cells passes IH]; [cbn; lra|]. cbn [map]. change (Rsum (?u :: ?v)) with (u + Rsum v). rewrite IH. lra.
Qed.
Lemma readout_same passes (c : column) : Forall (Forall fine_cell) passes -> (forall z, 0 <= c z) ->
  (forall z, rows z -> floor + Rsum (map (weight (own z)) passes) * (INR (length steps) * rho) <= c z) ->
  readout sites' phases steps passes c = readout sites phases steps passes c.
Proof.
  intros Hp Hc Hs. unfold readout. assert (EE : all_empty sites' = all_empty sites) by (apply functional_extensionality; intros k; unfold all_empty; now rewrite Hgroups). rewrite EE.
  destruct (passes_same passes Hp (c, all_empty sites) (fun _ => 0)) as [E _]; [intros; lra| |now rewrite E].
  split; [|intros z Hz'; cbn [fst]; rewrite Rplus_0_l; now apply Hs]. apply (between_start sites phases group Hsite). intros z. split; [apply Hc|lra].
Qed.
End Same.
