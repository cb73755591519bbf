(** * Readouts in which pixels are transferred several times at once keep the order of columns. *)
From Coq Require Import ZArith List Bool Reals Lra Lia FunctionalExtensionality Sorted.
From Coquelicot Require Import Rcomplements Rbar Hierarchy RInt.
From Verif Require Import Num Py RFacts CCDModel TrapsModel ManagerModel ROEModel ClockModel Spec SpecReadout SpecColumn SpecRecovery WmFacts InstantFacts OrderFacts ReadoutSpecFacts TameFacts ReadoutColumnFacts PhaseOrderFacts SteadyFacts.
Import ListNotations.
Open Scope R_scope.

(** ** One packet *)
Section Packet.
Context (traps : list (trap R)) (dwell : R).
Let n := length traps.
Hypothesis Hphys : Forall physical traps.
Hypothesis Hdwell : 0 <= dwell.
Let rho := traps_per_pixel traps.
Context (well : R -> R) (slope : R).
Hypothesis Hg : gradual traps well 0 slope.
Hypothesis Hw : forall a, 0 <= a -> 0 <= well a <= 1.
Hypothesis Hz : forall a, a <= 0 -> well a = 0.
Hypothesis Hk : rho * slope <= 1.
Notation rel P := (after_release traps dwell P).
Notation net m P := (transfer_net traps well dwell m P).
Lemma cloud_plain m P : 0 <= m -> tidy n P -> cloud_from traps dwell 0 m P = m + released traps dwell P.
Proof. intros Hm HP. pose proof (released_nonneg traps dwell Hphys Hdwell P HP). unfold cloud_from. apply Rmax_right. lra. Qed.
Lemma net_value m P : 0 <= m -> tidy n P -> net m P = released traps dwell P - demand traps (well (m + released traps dwell P)) (rel P).
Proof.
  intros Hm HP. pose proof (leaves_enough traps dwell Hphys Hdwell well 0 slope Hg Hw m P HP) as He. rewrite cloud_plain in He by assumption.
  unfold transfer_net, captured. cbv zeta. now rewrite Rmin_right by exact He.
Qed.
Lemma net_order m m' P Q : 0 <= m' <= m -> tidy n P -> tidy n Q -> below_profile n Q P ->
  - (rho * slope * (m - m')) <= net m P - net m' Q.
Proof.
  intros Hm HP HQ HB. rewrite !net_value by (assumption || lra). pose proof (released_nonneg traps dwell Hphys Hdwell Q HQ) as R0.
  pose proof (released_order traps dwell Hphys Hdwell P Q HP HQ HB) as RO. set (r := released traps dwell P) in *. set (r' := released traps dwell Q) in *.
  pose proof (gr_grows _ _ _ _ Hg (m' + r') (m + r) ltac:(lra)) as GG. pose proof (Hw (m' + r') ltac:(lra)) as W1. pose proof (Hw (m + r) ltac:(lra)) as W2.
  pose proof (demand_order traps Hphys (well (m' + r')) (well (m + r)) (rel P) (rel Q) ltac:(lra) ltac:(lra) (tidy_release traps dwell Hphys Hdwell P HP) (tidy_release traps dwell Hphys Hdwell Q HQ) (release_order traps dwell Hphys Hdwell P Q HB)) as DO.
  fold rho in DO. pose proof (density_nonneg traps Hphys) as D0. fold rho in D0.
  assert (A : rho * (well (m + r) - well (m' + r')) <= rho * (slope * (m + r - (m' + r')))) by (apply Rmult_le_compat_l; lra).
  assert (B : rho * slope * (r - r') <= 1 * (r - r')) by (apply Rmult_le_compat_r; lra). lra.
Qed.
Lemma net_after m P : 0 <= m -> tidy n P -> electrons traps (transfer_after traps well dwell m P) 0 1 = electrons traps P 0 1 - net m P.
Proof.
  intros Hm HP. rewrite (electrons_eq traps _ (behind traps dwell well 0 m P) 0 1) by first [lra | intros s x Hs Hx; apply (after_behind traps dwell Hphys Hdwell well slope Hg Hw Hz m P HP); [exact Hs|lra]].
  unfold behind. rewrite cloud_plain by assumption. pose proof (released_nonneg traps dwell Hphys Hdwell P HP) as R0.
  rewrite (fill_total traps) by first [apply Hw; lra | now apply tidy_release]. rewrite net_value by assumption.
  unfold released. lra.
Qed.
End Packet.

(** ** Sums over some rows *)
Definition sum_on (l : list nat) (c : column) : R := Rsum (map (fun i => c (Z.of_nat i)) l).
Lemma give_elsewhere (l : list nat) z (h : column) p : ~ In (Z.to_nat z) l \/ (z < 0)%Z -> sum_on l (give h z p) = sum_on l h.
Proof.
  intros Hl. unfold sum_on. f_equal. apply map_ext_in. intros i Hi. unfold give. destruct (Z.eqb_spec (Z.of_nat i) z) as [E|]; [|reflexivity]. exfalso. destruct Hl as [Hl|Hl]; [|lia].
  apply Hl. rewrite <- E, Nat2Z.id. exact Hi.
Qed.
Lemma sum_on_cons i l c : sum_on (i :: l) c = c (Z.of_nat i) + sum_on l c. Proof. reflexivity. Qed.
Lemma give_here (l : list nat) z (h : column) p : NoDup l -> (0 <= z)%Z -> In (Z.to_nat z) l -> sum_on l (give h z p) = sum_on l h + (Rmax 0 (h z + p) - h z).
Proof.
  intros Hnd Hz. induction Hnd as [|i l Hi Hnd IH]; intros HI; [destruct HI|destruct HI as [E|Hin]].
  - rewrite !sum_on_cons. subst i. rewrite give_elsewhere by (left; exact Hi). unfold give. rewrite Z2Nat.id by exact Hz. rewrite Z.eqb_refl. lra.
  - rewrite !sum_on_cons, (IH Hin). unfold give at 1. destruct (Z.eqb_spec (Z.of_nat i) z) as [E|NE]; [|lra]. exfalso. apply Hi. rewrite <- E, Nat2Z.id in Hin. exact Hin.
Qed.
Lemma give_sum (l : list nat) (f g : column) z q q' : NoDup l -> (forall i, f i <= g i) -> q <= q' ->
  sum_on l (give g z q') - sum_on l (give f z q) <= sum_on l g - sum_on l f + (q' - q).
Proof.
  intros Hnd Hfg Hq. destruct (Z.ltb_spec z 0) as [Hz|Hz]; [rewrite !give_elsewhere by auto; lra|].
  destruct (in_dec Nat.eq_dec (Z.to_nat z) l) as [I|NI]; [|rewrite !give_elsewhere by auto; lra].
  rewrite !give_here by assumption. specialize (Hfg z). unfold Rmax. destruct (Rle_dec 0 _), (Rle_dec 0 _); lra.
Qed.
Lemma deposit_sum (l : list nat) targets row q q' : NoDup l -> 0 <= q <= q' -> Forall (fun '(_, w) => 0 <= w) targets -> forall f g, (forall i, 0 <= f i <= g i) ->
  (forall i, 0 <= deposit targets row q f i /\ g i - f i <= deposit targets row q' g i - deposit targets row q f i) /\
  sum_on l (deposit targets row q' g) - sum_on l (deposit targets row q f) <= sum_on l g - sum_on l f + (q' - q) * Rsum (map snd targets).
Proof.
  intros Hnd Hq. induction targets as [|[d w] targets IH]; intros HF f g Hfg; cbn [deposit fold_left map Rsum fold_right snd].
  - split; [|lra]. intros i. specialize (Hfg i). lra.
  - inversion HF as [|? ? Hw0 HF']; subst. fold (deposit targets row q (give f (row + d) (q * w))). fold (deposit targets row q' (give g (row + d) (q' * w))).
    assert (Hqw : q * w <= q' * w) by (apply Rmult_le_compat_r; lra). assert (H0 : 0 <= q * w) by (apply Rmult_le_pos; lra).
    assert (G : forall i, 0 <= give f (row + d) (q * w) i /\ g i - f i <= give g (row + d) (q' * w) i - give f (row + d) (q * w) i).
    { intros i. unfold give. specialize (Hfg i). destruct (_ =? _)%Z; [|lra]. rewrite !Rmax_right by lra. lra. }
    assert (G' : forall i, 0 <= give f (row + d) (q * w) i <= give g (row + d) (q' * w) i) by (intros i; specialize (G i); specialize (Hfg i); lra).
    destruct (IH HF' _ _ G') as [A B]. split.
    + intros i. specialize (A i). specialize (G i). lra.
    + pose proof (give_sum l f g (row + d) (q * w) (q' * w) Hnd (fun i => proj2 (Hfg i)) Hqw) as D. unfold Rsum in *. lra.
Qed.
(** The same charge given to both. *)
Lemma deposit_same targets row q : forall (f g : column), (forall i, f i <= g i) ->
  forall i, 0 <= deposit targets row q g i - deposit targets row q f i <= g i - f i.
Proof.
  induction targets as [|[d w] targets IH]; intros f g Hfg i; cbn [deposit fold_left]; [specialize (Hfg i); lra|].
  fold (deposit targets row q (give f (row + d) (q * w))). fold (deposit targets row q (give g (row + d) (q * w))).
  assert (G : forall i, 0 <= give g (row + d) (q * w) i - give f (row + d) (q * w) i <= g i - f i).
  { intros z. specialize (Hfg z). unfold give. destruct (_ =? _)%Z; [|lra]. unfold Rmax. destruct (Rle_dec 0 _), (Rle_dec 0 _); lra. }
  assert (G' : forall z, give f (row + d) (q * w) z <= give g (row + d) (q * w) z) by (intros z; specialize (G z); lra).
  specialize (IH _ _ G' i). specialize (G i). lra.
Qed.

Section Weighted.
Context (sites : nat -> site) (phases : list nat) (steps : list (R * list (roe_phase R)))
  (group : nat -> list (trap R)) (slope : nat -> R) (gam most : R).
Notation well k := (site_well (sites k)).
Hypothesis Hnodup : NoDup phases.
Hypothesis Hsite : forall k, In k phases -> site_groups (sites k) = [group k].
Hypothesis Hphys : forall k, In k phases -> Forall physical (group k).
Hypothesis Hg : forall k, In k phases -> gradual (group k) (well k) 0 (slope k).
Hypothesis Hw : forall k a, In k phases -> 0 <= a -> 0 <= well k a <= 1.
Hypothesis Hz : forall k a, In k phases -> a <= 0 -> well k a = 0.
Hypothesis Hgam : 0 <= gam <= 1.
Hypothesis Hmost : 1 <= most.
Hypothesis Hgain : forall k, In k phases -> most * (traps_per_pixel (group k) * slope k) <= 1 - gam.
Hypothesis Hsteps : forall d es, In (d, es) steps -> 0 < d.
Hypothesis Hel : forall d es k, In (d, es) steps -> In k phases -> let e := electrode es k in
  Forall (fun '(d, f) => (0 <= d)%Z /\ 0 <= f) (combine (rp_release e) (rp_fraction e)) /\
  Rsum (map snd (combine (rp_release e) (rp_fraction e))) = 1 /\
  (rp_high e = true -> rp_capture e = 0%Z /\ combine (rp_release e) (rp_fraction e) = [(0%Z, 1)]).
Hypothesis Hfw : forall d es k, In (d, es) steps -> In k phases -> forward (electrode es k).
Notation size k := (length (group k)).
Notation lower := (lower phases group).
Notation held T := (trapped_electrons sites phases T).
Definition between (a b : column * traps_state) : Prop := (forall z, 0 <= fst a z <= fst b z) /\ lower (snd a) (snd b).
Definition apart_on (l : list nat) (a b : column * traps_state) : R := sum_on l (fst b) - sum_on l (fst a).
Definition held_apart (a b : column * traps_state) : R := held (snd b) - held (snd a).
Lemma capture_share k : In k phases -> 0 <= traps_per_pixel (group k) * slope k <= 1.
Proof.
  intros Hk. pose proof (density_nonneg (group k) (Hphys k Hk)) as D. pose proof (gr_slope _ _ _ _ (Hg k Hk)) as S. pose proof (Hgain k Hk) as G.
  pose proof (Rmult_le_pos _ _ D S) as P. split; [exact P|]. pose proof (Rmult_le_compat_r _ 1 most P Hmost). lra.
Qed.
Lemma capture_mult k mult : In k phases -> 0 <= mult <= most -> mult * (traps_per_pixel (group k) * slope k) <= 1 - gam.
Proof. intros Hk Hm. pose proof (capture_share k Hk) as S. pose proof (Rmult_le_compat_r _ mult most (proj1 S) (proj2 Hm)). specialize (Hgain k Hk). lra. Qed.
Lemma expose_weighted row mult dwell es k a b l : (0 <= row)%Z -> NoDup l -> In (Z.to_nat row) l -> 0 <= mult <= most -> In (dwell, es) steps -> In k phases -> between a b ->
  let a' := expose sites row mult dwell es a k in let b' := expose sites row mult dwell es b k in
  between a' b' /\
  apart_on l a' b' + mult * held_apart a' b' <= apart_on l a b + mult * held_apart a b /\
  held_apart a' b' <= held_apart a b + (fst b row - fst a row) /\
  forall z, gam * (fst b z - fst a z) <= fst b' z - fst a' z.
Proof.
  intros Hrow Hnd Hl Hmult Hin Hk [Hfg HL]. destruct a as [f T], b as [g U]. cbn [fst snd] in *. pose proof (HL k Hk) as (Q & P & ET & EU & HQ & HP & HB).
  pose proof (Hsteps dwell es Hin) as Hd. destruct (Hel dwell es k Hin Hk) as (E1 & E2 & E3). unfold expose. set (e := electrode es k) in *. cbv zeta.
  pose proof (capture_share k Hk) as Hk1. pose proof (capture_mult k mult Hk Hmult) as Hk2. set (share := traps_per_pixel (group k) * slope k) in *.
  assert (NO : forall m' m X Y, 0 <= m' <= m -> tidy (size k) X -> tidy (size k) Y -> below_profile (size k) Y X -> _)
    by (intros m' m X Y Hm HX HY HXY; exact (net_order (group k) dwell (Hphys k Hk) ltac:(lra) (well k) (slope k) (Hg k Hk) (fun a => Hw k a Hk) (proj2 Hk1) m m' X Y Hm HX HY HXY)).
  assert (NA : forall m X, 0 <= m -> tidy (size k) X -> _) by (intros m X Hm HX; exact (net_after (group k) dwell (Hphys k Hk) ltac:(lra) (well k) (slope k) (Hg k Hk) (fun a => Hw k a Hk) (fun a => Hz k a Hk) m X Hm HX)).
  assert (AB : forall m X, tidy (size k) X -> _) by (intros m X HX; exact (after_behind (group k) dwell (Hphys k Hk) ltac:(lra) (well k) (slope k) (Hg k Hk) (fun a => Hw k a Hk) (fun a => Hz k a Hk) m X HX)).
  assert (TB : forall m X, tidy (size k) X -> tidy (size k) (behind (group k) dwell (well k) 0 m X)) by (intros m X HX; apply (behind_tidy (group k) dwell (Hphys k Hk) ltac:(lra) (well k) 0 (fun a => Hw k a Hk)); exact HX).
  assert (SN : forall m X, site_net (sites k) dwell m [X] = transfer_net (group k) (well k) dwell m X) by (intros m X; unfold site_net; rewrite (Hsite k Hk); cbn; lra).
  assert (SA : forall m X, site_after (sites k) dwell m [X] = [transfer_after (group k) (well k) dwell m X]) by (intros m X; unfold site_after; rewrite (Hsite k Hk); reflexivity).
  rewrite ET, EU, !SN, !SA.
  set (m' := if rp_high e then f (row + rp_capture e)%Z else 0). set (m := if rp_high e then g (row + rp_capture e)%Z else 0).
  assert (Hm : 0 <= m' <= m) by (unfold m', m; destruct (rp_high e); [apply Hfg|lra]).
  assert (Hm0 : m - m' <= g row - f row).
  { unfold m', m. destruct (rp_high e) eqn:HH; [destruct (E3 eq_refl) as [-> _]; rewrite Z.add_0_r; lra|specialize (Hfg row); lra]. }
  destruct (leaves_order (group k) dwell (Hphys k Hk) ltac:(lra) (well k) 0 (slope k) (Hg k Hk) (fun a => Hw k a Hk) m m' P Q (proj2 Hm) HP HQ HB) as (_ & O2 & _).
  assert (HL' : lower (put T k [transfer_after (group k) (well k) dwell m' Q]) (put U k [transfer_after (group k) (well k) dwell m P])).
  { intros k' Hk'. unfold put. destruct (Nat.eqb_spec k' k) as [->|]; [|exact (HL k' Hk')]. do 2 eexists. split; [reflexivity|]. split; [reflexivity|].
    split; [exact (tidy_alike _ _ _ (same_sym _ _ _ (AB m' Q HQ)) (TB m' Q HQ))|]. split; [exact (tidy_alike _ _ _ (same_sym _ _ _ (AB m P HP)) (TB m P HP))|].
    exact (below_alike _ _ _ _ _ (same_sym _ _ _ (AB m' Q HQ)) (same_sym _ _ _ (AB m P HP)) O2). }
  set (q' := transfer_net (group k) (well k) dwell m' Q). set (q := transfer_net (group k) (well k) dwell m P).
  pose proof (NO m' m P Q Hm HP HQ HB) as Hq. fold q q' share in Hq.
  assert (HT : held (put U k [transfer_after (group k) (well k) dwell m P]) - held (put T k [transfer_after (group k) (well k) dwell m' Q]) = held U - held T - (q - q')).
  { rewrite !(put_trapped sites phases) by assumption. rewrite (trapped_one sites phases group Hsite U k P Hk EU), (trapped_one sites phases group Hsite T k Q Hk ET).
    unfold site_electrons. rewrite (Hsite k Hk). cbn [combine map Rsum fold_right]. rewrite (NA m P), (NA m' Q) by (assumption || lra). unfold q, q'. lra. }
  assert (H3 : held U - held T - (q - q') <= held U - held T + (g row - f row)).
  { assert (share * (m - m') <= 1 * (m - m')) by (apply Rmult_le_compat_r; lra). lra. }
  destruct (rp_high e) eqn:HH.
  - destruct (E3 eq_refl) as [EC ED]. rewrite ED. cbn [deposit fold_left]. rewrite !Rmult_1_r, !Z.add_0_r.
    assert (Em : m = g row /\ m' = f row) by (unfold m, m'; rewrite EC, !Z.add_0_r; auto). destruct Em as [Em Em']. pose proof (Hfg row) as Hr.
    assert (Q0 : - (share * m') <= q').
    { pose proof (NO 0 m' Q Q ltac:(lra) HQ HQ (below_refl (group k) Q)) as H0. fold q' share in H0. rewrite (net_alone (group k) dwell (Hphys k Hk) ltac:(lra) (well k) (slope k) (Hg k Hk) (fun a => Hw k a Hk) Q HQ) in H0.
      pose proof (leaves_nonneg (group k) dwell (Hphys k Hk) ltac:(lra) (well k) (slope k) (Hg k Hk) (fun a => Hw k a Hk) 0 Q HQ). lra. }
    assert (A0 : 0 <= f row + q' * mult).
    { pose proof (Rmult_le_compat_r mult _ _ (proj1 Hmult) Q0) as H0. pose proof (Rmult_le_compat_r m' _ _ (proj1 Hm) Hk2) as H1. rewrite Em' in *. pose proof (Rmult_le_pos _ _ (proj1 Hgam) (proj1 Hr)). lra. }
    assert (A1 : gam * (g row - f row) <= (g row + q * mult) - (f row + q' * mult)).
    { pose proof (Rmult_le_compat_r mult _ _ (proj1 Hmult) Hq) as H0. pose proof (Rmult_le_compat_r (m - m') _ _ ltac:(lra) Hk2) as H1. rewrite Em, Em' in *. lra. }
    assert (A2 : 0 <= gam * (g row - f row)) by (apply Rmult_le_pos; lra).
    split; [split; [|exact HL']|split; [|split]].
    + intros z. cbn [fst]. unfold give. destruct (Z.eqb_spec z row) as [->|]; [|apply Hfg]. rewrite !Rmax_right by lra. lra.
    + unfold apart_on, held_apart. cbn [fst snd]. rewrite HT, !give_here by assumption. rewrite !Rmax_right by lra. lra.
    + unfold held_apart. cbn [fst snd]. rewrite HT. exact H3.
    + intros z. cbn [fst]. unfold give. destruct (Z.eqb_spec z row) as [->|]; [rewrite !Rmax_right by lra; lra|]. specialize (Hfg z).
      rewrite <- (Rmult_1_l (g z - f z)) at 2. apply Rmult_le_compat_r; lra.
  - assert (Em : m = 0 /\ m' = 0) by (unfold m, m'; auto). destruct Em as [Em Em'].
    assert (Q0 : 0 <= q').
    { unfold q'. rewrite Em'. rewrite (net_alone (group k) dwell (Hphys k Hk) ltac:(lra) (well k) (slope k) (Hg k Hk) (fun a => Hw k a Hk) Q HQ).
      apply (leaves_nonneg (group k) dwell (Hphys k Hk) ltac:(lra) (well k) (slope k) (Hg k Hk) (fun a => Hw k a Hk)). exact HQ. }
    rewrite Em, Em', Rminus_0_r, Rmult_0_r, Ropp_0 in Hq.
    assert (QM : 0 <= q' * mult <= q * mult) by (split; [apply Rmult_le_pos; lra|apply Rmult_le_compat_r; lra]).
    assert (FW : Forall (fun '(_, w) => 0 <= w) (combine (rp_release e) (rp_fraction e))) by (eapply Forall_impl; [|exact E1]; intros [? ?]; tauto).
    destruct (deposit_sum l (combine (rp_release e) (rp_fraction e)) row _ _ Hnd QM FW f g Hfg) as (D1 & D2).
    split; [split; [|exact HL']|split; [|split]].
    + intros z. cbn [fst]. specialize (D1 z). specialize (Hfg z). lra.
    + unfold apart_on, held_apart. cbn [fst snd]. rewrite HT. rewrite E2 in D2. lra.
    + unfold held_apart. cbn [fst snd]. rewrite HT. exact H3.
    + intros z. cbn [fst]. specialize (D1 z). specialize (Hfg z). apply Rle_trans with (2 := proj2 D1).
      rewrite <- (Rmult_1_l (g z - f z)) at 2. apply Rmult_le_compat_r; lra.
Qed.

(** ** Pixels and passes *)
Definition all_apart (l : list nat) (a b : column * traps_state) : R := apart_on l a b + held_apart a b.
Definition grown (l : list nat) (g big : R) (a b a' b' : column * traps_state) : Prop :=
  between a' b' /\ all_apart l a' b' <= big * all_apart l a b /\ forall z, g * (fst b z - fst a z) <= fst b' z - fst a' z.
Lemma held_order a b : between a b -> 0 <= held_apart a b.
Proof. intros [_ H]. unfold held_apart. pose proof (lower_trapped sites phases group Hsite Hphys _ _ H). lra. Qed.
Lemma apart_order l a b : between a b -> 0 <= apart_on l a b.
Proof.
  intros [H _]. unfold apart_on. induction l as [|i l IH]; [unfold sum_on; cbn; lra|]. rewrite !sum_on_cons. specialize (H (Z.of_nat i)). lra.
Qed.
Lemma apart_one l a b row : (0 <= row)%Z -> In (Z.to_nat row) l -> between a b -> fst b row - fst a row <= apart_on l a b.
Proof.
  intros H0 Hl H. unfold apart_on. induction l as [|i l IH]; [destruct Hl|]. rewrite !sum_on_cons. pose proof (apart_order l a b H) as A. unfold apart_on in A. pose proof (proj1 H) as HF. destruct Hl as [->|Hl].
  - rewrite Z2Nat.id by exact H0. lra.
  - specialize (IH Hl). specialize (HF (Z.of_nat i)). lra.
Qed.
Lemma expose_grown row mult dwell es k a b l : (0 <= row)%Z -> NoDup l -> In (Z.to_nat row) l -> 0 <= mult <= most -> In (dwell, es) steps -> In k phases -> between a b ->
  grown l gam (2 + most) a b (expose sites row mult dwell es a k) (expose sites row mult dwell es b k).
Proof.
  intros H0 Hnd Hl Hm Hin Hk HB. destruct (expose_weighted row mult dwell es k a b l H0 Hnd Hl Hm Hin Hk HB) as (B & V & T & G).
  split; [exact B|]. split; [|exact G]. unfold all_apart. pose proof (held_order _ _ B) as HO'. pose proof (held_order _ _ HB) as HO. pose proof (apart_order l _ _ HB) as AO. pose proof (apart_one l a b row H0 Hl HB) as A1.
  pose proof (Rmult_le_pos _ _ (proj1 Hm) HO') as M1. pose proof (Rmult_le_compat_r _ _ _ HO (proj2 Hm)) as M2. pose proof (Rmult_le_pos most _ ltac:(lra) AO) as M3. lra.
Qed.
Lemma grown_fold {A} (F : column * traps_state -> A -> column * traps_state) l g big : 0 <= g -> 0 <= big -> forall xs, (forall x a b, In x xs -> between a b -> grown l g big a b (F a x) (F b x)) ->
  forall a b, between a b -> grown l (g ^ length xs) (big ^ length xs) a b (fold_left F xs a) (fold_left F xs b).
Proof.
  intros Hg0 Hb0. induction xs as [|x xs IH]; intros H a b HR; cbn [fold_left length pow].
  - split; [exact HR|]. split; [lra|]. intros z. lra.
  - pose proof (H x a b (or_introl eq_refl) HR) as (S1 & S2 & S3). destruct (IH (fun y a b Hy => H y a b (or_intror Hy)) _ _ S1) as (T1 & T2 & T3).
    split; [exact T1|]. split.
    + apply Rle_trans with (1 := T2). rewrite (Rmult_comm big), Rmult_assoc. apply Rmult_le_compat_l; [now apply pow_le|exact S2].
    + intros z. apply Rle_trans with (2 := T3 z). rewrite (Rmult_comm g), Rmult_assoc. apply Rmult_le_compat_l; [now apply pow_le|apply S3].
Qed.
Definition each_gain : R := (gam ^ length phases) ^ length steps.
Definition each_big : R := ((2 + most) ^ length phases) ^ length steps.
Lemma transfer_grown row mult a b l : (0 <= row)%Z -> NoDup l -> In (Z.to_nat row) l -> 0 <= mult <= most -> between a b ->
  grown l each_gain each_big a b (transfer_pixel sites phases steps row mult a) (transfer_pixel sites phases steps row mult b).
Proof.
  intros H0 Hnd Hl Hm HR. unfold transfer_pixel, each_gain, each_big.
  apply (grown_fold (fun st '(dwell, es) => fold_left (expose sites row mult dwell es) phases st)); [apply pow_01, Hgam|apply pow_le; lra| |exact HR].
  intros [dwell es] a' b' Hin HR'. apply (grown_fold (expose sites row mult dwell es)); [apply Hgam|lra| |exact HR'].
  intros k a2 b2 Hk HR2. apply expose_grown; assumption.
Qed.
Lemma kept_fold {A} (F : column * traps_state -> A -> column * traps_state) (V : column * traps_state -> column * traps_state -> R) : forall xs, (forall x a b, In x xs -> between a b -> between (F a x) (F b x) /\ V (F a x) (F b x) <= V a b) ->
  forall a b, between a b -> between (fold_left F xs a) (fold_left F xs b) /\ V (fold_left F xs a) (fold_left F xs b) <= V a b.
Proof.
  induction xs as [|x xs IH]; intros H a b HR; cbn [fold_left]; [split; [exact HR|lra]|].
  destruct (H x a b (or_introl eq_refl) HR) as [S1 S2]. destruct (IH (fun y a b Hy => H y a b (or_intror Hy)) _ _ S1) as [T1 T2]. split; [exact T1|lra].
Qed.
Lemma transfer_kept row mult a b l : (0 <= row)%Z -> NoDup l -> In (Z.to_nat row) l -> 0 <= mult <= most -> between a b ->
  let a' := transfer_pixel sites phases steps row mult a in let b' := transfer_pixel sites phases steps row mult b in
  between a' b' /\ apart_on l a' b' + mult * held_apart a' b' <= apart_on l a b + mult * held_apart a b.
Proof.
  intros H0 Hnd Hl Hm HR. cbv zeta. unfold transfer_pixel.
  apply (kept_fold (fun st '(dwell, es) => fold_left (expose sites row mult dwell es) phases st) (fun a b => apart_on l a b + mult * held_apart a b)); [|exact HR].
  intros [dwell es] a' b' Hin HR'. apply (kept_fold (expose sites row mult dwell es) (fun a b => apart_on l a b + mult * held_apart a b)); [|exact HR'].
  intros k a2 b2 Hk HR2. destruct (expose_weighted row mult dwell es k a2 b2 l H0 Hnd Hl Hm Hin Hk HR2) as (B & V & _). auto.
Qed.

(** Columns that agree in front of row [r], and traps in the same state. *)
Definition alike_to (r : Z) (f g : column) : Prop := forall z, (0 <= z < r)%Z -> f z = g z.
Definition synced (r : Z) (x : R) (a b : column * traps_state) : Prop :=
  snd a = snd b /\ alike_to r (fst a) (fst b) /\ (forall z, fst a z <= fst b z) /\ fst b r - fst a r <= x.
Lemma expose_synced row mult dwell es k r x a b : (0 <= row < r)%Z -> In (dwell, es) steps -> In k phases -> synced r x a b ->
  synced r x (expose sites row mult dwell es a k) (expose sites row mult dwell es b k).
Proof.
  intros Hr Hin Hk (S1 & S2 & S3 & S4). destruct a as [f T], b as [g U]. cbn [fst snd] in *. subst U.
  unfold expose. destruct (Hel dwell es k Hin Hk) as (_ & _ & E3). set (e := electrode es k) in *. cbv zeta in E3.
  assert (E : (if rp_high e then f (row + rp_capture e)%Z else 0) = (if rp_high e then g (row + rp_capture e)%Z else 0)).
  { destruct (rp_high e); [|reflexivity]. destruct (E3 eq_refl) as [-> _]. apply S2. lia. }
  rewrite E. pose proof (deposit_same (combine (rp_release e) (rp_fraction e)) row (site_net (sites k) dwell (if rp_high e then g (row + rp_capture e)%Z else 0) (T k) * mult) f g S3) as D.
  split; [reflexivity|]. cbn [fst]. split; [intros z Hz'; specialize (D z); rewrite (S2 z Hz') in D; lra|].
  split; [intros z; specialize (D z); lra|]. specialize (D r). lra.
Qed.
Lemma synced_fold {A} (F : column * traps_state -> A -> column * traps_state) r x : forall xs, (forall y a b, In y xs -> synced r x a b -> synced r x (F a y) (F b y)) ->
  forall a b, synced r x a b -> synced r x (fold_left F xs a) (fold_left F xs b).
Proof. induction xs as [|y xs IH]; intros H a b HS; cbn [fold_left]; [exact HS|]. apply IH; [intros; apply H; [now right|assumption]|]. apply H; [now left|exact HS]. Qed.
Lemma transfer_synced row mult r x a b : (0 <= row < r)%Z -> synced r x a b ->
  synced r x (transfer_pixel sites phases steps row mult a) (transfer_pixel sites phases steps row mult b).
Proof.
  intros Hr HS. unfold transfer_pixel. apply (synced_fold (fun st '(dwell, es) => fold_left (expose sites row mult dwell es) phases st)); [|exact HS].
  intros [dwell es] a' b' Hin HS'. apply (synced_fold (expose sites row mult dwell es)); [|exact HS']. intros k a2 b2 Hk HS2. now apply expose_synced.
Qed.
Notation row_of cell := (fst (fst (cell : Z * R * bool))).
Definition run (st : column * traps_state) (cell : Z * R * bool) : column * traps_state := transfer_pixel sites phases steps (row_of cell) (snd (fst cell)) st.
Definition good_cell (N : nat) (cell : Z * R * bool) : Prop := (0 <= row_of cell < Z.of_nat N)%Z /\ 0 <= snd (fst cell) <= most /\ snd cell = false.
Definition good_cells (N : nat) (cells : list (Z * R * bool)) : Prop := StronglySorted (fun c c' => (row_of c < row_of c')%Z) cells /\ Forall (good_cell N) cells.
Lemma pass_run N cells : Forall (good_cell N) cells -> forall c T saved,
  fold_left (pass_cell sites phases steps) cells (c, T, saved) = (fst (fold_left run cells (c, T)), snd (fold_left run cells (c, T)), saved).
Proof.
  induction 1 as [|[[row mult] save] cells (_ & _ & H3) HF IH]; intros c T saved; cbn [fold_left fst snd]; [reflexivity|]. cbn [snd] in H3. subst save.
  unfold pass_cell at 2. unfold run at 2 4. cbn [fst snd]. destruct (transfer_pixel sites phases steps row mult (c, T)) as [c' T']. apply IH.
Qed.
Lemma run_grown N l cells : Forall (good_cell N) cells -> NoDup l -> incl (seq 0 N) l -> forall a b, between a b ->
  grown l (each_gain ^ length cells) (each_big ^ length cells) a b (fold_left run cells a) (fold_left run cells b).
Proof.
  intros HF Hnd Hl. apply grown_fold; [unfold each_gain; apply pow_01, pow_01, Hgam|unfold each_big; apply pow_le, pow_le; lra|].
  intros cell a b Hin HR. rewrite Forall_forall in HF. destruct (HF cell Hin) as (H1 & H2 & _). apply transfer_grown; [lia|exact Hnd| |exact H2|exact HR]. apply Hl, in_seq. lia.
Qed.
Lemma run_beyond r cells : Forall (fun c => (r < row_of c)%Z) cells -> forall st, agree r (fst st) (fst (fold_left run cells st)).
Proof.
  induction 1 as [|cell cells Hc HF IH]; intros [f T]; cbn [fold_left]; [intros z _; reflexivity|]. eapply agree_trans; [|apply IH]. unfold run. now apply transfer_beyond.
Qed.
Lemma run_own N r : (0 <= r)%Z -> forall cells, good_cells N cells -> forall f g T, between (f, T) (g, T) -> alike_to r f g ->
  alike_to r (fst (fold_left run cells (f, T))) (fst (fold_left run cells (g, T))) /\
  fst (fold_left run cells (g, T)) r - fst (fold_left run cells (f, T)) r <= g r - f r.
Proof.
  intros Hr. induction cells as [|cell cells IH]; intros [HS HF] f g T HB HA; cbn [fold_left]; [split; [exact HA|cbn [fst]; lra]|].
  apply StronglySorted_inv in HS as [HS1 HS2]. inversion HF as [|? ? HC HF']; subst. destruct HC as (C1 & C2 & C3).
  destruct (Z.lt_trichotomy (row_of cell) r) as [Hlt|[Heq|Hgt]].
  - assert (SY : synced r (g r - f r) (f, T) (g, T)) by (split; [reflexivity|]; split; [exact HA|]; split; [intros z; apply (proj1 HB)|cbn [fst]; lra]).
    pose proof (transfer_synced (row_of cell) (snd (fst cell)) r _ _ _ (conj (proj1 C1) Hlt) SY) as (S1 & S2 & S3 & S4). fold (run (f, T) cell) in S1, S2, S3, S4. fold (run (g, T) cell) in S1, S2, S3, S4.
    assert (HB' : between (run (f, T) cell) (run (g, T) cell)) by (apply (transfer_kept (row_of cell) (snd (fst cell)) _ _ [Z.to_nat (row_of cell)]); [lia|repeat constructor; intros []|now left|exact C2|exact HB]).
    destruct (run (f, T) cell) as [f1 T1], (run (g, T) cell) as [g1 T1']. cbn [fst snd] in S1, S2, S3, S4. subst T1'.
    destruct (IH (conj HS1 HF') f1 g1 T1 HB' S2) as [I1 I2]. split; [exact I1|lra].
  - destruct (transfer_kept (row_of cell) (snd (fst cell)) (f, T) (g, T) [Z.to_nat r]) as [B V]; [lia|repeat constructor; intros []|left; now rewrite Heq|exact C2|exact HB|].
    fold (run (f, T) cell) in B, V. fold (run (g, T) cell) in B, V. pose proof (held_order _ _ B) as HO. pose proof (Rmult_le_pos _ _ (proj1 C2) HO) as HO'.
    assert (A1 : forall a b, apart_on [Z.to_nat r] a b = fst b r - fst a r) by (intros a b; unfold apart_on, sum_on; cbn [map Rsum fold_right]; rewrite Z2Nat.id by exact Hr; lra).
    rewrite !A1 in V. unfold held_apart at 2 in V. cbn [fst snd] in V.
    assert (RB : forall st, agree r (fst st) (fst (fold_left run cells st))) by (apply run_beyond; eapply Forall_impl; [|exact HS2]; intros c; cbn beta; lia).
    assert (TB : forall h, agree (r - 1) h (fst (run (h, T) cell))) by (intros h; unfold run; apply transfer_beyond; [exact Hfw|lia]).
    split.
    + intros z Hz'. rewrite <- !RB by lia. rewrite <- !TB by lia. now apply HA.
    + rewrite <- !RB by lia. lra.
  - assert (RB : forall st, agree r (fst st) (fst (fold_left run (cell :: cells) st))).
    { apply run_beyond. constructor; [exact Hgt|]. eapply Forall_impl; [|exact HS2]. intros c; cbn beta; lia. }
    cbn [fold_left] in RB. split; [intros z Hz'; rewrite <- !RB by lia; now apply HA|]. rewrite <- !RB by lia. cbn [fst]. lra.
Qed.

(** ** Readouts *)
Definition moved_on (N : nat) (g big : R) (a b a' b' : column) : Prop :=
  (forall z, 0 <= a' z <= b' z) /\ sum_on (seq 0 N) b' - sum_on (seq 0 N) a' <= big * (sum_on (seq 0 N) b - sum_on (seq 0 N) a) /\
  (forall z, g * (b z - a z) <= b' z - a' z) /\
  forall r, (0 <= r)%Z -> alike_to r a b -> alike_to r a' b' /\ b' r - a' r <= b r - a r.
Lemma between_start (f g : column) : (forall z, 0 <= f z <= g z) -> between (f, all_empty sites) (g, all_empty sites).
Proof. intros H. split; [exact H|]. apply (Rel_start sites phases group Hsite f g). intros z. apply H. Qed.
Lemma pass_moved_on M N cells (f g : column) : good_cells M cells -> (M <= N)%nat -> (forall z, 0 <= f z <= g z) ->
  exists f' g', transfer_pass sites phases steps (f, all_empty sites) cells = (f', all_empty sites) /\
    transfer_pass sites phases steps (g, all_empty sites) cells = (g', all_empty sites) /\ moved_on N (each_gain ^ length cells) (each_big ^ length cells) f g f' g'.
Proof.
  intros HC HN Hfg. pose proof (between_start f g Hfg) as HB. unfold transfer_pass. rewrite !(pass_run M) by apply HC. eexists _, _. split; [reflexivity|]. split; [reflexivity|].
  assert (Hincl : incl (seq 0 M) (seq 0 N)) by (intros i Hi; apply in_seq in Hi; apply in_seq; lia).
  destruct (run_grown M (seq 0 N) cells (proj2 HC) (seq_NoDup N 0) Hincl _ _ HB) as (G1 & G2 & G3).
  split; [exact (proj1 G1)|]. split; [|split; [exact G3|]].
  - pose proof (held_order _ _ G1) as HO. unfold all_apart in G2. unfold held_apart at 2 in G2. cbn [snd] in G2. rewrite Rminus_eq_0, Rplus_0_r in G2. unfold apart_on in G2. cbn [fst] in G2. lra.
  - intros r Hr HA. apply (run_own M r Hr cells HC f g (all_empty sites) HB HA).
Qed.
Fixpoint gain_on (passes : list (list (Z * R * bool))) : R := match passes with [] => 1 | cells :: l => each_gain ^ length cells * gain_on l end.
Fixpoint big_on (passes : list (list (Z * R * bool))) : R := match passes with [] => 1 | cells :: l => each_big ^ length cells * big_on l end.
Lemma gain_on_01 passes : 0 <= gain_on passes <= 1.
Proof.
  induction passes as [|c l IH]; cbn [gain_on]; [lra|]. pose proof (pow_01 each_gain (length c) (pow_01 _ _ (pow_01 _ _ Hgam))). split; [apply Rmult_le_pos; lra|].
  rewrite <- (Rmult_1_l 1). apply Rmult_le_compat; lra.
Qed.
Lemma gain_on_pos passes : 0 < gam -> 0 < gain_on passes.
Proof. intros H. induction passes as [|c l IH]; cbn [gain_on]; [lra|]. apply Rmult_lt_0_compat; [|exact IH]. unfold each_gain. now repeat apply pow_lt. Qed.
Lemma big_on_pos passes : 0 <= big_on passes.
Proof. induction passes as [|c l IH]; cbn [big_on]; [lra|]. apply Rmult_le_pos; [|exact IH]. unfold each_big. do 3 apply pow_le. lra. Qed.
Lemma readout_moved_on M N passes (f g : column) : Forall (good_cells M) passes -> (M <= N)%nat -> (forall z, 0 <= f z <= g z) ->
  moved_on N (gain_on passes) (big_on passes) f g (readout sites phases steps passes f) (readout sites phases steps passes g).
Proof.
  intros HF HN. unfold readout. revert f g. induction passes as [|cells passes IH]; intros f g Hfg; cbn [fold_left gain_on big_on fst].
  - split; [exact Hfg|]. split; [lra|]. split; [intros z; lra|]. intros r Hr HA. split; [exact HA|lra].
  - inversion HF as [|? ? HC HF']; subst. destruct (pass_moved_on M N cells f g HC HN Hfg) as (f1 & g1 & E1 & E2 & (M1 & M2 & M3 & M4)). rewrite E1, E2.
    destruct (IH HF' f1 g1 M1) as (N1 & N2 & N3 & N4). split; [exact N1|]. split; [|split].
    + apply Rle_trans with (1 := N2). rewrite (Rmult_comm (each_big ^ _)), Rmult_assoc. apply Rmult_le_compat_l; [apply big_on_pos|exact M2].
    + intros z. apply Rle_trans with (2 := N3 z). rewrite (Rmult_comm (each_gain ^ _)), Rmult_assoc. apply Rmult_le_compat_l; [apply gain_on_01|apply M3].
    + intros r Hr HA. destruct (M4 r Hr HA) as [P1 P2]. destruct (N4 r Hr P1) as [Q1 Q2]. split; [exact Q1|lra].
Qed.

(** ** As a map of lists *)
Context (passes : list (list (Z * R * bool))) (M : nat).
Hypothesis Hgood : Forall (good_cells M) passes.
Notation F := (fun x : list R => map (fun i => readout sites phases steps passes (col_of (map (Rmax 0) x)) (Z.of_nat i)) (seq 0 (length x))).
Lemma sorted_cut p cells : StronglySorted (fun c c' => (row_of c < row_of c')%Z) cells -> ReadoutColumnFacts.ordered p cells.
Proof.
  unfold ReadoutColumnFacts.ordered. induction 1 as [|cell cells HS IH HF]; [reflexivity|]. cbn [filter]. destruct cell as [[row mult] save]. cbn [at_most]. destruct (Z.leb_spec row p) as [Hle|Hgt]; cbn [negb app].
  - now rewrite <- IH.
  - assert (E1 : filter (at_most p) cells = []).
    { clear IH HS. induction HF as [|c cells Hc HF IH]; [reflexivity|]. cbn [filter]. destruct c as [[r m] s]. cbn [at_most fst] in *. destruct (Z.leb_spec r p); [lia|exact IH]. }
    rewrite E1 in *. cbn [app] in *. now rewrite <- IH.
Qed.
Lemma plus_cols y x : Forall2 Rle y x -> forall z, 0 <= col_of (map (Rmax 0) y) z <= col_of (map (Rmax 0) x) z.
Proof.
  intros H z. unfold col_of. generalize (Z.to_nat z) as i. induction H as [|a b y x Hab H IH]; intros [|i]; cbn [map nth]; try lra; [|apply IH]. split; [apply Rmax_l|now apply Rle_max_compat_l].
Qed.
Lemma plus_sum y x : Forall2 Rle y x -> Rsum (map (Rmax 0) x) - Rsum (map (Rmax 0) y) <= Rsum x - Rsum y.
Proof.
  induction 1 as [|a b y x Hab H IH]; [cbn; lra|]. cbn [map]. rewrite !Rsum_cons.
  assert (Rmax 0 b - Rmax 0 a <= b - a) by (unfold Rmax; destruct (Rle_dec 0 a), (Rle_dec 0 b); lra). lra.
Qed.
Lemma weighted_steady : steady (gain_on passes) (big_on passes) F.
Proof.
  assert (LL : forall p a, last (F (p ++ [a])) 0 = readout sites phases steps passes (col_of (map (Rmax 0) (p ++ [a]))) (Z.of_nat (length p))).
  { intros p a. cbv beta. rewrite app_length, seq_app, map_app. cbn [length seq map Nat.add]. apply last_last. }
  assert (SC : forall p a, col_of (map (Rmax 0) (p ++ [a])) (Z.of_nat (length p)) = Rmax 0 a).
  { intros p a. rewrite map_app. cbn [map]. rewrite <- (map_length (Rmax 0) p). apply snoc_col. }
  split.
  - intros x. now rewrite map_length, seq_length.
  - intros i x. rewrite firstn_map_seq, firstn_length. apply map_ext_in. intros r Hr. apply in_seq in Hr.
    assert (C : Forall (fun cells => ReadoutColumnFacts.ordered (Z.of_nat r) cells /\ Forall (fun '(_, _, save) => save = false) cells) passes).
    { eapply Forall_impl; [|exact Hgood]. intros cells [HS HF]. split; [now apply sorted_cut|]. eapply Forall_impl; [|exact HF]. intros [[? ?] ?] (_ & _ & H3). exact H3. }
    assert (A : agree (Z.of_nat r) (col_of (map (Rmax 0) (firstn i x))) (col_of (map (Rmax 0) x))).
    { intros z Hz'. unfold col_of. rewrite <- (firstn_skipn i x) at 2. rewrite map_app, app_nth1; [reflexivity|]. rewrite map_length, firstn_length. lia. }
    pose proof (readout_cut sites phases steps (Z.of_nat r) Hfw _ C _ _ A (Z.of_nat r) ltac:(lia)) as R1.
    pose proof (readout_cut sites phases steps (Z.of_nat r) Hfw _ C (col_of (map (Rmax 0) x)) (col_of (map (Rmax 0) x)) (fun z _ => eq_refl) (Z.of_nat r) ltac:(lia)) as R2. congruence.
  - intros y x Hyx. rewrite (ordered_length _ _ Hyx). apply Forall2_map_in. intros i _. apply (readout_moved_on M M passes _ _ Hgood (le_n M) (plus_cols y x Hyx)).
  - intros y x Hyx. set (n := length x). pose proof (ordered_length _ _ Hyx) as HL. fold n in HL.
    destruct (readout_moved_on M (n + M) passes _ _ Hgood ltac:(lia) (plus_cols y x Hyx)) as (M1 & M2 & _). change (sum_on (seq 0 (n + M))) with (total (n + M)) in M2.
    rewrite !(total_cols (n + M)) in M2 by (rewrite map_length; subst n; lia). rewrite HL.
    set (f := readout _ _ _ _ (col_of (map (Rmax 0) y))) in *. set (g := readout _ _ _ _ (col_of (map (Rmax 0) x))) in *.
    change (total n g - total n f <= big_on passes * (Rsum x - Rsum y)). apply Rle_trans with (big_on passes * (Rsum (map (Rmax 0) x) - Rsum (map (Rmax 0) y))).
    + apply Rle_trans with (2 := M2). rewrite !total_minus. apply total_part; [|lia]. intros z. specialize (M1 z). lra.
    + apply Rmult_le_compat_l; [apply big_on_pos|now apply plus_sum].
  - intros p a b Hab. rewrite !LL. destruct (readout_moved_on M M passes _ _ Hgood (le_n M) (plus_cols _ _ (snoc_ordered p a b Hab))) as (_ & _ & _ & M4).
    destruct (M4 (Z.of_nat (length p)) ltac:(lia)) as [_ M5].
    + intros z Hz'. unfold col_of. rewrite !map_app, !app_nth1 by (rewrite map_length; lia). reflexivity.
    + rewrite !SC in M5. apply Rle_trans with (1 := M5). unfold Rmax. destruct (Rle_dec 0 a), (Rle_dec 0 b); lra.
  - intros p a b Hab H0. rewrite !LL. destruct (readout_moved_on M M passes _ _ Hgood (le_n M) (plus_cols _ _ (snoc_ordered p a b Hab))) as (_ & _ & M3 & _).
    specialize (M3 (Z.of_nat (length p))). rewrite !SC, !Rmax_right in M3 by lra. exact M3.
  - intros p b H0. rewrite LL. apply (readout_moved_on M M passes _ _ Hgood (le_n M) (plus_cols _ _ (ordered_refl (p ++ [b])))).
Qed.
End Weighted.
