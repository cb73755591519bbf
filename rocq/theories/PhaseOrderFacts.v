(** * Readouts with any number of phases keep the order of columns and do not enlarge their
    differences. *)
From Coq Require Import ZArith List Bool Reals Lra Lia FunctionalExtensionality.
From Coquelicot Require Import Rcomplements Rbar Hierarchy RInt.
From Verif Require Import Num Py RFacts CCDModel TrapsModel ManagerModel ROEModel Spec SpecReadout SpecColumn SpecRecovery WmFacts InstantFacts OrderFacts ReadoutSpecFacts TameFacts ReadoutColumnFacts.
Import ListNotations.
Open Scope R_scope.

(** ** One packet, with the transfer model of Spec.v *)
Section Packet.
Context (traps : list (trap R)) (dwell : R).
Let n := length traps.
Hypothesis Hphys : Forall physical traps.
Hypothesis Hdwell : 0 <= dwell.
Let rho := traps_per_pixel traps.
Context (well : R -> R) (slope : R).
Hypothesis Hg : gradual traps well 0 slope.
Hypothesis Hw : forall a, 0 <= a -> 0 <= well a <= 1.
Hypothesis Hz : forall a, a <= 0 -> well a = 0.
Notation rel P := (after_release traps dwell P).
Lemma demand_0 P : tidy n P -> demand traps 0 P = 0.
Proof. intros HP. pose proof (demand_bounds traps Hphys 0 P ltac:(lra) HP) as H. lra. Qed.
Lemma net_leaves m P : tidy n P -> Rmax 0 (m + transfer_net traps well dwell m P) = leaves traps dwell well 0 m P.
Proof.
  intros HP. pose proof (leaves_enough traps dwell Hphys Hdwell well 0 slope Hg Hw m P HP) as He. unfold transfer_net, captured. cbv zeta. unfold leaves, cloud_from in *.
  destruct (Rle_dec 0 (m + released traps dwell P)) as [H|H].
  - rewrite (Rmax_right 0 (m + released traps dwell P)) in * by exact H. rewrite Rmin_right by exact He. rewrite Rmax_right; lra.
  - apply Rnot_le_lt in H. rewrite (Rmax_left 0 (m + released traps dwell P)) by lra. rewrite (Hz (m + released traps dwell P)), (Hz 0), !demand_0 by (try apply tidy_release; auto; lra).
    rewrite Rmin_left by lra. rewrite Rmax_left; lra.
Qed.
Lemma leaves_nonneg m P : tidy n P -> 0 <= leaves traps dwell well 0 m P.
Proof. intros HP. pose proof (leaves_enough traps dwell Hphys Hdwell well 0 slope Hg Hw m P HP) as He. unfold leaves. lra. Qed.
Lemma net_alone P : tidy n P -> transfer_net traps well dwell 0 P = leaves traps dwell well 0 0 P.
Proof.
  intros HP. pose proof (leaves_enough traps dwell Hphys Hdwell well 0 slope Hg Hw 0 P HP) as He. pose proof (released_nonneg traps dwell Hphys Hdwell P HP) as Hr. unfold transfer_net, captured. cbv zeta. unfold leaves, cloud_from in *.
  rewrite (Rmax_right 0 (0 + released traps dwell P)) in * by lra. rewrite Rmin_right by exact He. lra.
Qed.
Lemma after_behind m P : tidy n P -> same_profile n (transfer_after traps well dwell m P) (behind traps dwell well 0 m P).
Proof.
  intros HP s x Hs Hx. pose proof (leaves_enough traps dwell Hphys Hdwell well 0 slope Hg Hw m P HP) as He. unfold transfer_after, after_capture, behind, fill_to. cbv zeta. unfold leaves, cloud_from in *.
  destruct (Rle_dec 0 (m + released traps dwell P)) as [H|H].
  - rewrite (Rmax_right 0 (m + released traps dwell P)) in * by exact H. destruct (Rlt_dec x _); [|reflexivity]. destruct (Rle_dec _ _); [reflexivity|contradiction].
  - apply Rnot_le_lt in H. rewrite (Rmax_left 0 (m + released traps dwell P)) by lra. rewrite (Hz (m + released traps dwell P)), (Hz 0) by lra. destruct (Rlt_dec x 0); [lra|reflexivity].
Qed.
End Packet.
Lemma tidy_alike k P Q : same_profile k P Q -> tidy k P -> tidy k Q.
Proof.
  intros H HP s Hs. destruct (HP s Hs) as [H1 H2]. split; [intros x Hx; rewrite <- (H s x Hs Hx); auto|]. intros a b Ha Hb.
  apply (ex_RInt_ext (P s)); [|apply H2; lra]. intros x Hx. rewrite Rmin_left, Rmax_right in Hx by lra. apply H; [exact Hs|lra].
Qed.

Section PhaseOrder.
Context (sites : nat -> site) (phases : list nat) (steps : list (R * list (roe_phase R)))
  (group : nat -> list (trap R)) (slope : nat -> R) (gam : R) (N : nat).
Notation well k := (site_well (sites k)).
Hypothesis Hnodup : NoDup phases.
Hypothesis Hsite : forall k, In k phases -> site_groups (sites k) = [group k].
Hypothesis Hphys : forall k, In k phases -> Forall physical (group k).
Hypothesis Hg : forall k, In k phases -> gradual (group k) (well k) 0 (slope k).
Hypothesis Hw : forall k a, In k phases -> 0 <= a -> 0 <= well k a <= 1.
Hypothesis Hz : forall k a, In k phases -> a <= 0 -> well k a = 0.
Hypothesis Hgam : 0 <= gam <= 1.
Hypothesis Hgain : forall k, In k phases -> gam <= 1 - traps_per_pixel (group k) * slope k.
Hypothesis Hsteps : forall d es, In (d, es) steps -> 0 < d.
(** What the electrodes do: a high one takes from and gives to its own pixel only. *)
Hypothesis Hel : forall d es k, In (d, es) steps -> In k phases -> let e := electrode es k in
  Forall (fun '(d, f) => (0 <= d)%Z /\ 0 <= f) (combine (rp_release e) (rp_fraction e)) /\
  Rsum (map snd (combine (rp_release e) (rp_fraction e))) = 1 /\
  (rp_high e = true -> rp_capture e = 0%Z /\ combine (rp_release e) (rp_fraction e) = [(0%Z, 1)]).

Notation size k := (length (group k)).
Definition lower (T U : traps_state) : Prop := forall k, In k phases ->
  exists Q P, T k = [Q] /\ U k = [P] /\ tidy (size k) Q /\ tidy (size k) P /\ below_profile (size k) Q P.
Definition Rel (a b : column * traps_state) : Prop := (forall z, fst a z <= fst b z) /\ lower (snd a) (snd b).
Definition gap (a b : column * traps_state) : R :=
  (total N (fst b) - total N (fst a)) + (trapped_electrons sites phases (snd b) - trapped_electrons sites phases (snd a)).
Definition stepped (g : R) (a b a' b' : column * traps_state) : Prop :=
  Rel a' b' /\ gap a' b' <= gap a b /\
  forall z, 0 <= fst a z -> 0 <= fst a' z /\ g * (fst b z - fst a z) <= fst b' z - fst a' z.
Lemma stepped_trans g1 g2 a b a1 b1 a2 b2 : 0 <= g2 -> stepped g1 a b a1 b1 -> stepped g2 a1 b1 a2 b2 -> stepped (g1 * g2) a b a2 b2.
Proof.
  intros H0 (_ & G1 & S1) (R2 & G2 & S2). split; [exact R2|]. split; [lra|]. intros z Hz0. destruct (S1 z Hz0) as [A1 A2]. destruct (S2 z A1) as [B1 B2]. split; [exact B1|].
  apply Rle_trans with (2 := B2). rewrite (Rmult_comm g1), Rmult_assoc. now apply Rmult_le_compat_l.
Qed.
Lemma stepped_refl a b : Rel a b -> stepped 1 a b a b.
Proof. intros H. split; [exact H|]. split; [lra|]. intros z H0. split; [exact H0|lra]. Qed.
Lemma stepped_fold {A} (F : column * traps_state -> A -> column * traps_state) g : 0 <= g -> forall l, (forall x a b, In x l -> Rel a b -> stepped g a b (F a x) (F b x)) ->
  forall a b, Rel a b -> stepped (g ^ length l) a b (fold_left F l a) (fold_left F l b).
Proof.
  intros H0. induction l as [|x l IH]; intros H a b HR; cbn [fold_left length pow]; [now apply stepped_refl|].
  pose proof (H x a b (or_introl eq_refl) HR) as S1. apply stepped_trans with (1 := pow_le g (length l) H0) (2 := S1).
  apply IH; [intros; apply H; [now right|assumption]|apply S1].
Qed.

(** ** Deposits *)
Lemma total_give_diff f g z q q' : (forall i, f i <= g i) -> q <= q' ->
  total N (give g z q') - total N (give f z q) <= total N g - total N f + (q' - q).
Proof.
  intros Hfg Hq. unfold total. generalize (seq_NoDup N 0). generalize (seq 0 N) as l.
  assert (B : forall l : list nat, ~ In (Z.to_nat z) l \/ (z < 0)%Z -> forall (h : column) p, Rsum (map (fun i => give h z p (Z.of_nat i)) l) = Rsum (map (fun i => h (Z.of_nat i)) l)).
  { intros l Hl h p. f_equal. apply map_ext_in. intros i Hi. unfold give. destruct (Z.eqb_spec (Z.of_nat i) z) as [E|]; [|reflexivity]. exfalso. destruct Hl as [Hl|Hl]; [|lia]. apply Hl. rewrite <- E, Nat2Z.id. exact Hi. }
  induction l as [|i l IH]; intros Hnd; [cbn; lra|]. inversion Hnd as [|? ? Hi Hnd']; subst. cbn [map Rsum fold_right]. fold (Rsum (map (fun i => give g z q' (Z.of_nat i)) l)). fold (Rsum (map (fun i => give f z q (Z.of_nat i)) l)).
  fold (Rsum (map (fun i => g (Z.of_nat i)) l)). fold (Rsum (map (fun i => f (Z.of_nat i)) l)).
  unfold give at 1 3. destruct (Z.eqb_spec (Z.of_nat i) z) as [E|NE].
  - rewrite !B by (left; rewrite <- E, Nat2Z.id; exact Hi). specialize (Hfg (Z.of_nat i)). unfold Rmax. destruct (Rle_dec 0 _), (Rle_dec 0 _); lra.
  - specialize (IH Hnd'). lra.
Qed.
Lemma deposit_diff targets row q q' : 0 <= q <= q' -> Forall (fun '(_, w) => 0 <= w) targets -> forall f g, (forall i, f i <= g i) ->
  (forall i, deposit targets row q f i <= deposit targets row q' g i) /\
  total N (deposit targets row q' g) - total N (deposit targets row q f) <= total N g - total N f + (q' - q) * Rsum (map snd targets) /\
  forall i, 0 <= f i -> 0 <= deposit targets row q f i /\ g i - f i <= deposit targets row q' g i - deposit targets row q f i.
Proof.
  intros Hq. induction targets as [|[d w] targets IH]; intros HF f g Hfg; cbn [deposit fold_left map Rsum fold_right snd].
  - split; [exact Hfg|]. split; [lra|]. intros i Hi. split; [exact Hi|lra].
  - inversion HF as [|? ? Hw0 HF']; subst. fold (deposit targets row q (give f (row + d) (q * w))). fold (deposit targets row q' (give g (row + d) (q' * w))).
    assert (Hqw : q * w <= q' * w) by (apply Rmult_le_compat_r; lra). assert (H0 : 0 <= q * w) by (apply Rmult_le_pos; lra).
    assert (Hg' : forall i, give f (row + d) (q * w) i <= give g (row + d) (q' * w) i).
    { intros i. unfold give. destruct (_ =? _)%Z; [|apply Hfg]. apply Rle_max_compat_l. specialize (Hfg i). lra. }
    destruct (IH HF' _ _ Hg') as (A & B & C). split; [exact A|]. split.
    + pose proof (total_give_diff f g (row + d) (q * w) (q' * w) Hfg Hqw) as D. unfold Rsum in *. lra.
    + intros i Hi. assert (Hi' : 0 <= give f (row + d) (q * w) i /\ g i - f i <= give g (row + d) (q' * w) i - give f (row + d) (q * w) i).
      { unfold give. specialize (Hfg i). destruct (_ =? _)%Z; [|split; lra]. rewrite !Rmax_right by lra. split; lra. }
      destruct (C i (proj1 Hi')) as [C1 C2]. split; [exact C1|lra].
Qed.

(** ** One exposure *)
Lemma below_alike k Q P Q' P' : same_profile k Q Q' -> same_profile k P P' -> below_profile k Q P -> below_profile k Q' P'.
Proof. intros H1 H2 H s x Hs Hx. rewrite <- (H1 s x Hs Hx), <- (H2 s x Hs Hx). now apply H. Qed.
Lemma same_sym k P Q : same_profile k P Q -> same_profile k Q P.
Proof. intros H s x Hs Hx. symmetry. now apply H. Qed.
Lemma trapped_one T k Q : In k phases -> T k = [Q] -> site_electrons (sites k) (T k) = electrons (group k) Q 0 1.
Proof. intros Hk E. unfold site_electrons. rewrite (Hsite k Hk), E. cbn. lra. Qed.
Lemma put_trapped T k Ps : In k phases -> trapped_electrons sites phases (put T k Ps) = trapped_electrons sites phases T + (site_electrons (sites k) Ps - site_electrons (sites k) (T k)).
Proof.
  intros Hk. unfold trapped_electrons. rewrite (in_phases_sum (fun k' => site_electrons (sites k') (put T k Ps k')) (fun k' => site_electrons (sites k') (T k')) k phases Hnodup Hk).
  - unfold put. rewrite Nat.eqb_refl. reflexivity.
  - intros k' Hk'. unfold put. apply Nat.eqb_neq in Hk'. now rewrite Hk'.
Qed.
Lemma expose_stepped row dwell es k a b : (0 <= row < Z.of_nat N)%Z -> In (dwell, es) steps -> In k phases -> Rel a b ->
  stepped gam a b (expose sites row 1 dwell es a k) (expose sites row 1 dwell es b k).
Proof.
  intros Hrow Hin Hk [Hfg HL]. destruct a as [f T], b as [g U]. cbn [fst snd] in *. pose proof (HL k Hk) as (Q & P & ET & EU & HQ & HP & HB).
  pose proof (Hsteps dwell es Hin) as Hd. destruct (Hel dwell es k Hin Hk) as (E1 & E2 & E3). unfold expose. set (e := electrode es k) in *. cbv zeta.
  assert (Hk1 : traps_per_pixel (group k) * slope k <= 1) by (specialize (Hgain k Hk); lra).
  assert (LO : forall m' m, m' <= m -> _) by (intros m' m Hm; exact (leaves_order (group k) dwell (Hphys k Hk) ltac:(lra) (well k) 0 (slope k) (Hg k Hk) (fun a => Hw k a Hk) m m' P Q Hm HP HQ HB)).
  assert (NL : forall m X, tidy (size k) X -> _) by (intros m X HX; exact (net_leaves (group k) dwell (Hphys k Hk) ltac:(lra) (well k) (slope k) (Hg k Hk) (fun a => Hw k a Hk) (fun a => Hz k a Hk) m X HX)).
  assert (AB : forall m X, tidy (size k) X -> _) by (intros m X HX; exact (after_behind (group k) dwell (Hphys k Hk) ltac:(lra) (well k) (slope k) (Hg k Hk) (fun a => Hw k a Hk) (fun a => Hz k a Hk) m X HX)).
  assert (TB : forall m X, tidy (size k) X -> tidy (size k) (behind (group k) dwell (well k) 0 m X)) by (intros m X HX; apply (behind_tidy (group k) dwell (Hphys k Hk) ltac:(lra) (well k) 0 (fun a => Hw k a Hk)); exact HX).
  assert (SN : forall m X, site_net (sites k) dwell m [X] = transfer_net (group k) (well k) dwell m X) by (intros m X; unfold site_net; rewrite (Hsite k Hk); cbn; lra).
  assert (SA : forall m X, site_after (sites k) dwell m [X] = [transfer_after (group k) (well k) dwell m X]) by (intros m X; unfold site_after; rewrite (Hsite k Hk); reflexivity).
  rewrite ET, EU, !SN, !SA, !Rmult_1_r.
  set (m' := if rp_high e then f (row + rp_capture e)%Z else 0). set (m := if rp_high e then g (row + rp_capture e)%Z else 0).
  assert (Hm : m' <= m) by (unfold m', m; destruct (rp_high e); [apply Hfg|lra]).
  destruct (LO m' m Hm) as (O1 & O2 & O3).
  assert (HL' : lower (put T k [transfer_after (group k) (well k) dwell m' Q]) (put U k [transfer_after (group k) (well k) dwell m P])).
  { intros k' Hk'. unfold put. destruct (Nat.eqb_spec k' k) as [->|]; [|exact (HL k' Hk')]. do 2 eexists. split; [reflexivity|]. split; [reflexivity|].
    split; [exact (tidy_alike _ _ _ (same_sym _ _ _ (AB m' Q HQ)) (TB m' Q HQ))|]. split; [exact (tidy_alike _ _ _ (same_sym _ _ _ (AB m P HP)) (TB m P HP))|].
    exact (below_alike _ _ _ _ _ (same_sym _ _ _ (AB m' Q HQ)) (same_sym _ _ _ (AB m P HP)) O2). }
  assert (HT : trapped_electrons sites phases (put U k [transfer_after (group k) (well k) dwell m P]) - trapped_electrons sites phases (put T k [transfer_after (group k) (well k) dwell m' Q])
    = trapped_electrons sites phases U - trapped_electrons sites phases T + (electrons (group k) (behind (group k) dwell (well k) 0 m P) 0 1 - electrons (group k) (behind (group k) dwell (well k) 0 m' Q) 0 1)
      - (electrons (group k) P 0 1 - electrons (group k) Q 0 1)).
  { rewrite !put_trapped by exact Hk. rewrite (trapped_one U k P Hk EU), (trapped_one T k Q Hk ET). unfold site_electrons. rewrite (Hsite k Hk). cbn [combine map Rsum fold_right].
    rewrite (electrons_eq (group k) (transfer_after (group k) (well k) dwell m P) (behind (group k) dwell (well k) 0 m P) 0 1) by first [lra | intros s x Hs Hx; apply (AB m P HP); [exact Hs|lra]].
    rewrite (electrons_eq (group k) (transfer_after (group k) (well k) dwell m' Q) (behind (group k) dwell (well k) 0 m' Q) 0 1) by first [lra | intros s x Hs Hx; apply (AB m' Q HQ); [exact Hs|lra]]. lra. }
  destruct (rp_high e) eqn:HH.
  - destruct (E3 eq_refl) as [EC ED]. rewrite ED. cbn [deposit fold_left]. rewrite !Rmult_1_r, !Z.add_0_r. unfold m, m' in *. rewrite EC, Z.add_0_r in *.
    assert (GV : forall (h : column) X, tidy (size k) X -> forall i, give h row (transfer_net (group k) (well k) dwell (h row) X) i = if (i =? row)%Z then leaves (group k) dwell (well k) 0 (h row) X else h i).
    { intros h X HX i. unfold give. destruct (Z.eqb_spec i row) as [->|]; [apply (NL (h row) X HX)|reflexivity]. }
    assert (CD : forall z0, 0 <= f row -> z0 = row -> g row - f row <= cloud_from (group k) dwell 0 (g row) P - cloud_from (group k) dwell 0 (f row) Q).
    { intros _ H0 _. pose proof (released_order (group k) dwell (Hphys k Hk) ltac:(lra) P Q HP HQ HB) as RO. pose proof (released_nonneg (group k) dwell (Hphys k Hk) ltac:(lra) Q HQ) as R0. pose proof (Hfg row) as Hr. unfold cloud_from. rewrite !Rmax_right by lra. lra. }
    assert (CO : 0 <= cloud_from (group k) dwell 0 (g row) P - cloud_from (group k) dwell 0 (f row) Q).
    { pose proof (cloud_order (group k) dwell (Hphys k Hk) ltac:(lra) 0 (g row) (f row) P Q (Hfg row) HP HQ HB). lra. }
    assert (G1 : gam * (cloud_from (group k) dwell 0 (g row) P - cloud_from (group k) dwell 0 (f row) Q) <= leaves (group k) dwell (well k) 0 (g row) P - leaves (group k) dwell (well k) 0 (f row) Q).
    { apply Rle_trans with (2 := O1). apply Rmult_le_compat_r; [exact CO|]. apply (Hgain k Hk). }
    assert (G0 : 0 <= leaves (group k) dwell (well k) 0 (g row) P - leaves (group k) dwell (well k) 0 (f row) Q).
    { apply Rle_trans with (2 := G1). apply Rmult_le_pos; [apply Hgam|exact CO]. }
    split; [split; [|exact HL']|split].
    + intros z. cbn [fst]. rewrite !GV by assumption. destruct (z =? row)%Z; [lra|apply Hfg].
    + unfold gap. cbn [fst snd]. rewrite HT.
      assert (TG : forall (h : column) X, tidy (size k) X -> total N (give h row (transfer_net (group k) (well k) dwell (h row) X)) = total N h + (leaves (group k) dwell (well k) 0 (h row) X - h row)).
      { intros h X HX. rewrite (total_ext N _ (fun i => if (i =? row)%Z then leaves (group k) dwell (well k) 0 (h row) X else h i)) by (intros i _; now apply GV).
        assert (Y : forall l, NoDup l -> Rsum (map (fun i : nat => if (Z.of_nat i =? row)%Z then leaves (group k) dwell (well k) 0 (h row) X else h (Z.of_nat i)) l)
          = Rsum (map (fun i : nat => h (Z.of_nat i)) l) + (if in_dec Nat.eq_dec (Z.to_nat row) l then leaves (group k) dwell (well k) 0 (h row) X - h row else 0)).
        { induction l as [|i l IH]; intros Hnd; [cbn; lra|]. inversion Hnd as [|? ? Hi Hnd']; subst. cbn [map]. rewrite !Rsum_cons, (IH Hnd'). destruct (Z.eqb_spec (Z.of_nat i) row) as [E|NE].
          - destruct (in_dec Nat.eq_dec (Z.to_nat row) l) as [I|_]; [exfalso; apply Hi; rewrite <- E, Nat2Z.id in I; exact I|]. destruct (in_dec _ _ (i :: l)) as [_|NI]; [rewrite E; lra|exfalso; apply NI; left; lia].
          - destruct (in_dec Nat.eq_dec (Z.to_nat row) l) as [I|NI]; destruct (in_dec _ _ (i :: l)) as [I2|NI2]; try lra; [exfalso; apply NI2; now right|exfalso; destruct I2 as [I2|I2]; [lia|contradiction]]. }
        unfold total. rewrite (Y _ (seq_NoDup N 0)). destruct (in_dec _ _ _) as [_|NI]; [reflexivity|]. exfalso. apply NI, in_seq. lia. }
      rewrite !TG by assumption. lra.
    + intros z H0. cbn [fst] in *. rewrite !GV by assumption. destruct (Z.eqb_spec z row) as [->|].
      * split; [apply (leaves_nonneg (group k) dwell (Hphys k Hk) ltac:(lra) (well k) (slope k) (Hg k Hk) (fun a => Hw k a Hk)); exact HQ|].
        apply Rle_trans with (2 := G1). apply Rmult_le_compat_l; [apply Hgam|]. apply (CD row H0 eq_refl).
      * split; [exact H0|]. specialize (Hfg z). rewrite <- (Rmult_1_l (g z - f z)) at 2. apply Rmult_le_compat_r; lra.
  - subst m m'.
    assert (NA : forall X, tidy (size k) X -> transfer_net (group k) (well k) dwell 0 X = leaves (group k) dwell (well k) 0 0 X).
    { intros X HX. exact (net_alone (group k) dwell (Hphys k Hk) ltac:(lra) (well k) (slope k) (Hg k Hk) (fun a => Hw k a Hk) X HX). }
    rewrite !NA by assumption.
    assert (Q0 : 0 <= leaves (group k) dwell (well k) 0 0 Q <= leaves (group k) dwell (well k) 0 0 P).
    { split; [apply (leaves_nonneg (group k) dwell (Hphys k Hk) ltac:(lra) (well k) (slope k) (Hg k Hk) (fun a => Hw k a Hk)); exact HQ|].
      pose proof (cloud_order (group k) dwell (Hphys k Hk) ltac:(lra) 0 0 0 P Q ltac:(lra) HP HQ HB) as CO.
      assert (0 <= (1 - traps_per_pixel (group k) * slope k) * (cloud_from (group k) dwell 0 0 P - cloud_from (group k) dwell 0 0 Q)) by (apply Rmult_le_pos; lra). lra. }
    assert (FW : Forall (fun '(_, w) => 0 <= w) (combine (rp_release e) (rp_fraction e))) by (eapply Forall_impl; [|exact E1]; intros [? ?]; tauto).
    destruct (deposit_diff (combine (rp_release e) (rp_fraction e)) row _ _ Q0 FW f g Hfg) as (D1 & D2 & D3).
    split; [split; [exact D1|exact HL']|split].
    + unfold gap. cbn [fst snd]. rewrite HT. rewrite E2 in D2. lra.
    + intros z H0. cbn [fst] in *. destruct (D3 z H0) as [D4 D5]. split; [exact D4|]. specialize (Hfg z). apply Rle_trans with (2 := D5).
      rewrite <- (Rmult_1_l (g z - f z)) at 2. apply Rmult_le_compat_r; lra.
Qed.

(** ** Pixels, passes and readouts *)
Definition each : R := (gam ^ length phases) ^ length steps.
Lemma pow_01 g k : 0 <= g <= 1 -> 0 <= g ^ k <= 1.
Proof. intros H. induction k as [|k IH]; cbn [pow]; [lra|]. split; [apply Rmult_le_pos; lra|]. rewrite <- (Rmult_1_l 1). apply Rmult_le_compat; lra. Qed.
Lemma transfer_stepped row a b : (0 <= row < Z.of_nat N)%Z -> Rel a b ->
  stepped each a b (transfer_pixel sites phases steps row 1 a) (transfer_pixel sites phases steps row 1 b).
Proof.
  intros Hrow HR. unfold transfer_pixel, each. apply (stepped_fold (fun st '(dwell, es) => fold_left (expose sites row 1 dwell es) phases st)); [apply pow_01, Hgam| |exact HR].
  intros [dwell es] a' b' Hin HR'. apply (stepped_fold (expose sites row 1 dwell es)); [apply Hgam| |exact HR'].
  intros k a2 b2 Hk HR2. apply expose_stepped; assumption.
Qed.
Definition plain_cells (cells : list (Z * R * bool)) : Prop :=
  Forall (fun '(row, mult, save) => (0 <= row < Z.of_nat N)%Z /\ mult = 1 /\ save = false) cells.
Lemma pass_plain cells : plain_cells cells -> forall c T saved,
  fold_left (pass_cell sites phases steps) cells (c, T, saved) =
  (fst (fold_left (fun st cell => transfer_pixel sites phases steps (fst (fst cell)) 1 st) cells (c, T)),
   snd (fold_left (fun st cell => transfer_pixel sites phases steps (fst (fst cell)) 1 st) cells (c, T)), saved).
Proof.
  induction cells as [|[[row mult] save] cells IH]; intros HF c T saved; cbn [fold_left fst snd]; [reflexivity|].
  inversion HF as [|? ? HC HF']; subst. destruct HC as (H1 & -> & ->). unfold pass_cell at 2. destruct (transfer_pixel sites phases steps row 1 (c, T)) as [c' T']. apply (IH HF').
Qed.
Lemma Rel_start (f g : column) : (forall z, f z <= g z) -> Rel (f, all_empty sites) (g, all_empty sites).
Proof.
  intros H. split; [exact H|]. intros k Hk. cbn [snd]. unfold all_empty. rewrite (Hsite k Hk). exists empty_profile, empty_profile. cbn [map]. repeat (split; [reflexivity|]).
  split; [apply tidy_empty|]. split; [apply tidy_empty|]. intros s x _ _. lra.
Qed.
Lemma lower_trapped T U : lower T U -> trapped_electrons sites phases T <= trapped_electrons sites phases U.
Proof.
  intros HL. unfold trapped_electrons.
  assert (G : forall l, (forall k, In k l -> In k phases) -> Rsum (map (fun k => site_electrons (sites k) (T k)) l) <= Rsum (map (fun k => site_electrons (sites k) (U k)) l)).
  { induction l as [|k l IH]; intros Hin; [cbn; lra|]. cbn [map]. rewrite !Rsum_cons. apply Rplus_le_compat; [|apply IH; intros; apply Hin; now right].
    assert (Hk : In k phases) by (apply Hin; now left). destruct (HL k Hk) as (Q & P & ET & EU & HQ & HP & HB). rewrite (trapped_one T k Q Hk ET), (trapped_one U k P Hk EU).
    pose proof (TameFacts.total_nonneg (group k) (Hphys k Hk) P Q HP HQ HB). lra. }
  apply G. auto.
Qed.
Definition moved (g : R) (a b a' b' : column) : Prop :=
  (forall z, a' z <= b' z) /\ total N b' - total N a' <= total N b - total N a /\
  forall z, 0 <= a z -> 0 <= a' z /\ g * (b z - a z) <= b' z - a' z.
Lemma leave_out p q r s t u v : p - q + (r - s) <= t - u + (v - v) -> s <= r -> p - q <= t - u.
Proof. lra. Qed.
Lemma pass_moved cells (f g : column) : plain_cells cells -> (forall z, f z <= g z) ->
  exists f' g', transfer_pass sites phases steps (f, all_empty sites) cells = (f', all_empty sites) /\
    transfer_pass sites phases steps (g, all_empty sites) cells = (g', all_empty sites) /\ moved (each ^ length cells) f g f' g'.
Proof.
  intros HF Hfg. unfold transfer_pass. rewrite !pass_plain by exact HF. eexists _, _. split; [reflexivity|]. split; [reflexivity|].
  assert (ST : stepped (each ^ length cells) (f, all_empty sites) (g, all_empty sites)
    (fold_left (fun st cell => transfer_pixel sites phases steps (fst (fst cell)) 1 st) cells (f, all_empty sites))
    (fold_left (fun st cell => transfer_pixel sites phases steps (fst (fst cell)) 1 st) cells (g, all_empty sites))).
  { apply (stepped_fold (fun st cell => transfer_pixel sites phases steps (fst (fst cell)) 1 st)).
    - unfold each. apply pow_01, pow_01, Hgam.
    - intros cell a b Hin HR. apply transfer_stepped; [|exact HR]. unfold plain_cells in HF. rewrite Forall_forall in HF. destruct cell as [[row mult] save]. apply (HF _ Hin).
    - now apply Rel_start. }
  destruct ST as ([S1 S2] & S3 & S4). split; [exact S1|]. split; [|exact S4]. unfold gap in S3. cbn [fst snd] in S3. exact (leave_out _ _ _ _ _ _ _ S3 (lower_trapped _ _ S2)).
Qed.
Fixpoint gain_of (passes : list (list (Z * R * bool))) : R :=
  match passes with [] => 1 | cells :: l => each ^ length cells * gain_of l end.
Lemma gain_of_01 passes : 0 <= gain_of passes <= 1.
Proof.
  induction passes as [|c l IH]; cbn [gain_of]; [lra|]. pose proof (pow_01 each (length c) (pow_01 _ _ (pow_01 _ _ Hgam))). split; [apply Rmult_le_pos; lra|].
  rewrite <- (Rmult_1_l 1). apply Rmult_le_compat; lra.
Qed.
Lemma gain_of_pos passes : 0 < gam -> 0 < gain_of passes.
Proof. intros H. induction passes as [|c l IH]; cbn [gain_of]; [lra|]. apply Rmult_lt_0_compat; [|exact IH]. unfold each. now repeat apply pow_lt. Qed.
Lemma readout_moved passes (f g : column) : Forall plain_cells passes -> (forall z, f z <= g z) ->
  moved (gain_of passes) f g (readout sites phases steps passes f) (readout sites phases steps passes g).
Proof.
  intros HF. unfold readout. revert f g. induction passes as [|cells passes IH]; intros f g Hfg; cbn [fold_left gain_of fst].
  - split; [exact Hfg|]. split; [lra|]. intros z H0. split; [exact H0|lra].
  - inversion HF as [|? ? HC HF']; subst. destruct (pass_moved cells f g HC Hfg) as (f1 & g1 & E1 & E2 & (M1 & M2 & M3)). rewrite E1, E2.
    destruct (IH HF' f1 g1 M1) as (N1 & N2 & N3). split; [exact N1|]. split; [lra|]. intros z H0. destruct (M3 z H0) as [A1 A2]. destruct (N3 z A1) as [B1 B2]. split; [exact B1|].
    apply Rle_trans with (2 := B2). rewrite (Rmult_comm (each ^ _)), Rmult_assoc. apply Rmult_le_compat_l; [apply gain_of_01|exact A2].
Qed.
End PhaseOrder.

(** ** As a map of lists *)
Definition col_of (x : list R) : column := fun z => nth (Z.to_nat z) x 0.
Definition list_reads (sites : nat -> site) (phases : list nat) (steps : list (R * list (roe_phase R))) (rows offset : nat) (x : list R) : list R :=
  map (fun i => readout sites phases steps (full_passes rows offset) (col_of x) (Z.of_nat i)) (seq 0 (length x)).
Lemma ordered_cols y x : Forall2 Rle y x -> forall z, col_of y z <= col_of x z.
Proof.
  intros H z. unfold col_of. generalize (Z.to_nat z) as i. induction H as [|a b y x Hab H IH]; intros [|i]; cbn; try lra. apply IH.
Qed.
Lemma total_cols n (x : list R) : (length x <= n)%nat -> total n (col_of x) = Rsum x.
Proof.
  intros H. unfold total. rewrite (map_ext _ (fun i => nth i x 0)) by (intros i; unfold col_of; now rewrite Nat2Z.id).
  replace n with (length x + (n - length x))%nat by lia. rewrite seq_app, map_app, sum_app. cbn [Nat.add].
  assert (E : Rsum (map (fun i => nth i x 0) (seq (length x) (n - length x))) = 0).
  { assert (G : forall l, (forall i, In i l -> (length x <= i)%nat) -> Rsum (map (fun i => nth i x 0) l) = 0).
    { induction l as [|i l IH]; intros Hl; [reflexivity|]. cbn [map]. rewrite Rsum_cons, IH by (intros; apply Hl; now right). rewrite nth_overflow by (apply Hl; now left). lra. }
    apply G. intros i Hi. apply in_seq in Hi. lia. }
  rewrite E, Rplus_0_r. f_equal. clear. induction x as [|a x IH]; [reflexivity|]. cbn [length seq map nth]. f_equal. rewrite <- seq_shift, map_map. exact IH.
Qed.
Lemma total_part n m c : (forall z, 0 <= c z) -> (n <= m)%nat -> total n c <= total m c.
Proof.
  intros H Hnm. unfold total. replace m with (n + (m - n))%nat by lia. rewrite seq_app, map_app, sum_app.
  assert (G : forall l, 0 <= Rsum (map (fun i : nat => c (Z.of_nat i)) l)) by (induction l as [|i l IH]; [cbn; lra|]; cbn [map]; rewrite Rsum_cons; specialize (H (Z.of_nat i)); lra).
  specialize (G (seq (0 + n) (m - n))). lra.
Qed.
Lemma total_minus n (f g : column) : total n g - total n f = total n (fun z => g z - f z).
Proof. unfold total. induction (seq 0 n) as [|i l IH]; [cbn; lra|]. cbn [map]. rewrite !Rsum_cons. lra. Qed.
Lemma Forall2_map_in {A} (P : R -> R -> Prop) (f g : A -> R) l : (forall i, In i l -> P (f i) (g i)) -> Forall2 P (map f l) (map g l).
Proof. induction l as [|i l IH]; intros H; constructor; [apply H; now left|]. apply IH. intros; apply H; now right. Qed.
Lemma firstn_of_seq : forall n s i, firstn i (seq s n) = seq s (Nat.min i n).
Proof. induction n as [|n IH]; intros s [|i]; cbn; try reflexivity. f_equal. apply IH. Qed.
Lemma firstn_map_seq (h : nat -> R) n i : firstn i (map h (seq 0 n)) = map h (seq 0 (Nat.min i n)).
Proof. now rewrite firstn_map, firstn_of_seq. Qed.
Lemma full_plain rows offset N : (rows <= N)%nat -> Forall (plain_cells N) (full_passes rows offset).
Proof.
  intros H. unfold full_passes. apply Forall_forall. intros cells Hc. apply in_map_iff in Hc. destruct Hc as (e & <- & He). apply in_seq in He.
  apply Forall_forall. intros cell Hw. apply in_map_iff in Hw. destruct Hw as (w & <- & Hw). apply in_seq in Hw. split; [lia|]. split; reflexivity.
Qed.
Section ListMap.
Context (sites : nat -> site) (phases : list nat) (steps : list (R * list (roe_phase R)))
  (group : nat -> list (trap R)) (slope : nat -> R) (gam : R) (rows offset : nat).
Notation well k := (site_well (sites k)).
Hypothesis Hnodup : NoDup phases.
Hypothesis Hsite : forall k, In k phases -> site_groups (sites k) = [group k].
Hypothesis Hphys : forall k, In k phases -> Forall physical (group k).
Hypothesis Hg : forall k, In k phases -> gradual (group k) (well k) 0 (slope k).
Hypothesis Hw : forall k a, In k phases -> 0 <= a -> 0 <= well k a <= 1.
Hypothesis Hz : forall k a, In k phases -> a <= 0 -> well k a = 0.
Hypothesis Hgam : 0 <= gam <= 1.
Hypothesis Hgain : forall k, In k phases -> gam <= 1 - traps_per_pixel (group k) * slope k.
Hypothesis Hsteps : forall d es, In (d, es) steps -> 0 < d.
Hypothesis Hel : forall d es k, In (d, es) steps -> In k phases -> let e := electrode es k in
  Forall (fun '(d, f) => (0 <= d)%Z /\ 0 <= f) (combine (rp_release e) (rp_fraction e)) /\
  Rsum (map snd (combine (rp_release e) (rp_fraction e))) = 1 /\
  (rp_high e = true -> rp_capture e = 0%Z /\ combine (rp_release e) (rp_fraction e) = [(0%Z, 1)]).
Hypothesis Hfw : forall d es k, In (d, es) steps -> In k phases -> forward (electrode es k).
Notation F := (list_reads sites phases steps rows offset).
Let gain := gain_of phases steps gam (full_passes rows offset).
Lemma moved_list N (f g : column) : (rows <= N)%nat -> (forall z, f z <= g z) ->
  moved N gain f g (readout sites phases steps (full_passes rows offset) f) (readout sites phases steps (full_passes rows offset) g).
Proof. intros HN Hfg. apply (readout_moved sites phases steps group slope gam N); auto. now apply full_plain. Qed.
Lemma list_reads_length x : length (F x) = length x.
Proof. unfold list_reads. now rewrite map_length, seq_length. Qed.
Lemma list_last p a : last (F (p ++ [a])) 0 = readout sites phases steps (full_passes rows offset) (col_of (p ++ [a])) (Z.of_nat (length p)).
Proof. unfold list_reads. rewrite app_length, seq_app, map_app. cbn [length seq map Nat.add]. apply last_last. Qed.
Lemma snoc_col p a : col_of (p ++ [a]) (Z.of_nat (length p)) = a.
Proof. unfold col_of. rewrite Nat2Z.id, app_nth2, Nat.sub_diag by lia. reflexivity. Qed.
Lemma snoc_ordered p a b : b <= a -> Forall2 Rle (p ++ [b]) (p ++ [a]).
Proof. intros H. apply Forall2_app; [apply ordered_refl|]. constructor; [exact H|constructor]. Qed.
Lemma phases_tame : tame gain 0 0 F.
Proof.
  split.
  - apply list_reads_length.
  - intros i x. unfold list_reads. rewrite firstn_map_seq, firstn_length. apply map_ext_in. intros r Hr. apply in_seq in Hr.
    assert (C : Forall (fun cells => ReadoutColumnFacts.ordered (Z.of_nat r) cells /\ Forall (fun '(_, _, save) => save = false) cells) (full_passes rows offset)).
    { unfold full_passes. apply Forall_forall. intros cells Hc. apply in_map_iff in Hc. destruct Hc as (e & <- & _). split; [apply cells_ordered|].
      apply Forall_forall. intros cell Hc. apply in_map_iff in Hc. destruct Hc as (w & <- & _). reflexivity. }
    assert (A : agree (Z.of_nat r) (col_of (firstn i x)) (col_of x)).
    { intros z Hz'. unfold col_of. rewrite <- (firstn_skipn i x) at 2. rewrite app_nth1; [reflexivity|]. rewrite firstn_length. lia. }
    pose proof (readout_cut sites phases steps (Z.of_nat r) Hfw _ C _ _ A (Z.of_nat r) ltac:(lia)) as R1.
    pose proof (readout_cut sites phases steps (Z.of_nat r) Hfw _ C (col_of x) (col_of x) (fun z _ => eq_refl) (Z.of_nat r) ltac:(lia)) as R2. congruence.
  - intros y x Hyx. unfold list_reads. rewrite (ordered_length _ _ Hyx). apply Forall2_map_in. intros i _. apply (moved_list rows); [lia|]. now apply ordered_cols.
  - intros y x Hyx. set (n := length x). pose proof (ordered_length _ _ Hyx) as HL. fold n in HL.
    destruct (moved_list (n + rows) _ _ ltac:(lia) (ordered_cols y x Hyx)) as (M1 & M2 & _).
    rewrite !(total_cols (n + rows)) in M2 by (subst n; lia). unfold list_reads. rewrite HL. fold n.
    set (f := readout _ _ _ _ (col_of y)) in *. set (g := readout _ _ _ _ (col_of x)) in *.
    change (total n g - total n f <= Rsum x - Rsum y). apply Rle_trans with (2 := M2). rewrite !total_minus. apply total_part; [|lia]. intros z. specialize (M1 z). lra.
  - intros p a b Hab H0. rewrite !list_last. destruct (moved_list rows _ _ ltac:(lia) (ordered_cols _ _ (snoc_ordered p a b Hab))) as (_ & _ & M3).
    specialize (M3 (Z.of_nat (length p))). rewrite !snoc_col in M3. apply M3. exact H0.
  - intros p b H0. rewrite list_last. destruct (moved_list rows _ _ ltac:(lia) (ordered_cols _ _ (snoc_ordered p b b (Rle_refl b)))) as (_ & _ & M3).
    specialize (M3 (Z.of_nat (length p))). rewrite !snoc_col in M3. apply M3. exact H0.
Qed.
End ListMap.
