(** * Readouts past any traps that respond in order: order, causality, differences and limits. *)
From Coq Require Import ZArith List Bool Reals Lra Lia FunctionalExtensionality Sorted.
From Coquelicot Require Import Rcomplements Rbar Hierarchy RInt.
From Verif Require Import Num Py RFacts CCDModel TrapsModel ManagerModel ROEModel ClockModel Spec SpecReadout SpecColumn SpecMeet WmFacts OrderFacts ReadoutSpecFacts TameFacts ReadoutColumnFacts PhaseOrderFacts SteadyFacts ExpressOrderFacts BoundFacts.
Import ListNotations.
Open Scope R_scope.

Notation row_of cell := (fst (fst (cell : Z * R * bool))).
(** ** Causality *)
Section Causal.
Context {St : Type} (net : nat -> R -> R -> St -> R) (after : nat -> R -> R -> St -> St) (phases : list nat) (steps : list (R * list (roe_phase R))) (start : nat -> St).
Hypothesis Hfw : forall d es k, In (d, es) steps -> In k phases -> forward (electrode es k).
Definition run (st : column * (nat -> St)) (cell : Z * R * bool) : column * (nat -> St) := meet_pixel net after phases steps (row_of cell) (snd (fst cell)) st.
Lemma meet_run cells : forall st, meet_cells net after phases steps cells st = fold_left run cells st.
Proof. unfold meet_cells. induction cells as [|[[row mult] save] cells IH]; intros st; cbn [fold_left]; [reflexivity|]. apply IH. Qed.
Section At.
Context (p : Z).
Lemma meet_agree row mult d es f g T k : (row <= p)%Z -> forward (electrode es k) -> agree p f g ->
  agree p (fst (meet net after row mult d es (f, T) k)) (fst (meet net after row mult d es (g, T) k)) /\
  snd (meet net after row mult d es (f, T) k) = snd (meet net after row mult d es (g, T) k).
Proof.
  intros Hr [Hc _] H. unfold meet.
  assert (E : (if rp_high (electrode es k) then f (row + rp_capture (electrode es k))%Z else 0) = (if rp_high (electrode es k) then g (row + rp_capture (electrode es k))%Z else 0)).
  { destruct (rp_high (electrode es k)); [|reflexivity]. rewrite Hc by reflexivity. apply H. lia. }
  rewrite E. split; [apply agree_deposit, H|reflexivity].
Qed.
Lemma meet_beyond row mult d es f T k : (p < row)%Z -> forward (electrode es k) -> agree p f (fst (meet net after row mult d es (f, T) k)).
Proof.
  intros Hr [_ Hd]. unfold meet. cbn [fst]. apply deposit_beyond; [exact Hr|]. apply Forall_forall. intros [x y] Hin. apply Hd. eapply in_combine_l. exact Hin.
Qed.
Lemma agree_fold {A} (F : column * (nat -> St) -> A -> column * (nat -> St)) xs :
  (forall x f g T, In x xs -> agree p f g -> agree p (fst (F (f, T) x)) (fst (F (g, T) x)) /\ snd (F (f, T) x) = snd (F (g, T) x)) ->
  forall f g T, agree p f g -> agree p (fst (fold_left F xs (f, T))) (fst (fold_left F xs (g, T))) /\ snd (fold_left F xs (f, T)) = snd (fold_left F xs (g, T)).
Proof.
  induction xs as [|x xs IH]; intros H f g T Hfg; [auto|]. cbn [fold_left]. destruct (H x f g T (or_introl eq_refl) Hfg) as [A1 A2].
  destruct (F (f, T) x) as [f1 T1], (F (g, T) x) as [g1 T1']. cbn [fst snd] in A1, A2. subst T1'. apply IH; [intros; apply H; [now right|assumption]|exact A1].
Qed.
Lemma beyond_fold {A} (F : column * (nat -> St) -> A -> column * (nat -> St)) xs : (forall x f T, In x xs -> agree p f (fst (F (f, T) x))) ->
  forall f T, agree p f (fst (fold_left F xs (f, T))).
Proof.
  induction xs as [|x xs IH]; intros H f T; [intros z _; reflexivity|]. cbn [fold_left]. pose proof (H x f T (or_introl eq_refl)) as A1.
  destruct (F (f, T) x) as [f1 T1]. cbn [fst] in A1. eapply agree_trans; [exact A1|]. apply IH. intros; apply H. now right.
Qed.
Lemma pixel_agree row mult f g T : (row <= p)%Z -> agree p f g ->
  agree p (fst (meet_pixel net after phases steps row mult (f, T))) (fst (meet_pixel net after phases steps row mult (g, T))) /\
  snd (meet_pixel net after phases steps row mult (f, T)) = snd (meet_pixel net after phases steps row mult (g, T)).
Proof.
  intros Hr. unfold meet_pixel. apply (agree_fold (fun st '(dwell, es) => fold_left (meet net after row mult dwell es) phases st)). intros [d es] f1 g1 T1 Hin.
  apply (agree_fold (meet net after row mult d es)). intros k f2 g2 T2 Hk. apply meet_agree; [exact Hr|]. now apply (Hfw d).
Qed.
Lemma pixel_beyond row mult f T : (p < row)%Z -> agree p f (fst (meet_pixel net after phases steps row mult (f, T))).
Proof.
  intros Hr. unfold meet_pixel. apply (beyond_fold (fun st '(dwell, es) => fold_left (meet net after row mult dwell es) phases st)). intros [d es] f1 T1 Hin.
  apply (beyond_fold (meet net after row mult d es)). intros k f2 T2 Hk. apply meet_beyond; [exact Hr|]. now apply (Hfw d).
Qed.
Lemma cells_agree a : Forall (fun c => at_most p c = true) a -> forall f g T, agree p f g ->
  agree p (fst (fold_left run a (f, T))) (fst (fold_left run a (g, T))).
Proof.
  intros Ha f g T Hfg. apply (agree_fold run); [|exact Hfg]. intros [[row mult] save] f1 g1 T1 Hin Hfg1. rewrite Forall_forall in Ha. specialize (Ha _ Hin). cbn [at_most] in Ha. apply Z.leb_le in Ha.
  unfold run. cbn [fst snd]. now apply pixel_agree.
Qed.
Lemma cells_beyond a : Forall (fun c => at_most p c = false) a -> forall f T, agree p f (fst (fold_left run a (f, T))).
Proof.
  intros Ha. apply (beyond_fold run). intros [[row mult] save] f1 T1 Hin. rewrite Forall_forall in Ha. specialize (Ha _ Hin). cbn [at_most] in Ha. apply Z.leb_gt in Ha.
  unfold run. cbn [fst snd]. now apply pixel_beyond.
Qed.
End At.
Lemma meet_cut p passes : Forall (ReadoutColumnFacts.ordered p) passes ->
  forall f g, agree p f g -> agree p (meet_all net after phases steps start passes f) (meet_all net after phases steps start (map (filter (at_most p)) passes) g).
Proof.
  unfold meet_all. induction 1 as [|cells passes Ho H IH]; intros f g Hfg; [exact Hfg|]. cbn [map fold_left]. apply IH. rewrite !meet_run.
  unfold ReadoutColumnFacts.ordered in Ho. rewrite Ho at 1. rewrite fold_left_app.
  pose proof (cells_agree p (filter (at_most p) cells) (filter_all _ _) f g start Hfg) as A.
  pose proof (cells_beyond p (filter (fun c => negb (at_most p c)) cells)) as B.
  specialize (B ltac:(apply Forall_forall; intros x Hx; apply filter_In in Hx as [_ Hx]; destruct (at_most p x); [discriminate|reflexivity])).
  destruct (fold_left run (filter (at_most p) cells) (f, start)) as [f1 T1]. eapply agree_trans; [apply agree_sym, B|exact A].
Qed.
End Causal.

(** ** Order *)
Section Ordered.
Context {St : Type} (net : nat -> R -> R -> St -> R) (after : nat -> R -> R -> St -> St) (phases : list nat) (steps : list (R * list (roe_phase R))) (start : nat -> St).
Context (ok : nat -> St -> Prop) (le : nat -> St -> St -> Prop) (amount : nat -> St -> R) (kap cap : nat -> R) (gam most : R).
Hypothesis Hnodup : NoDup phases.
Hypothesis Hstart : forall k, In k phases -> ok k (start k).
Hypothesis Hrefl : forall k s, In k phases -> ok k s -> le k s s.
Hypothesis Hok : forall k d m s, In k phases -> 0 < d -> 0 <= m -> ok k s -> ok k (after k d m s).
Hypothesis Hle : forall k d m m' s s', In k phases -> 0 < d -> 0 <= m' <= m -> ok k s' -> ok k s -> le k s' s -> le k (after k d m' s') (after k d m s).
Hypothesis Horder : forall k d m m' s s', In k phases -> 0 < d -> 0 <= m' <= m -> ok k s' -> ok k s -> le k s' s -> - (kap k * (m - m')) <= net k d m s - net k d m' s'.
Hypothesis Halone : forall k d s, In k phases -> 0 < d -> ok k s -> 0 <= net k d 0 s.
Hypothesis Hamount : forall k d m s, In k phases -> 0 < d -> 0 <= m -> ok k s -> amount k (after k d m s) = amount k s - net k d m s.
Hypothesis Hmore : forall k s s', In k phases -> ok k s' -> ok k s -> le k s' s -> amount k s' <= amount k s.
Hypothesis Hcap : forall k s, In k phases -> ok k s -> 0 <= amount k s <= cap k.
Hypothesis Hkap : forall k, In k phases -> 0 <= kap k.
Hypothesis Hgam : 0 <= gam <= 1.
Hypothesis Hmost : 1 <= most.
Hypothesis Hgain : forall k, In k phases -> most * kap k <= 1 - gam.
Hypothesis Hsteps : forall d es, In (d, es) steps -> 0 < d.
Hypothesis Hel : forall d es k, In (d, es) steps -> In k phases -> let e := electrode es k in
  Forall (fun '(d, f) => (0 <= d)%Z /\ 0 <= f) (combine (rp_release e) (rp_fraction e)) /\
  Rsum (map snd (combine (rp_release e) (rp_fraction e))) = 1 /\
  (rp_high e = true -> rp_capture e = 0%Z /\ combine (rp_release e) (rp_fraction e) = [(0%Z, 1)]).
Hypothesis Hfw : forall d es k, In (d, es) steps -> In k phases -> forward (electrode es k).
Notation run := (run net after phases steps).
Definition lower (T U : nat -> St) : Prop := forall k, In k phases -> ok k (T k) /\ ok k (U k) /\ le k (T k) (U k).
Definition amounts (T : nat -> St) : R := Rsum (map (fun k => amount k (T k)) phases).
Lemma set_amounts T k s : In k phases -> amounts (set_phase T k s) = amounts T + (amount k s - amount k (T k)).
Proof.
  intros Hk. unfold amounts. revert Hnodup Hk. generalize phases as l. induction l as [|k' l IH]; intros Hnd Hk; [destruct Hk|]. inversion Hnd as [|? ? N1 N2]; subst.
  cbn [map]. rewrite !Rsum_cons. unfold set_phase at 1. destruct (Nat.eqb_spec k' k) as [->|NE].
  - replace (map (fun k0 => amount k0 (set_phase T k s k0)) l) with (map (fun k0 => amount k0 (T k0)) l); [lra|].
    apply map_ext_in. intros k0 H0. unfold set_phase. destruct (Nat.eqb_spec k0 k) as [->|]; [contradiction|reflexivity].
  - destruct Hk as [->|Hk]; [contradiction|]. rewrite (IH N2 Hk). lra.
Qed.
Lemma lower_amounts T U : lower T U -> amounts T <= amounts U.
Proof.
  unfold lower, amounts. intros H. assert (G : forall l, incl l phases -> Rsum (map (fun k => amount k (T k)) l) <= Rsum (map (fun k => amount k (U k)) l)); [|apply G; intros a Ha; exact Ha].
  induction l as [|k l IH]; intros Hi; [cbn; lra|]. cbn [map]. rewrite !Rsum_cons. assert (Hk : In k phases) by (apply Hi; now left). destruct (H k Hk) as (A & B & C). pose proof (Hmore k _ _ Hk A B C).
  specialize (IH (fun a Ha => Hi a (or_intror Ha))). lra.
Qed.
Notation held T := (amounts T).
Definition between (a b : column * (nat -> St)) : Prop := (forall z, 0 <= fst a z <= fst b z) /\ lower (snd a) (snd b).
Definition apart_on (l : list nat) (a b : column * (nat -> St)) : R := sum_on l (fst b) - sum_on l (fst a).
Definition held_apart (a b : column * (nat -> St)) : R := held (snd b) - held (snd a).
Lemma kap_mult k mult : In k phases -> 0 <= mult <= most -> mult * kap k <= 1 - gam.
Proof. intros Hk Hm. pose proof (Hkap k Hk) as S. pose proof (Rmult_le_compat_r _ mult most S (proj2 Hm)). specialize (Hgain k Hk). lra. Qed.
Lemma kap_1 k : In k phases -> kap k <= 1.
Proof. intros Hk. pose proof (kap_mult k 1 Hk ltac:(lra)). lra. Qed.
Lemma meet_weighted row mult dwell es k a b l : (0 <= row)%Z -> NoDup l -> In (Z.to_nat row) l -> 0 <= mult <= most -> In (dwell, es) steps -> In k phases -> between a b ->
  let a' := meet net after row mult dwell es a k in let b' := meet net after row mult dwell es b k in
  between a' b' /\
  apart_on l a' b' + mult * held_apart a' b' <= apart_on l a b + mult * held_apart a b /\
  held_apart a' b' <= held_apart a b + (fst b row - fst a row) /\
  forall z, gam * (fst b z - fst a z) <= fst b' z - fst a' z.
Proof.
  intros Hrow Hnd Hl Hmult Hin Hk [Hfg HL]. destruct a as [f T], b as [g U]. cbn [fst snd] in *. pose proof (HL k Hk) as (HQ & HP & HB).
  pose proof (Hsteps dwell es Hin) as Hd. destruct (Hel dwell es k Hin Hk) as (E1 & E2 & E3). unfold meet. set (e := electrode es k) in *. cbv zeta.
  pose proof (Hkap k Hk) as Hk0. pose proof (kap_1 k Hk) as Hk1. pose proof (kap_mult k mult Hk Hmult) as Hk2. set (share := kap k) in *.
  set (m' := if rp_high e then f (row + rp_capture e)%Z else 0). set (m := if rp_high e then g (row + rp_capture e)%Z else 0).
  assert (Hm : 0 <= m' <= m) by (unfold m', m; destruct (rp_high e); [apply Hfg|lra]).
  assert (Hm0 : m - m' <= g row - f row).
  { unfold m', m. destruct (rp_high e) eqn:HH; [destruct (E3 eq_refl) as [-> _]; rewrite Z.add_0_r; lra|specialize (Hfg row); lra]. }
  assert (HL' : lower (set_phase T k (after k dwell m' (T k))) (set_phase U k (after k dwell m (U k)))).
  { intros k' Hk'. unfold set_phase. destruct (Nat.eqb_spec k' k) as [->|]; [|exact (HL k' Hk')].
    split; [apply Hok; (assumption || lra)|]. split; [apply Hok; (assumption || lra)|]. now apply Hle. }
  set (q' := net k dwell m' (T k)). set (q := net k dwell m (U k)).
  pose proof (Horder k dwell m m' (U k) (T k) Hk Hd Hm HQ HP HB) as Hq. fold q q' share in Hq.
  assert (HT : held (set_phase U k (after k dwell m (U k))) - held (set_phase T k (after k dwell m' (T k))) = held U - held T - (q - q')).
  { rewrite !set_amounts by exact Hk. rewrite !Hamount by (assumption || lra). unfold q, q'. lra. }
  assert (H3 : held U - held T - (q - q') <= held U - held T + (g row - f row)).
  { assert (share * (m - m') <= 1 * (m - m')) by (apply Rmult_le_compat_r; lra). lra. }
  assert (N0 : 0 <= net k dwell 0 (T k)) by now apply Halone.
  destruct (rp_high e) eqn:HH.
  - destruct (E3 eq_refl) as [EC ED]. rewrite ED. cbn [deposit fold_left]. rewrite !Rmult_1_r, !Z.add_0_r.
    assert (Em : m = g row /\ m' = f row) by (unfold m, m'; rewrite EC, !Z.add_0_r; auto). destruct Em as [Em Em']. pose proof (Hfg row) as Hr.
    assert (Q0 : - (share * m') <= q').
    { pose proof (Horder k dwell m' 0 (T k) (T k) Hk Hd ltac:(lra) HQ HQ (Hrefl k _ Hk HQ)) as H0. fold q' share in H0. lra. }
    assert (A0 : 0 <= f row + q' * mult).
    { pose proof (Rmult_le_compat_r mult _ _ (proj1 Hmult) Q0) as H0. pose proof (Rmult_le_compat_r m' _ _ (proj1 Hm) Hk2) as H1. rewrite Em' in *. pose proof (Rmult_le_pos _ _ (proj1 Hgam) (proj1 Hr)). lra. }
    assert (A1 : gam * (g row - f row) <= (g row + q * mult) - (f row + q' * mult)).
    { pose proof (Rmult_le_compat_r mult _ _ (proj1 Hmult) Hq) as H0. pose proof (Rmult_le_compat_r (m - m') _ _ ltac:(lra) Hk2) as H1. rewrite Em, Em' in *. lra. }
    assert (A2 : 0 <= gam * (g row - f row)) by (apply Rmult_le_pos; lra).
    split; [split; [|exact HL']|split; [|split]].
    + intros z. cbn [fst]. unfold give. destruct (Z.eqb_spec z row) as [->|]; [|apply Hfg]. rewrite !Rmax_right by lra. lra.
    + unfold apart_on, held_apart. cbn [fst snd]. rewrite HT, !give_here by assumption. rewrite !Rmax_right by lra. lra.
    + unfold held_apart. cbn [fst snd]. rewrite HT. exact H3.
    + intros z. cbn [fst]. unfold give. destruct (Z.eqb_spec z row) as [->|]; [rewrite !Rmax_right by lra; lra|]. specialize (Hfg z).
      rewrite <- (Rmult_1_l (g z - f z)) at 2. apply Rmult_le_compat_r; lra.
  - assert (Em : m = 0 /\ m' = 0) by (unfold m, m'; auto). destruct Em as [Em Em'].
    assert (Q0 : 0 <= q') by (unfold q'; rewrite Em'; exact N0).
    rewrite Em, Em', Rminus_0_r, Rmult_0_r, Ropp_0 in Hq.
    assert (QM : 0 <= q' * mult <= q * mult) by (split; [apply Rmult_le_pos; lra|apply Rmult_le_compat_r; lra]).
    assert (FW : Forall (fun '(_, w) => 0 <= w) (combine (rp_release e) (rp_fraction e))) by (eapply Forall_impl; [|exact E1]; intros [? ?]; tauto).
    destruct (deposit_sum l (combine (rp_release e) (rp_fraction e)) row _ _ Hnd QM FW f g Hfg) as (D1 & D2).
    split; [split; [|exact HL']|split; [|split]].
    + intros z. cbn [fst]. specialize (D1 z). specialize (Hfg z). lra.
    + unfold apart_on, held_apart. cbn [fst snd]. rewrite HT. rewrite E2 in D2. lra.
    + unfold held_apart. cbn [fst snd]. rewrite HT. exact H3.
    + intros z. cbn [fst]. specialize (D1 z). specialize (Hfg z). apply Rle_trans with (2 := proj2 D1).
      rewrite <- (Rmult_1_l (g z - f z)) at 2. apply Rmult_le_compat_r; lra.
Qed.

(** ** Pixels and passes *)
Definition all_apart (l : list nat) (a b : column * (nat -> St)) : R := apart_on l a b + held_apart a b.
Definition grown (l : list nat) (g big : R) (a b a' b' : column * (nat -> St)) : Prop :=
  between a' b' /\ all_apart l a' b' <= big * all_apart l a b /\ forall z, g * (fst b z - fst a z) <= fst b' z - fst a' z.
Lemma held_order a b : between a b -> 0 <= held_apart a b.
Proof. intros [_ H]. unfold held_apart. pose proof (lower_amounts _ _ H). lra. Qed.
Lemma apart_order l a b : between a b -> 0 <= apart_on l a b.
Proof.
  intros [H _]. unfold apart_on. induction l as [|i l IH]; [unfold sum_on; cbn; lra|]. rewrite !sum_on_cons. specialize (H (Z.of_nat i)). lra.
Qed.
Lemma apart_one l a b row : (0 <= row)%Z -> In (Z.to_nat row) l -> between a b -> fst b row - fst a row <= apart_on l a b.
Proof.
  intros H0 Hl H. unfold apart_on. induction l as [|i l IH]; [destruct Hl|]. rewrite !sum_on_cons. pose proof (apart_order l a b H) as A. unfold apart_on in A. pose proof (proj1 H) as HF. destruct Hl as [->|Hl].
  - rewrite Z2Nat.id by exact H0. lra.
  - specialize (IH Hl). specialize (HF (Z.of_nat i)). lra.
Qed.
Lemma meet_grown row mult dwell es k a b l : (0 <= row)%Z -> NoDup l -> In (Z.to_nat row) l -> 0 <= mult <= most -> In (dwell, es) steps -> In k phases -> between a b ->
  grown l gam (2 + most) a b (meet net after row mult dwell es a k) (meet net after row mult dwell es b k).
Proof.
  intros H0 Hnd Hl Hm Hin Hk HB. destruct (meet_weighted row mult dwell es k a b l H0 Hnd Hl Hm Hin Hk HB) as (B & V & T & G).
  split; [exact B|]. split; [|exact G]. unfold all_apart. pose proof (held_order _ _ B) as HO'. pose proof (held_order _ _ HB) as HO. pose proof (apart_order l _ _ HB) as AO. pose proof (apart_one l a b row H0 Hl HB) as A1.
  pose proof (Rmult_le_pos _ _ (proj1 Hm) HO') as M1. pose proof (Rmult_le_compat_r _ _ _ HO (proj2 Hm)) as M2. pose proof (Rmult_le_pos most _ ltac:(lra) AO) as M3. lra.
Qed.
Lemma grown_fold {A} (F : column * (nat -> St) -> A -> column * (nat -> St)) l g big : 0 <= g -> 0 <= big -> forall xs, (forall x a b, In x xs -> between a b -> grown l g big a b (F a x) (F b x)) ->
  forall a b, between a b -> grown l (g ^ length xs) (big ^ length xs) a b (fold_left F xs a) (fold_left F xs b).
Proof.
  intros Hg0 Hb0. induction xs as [|x xs IH]; intros H a b HR; cbn [fold_left length pow].
  - split; [exact HR|]. split; [lra|]. intros z. lra.
  - pose proof (H x a b (or_introl eq_refl) HR) as (S1 & S2 & S3). destruct (IH (fun y a b Hy => H y a b (or_intror Hy)) _ _ S1) as (T1 & T2 & T3).
    split; [exact T1|]. split.
    + apply Rle_trans with (1 := T2). rewrite (Rmult_comm big), Rmult_assoc. apply Rmult_le_compat_l; [now apply pow_le|exact S2].
    + intros z. apply Rle_trans with (2 := T3 z). rewrite (Rmult_comm g), Rmult_assoc. apply Rmult_le_compat_l; [now apply pow_le|apply S3].
Qed.
Definition each_gain : R := (gam ^ length phases) ^ length steps.
Definition each_big : R := ((2 + most) ^ length phases) ^ length steps.
Lemma pixel_grown row mult a b l : (0 <= row)%Z -> NoDup l -> In (Z.to_nat row) l -> 0 <= mult <= most -> between a b ->
  grown l each_gain each_big a b (meet_pixel net after phases steps row mult a) (meet_pixel net after phases steps row mult b).
Proof.
  intros H0 Hnd Hl Hm HR. unfold meet_pixel, each_gain, each_big.
  apply (grown_fold (fun st '(dwell, es) => fold_left (meet net after row mult dwell es) phases st)); [apply pow_01, Hgam|apply pow_le; lra| |exact HR].
  intros [dwell es] a' b' Hin HR'. apply (grown_fold (meet net after row mult dwell es)); [apply Hgam|lra| |exact HR'].
  intros k a2 b2 Hk HR2. apply meet_grown; assumption.
Qed.
Lemma kept_fold {A} (F : column * (nat -> St) -> A -> column * (nat -> St)) (V : column * (nat -> St) -> column * (nat -> St) -> R) : forall xs, (forall x a b, In x xs -> between a b -> between (F a x) (F b x) /\ V (F a x) (F b x) <= V a b) ->
  forall a b, between a b -> between (fold_left F xs a) (fold_left F xs b) /\ V (fold_left F xs a) (fold_left F xs b) <= V a b.
Proof.
  induction xs as [|x xs IH]; intros H a b HR; cbn [fold_left]; [split; [exact HR|lra]|].
  destruct (H x a b (or_introl eq_refl) HR) as [S1 S2]. destruct (IH (fun y a b Hy => H y a b (or_intror Hy)) _ _ S1) as [T1 T2]. split; [exact T1|lra].
Qed.
Lemma pixel_kept row mult a b l : (0 <= row)%Z -> NoDup l -> In (Z.to_nat row) l -> 0 <= mult <= most -> between a b ->
  let a' := meet_pixel net after phases steps row mult a in let b' := meet_pixel net after phases steps row mult b in
  between a' b' /\ apart_on l a' b' + mult * held_apart a' b' <= apart_on l a b + mult * held_apart a b.
Proof.
  intros H0 Hnd Hl Hm HR. cbv zeta. unfold meet_pixel.
  apply (kept_fold (fun st '(dwell, es) => fold_left (meet net after row mult dwell es) phases st) (fun a b => apart_on l a b + mult * held_apart a b)); [|exact HR].
  intros [dwell es] a' b' Hin HR'. apply (kept_fold (meet net after row mult dwell es) (fun a b => apart_on l a b + mult * held_apart a b)); [|exact HR'].
  intros k a2 b2 Hk HR2. destruct (meet_weighted row mult dwell es k a2 b2 l H0 Hnd Hl Hm Hin Hk HR2) as (B & V & _). auto.
Qed.

(** Columns that agree in front of row [r], and traps in the same state. *)
Definition alike_to (r : Z) (f g : column) : Prop := forall z, (0 <= z < r)%Z -> f z = g z.
Definition synced (r : Z) (x : R) (a b : column * (nat -> St)) : Prop :=
  snd a = snd b /\ alike_to r (fst a) (fst b) /\ (forall z, fst a z <= fst b z) /\ fst b r - fst a r <= x.
Lemma meet_synced row mult dwell es k r x a b : (0 <= row < r)%Z -> In (dwell, es) steps -> In k phases -> synced r x a b ->
  synced r x (meet net after row mult dwell es a k) (meet net after row mult dwell es b k).
Proof.
  intros Hr Hin Hk (S1 & S2 & S3 & S4). destruct a as [f T], b as [g U]. cbn [fst snd] in *. subst U.
  unfold meet. destruct (Hel dwell es k Hin Hk) as (_ & _ & E3). set (e := electrode es k) in *. cbv zeta in E3.
  assert (E : (if rp_high e then f (row + rp_capture e)%Z else 0) = (if rp_high e then g (row + rp_capture e)%Z else 0)).
  { destruct (rp_high e); [|reflexivity]. destruct (E3 eq_refl) as [-> _]. apply S2. lia. }
  rewrite E. pose proof (deposit_same (combine (rp_release e) (rp_fraction e)) row (net k dwell (if rp_high e then g (row + rp_capture e)%Z else 0) (T k) * mult) f g S3) as D.
  split; [reflexivity|]. cbn [fst]. split; [intros z Hz'; specialize (D z); rewrite (S2 z Hz') in D; lra|].
  split; [intros z; specialize (D z); lra|]. specialize (D r). lra.
Qed.
Lemma synced_fold {A} (F : column * (nat -> St) -> A -> column * (nat -> St)) r x : forall xs, (forall y a b, In y xs -> synced r x a b -> synced r x (F a y) (F b y)) ->
  forall a b, synced r x a b -> synced r x (fold_left F xs a) (fold_left F xs b).
Proof. induction xs as [|y xs IH]; intros H a b HS; cbn [fold_left]; [exact HS|]. apply IH; [intros; apply H; [now right|assumption]|]. apply H; [now left|exact HS]. Qed.
Lemma pixel_synced row mult r x a b : (0 <= row < r)%Z -> synced r x a b ->
  synced r x (meet_pixel net after phases steps row mult a) (meet_pixel net after phases steps row mult b).
Proof.
  intros Hr HS. unfold meet_pixel. apply (synced_fold (fun st '(dwell, es) => fold_left (meet net after row mult dwell es) phases st)); [|exact HS].
  intros [dwell es] a' b' Hin HS'. apply (synced_fold (meet net after row mult dwell es)); [|exact HS']. intros k a2 b2 Hk HS2. now apply meet_synced.
Qed.
Lemma run_grown N l cells : Forall (good_cell most N) cells -> NoDup l -> incl (seq 0 N) l -> forall a b, between a b ->
  grown l (each_gain ^ length cells) (each_big ^ length cells) a b (fold_left run cells a) (fold_left run cells b).
Proof.
  intros HF Hnd Hl. apply grown_fold; [unfold each_gain; apply pow_01, pow_01, Hgam|unfold each_big; apply pow_le, pow_le; lra|].
  intros cell a b Hin HR. rewrite Forall_forall in HF. destruct (HF cell Hin) as (H1 & H2 & _). apply pixel_grown; [lia|exact Hnd| |exact H2|exact HR]. apply Hl, in_seq. lia.
Qed.
Lemma run_beyond r cells : Forall (fun c => (r < row_of c)%Z) cells -> forall st, agree r (fst st) (fst (fold_left run cells st)).
Proof.
  induction 1 as [|cell cells Hc HF IH]; intros [f T]; cbn [fold_left]; [intros z _; reflexivity|]. eapply agree_trans; [|apply IH]. unfold run. now apply pixel_beyond.
Qed.
Lemma run_own N r : (0 <= r)%Z -> forall cells, good_cells most N cells -> forall f g T, between (f, T) (g, T) -> alike_to r f g ->
  alike_to r (fst (fold_left run cells (f, T))) (fst (fold_left run cells (g, T))) /\
  fst (fold_left run cells (g, T)) r - fst (fold_left run cells (f, T)) r <= g r - f r.
Proof.
  intros Hr. induction cells as [|cell cells IH]; intros [HS HF] f g T HB HA; cbn [fold_left]; [split; [exact HA|cbn [fst]; lra]|].
  apply StronglySorted_inv in HS as [HS1 HS2]. inversion HF as [|? ? HC HF']; subst. destruct HC as (C1 & C2 & C3).
  destruct (Z.lt_trichotomy (row_of cell) r) as [Hlt|[Heq|Hgt]].
  - assert (SY : synced r (g r - f r) (f, T) (g, T)) by (split; [reflexivity|]; split; [exact HA|]; split; [intros z; apply (proj1 HB)|cbn [fst]; lra]).
    pose proof (pixel_synced (row_of cell) (snd (fst cell)) r _ _ _ (conj (proj1 C1) Hlt) SY) as (S1 & S2 & S3 & S4). fold (run (f, T) cell) in S1, S2, S3, S4. fold (run (g, T) cell) in S1, S2, S3, S4.
    assert (HB' : between (run (f, T) cell) (run (g, T) cell)) by (apply (pixel_kept (row_of cell) (snd (fst cell)) _ _ [Z.to_nat (row_of cell)]); [lia|repeat constructor; intros []|now left|exact C2|exact HB]).
    destruct (run (f, T) cell) as [f1 T1], (run (g, T) cell) as [g1 T1']. cbn [fst snd] in S1, S2, S3, S4. subst T1'.
    destruct (IH (conj HS1 HF') f1 g1 T1 HB' S2) as [I1 I2]. split; [exact I1|lra].
  - destruct (pixel_kept (row_of cell) (snd (fst cell)) (f, T) (g, T) [Z.to_nat r]) as [B V]; [lia|repeat constructor; intros []|left; now rewrite Heq|exact C2|exact HB|].
    fold (run (f, T) cell) in B, V. fold (run (g, T) cell) in B, V. pose proof (held_order _ _ B) as HO. pose proof (Rmult_le_pos _ _ (proj1 C2) HO) as HO'.
    assert (A1 : forall a b, apart_on [Z.to_nat r] a b = fst b r - fst a r) by (intros a b; unfold apart_on, sum_on; cbn [map Rsum fold_right]; rewrite Z2Nat.id by exact Hr; lra).
    rewrite !A1 in V. unfold held_apart at 2 in V. cbn [fst snd] in V.
    assert (RB : forall st, agree r (fst st) (fst (fold_left run cells st))) by (apply run_beyond; eapply Forall_impl; [|exact HS2]; intros c; cbn beta; lia).
    assert (TB : forall h, agree (r - 1) h (fst (run (h, T) cell))) by (intros h; unfold run; apply pixel_beyond; [exact Hfw|lia]).
    split.
    + intros z Hz'. rewrite <- !RB by lia. rewrite <- !TB by lia. now apply HA.
    + rewrite <- !RB by lia. lra.
  - assert (RB : forall st, agree r (fst st) (fst (fold_left run (cell :: cells) st))).
    { apply run_beyond. constructor; [exact Hgt|]. eapply Forall_impl; [|exact HS2]. intros c; cbn beta; lia. }
    cbn [fold_left] in RB. split; [intros z Hz'; rewrite <- !RB by lia; now apply HA|]. rewrite <- !RB by lia. cbn [fst]. lra.
Qed.

(** ** Readouts *)
Definition moved_on (N : nat) (g big : R) (a b a' b' : column) : Prop :=
  (forall z, 0 <= a' z <= b' z) /\ sum_on (seq 0 N) b' - sum_on (seq 0 N) a' <= big * (sum_on (seq 0 N) b - sum_on (seq 0 N) a) /\
  (forall z, g * (b z - a z) <= b' z - a' z) /\
  forall r, (0 <= r)%Z -> alike_to r a b -> alike_to r a' b' /\ b' r - a' r <= b r - a r.
Lemma between_start (f g : column) : (forall z, 0 <= f z <= g z) -> between (f, start) (g, start).
Proof. intros H. split; [exact H|]. intros k Hk. split; [now apply Hstart|]. split; [now apply Hstart|]. apply Hrefl; [exact Hk|now apply Hstart]. Qed.
Lemma pass_moved_on M N cells (f g : column) : good_cells most M cells -> (M <= N)%nat -> (forall z, 0 <= f z <= g z) ->
  moved_on N (each_gain ^ length cells) (each_big ^ length cells) f g (fst (meet_cells net after phases steps cells (f, start))) (fst (meet_cells net after phases steps cells (g, start))).
Proof.
  intros HC HN Hfg. pose proof (between_start f g Hfg) as HB. rewrite !meet_run.
  assert (Hincl : incl (seq 0 M) (seq 0 N)) by (intros i Hi; apply in_seq in Hi; apply in_seq; lia).
  destruct (run_grown M (seq 0 N) cells (proj2 HC) (seq_NoDup N 0) Hincl _ _ HB) as (G1 & G2 & G3).
  split; [exact (proj1 G1)|]. split; [|split; [exact G3|]].
  - pose proof (held_order _ _ G1) as HO. unfold all_apart in G2. unfold held_apart at 2 in G2. cbn [snd] in G2. rewrite Rminus_eq_0, Rplus_0_r in G2. unfold apart_on in G2. cbn [fst] in G2. lra.
  - intros r Hr HA. apply (run_own M r Hr cells HC f g (start) HB HA).
Qed.
Fixpoint gain_on (passes : list (list (Z * R * bool))) : R := match passes with [] => 1 | cells :: l => each_gain ^ length cells * gain_on l end.
Fixpoint big_on (passes : list (list (Z * R * bool))) : R := match passes with [] => 1 | cells :: l => each_big ^ length cells * big_on l end.
Lemma gain_on_01 passes : 0 <= gain_on passes <= 1.
Proof.
  induction passes as [|c l IH]; cbn [gain_on]; [lra|]. pose proof (pow_01 each_gain (length c) (pow_01 _ _ (pow_01 _ _ Hgam))). split; [apply Rmult_le_pos; lra|].
  rewrite <- (Rmult_1_l 1). apply Rmult_le_compat; lra.
Qed.
Lemma gain_on_pos passes : 0 < gam -> 0 < gain_on passes.
Proof. intros H. induction passes as [|c l IH]; cbn [gain_on]; [lra|]. apply Rmult_lt_0_compat; [|exact IH]. unfold each_gain. now repeat apply pow_lt. Qed.
Lemma big_on_pos passes : 0 <= big_on passes.
Proof. induction passes as [|c l IH]; cbn [big_on]; [lra|]. apply Rmult_le_pos; [|exact IH]. unfold each_big. do 3 apply pow_le. lra. Qed.
Lemma meet_moved_on M N passes (f g : column) : Forall (good_cells most M) passes -> (M <= N)%nat -> (forall z, 0 <= f z <= g z) ->
  moved_on N (gain_on passes) (big_on passes) f g (meet_all net after phases steps start passes f) (meet_all net after phases steps start passes g).
Proof.
  intros HF HN. unfold meet_all. revert f g. induction passes as [|cells passes IH]; intros f g Hfg; cbn [fold_left gain_on big_on fst].
  - split; [exact Hfg|]. split; [lra|]. split; [intros z; lra|]. intros r Hr HA. split; [exact HA|lra].
  - inversion HF as [|? ? HC HF']; subst. destruct (pass_moved_on M N cells f g HC HN Hfg) as (M1 & M2 & M3 & M4).
    destruct (IH HF' _ _ M1) as (N1 & N2 & N3 & N4). split; [exact N1|]. split; [|split].
    + apply Rle_trans with (1 := N2). rewrite (Rmult_comm (each_big ^ _)), Rmult_assoc. apply Rmult_le_compat_l; [apply big_on_pos|exact M2].
    + intros z. apply Rle_trans with (2 := N3 z). rewrite (Rmult_comm (each_gain ^ _)), Rmult_assoc. apply Rmult_le_compat_l; [apply gain_on_01|apply M3].
    + intros r Hr HA. destruct (M4 r Hr HA) as [P1 P2]. destruct (N4 r Hr P1) as [Q1 Q2]. split; [exact Q1|lra].
Qed.

(** ** As a map of lists *)
Section Lists.
Context (passes : list (list (Z * R * bool))) (M : nat).
Hypothesis Hgood : Forall (good_cells most M) passes.
Notation F := (fun x : list R => map (fun i => meet_all net after phases steps start passes (col_of (map (Rmax 0) x)) (Z.of_nat i)) (seq 0 (length x))).
Lemma meet_steady : steady (gain_on passes) (big_on passes) F.
Proof.
  assert (LL : forall p a, last (F (p ++ [a])) 0 = meet_all net after phases steps start passes (col_of (map (Rmax 0) (p ++ [a]))) (Z.of_nat (length p))).
  { intros p a. cbv beta. rewrite app_length, seq_app, map_app. cbn [length seq map Nat.add]. apply last_last. }
  assert (SC : forall p a, col_of (map (Rmax 0) (p ++ [a])) (Z.of_nat (length p)) = Rmax 0 a).
  { intros p a. rewrite map_app. cbn [map]. rewrite <- (map_length (Rmax 0) p). apply snoc_col. }
  split.
  - intros x. now rewrite map_length, seq_length.
  - intros i x. rewrite firstn_map_seq, firstn_length. apply map_ext_in. intros r Hr. apply in_seq in Hr.
    assert (C : Forall (ReadoutColumnFacts.ordered (Z.of_nat r)) passes).
    { eapply Forall_impl; [|exact Hgood]. intros cells [HS HF]. now apply sorted_cut. }
    assert (A : agree (Z.of_nat r) (col_of (map (Rmax 0) (firstn i x))) (col_of (map (Rmax 0) x))).
    { intros z Hz'. unfold col_of. rewrite <- (firstn_skipn i x) at 2. rewrite map_app, app_nth1; [reflexivity|]. rewrite map_length, firstn_length. lia. }
    pose proof (meet_cut net after phases steps start Hfw (Z.of_nat r) _ C _ _ A (Z.of_nat r) ltac:(lia)) as R1.
    pose proof (meet_cut net after phases steps start Hfw (Z.of_nat r) _ C (col_of (map (Rmax 0) x)) (col_of (map (Rmax 0) x)) (fun z _ => eq_refl) (Z.of_nat r) ltac:(lia)) as R2. congruence.
  - intros y x Hyx. rewrite (ordered_length _ _ Hyx). apply Forall2_map_in. intros i _. apply (meet_moved_on M M passes _ _ Hgood (le_n M) (plus_cols y x Hyx)).
  - intros y x Hyx. set (n := length x). pose proof (ordered_length _ _ Hyx) as HL. fold n in HL.
    destruct (meet_moved_on M (n + M) passes _ _ Hgood ltac:(lia) (plus_cols y x Hyx)) as (M1 & M2 & _). change (sum_on (seq 0 (n + M))) with (total (n + M)) in M2.
    rewrite !(total_cols (n + M)) in M2 by (rewrite map_length; subst n; lia). rewrite HL.
    set (f := meet_all _ _ _ _ _ _ (col_of (map (Rmax 0) y))) in *. set (g := meet_all _ _ _ _ _ _ (col_of (map (Rmax 0) x))) in *.
    change (total n g - total n f <= big_on passes * (Rsum x - Rsum y)). apply Rle_trans with (big_on passes * (Rsum (map (Rmax 0) x) - Rsum (map (Rmax 0) y))).
    + apply Rle_trans with (2 := M2). rewrite !total_minus. apply total_part; [|lia]. intros z. specialize (M1 z). lra.
    + apply Rmult_le_compat_l; [apply big_on_pos|now apply plus_sum].
  - intros p a b Hab. rewrite !LL. destruct (meet_moved_on M M passes _ _ Hgood (le_n M) (plus_cols _ _ (snoc_ordered p a b Hab))) as (_ & _ & _ & M4).
    destruct (M4 (Z.of_nat (length p)) ltac:(lia)) as [_ M5].
    + intros z Hz'. unfold col_of. rewrite !map_app, !app_nth1 by (rewrite map_length; lia). reflexivity.
    + rewrite !SC in M5. apply Rle_trans with (1 := M5). unfold Rmax. destruct (Rle_dec 0 a), (Rle_dec 0 b); lra.
  - intros p a b Hab H0. rewrite !LL. destruct (meet_moved_on M M passes _ _ Hgood (le_n M) (plus_cols _ _ (snoc_ordered p a b Hab))) as (_ & _ & M3 & _).
    specialize (M3 (Z.of_nat (length p))). rewrite !SC, !Rmax_right in M3 by lra. exact M3.
  - intros p b H0. rewrite LL. apply (meet_moved_on M M passes _ _ Hgood (le_n M) (plus_cols _ _ (ordered_refl (p ++ [b])))).
Qed.
End Lists.

(** ** Limits *)
Section Change.
Context (B : Z -> R) (z : Z).
Hypothesis HB : forall d es k row, In (d, es) steps -> In k phases ->
  let e := electrode es k in Forall (fun p => 0 <= snd p) (combine (rp_release e) (rp_fraction e)) /\ reach (combine (rp_release e) (rp_fraction e)) row z <= B row.
Let rho := Rsum (map cap phases).
Notation within := (BoundFacts.within z).
Definition fine (st : column * (nat -> St)) : Prop := (forall i, 0 <= fst st i) /\ forall k, In k phases -> ok k (snd st k).
Lemma net_cap k d m s : In k phases -> 0 < d -> 0 <= m -> ok k s -> Rabs (net k d m s) <= cap k.
Proof.
  intros Hk Hd Hm Hs. pose proof (Hcap k s Hk Hs). pose proof (Hcap k _ Hk (Hok k d m s Hk Hd Hm Hs)) as H1. rewrite Hamount in H1 by assumption. apply Rabs_le. lra.
Qed.
Lemma meet_change row mult dwell es st k : 0 <= mult -> In (dwell, es) steps -> In k phases -> fine st ->
  fine (meet net after row mult dwell es st k) /\ within (mult * B row * cap k) (fst st) (fst (meet net after row mult dwell es st k)).
Proof.
  intros Hm Hin Hk [H1 H2]. destruct st as [c T]. cbn [fst snd] in *. unfold meet.
  destruct (HB dwell es k row Hin Hk) as [Hf Hr]. set (e := electrode es k) in *.
  set (n := if rp_high e then c (row + rp_capture e)%Z else 0). assert (Hn : 0 <= n) by (unfold n; destruct (rp_high e); [apply H1|lra]).
  split; [split; cbn [fst snd]|].
  - apply deposit_nonneg. exact H1.
  - intros k' Hk'. unfold set_phase. destruct (Nat.eqb_spec k' k) as [->|]; [|now apply H2]. apply Hok; auto. now apply (Hsteps dwell es).
  - unfold BoundFacts.within. cbn [fst]. eapply Rle_trans; [apply deposit_change; [exact Hf|exact H1]|]. rewrite Rabs_mult, (Rabs_pos_eq mult Hm).
    pose proof (net_cap k dwell n (T k) Hk (Hsteps _ _ Hin) Hn (H2 k Hk)) as HN. pose proof (Rabs_pos (net k dwell n (T k))).
    assert (0 <= reach (combine (rp_release e) (rp_fraction e)) row z).
    { unfold reach. clear - Hf. induction Hf as [|[d f] l Hf0 Hf IH]; [cbn; lra|]. cbn [map]. rewrite Rsum_cons. cbn [snd] in Hf0. destruct (row + d =? z)%Z; lra. }
    set (N := Rabs (net k dwell n (T k))) in *. set (r := reach _ row z) in *.
    assert (N * r <= cap k * B row) by (apply Rmult_le_compat; assumption). nra.
Qed.
Lemma change_fold {A} (F : column * (nat -> St) -> A -> column * (nat -> St)) (w : A -> R) xs :
  (forall x st, In x xs -> fine st -> fine (F st x) /\ within (w x) (fst st) (fst (F st x))) ->
  forall st, fine st -> fine (fold_left F xs st) /\ within (Rsum (map w xs)) (fst st) (fst (fold_left F xs st)).
Proof.
  induction xs as [|x xs IH]; intros H st Hs; cbn [fold_left map]; [split; [exact Hs|apply within_refl]|]. destruct (H x st (or_introl eq_refl) Hs) as [A1 A2].
  destruct (IH (fun y s Hy => H y s (or_intror Hy)) _ A1) as [A3 A4]. split; [exact A3|]. rewrite Rsum_cons. eapply within_trans; eassumption.
Qed.
Lemma pixel_change row mult st : 0 <= mult -> fine st ->
  fine (meet_pixel net after phases steps row mult st) /\ within (mult * B row * (INR (length steps) * rho)) (fst st) (fst (meet_pixel net after phases steps row mult st)).
Proof.
  intros Hm Hs. unfold meet_pixel.
  destruct (change_fold (fun st '(dwell, es) => fold_left (meet net after row mult dwell es) phases st) (fun _ => mult * B row * rho) steps) with (st := st) as [A1 A2]; [|exact Hs|].
  - intros [d es] s1 Hin H1. destruct (change_fold (meet net after row mult d es) (fun k => mult * B row * cap k) phases) with (st := s1) as [B1 B2]; [|exact H1|].
    + intros k s2 Hk H2. now apply meet_change.
    + split; [exact B1|]. replace (mult * B row * rho) with (Rsum (map (fun k => mult * B row * cap k) phases)); [exact B2|]. unfold rho. clear. generalize phases as l. induction l as [|k l IH]; [cbn; lra|]. cbn [map]. rewrite !Rsum_cons, IH. ring.
  - split; [exact A1|]. replace (mult * B row * (INR (length steps) * rho)) with (Rsum (map (fun _ : R * list (roe_phase R) => mult * B row * rho) steps)); [exact A2|].
    generalize steps as l. induction l as [|x l IH]; [cbn; lra|]. cbn [map length]. rewrite Rsum_cons, IH, S_INR. ring.
Qed.
Lemma meet_all_change passes : Forall (Forall (fun '(_, mult, _) => 0 <= mult)) passes -> forall c : column, (forall i, 0 <= c i) ->
  (forall i, 0 <= meet_all net after phases steps start passes c i) /\ within (Rsum (map (weight B) passes) * (INR (length steps) * rho)) c (meet_all net after phases steps start passes c).
Proof.
  unfold meet_all. induction 1 as [|cells passes Hm H IH]; intros c Hc; cbn [fold_left map]; [split; [exact Hc|cbn; rewrite Rmult_0_l; apply within_refl]|].
  assert (F0 : fine (c, start)) by (split; [exact Hc|exact Hstart]).
  destruct (change_fold run (fun '(row, mult, _) => mult * B row * (INR (length steps) * rho)) cells) with (st := (c, start)) as [A1 A2]; [|exact F0|].
  - intros [[row mult] save] st Hin Hs. unfold run. cbn [fst snd]. rewrite Forall_forall in Hm. specialize (Hm _ Hin). cbn in Hm. now apply pixel_change.
  - rewrite meet_run. destruct (IH _ (proj1 A1)) as [A3 A4]. split; [exact A3|]. rewrite Rsum_cons, Rmult_plus_distr_r. eapply within_trans; [|exact A4].
    replace (weight B cells * (INR (length steps) * rho)) with (Rsum (map (fun '(row, mult, _) => mult * B row * (INR (length steps) * rho)) cells)); [exact A2|].
    unfold weight. clear. induction cells as [|[[row mult] s] l IH]; [cbn; lra|]. cbn [map]. rewrite !Rsum_cons, IH. ring.
Qed.
End Change.
End Ordered.
