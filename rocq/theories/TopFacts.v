(** * No readout in a single step makes a pixel brighter than the brightest one. *)
From Coq Require Import ZArith List Bool Reals Lra Lia Sorted.
From Coquelicot Require Import Rcomplements Rbar Hierarchy RInt.
From Verif Require Import Num Py RFacts CCDModel TrapsModel ManagerModel ROEModel ClockModel Spec SpecReadout SpecColumn SpecRecovery SpecMeet WmFacts OrderFacts ReadoutSpecFacts TameFacts MeetFacts.
Import ListNotations.
Open Scope R_scope.

(** ** Any traps *)
Section Top.
Context {St : Type} (net : nat -> R -> R -> St -> R) (after : nat -> R -> R -> St -> St) (phases : list nat) (steps : list (R * list (roe_phase R))) (start : nat -> St).
Context (under : nat -> St -> Prop) (top most : R).
Hypothesis Hstart : forall k, In k phases -> under k (start k).
Hypothesis Hafter : forall k d es m s, In k phases -> In (d, es) steps -> 0 <= m <= top -> under k s -> under k (after k d m s).
Hypothesis Hnet : forall k d es m mult s, In k phases -> In (d, es) steps -> 0 <= m <= top -> 0 <= mult <= most -> under k s -> m + net k d m s * mult <= top.
Hypothesis Hown : forall d es k, In (d, es) steps -> In k phases -> let e := electrode es k in
  rp_high e = true /\ rp_capture e = 0%Z /\ combine (rp_release e) (rp_fraction e) = [(0%Z, 1)].
Definition dim (st : column * (nat -> St)) : Prop := (forall z, 0 <= fst st z <= top) /\ forall k, In k phases -> under k (snd st k).
Lemma meet_dim row mult d es st k : 0 <= mult <= most -> In (d, es) steps -> In k phases -> dim st -> dim (meet net after row mult d es st k).
Proof.
  intros Hm Hin Hk [H1 H2]. destruct st as [f T]. cbn [fst snd] in *. unfold meet. destruct (Hown d es k Hin Hk) as (E1 & E2 & E3). rewrite E1, E2, E3, Z.add_0_r. split; cbn [fst snd].
  - intros z. unfold deposit. cbn [fold_left]. unfold give. rewrite Z.add_0_r, Rmult_1_r. destruct (Z.eqb_spec z row) as [->|]; [|apply H1]. split; [apply Rmax_l|].
    apply Rmax_lub; [specialize (H1 row); lra|]. apply (Hnet k d es); auto.
  - intros k' Hk'. unfold set_phase. destruct (Nat.eqb_spec k' k) as [->|]; [|now apply H2]. apply (Hafter k d es); auto.
Qed.
Lemma dim_fold {A} (F : column * (nat -> St) -> A -> column * (nat -> St)) : forall xs, (forall x st, In x xs -> dim st -> dim (F st x)) -> forall st, dim st -> dim (fold_left F xs st).
Proof. induction xs as [|x xs IH]; intros H st Hd; cbn [fold_left]; [exact Hd|]. apply IH; [intros y s Hy; apply H; now right|]. apply H; [now left|exact Hd]. Qed.
Lemma cells_dim cells : Forall (fun '(_, mult, _) => 0 <= mult <= most) cells -> forall st, dim st -> dim (meet_cells net after phases steps cells st).
Proof.
  intros HF. unfold meet_cells. apply (dim_fold (fun st '(row, mult, _) => meet_pixel net after phases steps row mult st)). intros [[row mult] b] st Hin. rewrite Forall_forall in HF. specialize (HF _ Hin). cbn beta iota in HF.
  unfold meet_pixel. apply (dim_fold (fun st '(dwell, es) => fold_left (meet net after row mult dwell es) phases st)). intros [d es] st' Hs. apply (dim_fold (meet net after row mult d es)). intros k st'' Hk. now apply meet_dim.
Qed.
Lemma meet_top passes : Forall (Forall (fun '(_, mult, _) => 0 <= mult <= most)) passes -> forall f : column, (forall z, 0 <= f z <= top) ->
  forall z, 0 <= meet_all net after phases steps start passes f z <= top.
Proof.
  unfold meet_all. induction 1 as [|cells passes HC HP IH]; intros f Hf; cbn [fold_left]; [exact Hf|]. apply IH. apply (cells_dim cells HC (f, start)). split; [exact Hf|exact Hstart].
Qed.
End Top.

(** ** Traps that respond in order: their state is never beyond that of traps that met [top] electrons as often *)
Section Ordered.
Context {St : Type} (net : nat -> R -> R -> St -> R) (after : nat -> R -> R -> St -> St) (phases : list nat) (steps : list (R * list (roe_phase R))) (start : nat -> St).
Context (ok : nat -> St -> Prop) (le : nat -> St -> St -> Prop) (amount : nat -> St -> R) (kap : nat -> R) (dwell top most : R).
Hypothesis Hstart : forall k, In k phases -> ok k (start k).
Hypothesis Hmin : forall k s, In k phases -> ok k s -> le k (start k) s.
Hypothesis Hok : forall k m s, In k phases -> 0 <= m -> ok k s -> ok k (after k dwell m s).
Hypothesis Hle : forall k m m' s s', In k phases -> 0 <= m' <= m -> ok k s' -> ok k s -> le k s' s -> le k (after k dwell m' s') (after k dwell m s).
Hypothesis Horder : forall k m m' s s', In k phases -> 0 <= m' <= m -> ok k s' -> ok k s -> le k s' s -> - (kap k * (m - m')) <= net k dwell m s - net k dwell m' s'.
Hypothesis Hamount : forall k m s, In k phases -> 0 <= m -> ok k s -> amount k (after k dwell m s) = amount k s - net k dwell m s.
Hypothesis Hmore : forall k s s', In k phases -> ok k s' -> ok k s -> le k s' s -> amount k s' <= amount k s.
Hypothesis Hgain : forall k, In k phases -> most * kap k <= 1.
Hypothesis Hkap : forall k, In k phases -> 0 <= kap k.
Hypothesis Hdwell : forall d es, In (d, es) steps -> d = dwell.
Hypothesis Htop : 0 <= top.
Hypothesis Hown : forall d es k, In (d, es) steps -> In k phases -> let e := electrode es k in
  rp_high e = true /\ rp_capture e = 0%Z /\ combine (rp_release e) (rp_fraction e) = [(0%Z, 1)].
Fixpoint lit (k j : nat) : St := match j with O => start k | S j => after k dwell top (lit k j) end.
Lemma lit_ok k j : In k phases -> ok k (lit k j).
Proof. intros Hk. induction j as [|j IH]; [now apply Hstart|]. now apply Hok. Qed.
Lemma lit_le k j : In k phases -> le k (lit k j) (lit k (S j)).
Proof. intros Hk. induction j as [|j IH]; [apply Hmin; [exact Hk|]; now apply (lit_ok k 1)|]. cbn [lit]. apply Hle; [exact Hk|lra|now apply lit_ok|now apply (lit_ok k (S j))|exact IH]. Qed.
Lemma lit_net k j : In k phases -> net k dwell top (lit k j) <= 0.
Proof. intros Hk. pose proof (Hmore k _ _ Hk (lit_ok k j Hk) (lit_ok k (S j) Hk) (lit_le k j Hk)) as H. cbn [lit] in H. rewrite (Hamount k top (lit k j) Hk Htop (lit_ok k j Hk)) in H. lra. Qed.
Lemma ordered_top passes : Forall (Forall (fun '(_, mult, _) => 0 <= mult <= most)) passes -> forall f : column, (forall z, 0 <= f z <= top) ->
  forall z, 0 <= meet_all net after phases steps start passes f z <= top.
Proof.
  apply (meet_top net after phases steps start (fun k s => ok k s /\ exists j, le k s (lit k j)) top most); [| | |exact Hown].
  - intros k Hk. split; [now apply Hstart|]. exists 0%nat. apply Hmin; [exact Hk|now apply Hstart].
  - intros k d es m s Hk Hin Hm (H1 & j & H2). rewrite (Hdwell d es Hin). split; [apply Hok; [exact Hk|lra|exact H1]|]. exists (S j). cbn [lit]. apply Hle; auto. now apply lit_ok.
  - intros k d es m mult s Hk Hin Hm Hmu (H1 & j & H2). rewrite (Hdwell d es Hin). pose proof (Horder k top m (lit k j) s Hk Hm H1 (lit_ok k j Hk) H2) as O. pose proof (lit_net k j Hk) as L.
    assert (B : net k dwell m s <= kap k * (top - m)) by lra. pose proof (Rmult_le_compat_r mult _ _ (proj1 Hmu) B) as B'. pose proof (Hkap k Hk) as K0. pose proof (Hgain k Hk) as K1.
    assert (B2 : mult * kap k <= 1) by (eapply Rle_trans; [apply Rmult_le_compat_r; [exact K0|exact (proj2 Hmu)]|exact K1]).
    assert (B3 : mult * kap k * (top - m) <= 1 * (top - m)) by (apply Rmult_le_compat_r; lra). lra.
Qed.
End Ordered.

(** ** Instant traps, whatever their number *)
Section Instant.
Context (traps : list (trap R)) (dwell : R) (well : R -> R) (top : R).
Hypothesis Hphys : Forall physical traps.
Hypothesis Hdwell : 0 <= dwell.
Hypothesis Hwell : forall a, 0 <= well a <= 1.
Hypothesis Hgrows : forall a b, 0 <= a <= b -> well a <= well b.
Hypothesis Htop : 0 <= top.
Let n := length traps.
Notation rel P := (after_release traps dwell P).
Notation total P := (electrons traps P 0 1).
(** Traps filled to a depth, and what they release. *)
Definition up_to (v : R) : profile := fill_to v empty_profile.
Lemma up_to_tidy v : 0 <= v <= 1 -> tidy n (up_to v).
Proof. intros Hv. apply (tidy_fill traps v _ Hv). apply tidy_empty. Qed.
Let I P : tidy n P -> integrable traps P 0 1.
Proof. intros H. apply tidy_integrable; [exact H|lra|lra]. Qed.
Lemma wants_back v P : 0 <= v <= 1 -> tidy n P -> (forall s x, (s < n)%nat -> v <= x < 1 -> P s x = 0) -> released traps dwell P <= demand traps v (rel P).
Proof.
  intros Hv HP H0. pose proof (fill_total traps v (rel P) Hv (tidy_release traps dwell Hphys Hdwell P HP)) as E.
  assert (total P <= total (fill_to v (rel P))).
  { apply electrons_le; [exact Hphys|lra|now apply I|apply I, tidy_fill; [exact Hv|now apply tidy_release]|]. intros s x Hs Hx. unfold fill_to. destruct (Rlt_dec x v) as [L|L]; [apply (HP s Hs); lra|].
    rewrite (H0 s x Hs) by lra. apply (tidy_release traps dwell Hphys Hdwell P HP s Hs). lra. }
  unfold released. lra.
Qed.
Lemma wants_more v P : 0 <= v <= 1 -> tidy n P -> released traps dwell (up_to v) <= demand traps v (rel P).
Proof.
  intros Hv HP. eapply Rle_trans; [apply (wants_back v (up_to v) Hv (up_to_tidy v Hv))|].
  - intros s x Hs Hx. unfold up_to, fill_to. destruct (Rlt_dec x v); [lra|reflexivity].
  - rewrite !(demand_value traps) by (auto using tidy_release, up_to_tidy). apply Rplus_le_compat_l, Ropp_le_contravar.
    apply electrons_le; [exact Hphys|lra|apply tidy_integrable; [now apply tidy_release|lra|lra]|apply tidy_integrable; [apply tidy_release; auto using up_to_tidy|lra|lra]|].
    intros s x Hs Hx. unfold after_release, up_to, fill_to. destruct (Rlt_dec x v); [|lra]. pose proof (keep_range traps dwell Hphys Hdwell s) as K. destruct (HP s Hs) as [HP1 _]. specialize (HP1 x ltac:(lra)).
    apply Rmult_le_compat_r; lra.
Qed.
Definition limited (P : profile) : Prop := tidy n P /\ exists lam, top <= lam /\ (forall s x, (s < n)%nat -> well lam <= x < 1 -> P s x = 0) /\
  forall a, top <= a <= lam -> a - top <= released traps dwell (up_to (well a)).
Lemma limited_start : limited empty_profile.
Proof.
  split; [apply tidy_empty|]. exists top. split; [lra|]. split; [reflexivity|]. intros a Ha. replace a with top by lra. rewrite Rminus_diag_eq by reflexivity. apply released_nonneg; auto. now apply up_to_tidy.
Qed.
Section Meet.
Context (m : R) (P : profile).
Hypothesis Hm : 0 <= m <= top.
Hypothesis HP : limited P.
Let r := released traps dwell P.
Let a := m + r.
Let Hr : 0 <= r.
Proof. apply released_nonneg; auto. apply HP. Qed.
Lemma limited_net : m + transfer_net traps well dwell m P <= top.
Proof.
  destruct HP as [HT (lam & L1 & L2 & L3)]. unfold transfer_net. fold r. fold a. unfold captured.
  destruct (Rle_dec a (demand traps (well a) (rel P))) as [D|D]; [rewrite Rmin_left by exact D; unfold a in *; lra|]. rewrite Rmin_right by lra.
  assert (a - demand traps (well a) (rel P) <= top); [|unfold a in *; lra].
  pose proof (demand_bounds traps Hphys (well a) (rel P) (Hwell a) (tidy_release traps dwell Hphys Hdwell P HT)) as DB.
  destruct (Rle_dec a top) as [C1|C1]; [lra|]. destruct (Rle_dec a lam) as [C2|C2].
  - specialize (L3 a ltac:(lra)). pose proof (wants_more (well a) P (Hwell a) HT). lra.
  - assert (W : r <= demand traps (well a) (rel P)); [|unfold a in *; lra]. apply wants_back; [apply Hwell|exact HT|]. intros s x Hs Hx. apply L2; [exact Hs|]. pose proof (Hgrows lam a ltac:(lra)). lra.
Qed.
Lemma limited_after : limited (transfer_after traps well dwell m P).
Proof.
  destruct HP as [HT (lam & L1 & L2 & L3)]. unfold transfer_after. fold r. fold a. pose proof (tidy_release traps dwell Hphys Hdwell P HT) as HTr. pose proof (Hwell a) as Hv. set (v := well a) in *.
  assert (Ha : 0 <= a) by (unfold a; lra).
  split.
  - intros s Hs. unfold after_capture. destruct (HTr s Hs) as [T1 T2]. destruct (Rle_dec (demand traps v (rel P)) a) as [D|D].
    + exact (tidy_fill traps v (rel P) Hv HTr s Hs).
    + set (cst := a / demand traps v (rel P) + (1 - a / demand traps v (rel P)) * (RInt (rel P s) 0 v / v)).
      assert (C : 0 <= v -> 0 < v -> 0 <= cst <= 1).
      { intros _ V. assert (E : 0 <= a / demand traps v (rel P) <= 1).
        { split; [apply Rmult_le_pos; [exact Ha|left; apply Rinv_0_lt_compat; lra]|]. apply (Rmult_le_reg_r (demand traps v (rel P))); [lra|]. unfold Rdiv. rewrite Rmult_assoc, Rinv_l by lra. lra. }
        assert (Q : 0 <= RInt (rel P s) 0 v / v <= 1).
        { pose proof (T2 0 v ltac:(lra) ltac:(lra)) as EX. assert (B0 : 0 <= RInt (rel P s) 0 v) by (apply RInt_ge_0; [lra|exact EX|intros x Hx; apply T1; lra]).
          assert (B1 : RInt (rel P s) 0 v <= v).
          { replace v with (RInt (fun _ => 1) 0 v) at 2 by (rewrite RInt_const; unfold scal; cbn; unfold mult; cbn; lra). apply RInt_le; [lra|exact EX|apply (ex_RInt_const (V := R_NormedModule))|intros x Hx; apply T1; lra]. }
          split; [apply Rmult_le_pos; [exact B0|left; now apply Rinv_0_lt_compat]|]. apply (Rmult_le_reg_r v); [exact V|]. unfold Rdiv. rewrite Rmult_assoc, Rinv_l by lra. lra. }
        unfold cst. split; [apply Rplus_le_le_0_compat; [lra|apply Rmult_le_pos; lra]|]. assert ((1 - a / demand traps v (rel P)) * (RInt (rel P s) 0 v / v) <= (1 - a / demand traps v (rel P)) * 1) by (apply Rmult_le_compat_l; lra). lra. }
      split.
      * intros x Hx. destruct (Rlt_dec x v); [apply C; lra|now apply T1].
      * assert (L : forall p q, p <= q -> q <= v -> ex_RInt (fun x => if Rlt_dec x v then cst else rel P s x) p q).
        { intros p q Hpq Hq. apply (ex_RInt_ext (fun _ => cst)); [|apply (ex_RInt_const (V := R_NormedModule))]. intros x Hx. rewrite Rmin_left, Rmax_right in Hx by lra. destruct (Rlt_dec x v); [reflexivity|lra]. }
        assert (U : forall p q, 0 <= p <= q -> q <= 1 -> v <= p -> ex_RInt (fun x => if Rlt_dec x v then cst else rel P s x) p q).
        { intros p q Hpq Hq Hvp. apply (ex_RInt_ext (rel P s)); [|now apply T2]. intros x Hx. rewrite Rmin_left, Rmax_right in Hx by lra. destruct (Rlt_dec x v); [lra|reflexivity]. }
        intros p q Hp Hq. destruct (Rle_dec q v); [apply L; lra|]. destruct (Rle_dec v p); [apply U; lra|]. apply (ex_RInt_Chasles (V := R_NormedModule) _ p v q); [apply L|apply U]; lra.
  - assert (Z : forall w s x, v <= w -> well lam <= w -> (s < n)%nat -> w <= x < 1 -> after_capture traps a v (rel P) s x = 0).
    { intros w s x W1 W2 Hs Hx. unfold after_capture. destruct (Rlt_dec x v); [lra|]. unfold after_release. rewrite (L2 s x Hs) by lra. lra. }
    destruct (Rle_dec a lam) as [C|C].
    + exists lam. split; [exact L1|]. split; [|exact L3]. intros s x Hs Hx. apply (Z (well lam)); auto; [apply Hgrows; lra|lra].
    + exists a. split; [lra|]. split; [intros s x Hs Hx; apply (Z v); auto; [lra|apply Hgrows; lra]|].
      intros b Hb. destruct (Rle_dec b lam) as [B|B]; [apply L3; lra|].
      assert (R1 : r <= released traps dwell (up_to (well lam))).
      { apply released_order; auto; [now apply up_to_tidy|]. intros s x Hs Hx. unfold up_to, fill_to. destruct (Rlt_dec x (well lam)); [now apply (HT s Hs)|]. rewrite (L2 s x Hs) by lra. unfold empty_profile. lra. }
      assert (R2 : released traps dwell (up_to (well lam)) <= released traps dwell (up_to (well b))).
      { apply released_order; auto; try now apply up_to_tidy. apply fill_order; [apply Hgrows; lra|apply tidy_empty|apply below_refl]. }
      unfold a in Hb. lra.
Qed.
End Meet.
End Instant.
