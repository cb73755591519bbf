(** * Charge in front shields the charge behind it (C148). *)
From Coq Require Import ZArith List Bool Reals Lra Lia.
From Coquelicot Require Import Rcomplements Rbar Hierarchy RInt.
From Verif Require Import Num Py RFacts CCDModel TrapsModel ManagerModel ROEModel ClockModel MainModel Spec SpecImage SpecReadout SpecHistory SpecRecovery SpecFirst
  InstantFacts OrderFacts TameFacts RecoverFacts DepthFacts AboveFacts RecoverImageFacts ReadoutImage FirstFacts SpecReturn FirstReturnFacts.
Import ListNotations.
Open Scope R_scope.

Lemma depth_even full a : 0 < full -> 0 <= a -> depth full 1 a = Rmin 1 (a / full).
Proof.
  intros Hf Ha. unfold depth. destruct (Rle_dec a 0) as [H|H].
  - replace a with 0 by lra. replace (0 / full) with 0 by (field; lra). rewrite Rmin_right; lra.
  - assert (0 < a / full) by (apply Rdiv_lt_0_compat; lra). apply Rpower_1. unfold Rmin. destruct (Rle_dec 1 (a / full)); lra.
Qed.

Section Shield.
Context (traps : list (trap R)) (full dwell : R).
Hypothesis Hphys : Forall physical traps.
Hypothesis Hd : 0 <= dwell.
Hypothesis Hf : 0 < full.
Let rho := SpecRecovery.traps_per_pixel traps.
Hypothesis Hr : rho <= full.
Let n := length traps.
Notation well := (depth full 1).
Notation past := (past_empty rho full 1).

Lemma rho_pos : 0 <= rho.
Proof. unfold rho. now apply density_nonneg. Qed.
Lemma even_range a : 0 <= well a <= 1.
Proof. apply depth_range; lra. Qed.
Lemma even_reach a : 0 <= a -> rho * well a <= a.
Proof.
  intros Ha. rewrite depth_even by assumption. pose proof rho_pos. pose proof (Rmin_r 1 (a / full)) as M.
  apply Rle_trans with (rho * (a / full)); [now apply Rmult_le_compat_l|]. apply Rle_trans with (full * (a / full)); [|right; field; lra].
  apply Rmult_le_compat_r; [|assumption]. apply Rdiv_le_0_compat; lra.
Qed.
Lemma even_more a b : 0 <= a <= b -> well a <= well b.
Proof.
  intros H. rewrite !depth_even by lra. assert (a / full <= b / full) by (apply Rmult_le_compat_r; [left; apply Rinv_0_lt_compat; lra|lra]). apply Rle_min_compat_l. assumption.
Qed.
Lemma even_sum a b : 0 <= a -> 0 <= b -> well (a + b) <= well a + well b.
Proof.
  intros Ha Hb. rewrite !depth_even by lra. assert (0 <= a / full) by (apply Rdiv_le_0_compat; lra). assert (0 <= b / full) by (apply Rdiv_le_0_compat; lra).
  replace ((a + b) / full) with (a / full + b / full) by (field; lra). unfold Rmin. repeat destruct (Rle_dec _ _); lra.
Qed.
Lemma even_slope a b : 0 <= a <= b -> rho * (well b - well a) <= b - a.
Proof.
  intros H. pose proof (even_sum a (b - a) ltac:(lra) ltac:(lra)) as S. replace (a + (b - a)) with b in S by lra. pose proof (even_reach (b - a) ltac:(lra)). pose proof rho_pos.
  apply Rle_trans with (rho * well (b - a)); [apply Rmult_le_compat_l; lra|assumption].
Qed.
Lemma past_even a : 0 <= a -> past a = a - rho * well a.
Proof. intros Ha. unfold past_empty. rewrite Rmin_right; [reflexivity|now apply even_reach]. Qed.

(** What one pixel leaves of a cloud. *)
Lemma demand_even c P : 0 <= c -> tidy n P -> demand traps (well c) P <= c.
Proof.
  intros Hc HP. rewrite (demand_value traps P (well c) HP (even_range c)). fold rho. pose proof (electrons_nonneg traps Hphys P 0 (well c) HP ltac:(pose proof (even_range c); lra) (proj2 (even_range c))). pose proof (even_reach c Hc). lra.
Qed.
Lemma left_even m P : tidy n P -> let c := cloud traps dwell m P in
  left_over traps well dwell m P = c - rho * well c + electrons traps (after_release traps dwell P) 0 (well c) /\ 0 <= left_over traps well dwell m P /\ tidy n (then_traps traps well dwell m P).
Proof.
  intros HP c. assert (Hc : 0 <= c) by apply Rmax_l. assert (T : tidy n (after_release traps dwell P)) by (now apply tidy_release). pose proof (demand_even c _ Hc T) as D.
  unfold left_over, then_traps. fold c. unfold captured. rewrite Rmin_right by exact D. split; [|split].
  - rewrite (demand_value traps _ (well c) T (even_range c)). fold rho. lra.
  - lra.
  - unfold after_capture. destruct (Rle_dec _ c); [|contradiction]. exact (tidy_fill traps (well c) _ (even_range c) T).
Qed.
Lemma left_shield m m1 x P : tidy n P -> 0 <= m1 -> 0 <= x -> m1 + x <= m ->
  left_over traps well dwell m1 P + past x <= left_over traps well dwell m P.
Proof.
  intros HP H1 Hx Hm. destruct (left_even m P HP) as (-> & _ & _). destruct (left_even m1 P HP) as (-> & _ & _). rewrite past_even by assumption.
  pose proof (released_nonneg traps dwell Hphys Hd P HP) as R0. unfold cloud. rewrite !Rmax_right by lra. set (r := released traps dwell P) in *.
  assert (T : tidy n (after_release traps dwell P)) by (now apply tidy_release).
  pose proof (even_more (m1 + r) (m + r) ltac:(lra)) as M. pose proof (even_range (m1 + r)). pose proof (even_range (m + r)).
  assert (E : electrons traps (after_release traps dwell P) 0 (well (m1 + r)) <= electrons traps (after_release traps dwell P) 0 (well (m + r))).
  { rewrite (electrons_chasles traps _ 0 (well (m1 + r)) (well (m + r))) by (apply tidy_integrable; auto; lra).
    pose proof (electrons_nonneg traps Hphys (after_release traps dwell P) (well (m1 + r)) (well (m + r)) T ltac:(lra) ltac:(lra)). lra. }
  pose proof (even_slope (m1 + r + x) (m + r) ltac:(lra)). pose proof (even_sum (m1 + r) x ltac:(lra) Hx) as S. pose proof rho_pos.
  assert (rho * well (m1 + r + x) <= rho * (well (m1 + r) + well x)) by (now apply Rmult_le_compat_l). lra.
Qed.

(** The columns [l] and [l1] agree before row [k], where [l] has [x] electrons more. *)
Definition ahead (k : nat) (x : R) (l l1 : list R) : Prop :=
  (k < length l)%nat /\ (k < length l1)%nat /\ firstn k l = firstn k l1 /\ 0 <= nth k l1 0 /\ 0 <= x /\ nth k l1 0 + x <= nth k l 0.
Lemma ahead_past : forall k x l l1 P, tidy n P -> ahead k x l l1 -> ahead k (past x) (past_clouds traps well dwell P l) (past_clouds traps well dwell P l1).
Proof.
  induction k as [|k IH]; intros x l l1 P HP (L & L1 & E & N & X & S); (destruct l as [|a l]; [cbn in L; lia|]); (destruct l1 as [|b l1]; [cbn in L1; lia|]); cbn [past_clouds].
  - cbn [nth firstn length] in *. split; [cbn; lia|]. split; [cbn; lia|]. split; [reflexivity|]. cbn [nth]. split; [apply left_even, HP|]. split; [apply past_nonneg|]. now apply left_shield.
  - cbn [nth firstn length] in *. injection E as -> E. destruct (IH x l l1 (then_traps traps well dwell b P)) as (K1 & K2 & K3 & K4 & K5 & K6); [apply left_even, HP|repeat split; (assumption || lia)|].
    split; [cbn; lia|]. split; [cbn; lia|]. split; [cbn; f_equal; exact K3|]. auto.
Qed.
Lemma ahead_through k : forall offset x l l1, ahead k x l l1 -> ahead k (past_pixels rho full 1 offset x) (through_clouds traps well dwell offset l) (through_clouds traps well dwell offset l1).
Proof.
  induction offset as [|o IH]; intros x l l1 H; cbn [through_clouds past_pixels]; [exact H|]. apply IH, ahead_past; [apply tidy_empty|exact H].
Qed.
Lemma ahead_read : forall k x l l1 rows rows1, ahead k x l l1 -> (k < rows)%nat -> (k < rows1)%nat ->
  0 <= nth k (read_clouds traps well dwell rows1 l1) 0 /\ nth k (read_clouds traps well dwell rows1 l1) 0 + past_pixels rho full 1 (S k) x <= nth k (read_clouds traps well dwell rows l) 0.
Proof.
  induction k as [|k IH]; intros x l l1 [|rows] [|rows1] H Hk Hk1; try lia; cbn [read_clouds];
    apply (ahead_past _ _ _ _ empty_profile (tidy_empty traps)) in H; destruct H as (L & L1 & E & N & X & S);
    destruct (past_clouds traps well dwell empty_profile l) as [|a m]; [cbn in L; lia| |cbn in L; lia|]; destruct (past_clouds traps well dwell empty_profile l1) as [|b m1]; [cbn in L1; lia| |cbn in L1; lia|].
  - cbn [nth past_pixels] in *. split; [exact N|exact S].
  - cbn [nth firstn length] in *. injection E as _ E. change (past_pixels rho full 1 (Datatypes.S (Datatypes.S k)) x) with (past_pixels rho full 1 (Datatypes.S k) (past x)). apply IH; [|lia|lia]. repeat split; (assumption || lia).
Qed.
Lemma ahead_column k x l l1 offset : ahead k x l l1 ->
  0 <= nth k (column_clouds traps well dwell offset l1) 0 /\ nth k (column_clouds traps well dwell offset l1) 0 + past_pixels rho full 1 (k + 1 + offset) x <= nth k (column_clouds traps well dwell offset l) 0.
Proof.
  intros H. pose proof (ahead_through k offset x l l1 H) as T. unfold column_clouds.
  replace (k + 1 + offset)%nat with (offset + Datatypes.S k)%nat by lia. unfold rho. rewrite past_pixels_add. fold rho. destruct H as (L & L1 & _). apply ahead_read; assumption.
Qed.
End Shield.

(** ** A lower bound in wells of any power *)
Section Keep.
Context (traps : list (trap R)) (full beta dwell : R).
Hypothesis Hphys : Forall physical traps.
Hypothesis Hd : 0 <= dwell.
Hypothesis Hf : 0 < full.
Hypothesis Hb : 0 < beta.
Let rho := SpecRecovery.traps_per_pixel traps.
Hypothesis Ho : orderly rho full beta.
Let n := length traps.
Notation well := (depth full beta).
Notation past := (past_empty rho full beta).

Lemma tidy_level (q : nat -> R) v P : 0 <= v <= 1 -> (forall s, (s < n)%nat -> 0 < v -> 0 <= q s <= 1) -> tidy n P -> tidy n (fun s x => if Rlt_dec x v then q s else P s x).
Proof.
  intros Hv Hq H s Hs. destruct (H s Hs) as [H1 H2]. split.
  - intros x Hx. destruct (Rlt_dec x v); [apply Hq; [exact Hs|lra]|auto].
  - assert (L : forall a b, a <= b -> b <= v -> ex_RInt (fun x => if Rlt_dec x v then q s else P s x) a b).
    { intros a b Hab Hbv. apply (ex_RInt_ext (fun _ => q s)).
      - intros x Hx. rewrite Rmin_left, Rmax_right in Hx by lra. destruct (Rlt_dec x v); lra.
      - apply (ex_RInt_const (V := R_NormedModule)). }
    assert (U : forall a b, 0 <= a <= b -> b <= 1 -> v <= a -> ex_RInt (fun x => if Rlt_dec x v then q s else P s x) a b).
    { intros a b Ha Hb1 Hva. apply (ex_RInt_ext (P s)).
      - intros x Hx. rewrite Rmin_left, Rmax_right in Hx by lra. destruct (Rlt_dec x v); lra.
      - apply H2; auto. }
    intros a b Ha Hb1. destruct (Rle_dec b v); [apply L; lra|]. destruct (Rle_dec v a); [apply U; lra|].
    apply (ex_RInt_Chasles (V := R_NormedModule) _ a v b); [apply L|apply U]; lra.
Qed.
Lemma tidy_capture m v P : 0 <= m -> 0 <= v <= 1 -> tidy n P -> tidy n (after_capture traps m v P).
Proof.
  intros Hm Hv H. unfold after_capture. destruct (Rle_dec (demand traps v P) m) as [D|D].
  - apply (tidy_level (fun _ => 1)); auto. intros; lra.
  - apply (tidy_level (fun s => m / demand traps v P + (1 - m / demand traps v P) * (RInt (P s) 0 v / v))); auto.
    intros s Hs Hv0. set (e := m / demand traps v P). assert (He : 0 <= e <= 1) by (unfold e; split; [apply Rdiv_le_0_compat; lra|apply Rle_div_l; lra]).
    destruct (H s Hs) as [H1 H2].
    assert (I : 0 <= RInt (P s) 0 v <= v).
    { split.
      - apply RInt_ge_0; [lra|apply H2; lra|]. intros x Hx. apply H1. lra.
      - replace v with (RInt (fun _ => 1) 0 v) at 2 by (rewrite RInt_const; change (scal (v - 0) 1) with ((v - 0) * 1); lra).
        apply RInt_le; [lra|apply H2; lra|apply (ex_RInt_const (V := R_NormedModule))|]. intros x Hx. apply H1. lra. }
    assert (0 <= RInt (P s) 0 v / v <= 1) by (split; [apply Rdiv_le_0_compat; lra|apply Rle_div_l; lra]). nra.
Qed.
Lemma keep_range' a : 0 <= well a <= 1. Proof. now apply depth_range. Qed.
Lemma left_keep m x P : tidy n P -> 0 <= x <= m -> past x <= left_over traps well dwell m P.
Proof.
  intros HP Hx. pose proof (released_nonneg traps dwell Hphys Hd P HP) as R0. unfold left_over. set (c := cloud traps dwell m P). assert (Hc : x <= c) by (unfold c, cloud; rewrite Rmax_right; lra).
  assert (T : tidy n (after_release traps dwell P)) by (now apply tidy_release).
  apply Rle_trans with (past c); [apply past_order; auto; [unfold rho; now apply density_nonneg|lra]|]. unfold past_empty, captured.
  enough (Rmin c (demand traps (well c) (after_release traps dwell P)) <= Rmin c (rho * well c)) by lra. apply Rle_min_compat_l.
  rewrite (demand_value traps _ (well c) T (keep_range' c)). fold rho. pose proof (electrons_nonneg traps Hphys _ 0 (well c) T ltac:(pose proof (keep_range' c); lra) (proj2 (keep_range' c))). lra.
Qed.
Lemma then_keep m P : tidy n P -> tidy n (then_traps traps well dwell m P).
Proof. intros HP. apply tidy_capture; [apply Rmax_l|apply keep_range'|now apply tidy_release]. Qed.

(** Row [k] holds at least [x] electrons. *)
Definition holds (k : nat) (x : R) (l : list R) : Prop := (k < length l)%nat /\ 0 <= x <= nth k l 0.
Lemma holds_past : forall k x l P, tidy n P -> holds k x l -> holds k (past x) (past_clouds traps well dwell P l).
Proof.
  induction k as [|k IH]; intros x l P HP [L X]; (destruct l as [|a l]; [cbn in L; lia|]); cbn [past_clouds nth length] in *.
  - split; [cbn; lia|]. cbn [nth]. split; [apply past_nonneg|]. apply left_keep; assumption.
  - destruct (IH x l (then_traps traps well dwell a P)) as (K1 & K2); [now apply then_keep|split; [lia|exact X]|]. split; [cbn; lia|exact K2].
Qed.
Lemma holds_through k : forall offset x l, holds k x l -> holds k (past_pixels rho full beta offset x) (through_clouds traps well dwell offset l).
Proof. induction offset as [|o IH]; intros x l H; cbn [through_clouds past_pixels]; [exact H|]. apply IH, holds_past; [apply tidy_empty|exact H]. Qed.
Lemma holds_read : forall k x l rows, holds k x l -> (k < rows)%nat -> past_pixels rho full beta (S k) x <= nth k (read_clouds traps well dwell rows l) 0.
Proof.
  induction k as [|k IH]; intros x l [|rows] H Hk; try lia; cbn [read_clouds];
    apply (holds_past _ _ _ empty_profile (tidy_empty traps)) in H; destruct H as (L & X);
    destruct (past_clouds traps well dwell empty_profile l) as [|a m]; [cbn in L; lia| |cbn in L; lia|].
  - cbn [nth past_pixels] in *. apply X.
  - cbn [nth length] in *. change (past_pixels rho full beta (S (S k)) x) with (past_pixels rho full beta (S k) (past x)). apply IH; [|lia]. split; [lia|exact X].
Qed.
Lemma holds_column k x l offset : holds k x l -> past_pixels rho full beta (k + 1 + offset) x <= nth k (column_clouds traps well dwell offset l) 0.
Proof.
  intros H. pose proof (holds_through k offset x l H) as T. unfold column_clouds.
  replace (k + 1 + offset)%nat with (offset + S k)%nat by lia. unfold rho. rewrite past_pixels_add. fold rho. destruct H as (L & _). apply holds_read; assumption.
Qed.
End Keep.
