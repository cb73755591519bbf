(** * Correction by a steady map brings lists together, at a rate that does not depend on them. *)
From Coq Require Import ZArith List Bool Reals Lra Lia.
From Coquelicot Require Import Rcomplements.
From Verif Require Import Num Py RFacts CCDModel TrapsModel ManagerModel ROEModel ClockModel MainModel Spec SpecImage SpecReadout SpecColumn SpecRecovery WmFacts ClockFacts MainFacts OrderFacts TameFacts MainReadoutFacts RecoverImageFacts PhaseOrderFacts LiftFacts SteadyFacts.
Import ListNotations.
Open Scope R_scope.

(** The total difference of two lists, each place worth [e] times the one before. *)
Fixpoint worth (e w : R) (x y : list R) : R :=
  match x, y with a :: x', b :: y' => w * Rabs (a - b) + worth e (w * e) x' y' | _, _ => 0 end.
Lemma worth_snoc e : forall x y w a b, length x = length y -> worth e w (x ++ [a]) (y ++ [b]) = worth e w x y + w * e ^ length x * Rabs (a - b).
Proof.
  induction x as [|c x IH]; intros [|d y] w a b E; try discriminate; cbn [app worth length pow]; [ring|]. injection E as E. rewrite IH by exact E. ring.
Qed.
Lemma worth_apart e : 0 <= e <= 1 -> forall x y w, 0 <= w -> length x = length y -> worth e w x y <= w * apart x y.
Proof.
  intros He. induction x as [|a x IH]; intros [|b y] w Hw E; try discriminate; cbn [worth apart]; [lra|]. injection E as E.
  assert (W : 0 <= w * e <= w) by (split; [apply Rmult_le_pos; lra|rewrite <- (Rmult_1_r w) at 2; apply Rmult_le_compat_l; lra]).
  specialize (IH y (w * e) ltac:(lra) E). pose proof (apart_nonneg x y). assert (w * e * apart x y <= w * apart x y) by (apply Rmult_le_compat_r; lra). lra.
Qed.
Lemma apart_worth e : 0 < e <= 1 -> forall x y w, 0 <= w -> length x = length y -> w * e ^ length x * apart x y <= worth e w x y.
Proof.
  intros He. induction x as [|a x IH]; intros [|b y] w Hw E; try discriminate; cbn [worth apart length pow]; [lra|]. injection E as E.
  assert (W : 0 <= w * e <= w) by (split; [apply Rmult_le_pos; lra|rewrite <- (Rmult_1_r w) at 2; apply Rmult_le_compat_l; lra]).
  specialize (IH y (w * e) ltac:(lra) E). assert (K : 0 <= e ^ length x <= 1) by (split; [apply pow_le; lra|]; clear - He; induction (length x) as [|n IHn]; cbn; [lra|]; rewrite <- (Rmult_1_l 1); apply Rmult_le_compat; try lra; apply pow_le; lra).
  assert (w * (e * e ^ length x) * Rabs (a - b) <= w * Rabs (a - b)).
  { apply Rmult_le_compat_r; [apply Rabs_pos|]. rewrite <- (Rmult_1_r w) at 2. apply Rmult_le_compat_l; [exact Hw|]. rewrite <- (Rmult_1_l 1). apply Rmult_le_compat; lra. }
  replace (w * (e * e ^ length x) * (Rabs (a - b) + apart x y)) with (w * (e * e ^ length x) * Rabs (a - b) + w * e * e ^ length x * apart x y) by ring. lra.
Qed.
Lemma worth_nonneg e : 0 <= e -> forall x y w, 0 <= w -> 0 <= worth e w x y.
Proof.
  intros He. induction x as [|a x IH]; intros [|b y] w Hw; cbn [worth]; try lra. assert (0 <= w * Rabs (a - b)) by (apply Rmult_le_pos; [exact Hw|apply Rabs_pos]). specialize (IH y (w * e) ltac:(apply Rmult_le_pos; assumption)). lra.
Qed.

Section Contract.
Context (gain big : R) (F : list R -> list R) (H : steady gain big F) (Hbig : 0 <= big) (Hgain : 0 < gain <= 1).
Lemma last_step p q a b : length p = length q -> 0 <= a -> 0 <= b ->
  Rabs ((a - b) - (last (F (p ++ [a])) 0 - last (F (q ++ [b])) 0)) <= (1 - gain) * Rabs (a - b) + big * apart p q.
Proof.
  intros El Ha Hb.
  assert (N : Rabs (last (F (p ++ [b])) 0 - last (F (q ++ [b])) 0) <= big * apart p q).
  { pose proof (steady_apart _ _ _ (p ++ [b]) (q ++ [b]) H ltac:(rewrite !app_length; lia)) as K.
    rewrite (apart_app p q) in K by lia. cbn [apart] in K. rewrite Rminus_eq_0, Rabs_R0 in K.
    rewrite (steady_snoc H p), (steady_snoc H q) in K. rewrite apart_app in K by (rewrite !(st_length _ _ _ H); lia).
    cbn [apart] in K. pose proof (apart_nonneg (F p) (F q)). lra. }
  assert (Q : Rabs ((a - b) - (last (F (p ++ [a])) 0 - last (F (p ++ [b])) 0)) <= (1 - gain) * Rabs (a - b)).
  { destruct (Rle_dec b a) as [Hab|Hab].
    - pose proof (steady_step H p a b Hab). pose proof (st_grow _ _ _ H p a b Hab Hb). rewrite (Rabs_right (a - b)) by lra. rewrite Rabs_right by lra. lra.
    - pose proof (steady_step H p b a ltac:(lra)). pose proof (st_grow _ _ _ H p b a ltac:(lra) Ha). rewrite (Rabs_left (a - b)) by lra. rewrite Rabs_left1 by lra. lra. }
  replace ((a - b) - (last (F (p ++ [a])) 0 - last (F (q ++ [b])) 0)) with (((a - b) - (last (F (p ++ [a])) 0 - last (F (p ++ [b])) 0)) + - (last (F (p ++ [b])) 0 - last (F (q ++ [b])) 0)) by ring.
  eapply Rle_trans; [apply Rabs_triang|]. rewrite Rabs_Ropp. lra.
Qed.
Lemma steps_together e : 0 < e < 1 -> forall x y im im', length x = length y -> length im = length x -> length im' = length x -> Forall (Rle 0) x -> Forall (Rle 0) y ->
  worth e 1 (plus_list x im (F x)) (plus_list y im' (F y)) + big * (e ^ length x / (1 - e)) * apart x y <= (1 - gain + big * (e / (1 - e))) * worth e 1 x y + worth e 1 im im'.
Proof.
  intros He. induction x as [|a x IH] using rev_ind; intros y im im' Ey Ei Ei' Hx Hy.
  - destruct y; [|discriminate]. destruct im; [|discriminate]. destruct im'; [|discriminate]. cbn. lra.
  - rewrite app_length in Ey, Ei, Ei'. cbn [length] in Ey, Ei, Ei'.
    destruct (exists_last (l := y)) as (q & b & ->); [intros ->; cbn in Ey; lia|]. destruct (exists_last (l := im)) as (u & s & ->); [intros ->; cbn in Ei; lia|].
    destruct (exists_last (l := im')) as (v & t & ->); [intros ->; cbn in Ei'; lia|]. rewrite app_length in Ey, Ei, Ei'. cbn [length] in Ey, Ei, Ei'.
    apply Forall_app in Hx as [Hx Ha]. inversion Ha as [|? ? Ha' _]; subst. apply Forall_app in Hy as [Hy Hb]. inversion Hb as [|? ? Hb' _]; subst.
    assert (E1 : length x = length q) by lia. assert (E2 : length u = length x) by lia. assert (E3 : length v = length x) by lia.
    specialize (IH q u v E1 E2 E3 Hx Hy). rewrite (steady_snoc H x a), (steady_snoc H q b).
    rewrite !plus_list_snoc by (rewrite ?(st_length _ _ _ H); lia). rewrite app_length. cbn [length]. rewrite Nat.add_comm. cbn [Nat.add pow].
    rewrite !worth_snoc by (rewrite ?plus_list_length; rewrite ?(st_length _ _ _ H); lia). rewrite plus_list_length by (rewrite ?(st_length _ _ _ H); lia). rewrite E2.
    rewrite apart_app by exact E1. cbn [apart]. pose proof (last_step x q a b E1 Ha' Hb') as L.
    set (fa := last (F (x ++ [a])) 0) in *. set (fb := last (F (q ++ [b])) 0) in *. set (E := e ^ length x) in *. assert (HE : 0 <= E) by (apply pow_le; lra).
    assert (T : Rabs (a + (s - fa) - (b + (t - fb))) <= (1 - gain) * Rabs (a - b) + big * apart x q + Rabs (s - t)).
    { replace (a + (s - fa) - (b + (t - fb))) with ((a - b) - (fa - fb) + (s - t)) by ring. eapply Rle_trans; [apply Rabs_triang|]. lra. }
    apply (Rmult_le_compat_l E _ _ HE) in T.
    set (A := apart x q) in *. set (D := Rabs (a - b)) in *. set (W := worth e 1 x q) in *. set (V := worth e 1 u v) in *. set (T0 := Rabs (a + (s - fa) - (b + (t - fb)))) in *. set (S0 := Rabs (s - t)) in *.
    replace (big * (e * E / (1 - e)) * (A + (D + 0))) with (big * (E / (1 - e)) * A - E * (big * A) + big * (e / (1 - e)) * (E * D)) by (field; lra). lra.
Qed.
(** Each place is worth little enough for the trail of the places before it not to matter. *)
Definition small_e : R := gain / (gain + 2 * big + 1).
Lemma small_e_range : 0 < small_e < 1.
Proof.
  unfold small_e. split; [apply Rdiv_lt_0_compat; lra|]. apply (Rmult_lt_reg_r (gain + 2 * big + 1)); [lra|]. unfold Rdiv. rewrite Rmult_assoc, Rinv_l by lra. lra.
Qed.
Lemma small_e_trail : big * (small_e / (1 - small_e)) <= gain / 2.
Proof.
  pose proof small_e_range. replace (small_e / (1 - small_e)) with (gain / (2 * big + 1)) by (unfold small_e; field; lra).
  apply (Rmult_le_reg_r (2 * big + 1)); [lra|]. replace (big * (gain / (2 * big + 1)) * (2 * big + 1)) with (big * gain) by (field; lra). lra.
Qed.
Lemma step_together x y im im' : length x = length y -> length im = length x -> length im' = length x -> Forall (Rle 0) x -> Forall (Rle 0) y ->
  worth small_e 1 (plus_list x im (F x)) (plus_list y im' (F y)) <= (1 - gain / 2) * worth small_e 1 x y + worth small_e 1 im im'.
Proof.
  intros E1 E2 E3 Hx Hy. pose proof small_e_range as He. pose proof (steps_together small_e He x y im im' E1 E2 E3 Hx Hy) as K. pose proof small_e_trail as T.
  assert (0 <= big * (small_e ^ length x / (1 - small_e)) * apart x y).
  { apply Rmult_le_pos; [|apply apart_nonneg]. apply Rmult_le_pos; [exact Hbig|]. apply Rmult_le_pos; [apply pow_le; lra|]. left. apply Rinv_0_lt_compat. lra. }
  pose proof (worth_nonneg small_e ltac:(lra) x y 1 ltac:(lra)) as W. assert ((1 - gain + big * (small_e / (1 - small_e))) * worth small_e 1 x y <= (1 - gain / 2) * worth small_e 1 x y) by (apply Rmult_le_compat_r; lra). lra.
Qed.
(** Two sequences of corrected lists, towards [im] and towards [im']. *)
Definition run (x : nat -> list R) (im : list R) : Prop := forall k, x (S k) = plus_list (x k) im (F (x k)).
Lemma run_length x im : length (x 0%nat) = length im -> run x im -> forall k, length (x k) = length im.
Proof. intros E R. induction k; [exact E|]. rewrite R, plus_list_length; [exact IHk|exact IHk|]. rewrite (st_length _ _ _ H). now symmetry. Qed.
Lemma runs_worth x y im im' : length im = length im' -> length (x 0%nat) = length im -> length (y 0%nat) = length im -> run x im -> run y im' -> (forall k, Forall (Rle 0) (x k)) -> (forall k, Forall (Rle 0) (y k)) ->
  forall k, worth small_e 1 (x k) (y k) <= (1 - gain / 2) ^ k * worth small_e 1 (x 0%nat) (y 0%nat) + 2 / gain * worth small_e 1 im im'.
Proof.
  intros E Ex Ey Rx Ry Hx Hy. pose proof small_e_range as He. pose proof (worth_nonneg small_e ltac:(lra) im im' 1 ltac:(lra)) as W.
  assert (G : 0 < 2 / gain) by (apply Rdiv_lt_0_compat; lra).
  assert (G1 : 0 <= 2 / gain * worth small_e 1 im im') by (apply Rmult_le_pos; lra).
  induction k as [|k IH].
  - cbn [pow]. lra.
  - rewrite Rx, Ry. pose proof (run_length x im Ex Rx k) as L1. pose proof (run_length y im' ltac:(lia) Ry k) as L2.
    pose proof (step_together (x k) (y k) im im' ltac:(lia) ltac:(lia) ltac:(lia) (Hx k) (Hy k)) as K. cbn [pow].
    apply (Rmult_le_compat_l (1 - gain / 2)) in IH; [|lra]. set (V := worth small_e 1 im im') in *.
    replace ((1 - gain / 2) * ((1 - gain / 2) ^ k * worth small_e 1 (x 0%nat) (y 0%nat) + 2 / gain * V)) with ((1 - gain / 2) * (1 - gain / 2) ^ k * worth small_e 1 (x 0%nat) (y 0%nat) + 2 / gain * V - V) in IH by (field; lra). lra.
Qed.
Definition scale_of (n : nat) : R := / small_e ^ n.
Lemma scale_pos n : 0 < scale_of n. Proof. apply Rinv_0_lt_compat, pow_lt, small_e_range. Qed.
Lemma runs_apart x y im im' : length im = length im' -> length (x 0%nat) = length im -> length (y 0%nat) = length im -> run x im -> run y im' -> (forall k, Forall (Rle 0) (x k)) -> (forall k, Forall (Rle 0) (y k)) ->
  forall k, apart (x k) (y k) <= scale_of (length im) * ((1 - gain / 2) ^ k * apart (x 0%nat) (y 0%nat) + 2 / gain * apart im im').
Proof.
  intros E Ex Ey Rx Ry Hx Hy k. pose proof small_e_range as He. pose proof (runs_worth x y im im' E Ex Ey Rx Ry Hx Hy k) as K.
  pose proof (run_length x im Ex Rx k) as L1. pose proof (run_length y im' ltac:(lia) Ry k) as L2.
  pose proof (apart_worth small_e ltac:(lra) (x k) (y k) 1 ltac:(lra) ltac:(lia)) as A1. rewrite L1, Rmult_1_l in A1.
  pose proof (worth_apart small_e ltac:(lra) (x 0%nat) (y 0%nat) 1 ltac:(lra) ltac:(lia)) as A2. pose proof (worth_apart small_e ltac:(lra) im im' 1 ltac:(lra) E) as A3.
  assert (P : 0 < small_e ^ length im) by (apply pow_lt; lra). assert (Q : 0 <= (1 - gain / 2) ^ k) by (apply pow_le; lra).
  apply (Rmult_le_compat_l _ _ _ Q) in A2. assert (G : 0 < 2 / gain) by (apply Rdiv_lt_0_compat; lra). apply (Rmult_le_compat_l (2 / gain)) in A3; [|lra].
  apply (Rmult_le_reg_l (small_e ^ length im)); [exact P|]. unfold scale_of. rewrite <- Rmult_assoc, Rinv_r, Rmult_1_l by lra. lra.
Qed.
End Contract.

(** ** Limits of sequences whose steps shrink geometrically *)
Lemma steps_limit (u : nat -> R) (C r : R) : 0 <= C -> 0 <= r < 1 -> (forall k, Rabs (u (S k) - u k) <= C * r ^ k) ->
  exists l, forall k, Rabs (u k - l) <= C / (1 - r) * r ^ k.
Proof.
  intros HC Hr Hu. set (D := C / (1 - r)). assert (HD : 0 <= D) by (apply Rmult_le_pos; [exact HC|left; apply Rinv_0_lt_compat; lra]). assert (ED : D * (1 - r) = C) by (unfold D; field; lra).
  assert (Hp : forall k, 0 <= r ^ k) by (intros k; apply pow_le; lra).
  set (v := fun k => u k - D * r ^ k). set (w := fun k => u k + D * r ^ k).
  assert (Sv : forall k, v k <= v (S k)).
  { intros k. unfold v. cbn [pow]. specialize (Hu k). apply Rabs_le_between in Hu. replace (D * (r * r ^ k)) with (D * r ^ k - C * r ^ k) by (rewrite <- ED; ring). lra. }
  assert (Sw : forall k, w (S k) <= w k).
  { intros k. unfold w. cbn [pow]. specialize (Hu k). apply Rabs_le_between in Hu. replace (D * (r * r ^ k)) with (D * r ^ k - C * r ^ k) by (rewrite <- ED; ring). lra. }
  assert (Mv : forall k j, v k <= v (k + j)%nat) by (intros k; induction j; [rewrite Nat.add_0_r; lra|]; rewrite Nat.add_succ_r; specialize (Sv (k + j)%nat); lra).
  assert (Mw : forall k j, w (k + j)%nat <= w k) by (intros k; induction j; [rewrite Nat.add_0_r; lra|]; rewrite Nat.add_succ_r; specialize (Sw (k + j)%nat); lra).
  assert (VW : forall k j, v k <= w j).
  { intros k j. apply Rle_trans with (v (k + j)%nat); [apply Mv|]. apply Rle_trans with (w (k + j)%nat); [|rewrite Nat.add_comm; apply Mw].
    unfold v, w. pose proof (Rmult_le_pos D _ HD (Hp (k + j)%nat)). lra. }
  destruct (completeness (fun x => exists k, x = v k)) as [l [Hl1 Hl2]].
  - exists (w 0%nat). intros x [k ->]. apply VW.
  - exists (v 0%nat). exists 0%nat. reflexivity.
  - exists l. intros k. assert (v k <= l) by (apply Hl1; exists k; reflexivity). assert (l <= w k) by (apply Hl2; intros x [j ->]; apply VW). unfold v, w in *. apply Rabs_le_between. lra.
Qed.
Lemma lists_limit (n : nat) (u : nat -> list R) (C r : R) : 0 <= C -> 0 <= r < 1 -> (forall k, length (u k) = n) -> (forall k, apart (u (S k)) (u k) <= C * r ^ k) ->
  exists l, length l = n /\ (forall k i, Rabs (nth i (u k) 0 - nth i l 0) <= C / (1 - r) * r ^ k).
Proof.
  intros HC Hr Hn Hu. assert (K : forall m, (m <= n)%nat -> exists l, length l = m /\ forall i, (i < m)%nat -> forall k, Rabs (nth i (u k) 0 - nth i l 0) <= C / (1 - r) * r ^ k).
  { induction m as [|m IH]; intros Hm; [exists []; split; [reflexivity|]; intros; lia|]. destruct (IH ltac:(lia)) as (l & El & Hl).
    destruct (steps_limit (fun k => nth m (u k) 0) C r HC Hr) as (z & Hz). { intros k. eapply Rle_trans; [apply apart_pixel; rewrite !Hn; reflexivity|apply Hu]. }
    exists (l ++ [z]). split; [rewrite app_length; cbn; lia|]. intros i Hi k. destruct (Nat.eq_dec i m) as [->|Hne]; [rewrite app_nth2, El, Nat.sub_diag by lia; apply Hz|]. rewrite app_nth1 by lia. apply Hl. lia. }
  destruct (K n (Nat.le_refl n)) as (l & El & Hl). exists l. split; [exact El|]. intros k i. destruct (Nat.lt_ge_cases i n) as [Hi|Hi]; [now apply Hl|].
  rewrite !nth_overflow by (rewrite ?Hn, ?El; exact Hi). rewrite Rminus_0_r, Rabs_R0. apply Rmult_le_pos; [|apply pow_le; lra]. apply Rmult_le_pos; [exact HC|left; apply Rinv_0_lt_compat; lra].
Qed.
Lemma apart_most : forall x y d, length x = length y -> (forall i, Rabs (nth i x 0 - nth i y 0) <= d) -> apart x y <= INR (length x) * d.
Proof.
  induction x as [|a x IH]; intros [|b y] d E Hd; try discriminate; [cbn; lra|]. cbn [apart length]. rewrite S_INR. injection E as E. pose proof (Hd 0%nat) as H0. cbn in H0. specialize (IH y d E (fun i => Hd (S i))). lra.
Qed.
Lemma apart_triangle : forall x y z, length x = length y -> length y = length z -> apart x z <= apart x y + apart y z.
Proof.
  induction x as [|a x IH]; intros [|b y] [|c z] E1 E2; try discriminate; cbn [apart]; [lra|]. injection E1 as E1. injection E2 as E2. specialize (IH y z E1 E2).
  replace (a - c) with ((a - b) + (b - c)) by ring. pose proof (Rabs_triang (a - b) (b - c)). lra.
Qed.
Lemma apart_zero : forall x y, length x = length y -> apart x y <= 0 -> x = y.
Proof.
  induction x as [|a x IH]; intros [|b y] E Hd; try discriminate; [reflexivity|]. cbn [apart] in Hd. injection E as E. pose proof (Rabs_pos (a - b)). pose proof (apart_nonneg x y). f_equal; [|apply IH; [exact E|lra]].
  destruct (Req_dec (a - b) 0) as [|Hne]; [lra|]. pose proof (Rabs_pos_lt _ Hne). lra.
Qed.
Lemma apart_sym : forall x y, apart x y = apart y x.
Proof. induction x as [|a x IH]; intros [|b y]; cbn [apart]; try reflexivity. rewrite IH, Rabs_minus_sym. reflexivity. Qed.
Lemma small_enough (d K r : R) : 0 <= r < 1 -> (forall k, d <= K * r ^ k) -> d <= 0.
Proof.
  intros Hr Hd. apply Rnot_lt_le. intros Hpos. assert (HK : 0 < K) by (specialize (Hd 0%nat); cbn in Hd; lra).
  destruct (pow_lt_1_zero r ltac:(rewrite Rabs_right; lra) (d / K) ltac:(apply Rdiv_lt_0_compat; lra)) as (N & HN). specialize (HN N (Nat.le_refl N)). specialize (Hd N).
  rewrite Rabs_right in HN by (apply Rle_ge, pow_le; lra). apply (Rmult_lt_compat_l K) in HN; [|exact HK]. replace (K * (d / K)) with d in HN by (field; lra). lra.
Qed.

(** ** The limit of the corrections is sent to the image corrected *)
Section Limit.
Context (gain big : R) (F : list R -> list R) (H : steady gain big F) (Hbig : 0 <= big) (Hgain : 0 < gain <= 1).
Lemma corrected_run im : run F (corrected F im) im. Proof. intros k. reflexivity. Qed.
Lemma corrected_limit im : (forall k, Forall (Rle 0) (corrected F im k)) ->
  exists x, length x = length im /\ (forall i, 0 <= nth i x 0) /\ F x = im /\ (exists K, forall k i, Rabs (nth i (corrected F im k) 0 - nth i x 0) <= K * (1 - gain / 2) ^ k) /\
    forall k, apart (corrected F im k) x <= scale_of gain big (length im) * (1 - gain / 2) ^ k * apart im x.
Proof.
  intros Hpos. set (r := 1 - gain / 2). assert (Hr : 0 <= r < 1) by (unfold r; lra).
  assert (HL : forall k, length (corrected F im k) = length im) by (intros k; now apply (st_corrected_length gain big F H)).
  set (C := scale_of gain big (length im) * apart (corrected F im 1) im).
  assert (HC : 0 <= C) by (apply Rmult_le_pos; [left; now apply scale_pos|apply apart_nonneg]).
  assert (HS : forall k, apart (corrected F im (S k)) (corrected F im k) <= C * r ^ k).
  { intros k. pose proof (runs_apart gain big F H Hbig Hgain (fun k => corrected F im (S k)) (corrected F im) im im eq_refl (HL 1%nat) (HL 0%nat) (fun k => corrected_run im (S k)) (corrected_run im) (fun k => Hpos (S k)) Hpos k) as K.
    cbv beta in K. rewrite apart_refl, Rmult_0_r, Rplus_0_r in K. fold r in K. unfold C. change (corrected F im 0) with im in K. lra. }
  destruct (lists_limit (length im) (corrected F im) C r HC Hr HL HS) as (x & Ex & Hx).
  assert (Nx : forall i, 0 <= nth i x 0).
  { intros i. apply Ropp_le_cancel. rewrite Ropp_0. apply (small_enough (- nth i x 0) (C / (1 - r)) r Hr). intros k. specialize (Hx k i). apply Rabs_le_between in Hx.
    assert (0 <= nth i (corrected F im k) 0). { destruct (Nat.lt_ge_cases i (length (corrected F im k))) as [Hi|Hi]; [|rewrite nth_overflow by exact Hi; lra]. specialize (Hpos k). rewrite Forall_forall in Hpos. apply Hpos, nth_In, Hi. } lra. }
  assert (AX : forall k, apart (corrected F im k) x <= INR (length im) * (C / (1 - r)) * r ^ k).
  { intros k. pose proof (apart_most (corrected F im k) x (C / (1 - r) * r ^ k) ltac:(rewrite HL; now symmetry) (Hx k)) as K. rewrite HL in K. lra. }
  assert (FX : F x = im).
  { apply apart_zero; [now rewrite (st_length _ _ _ H)|]. set (N := INR (length im) * (C / (1 - r))) in *. apply (small_enough _ (big * N + C) r Hr). intros k.
    pose proof (apart_triangle (F x) (F (corrected F im k)) im ltac:(rewrite !(st_length _ _ _ H), HL; exact Ex) ltac:(rewrite (st_length _ _ _ H); apply HL)) as T.
    pose proof (steady_apart _ _ _ x (corrected F im k) H ltac:(now rewrite HL)) as T1. rewrite (apart_sym x) in T1.
    assert (T2 : apart (F (corrected F im k)) im = apart (corrected F im (S k)) (corrected F im k)).
    { rewrite corrected_run. assert (G : forall a b c, length a = length b -> length b = length c -> apart c b = apart (plus_list a b c) a).
      { induction a as [|u a IH]; intros [|v b] [|w c] E1 E2; try discriminate; cbn; [reflexivity|]. injection E1 as E1. injection E2 as E2. rewrite (IH b c E1 E2). f_equal. rewrite Rabs_minus_sym. f_equal. ring. }
      apply G; [apply HL|rewrite (st_length _ _ _ H); symmetry; apply HL]. }
    specialize (HS k). specialize (AX k). apply (Rmult_le_compat_l _ _ _ Hbig) in AX. lra. }
  exists x. split; [exact Ex|]. split; [exact Nx|]. split; [exact FX|]. split; [exists (C / (1 - r)); exact Hx|]. intros k.
  assert (FN : Forall (Rle 0) x) by (apply Forall_forall; intros z Hz; apply (In_nth _ _ 0) in Hz; destruct Hz as (i & _ & <-); apply Nx).
  assert (R0 : run F (fun _ => x) im).
  { intros j. rewrite FX. assert (G : forall a b, length a = length b -> a = plus_list a b b) by (induction a as [|u a IH]; intros [|v b] E; try discriminate; cbn; [reflexivity|]; injection E as E; rewrite <- (IH b E); f_equal; ring). apply G, Ex. }
  pose proof (runs_apart gain big F H Hbig Hgain (corrected F im) (fun _ => x) im im eq_refl (HL 0%nat) Ex (corrected_run im) R0 Hpos (fun _ => FN) k) as K. cbv beta in K. rewrite apart_refl, Rmult_0_r, Rplus_0_r in K. fold r in K. change (corrected F im 0) with im in K. lra.
Qed.
End Limit.
