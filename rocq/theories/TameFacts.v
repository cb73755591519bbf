(** * Maps of columns that keep their order and do not enlarge their differences. *)
From Coq Require Import ZArith List Bool Reals Lra Lia.
From Verif Require Import Num Py RFacts CCDModel TrapsModel ManagerModel Spec SpecReadout SpecRecovery WmFacts OrderFacts.
Import ListNotations.
Open Scope R_scope.

Notation ordered := (Forall2 Rle).
Lemma Rsum_cons x l : Rsum (x :: l) = x + Rsum l. Proof. reflexivity. Qed.
Lemma sum_app a b : Rsum (a ++ b) = Rsum a + Rsum b.
Proof. induction a as [|x a IH]; cbn [app]; rewrite ?Rsum_cons; [unfold Rsum; cbn; lra|]. rewrite IH. lra. Qed.
Lemma ordered_refl l : ordered l l. Proof. induction l; constructor; [lra|auto]. Qed.
Lemma ordered_length l l' : ordered l l' -> length l = length l'. Proof. induction 1; cbn; auto. Qed.
Lemma ordered_firstn i : forall l l', ordered l l' -> ordered (firstn i l) (firstn i l').
Proof. induction i; intros l l' H; cbn; [constructor|]. destruct H; constructor; auto. Qed.

(** The response of the last pixel is at least [gain] of its change above [tin]; above
    [tin] it gives at least [tout]. *)
Record tame (gain tin tout : R) (F : list R -> list R) : Prop := {
  tm_length : forall x, length (F x) = length x;
  tm_prefix : forall i x, F (firstn i x) = firstn i (F x);
  tm_mono : forall y x, ordered y x -> ordered (F y) (F x);
  tm_sum : forall y x, ordered y x -> Rsum (F x) - Rsum (F y) <= Rsum x - Rsum y;
  tm_grow : forall p a b, b <= a -> tin <= b -> gain * (a - b) <= last (F (p ++ [a])) 0 - last (F (p ++ [b])) 0;
  tm_floor : forall p b, tin <= b -> tout <= last (F (p ++ [b])) 0
}.
Section One.
Context {gain tin tout : R} {F : list R -> list R} (H : tame gain tin tout F).
Lemma tame_snoc p a : F (p ++ [a]) = F p ++ [last (F (p ++ [a])) 0].
Proof.
  assert (E : F p = firstn (length p) (F (p ++ [a]))).
  { rewrite <- (tm_prefix _ _ _ _ H), firstn_app, Nat.sub_diag, firstn_all. cbn [firstn]. rewrite app_nil_r. reflexivity. }
  assert (L : length (F (p ++ [a])) = S (length p)) by (rewrite (tm_length _ _ _ _ H), app_length; cbn; lia).
  destruct (exists_last (l := F (p ++ [a]))) as (q & z & Eq); [intros E0; rewrite E0 in L; discriminate|].
  rewrite Eq in *. rewrite last_last. rewrite app_length in L. cbn in L.
  rewrite E, firstn_app. replace (length p - length q)%nat with 0%nat by lia. cbn [firstn]. rewrite app_nil_r, firstn_all2 by lia. reflexivity.
Qed.
Lemma tame_step p a b : b <= a -> 0 <= last (F (p ++ [a])) 0 - last (F (p ++ [b])) 0 <= a - b.
Proof.
  intros Hab. assert (O : ordered (p ++ [b]) (p ++ [a])) by (apply Forall2_app; [apply ordered_refl|constructor; [lra|constructor]]).
  pose proof (tm_mono _ _ _ _ H _ _ O) as M. pose proof (tm_sum _ _ _ _ H _ _ O) as S0.
  rewrite (tame_snoc p a), (tame_snoc p b) in M, S0.
  rewrite !sum_app in S0. rewrite !Rsum_cons in S0. split; [|unfold Rsum in S0; cbn in S0; lra].
  apply Forall2_app_inv_l in M as (l1 & l2 & M1 & M2 & E).
  assert (E2 : l1 = F p /\ l2 = [last (F (p ++ [a])) 0]).
  { apply ordered_length in M1, M2. revert E. generalize (F p) as q, (last (F (p ++ [a])) 0) as z. intros. 
    apply (f_equal (@rev R)) in E. rewrite !rev_app_distr in E. cbn in E.
    destruct l2 as [|z2 [|? ?]]; try (cbn in M2; lia). cbn in E. injection E as -> E. apply (f_equal (@rev R)) in E. rewrite !rev_involutive in E. subst. auto. }
  destruct E2 as [-> ->]. inversion M2; subst. lra.
Qed.
End One.

Lemma tame_compose g1 g2 t1 t2 t3 F G : 0 <= g2 -> tame g1 t1 t2 F -> tame g2 t2 t3 G -> tame (g1 * g2) t1 t3 (fun x => G (F x)).
Proof.
  intros Hg HF HG. constructor.
  - intros x. rewrite (tm_length _ _ _ _ HG), (tm_length _ _ _ _ HF). reflexivity.
  - intros i x. rewrite (tm_prefix _ _ _ _ HF), (tm_prefix _ _ _ _ HG). reflexivity.
  - intros y x O. apply HG, HF, O.
  - intros y x O. pose proof (tm_sum _ _ _ _ HF y x O). pose proof (tm_sum _ _ _ _ HG _ _ (tm_mono _ _ _ _ HF y x O)). lra.
  - intros p a b Hab Hb. rewrite (tame_snoc HF p a), (tame_snoc HF p b).
    pose proof (tame_step HF p a b Hab). pose proof (tm_grow _ _ _ _ HF p a b Hab Hb). pose proof (tm_floor _ _ _ _ HF p b Hb).
    pose proof (tm_grow _ _ _ _ HG (F p) (last (F (p ++ [a])) 0) (last (F (p ++ [b])) 0) ltac:(lra) H1).
    pose proof (Rmult_le_compat_l g2 _ _ Hg H0). lra.
  - intros p b Hb. rewrite (tame_snoc HF p b). apply HG, HF, Hb.
Qed.
Lemma tame_id t : tame 1 t t (fun x => x).
Proof. constructor; auto; intros; rewrite ?last_last; lra. Qed.

Definition skip (F : list R -> list R) (x : list R) : list R := match x with [] => [] | h :: l => h :: F l end.
Lemma last_cons (x : R) l : l <> [] -> last (x :: l) 0 = last l 0.
Proof. destruct l; [congruence|reflexivity]. Qed.
Lemma tame_skip g t1 t2 F : g <= 1 -> t2 <= t1 -> tame g t1 t2 F -> tame g t1 t2 (skip F).
Proof.
  intros Hg Ht HF.
  assert (NE : forall p a, F (p ++ [a]) <> []) by (intros p a E; apply (f_equal (@length R)) in E; rewrite (tm_length _ _ _ _ HF), app_length in E; cbn in E; lia).
  constructor.
  - intros [|h x]; cbn; [reflexivity|]. rewrite (tm_length _ _ _ _ HF). reflexivity.
  - intros [|i] [|h x]; cbn; try reflexivity. rewrite (tm_prefix _ _ _ _ HF). reflexivity.
  - intros y x O. destruct O; cbn; constructor; [auto|apply HF; auto].
  - intros y x O. destruct O as [|a b y x Hab O]; cbn [skip]; [lra|]. rewrite !Rsum_cons. pose proof (tm_sum _ _ _ _ HF y x O). lra.
  - intros [|h p] a b Hab Hb; cbn [app skip].
    + assert (E : F [] = []) by (destruct (F []) eqn:E; [reflexivity|]; apply (f_equal (@length R)) in E; rewrite (tm_length _ _ _ _ HF) in E; discriminate).
      rewrite E. cbn. nra.
    + rewrite !last_cons by apply NE. apply HF; auto.
  - intros [|h p] b Hb; cbn [app skip].
    + assert (E : F [] = []) by (destruct (F []) eqn:E; [reflexivity|]; apply (f_equal (@length R)) in E; rewrite (tm_length _ _ _ _ HF) in E; discriminate).
      rewrite E. cbn. lra.
    + rewrite !last_cons by apply NE. apply HF; auto.
Qed.
Lemma tame_ext g t1 t2 F G : (forall x, F x = G x) -> tame g t1 t2 F -> tame g t1 t2 G.
Proof. intros E [A B C D K L]. constructor; intros; rewrite <- ?E; auto. Qed.

(** ** One pass, and a column *)
Section Passes.
Context (traps : list (trap R)) (dwell : R) (well : R -> R) (floor slope : R) (th : nat -> R).
Hypothesis Hphys : Forall physical traps.
Hypothesis Hdwell : 0 <= dwell.
Hypothesis Hg : gradual traps well floor slope.
Hypothesis Hw : forall a, floor <= a -> 0 <= well a <= 1.
Let gain := 1 - traps_per_pixel traps * slope.
Hypothesis Hk : 0 <= gain.
Hypothesis Hth0 : floor <= th 0.
Hypothesis Hth : forall p a, th (S p) <= a -> th p <= a - traps_per_pixel traps * well a.
Hypothesis Hth1 : forall p, th p <= th (S p).
Notation n := (length traps).
Notation pass1 := (pass traps dwell well floor).
Lemma th_floor p : floor <= th p. Proof. induction p; [exact Hth0|]. pose proof (Hth1 p). lra. Qed.
Lemma gain_1 : gain <= 1.
Proof. unfold gain. pose proof (density_nonneg traps Hphys). pose proof (gr_slope _ _ _ _ Hg). nra. Qed.
Lemma pass_length : forall x P, length (pass1 P x) = length x.
Proof. induction x; intros; cbn; auto. Qed.
Lemma pass_prefix : forall i x P, pass1 P (firstn i x) = firstn i (pass1 P x).
Proof. induction i; intros [|a x] P; cbn; try reflexivity. rewrite IHi. reflexivity. Qed.
Lemma total_nonneg P Q : tidy n P -> tidy n Q -> below_profile n Q P -> 0 <= electrons traps P 0 1 - electrons traps Q 0 1.
Proof.
  intros HP HQ H. assert (electrons traps Q 0 1 <= electrons traps P 0 1); [|lra].
  apply electrons_le; [exact Hphys|lra|apply tidy_integrable; auto; lra|apply tidy_integrable; auto; lra|]. intros s x Hs Hx. apply H; auto; lra.
Qed.
Lemma pass_order : forall y x, ordered y x -> forall P Q, tidy n P -> tidy n Q -> below_profile n Q P ->
  ordered (pass1 Q y) (pass1 P x) /\
  Rsum (pass1 P x) - Rsum (pass1 Q y) <= Rsum x - Rsum y + (electrons traps P 0 1 - electrons traps Q 0 1).
Proof.
  induction 1 as [|b a y x Hba H IH]; intros P Q HP HQ HQP; cbn [pass].
  - split; [constructor|]. pose proof (total_nonneg P Q HP HQ HQP). lra.
  - destruct (leaves_order traps dwell Hphys Hdwell well floor slope Hg Hw a b P Q Hba HP HQ HQP) as (O1 & O2 & O3).
    pose proof (cloud_order traps dwell Hphys Hdwell floor a b P Q Hba HP HQ HQP) as O4.
    destruct (IH (behind traps dwell well floor a P) (behind traps dwell well floor b Q)) as [I1 I2]; auto using behind_tidy.
    split; [constructor; [fold gain in O1; nra|exact I1]|]. rewrite !Rsum_cons. lra.
Qed.
Lemma pass_grow : forall p a b P, tidy n P -> b <= a -> floor <= b ->
  gain * (a - b) <= last (pass1 P (p ++ [a])) 0 - last (pass1 P (p ++ [b])) 0.
Proof.
  induction p as [|h p IH]; intros a b P HP Hab Hb; cbn [app pass].
  - cbn [last]. apply leaves_same; auto.
  - rewrite !last_cons by (intros E; apply (f_equal (@length R)) in E; rewrite pass_length, app_length in E; cbn in E; lia).
    apply IH; auto. apply behind_tidy; auto.
Qed.
Lemma pass_floor : forall k p b P, tidy n P -> th (S k) <= b -> th k <= last (pass1 P (p ++ [b])) 0.
Proof.
  intros k. induction p as [|h p IH]; intros b P HP Hb; cbn [app pass].
  - cbn [last]. apply (leaves_floor traps dwell Hphys Hdwell well floor Hw b P (th (S k)) (th k) HP (th_floor (S k)) Hb). apply Hth.
  - rewrite !last_cons by (intros E; apply (f_equal (@length R)) in E; rewrite pass_length, app_length in E; cbn in E; lia).
    apply IH; auto. apply behind_tidy; auto.
Qed.
Lemma pass_tame k : tame gain (th (S k)) (th k) (pass1 empty_profile).
Proof.
  assert (T := tidy_empty traps). constructor.
  - intros. apply pass_length.
  - intros. apply pass_prefix.
  - intros y x O. apply (pass_order y x O); auto using below_refl.
  - intros y x O. destruct (pass_order y x O empty_profile empty_profile T T (below_refl traps _)) as [_ K]. lra.
  - intros p a b Hab Hb. apply pass_grow; auto. pose proof (th_floor (S k)). lra.
  - intros p b Hb. apply pass_floor; auto.
Qed.

Fixpoint reads (rows : nat) (x : list R) : list R :=
  match rows with O => x | S k => skip (reads k) (pass1 empty_profile x) end.
Fixpoint enters (offset : nat) (x : list R) : list R :=
  match offset with O => x | S k => enters k (pass1 empty_profile x) end.
Definition column_reads (rows offset : nat) (x : list R) : list R := reads rows (enters offset x).
Lemma th_mono p q : (p <= q)%nat -> th p <= th q.
Proof. induction 1; [lra|]. pose proof (Hth1 m). lra. Qed.
Lemma pow_gain_range k : 0 <= gain ^ k <= 1.
Proof. pose proof gain_1. split; [apply pow_le; exact Hk|]. rewrite <- (pow1 k). apply pow_incr. lra. Qed.
Lemma reads_tame : forall rows, tame (gain ^ rows) (th rows) (th 0) (reads rows).
Proof.
  induction rows as [|k IH]; [apply tame_id|]. 
  apply (tame_compose gain (gain ^ k) (th (S k)) (th k) (th 0) (pass1 empty_profile) (skip (reads k))).
  - apply pow_gain_range.
  - apply pass_tame.
  - apply tame_skip; [apply pow_gain_range|apply th_mono; lia|exact IH].
Qed.
Lemma enters_tame q : forall offset, tame (gain ^ offset) (th (offset + q)) (th q) (enters offset).
Proof.
  induction offset as [|k IH]; [apply tame_id|].
  apply (tame_compose gain (gain ^ k) (th (S k + q)) (th (k + q)) (th q) (pass1 empty_profile) (enters k)).
  - apply pow_gain_range.
  - apply pass_tame.
  - exact IH.
Qed.
Lemma column_tame rows offset : tame (gain ^ (offset + rows)) (th (offset + rows)) (th 0) (column_reads rows offset).
Proof.
  rewrite pow_add. apply (tame_compose (gain ^ offset) (gain ^ rows) (th (offset + rows)) (th rows) (th 0) (enters offset) (reads rows)).
  - apply pow_gain_range.
  - apply enters_tame.
  - apply reads_tame.
Qed.
End Passes.

(** ** Differences *)
Fixpoint highest (x y : list R) : list R :=
  match x, y with a :: x', b :: y' => Rmax a b :: highest x' y' | _, _ => [] end.
Lemma highest_ordered : forall x y, length x = length y -> ordered x (highest x y) /\ ordered y (highest x y).
Proof.
  induction x as [|a x IH]; intros [|b y] E; try discriminate; cbn [highest]; [split; constructor|].
  injection E as E. destruct (IH y E). split; constructor; auto; [apply Rmax_l|apply Rmax_r].
Qed.
Lemma highest_apart : forall x y, length x = length y -> apart x y = 2 * Rsum (highest x y) - Rsum x - Rsum y.
Proof.
  induction x as [|a x IH]; intros [|b y] E; try discriminate; cbn [highest apart]; [unfold Rsum; cbn; lra|].
  rewrite !Rsum_cons. injection E as E. rewrite (IH y E). unfold Rmax, Rabs. destruct (Rle_dec a b), (Rcase_abs (a - b)); lra.
Qed.
Lemma apart_below : forall z x y, ordered x z -> ordered y z -> apart x y <= 2 * Rsum z - Rsum x - Rsum y.
Proof.
  intros z x y H. revert y. induction H as [|a c x z Hac H IH]; intros y H'; inversion H'; subst; cbn [apart]; [unfold Rsum; cbn; lra|].
  rewrite !Rsum_cons. specialize (IH _ H4). unfold Rabs. destruct (Rcase_abs _); lra.
Qed.
Lemma apart_nonneg : forall x y, 0 <= apart x y.
Proof. induction x as [|a x IH]; intros [|b y]; cbn; try lra. specialize (IH y). pose proof (Rabs_pos (a - b)). lra. Qed.
Lemma apart_refl : forall x, apart x x = 0.
Proof. induction x as [|a x IH]; cbn; [reflexivity|]. rewrite IH, Rminus_eq_0, Rabs_R0. lra. Qed.
Lemma apart_app : forall x y x' y', length x = length y -> apart (x ++ x') (y ++ y') = apart x y + apart x' y'.
Proof. induction x as [|a x IH]; intros [|b y] x' y' E; try discriminate; cbn [app apart]; [lra|]. injection E as E. rewrite (IH y _ _ E). lra. Qed.
Lemma apart_pixel : forall x y i, length x = length y -> Rabs (nth i x 0 - nth i y 0) <= apart x y.
Proof.
  induction x as [|a x IH]; intros [|b y] i E; try discriminate; cbn [apart].
  - destruct i; cbn; rewrite Rminus_eq_0, Rabs_R0; lra.
  - injection E as E. pose proof (apart_nonneg x y). pose proof (Rabs_pos (a - b)). destruct i; cbn [nth]; [lra|]. specialize (IH y i E). lra.
Qed.
Lemma tame_apart g t1 t2 F x y : tame g t1 t2 F -> length x = length y -> apart (F x) (F y) <= apart x y.
Proof.
  intros HF E. destruct (highest_ordered x y E) as [O1 O2]. rewrite (highest_apart x y E).
  pose proof (apart_below (F (highest x y)) (F x) (F y) (tm_mono _ _ _ _ HF _ _ O1) (tm_mono _ _ _ _ HF _ _ O2)).
  pose proof (tm_sum _ _ _ _ HF _ _ O1). pose proof (tm_sum _ _ _ _ HF _ _ O2). lra.
Qed.
Lemma tame_injective g t1 t2 F : tame g t1 t2 F -> 0 < g -> forall x y, length x = length y -> Forall (Rle t1) x -> Forall (Rle t1) y ->
  F x = F y -> x = y.
Proof.
  intros HF Hg. induction x as [|a x IH] using rev_ind; intros y E Hx Hy EF.
  - destruct y; [reflexivity|discriminate].
  - destruct (exists_last (l := y)) as (q & b & Eq); [intros E0; rewrite E0, app_length in E; cbn in E; lia|].
    rewrite Eq in *. rewrite !app_length in E. cbn in E. apply Forall_app in Hx as [Hx1 Hx2], Hy as [Hy1 Hy2].
    inversion Hx2; inversion Hy2; subst. rewrite (tame_snoc HF x a), (tame_snoc HF q b) in EF.
    apply app_inj_tail in EF as [E1 E2]. assert (x = q) by (apply IH; auto; lia). subst q. f_equal. f_equal.
    destruct (Rle_dec a b).
    + pose proof (tm_grow _ _ _ _ HF x b a ltac:(lra) ltac:(lra)). nra.
    + pose proof (tm_grow _ _ _ _ HF x a b ltac:(lra) ltac:(lra)). nra.
Qed.

(** ** Iteration *)
Lemma geometric_sum (u : nat -> R) C r : 0 <= r < 1 -> 0 <= C -> (forall k, u (S k) <= u k + C * r ^ k) -> forall k, u k <= u 0%nat + C / (1 - r).
Proof.
  intros Hr HC Hu. assert (K : forall k, u k <= u 0%nat + C / (1 - r) * (1 - r ^ k)).
  { induction k; [cbn; lra|]. specialize (Hu k). cbn [pow].
    assert (C / (1 - r) * (1 - r * r ^ k) = C / (1 - r) * (1 - r ^ k) + C * r ^ k) by (field; lra). lra. }
  intros k. specialize (K k). pose proof (pow_le r k ltac:(lra)).
  assert (0 <= C / (1 - r)) by (apply Rmult_le_pos; [lra|]; left; apply Rinv_0_lt_compat; lra). nra.
Qed.
Lemma geometric_decay (u : nat -> R) q C r : 0 <= q < 1 -> 0 <= r < 1 -> 0 <= C -> (forall k, u (S k) <= q * u k + C * r ^ k) ->
  exists C' s, 0 <= C' /\ 0 <= s < 1 /\ forall k, u k <= C' * s ^ k.
Proof.
  intros Hq Hr HC Hu. pose proof (Rmax_l q r). pose proof (Rmax_r q r). assert (Rmax q r < 1) by (apply Rmax_lub_lt; lra).
  set (s := (1 + Rmax q r) / 2). assert (q < s /\ r <= s /\ s < 1) by (unfold s; lra).
  set (C' := Rmax (Rabs (u 0%nat)) (C / (s - q))). exists C', s.
  pose proof (Rmax_l (Rabs (u 0%nat)) (C / (s - q))). pose proof (Rmax_r (Rabs (u 0%nat)) (C / (s - q))). fold C' in H3, H4.
  assert (HC' : 0 <= C') by (pose proof (Rabs_pos (u 0%nat)); lra). split; [exact HC'|]. split; [lra|].
  assert (HCs : C <= C' * (s - q)) by (apply (Rmult_le_compat_r (s - q)) in H4; [|lra]; field_simplify (C / (s - q) * (s - q)) in H4; lra).
  induction k; [cbn; pose proof (Rle_abs (u 0%nat)); lra|]. specialize (Hu k).
  assert (r ^ k <= s ^ k) by (apply pow_incr; lra). pose proof (pow_le s k ltac:(lra)).
  assert (q * u k <= q * (C' * s ^ k)) by (apply Rmult_le_compat_l; lra).
  assert (C * r ^ k <= C * s ^ k) by (apply Rmult_le_compat_l; lra).
  assert (C * s ^ k <= C' * (s - q) * s ^ k) by (apply Rmult_le_compat_r; lra). cbn [pow]. lra.
Qed.

Fixpoint plus_list (x a b : list R) : list R :=
  match x, a, b with u :: x', v :: a', w :: b' => u + (v - w) :: plus_list x' a' b' | _, _, _ => [] end.
Fixpoint corrected (F : list R -> list R) (image : list R) (k : nat) : list R :=
  match k with O => image | S j => let x := corrected F image j in plus_list x image (F x) end.
Lemma plus_list_length : forall x a b, length x = length a -> length a = length b -> length (plus_list x a b) = length x.
Proof. induction x as [|u x IH]; intros [|v a] [|w b] E1 E2; try discriminate; cbn; [reflexivity|]. rewrite IH; auto. Qed.
Lemma plus_list_snoc : forall x a b u v w, length x = length a -> length a = length b ->
  plus_list (x ++ [u]) (a ++ [v]) (b ++ [w]) = plus_list x a b ++ [u + (v - w)].
Proof. induction x as [|h x IH]; intros [|v a] [|w b] u v' w' E1 E2; try discriminate; cbn; [reflexivity|]. rewrite IH; auto. Qed.
Section Converge.
Context (gain tin tout : R) (F : list R -> list R) (H : tame gain tin tout F) (Hgain : 0 < gain <= 1).
Lemma corrected_length im k : length (corrected F im k) = length im.
Proof. induction k; cbn; [reflexivity|]. rewrite plus_list_length; auto. rewrite (tm_length _ _ _ _ H). auto. Qed.
Fixpoint last_of (p : nat -> list R) (start : R) (k : nat) : R :=
  match k with O => start | S j => let b := last_of p start j in b + (start - last (F (p j ++ [b])) 0) end.
Lemma corrected_snoc q im k : let start := im in
  corrected F (q ++ [start]) k = corrected F q k ++ [last_of (corrected F q) start k].
Proof.
  cbv zeta. induction k as [|k IH]; [reflexivity|]. cbn [corrected last_of]. cbv zeta. rewrite IH, (tame_snoc H).
  rewrite plus_list_snoc; [rewrite last_last; reflexivity|apply corrected_length|]. rewrite (tm_length _ _ _ _ H), corrected_length. reflexivity.
Qed.
Lemma one_correction p b b' e : length p = length e -> tin < b' -> forall D, Rabs (b - b') <= D -> 0 < D ->
  let b2 := b + (last (F (p ++ [b'])) 0 - last (F (e ++ [b])) 0) in
  Rabs (b2 - b') <= Rabs (b - b') + apart e p /\
  Rabs (b2 - b') <= (1 - gain * Rmin 1 ((b' - tin) / D)) * Rabs (b - b') + apart e p.
Proof.
  intros El Hb' D HD HD0 b2.
  assert (N : Rabs (last (F (e ++ [b])) 0 - last (F (p ++ [b])) 0) <= apart e p).
  { pose proof (tame_apart _ _ _ _ (e ++ [b]) (p ++ [b]) H ltac:(rewrite !app_length; lia)) as K.
    rewrite (apart_app e p) in K by lia. cbn [apart] in K. rewrite Rminus_eq_0, Rabs_R0 in K.
    rewrite (tame_snoc H e), (tame_snoc H p) in K. rewrite apart_app in K by (rewrite !(tm_length _ _ _ _ H); lia).
    cbn [apart] in K. pose proof (apart_nonneg (F e) (F p)). lra. }
  assert (M : Rabs (b2 - b') <= Rabs ((b - b') - (last (F (p ++ [b])) 0 - last (F (p ++ [b'])) 0)) + apart e p).
  { unfold b2. replace (b + (last (F (p ++ [b'])) 0 - last (F (e ++ [b])) 0) - b')
      with (((b - b') - (last (F (p ++ [b])) 0 - last (F (p ++ [b'])) 0)) + - (last (F (e ++ [b])) 0 - last (F (p ++ [b])) 0)) by lra.
    eapply Rle_trans; [apply Rabs_triang|]. rewrite Rabs_Ropp. lra. }
  set (m := Rmin 1 ((b' - tin) / D)).
  assert (Hm : 0 < m <= 1 /\ m * D <= b' - tin).
  { unfold m. assert (0 < (b' - tin) / D) by (apply Rdiv_lt_0_compat; lra). split; [split; [apply Rmin_glb_lt; lra|apply Rmin_l]|].
    pose proof (Rmin_r 1 ((b' - tin) / D)) as K. apply (Rmult_le_compat_r D) in K; [|lra]. field_simplify ((b' - tin) / D * D) in K; lra. }
  assert (Q : Rabs ((b - b') - (last (F (p ++ [b])) 0 - last (F (p ++ [b'])) 0)) <= (1 - gain * m) * Rabs (b - b')).
  { destruct (Rle_dec b' b) as [Hbb|Hbb].
    - pose proof (tame_step H p b b' Hbb). pose proof (tm_grow _ _ _ _ H p b b' Hbb ltac:(lra)).
      rewrite (Rabs_right (b - b')) by lra. rewrite Rabs_right by lra.
      assert (gain * m * (b - b') <= gain * (b - b')) by (apply Rmult_le_compat_r; [lra|]; nra). lra.
    - apply Rnot_le_lt in Hbb. pose proof (tame_step H p b' b ltac:(lra)) as S1.
      rewrite (Rabs_left (b - b')) in * by lra.
      assert (G : gain * m * (b' - b) <= last (F (p ++ [b'])) 0 - last (F (p ++ [b])) 0).
      { destruct (Rle_dec tin b) as [Ht|Ht].
        - pose proof (tm_grow _ _ _ _ H p b' b ltac:(lra) Ht). assert (gain * m * (b' - b) <= gain * (b' - b)) by (apply Rmult_le_compat_r; [lra|]; nra). lra.
        - pose proof (tm_grow _ _ _ _ H p b' tin ltac:(lra) ltac:(lra)). pose proof (tame_step H p tin b ltac:(lra)).
          assert (m * (b' - b) <= b' - tin) by (apply Rle_trans with (m * D); [apply Rmult_le_compat_l; lra|lra]).
          assert (gain * (m * (b' - b)) <= gain * (b' - tin)) by (apply Rmult_le_compat_l; lra). lra. }
      rewrite Rabs_left1 by lra. lra. }
  split; [|lra].
  assert ((1 - gain * m) * Rabs (b - b') <= 1 * Rabs (b - b')) by (apply Rmult_le_compat_r; [apply Rabs_pos|]; nra). lra.
Qed.
Theorem converges : forall x, Forall (Rlt tin) x ->
  exists C r, 0 <= C /\ 0 <= r < 1 /\ forall k, apart (corrected F (F x) k) x <= C * r ^ k.
Proof.
  induction x as [|b' x IH] using rev_ind; intros Hx.
  - exists 0, 0. repeat split; try lra. intros k. assert (E : corrected F (F []) k = []).
    { apply length_zero_iff_nil. rewrite corrected_length. apply (tm_length _ _ _ _ H). }
    rewrite E. cbn. lra.
  - apply Forall_app in Hx as [Hx1 Hx2]. inversion Hx2 as [|? ? Hb _]; subst. destruct (IH Hx1) as (C & r & HC & Hr & HIH). clear IH Hx1 Hx2.
    rewrite (tame_snoc H x b'). set (start := last (F (x ++ [b'])) 0).
    set (p := corrected F (F x)) in *. set (b := last_of p start).
    assert (Lp : forall k, length x = length (p k)) by (intros k; unfold p; rewrite corrected_length, (tm_length _ _ _ _ H); reflexivity).
    assert (B1 : forall k, Rabs (b (S k) - b') <= Rabs (b k - b') + C * r ^ k).
    { intros k. destruct (one_correction x (b k) b' (p k) (Lp k) Hb (Rabs (b k - b') + 1) ltac:(lra) ltac:(pose proof (Rabs_pos (b k - b')); lra)) as [K _].
      specialize (HIH k). unfold b at 1. cbn [last_of]. fold b. cbv zeta. unfold start. lra. }
    pose proof (geometric_sum (fun k => Rabs (b k - b')) C r Hr HC B1) as B2. cbv beta in B2.
    set (D := Rabs (b 0%nat - b') + C / (1 - r) + 1).
    assert (HD : 1 <= D). { unfold D. pose proof (Rabs_pos (b 0%nat - b')). assert (0 <= C / (1 - r)) by (apply Rmult_le_pos; [lra|]; left; apply Rinv_0_lt_compat; lra). lra. }
    set (m := Rmin 1 ((b' - tin) / D)).
    assert (Hm : 0 < m <= 1). { unfold m. assert (0 < (b' - tin) / D) by (apply Rdiv_lt_0_compat; lra). split; [apply Rmin_glb_lt; lra|apply Rmin_l]. }
    assert (B3 : forall k, Rabs (b (S k) - b') <= (1 - gain * m) * Rabs (b k - b') + C * r ^ k).
    { intros k. destruct (one_correction x (b k) b' (p k) (Lp k) Hb D ltac:(specialize (B2 k); unfold D; lra) ltac:(lra)) as [_ K].
      specialize (HIH k). unfold b at 1. cbn [last_of]. fold b. cbv zeta. unfold start. unfold m. lra. }
    destruct (geometric_decay (fun k => Rabs (b k - b')) (1 - gain * m) C r) as (C' & s & HC' & Hs & B4); auto; [split; nra|].
    set (t := Rmax r s). assert (Ht : r <= t /\ s <= t /\ t < 1) by (unfold t; repeat split; [apply Rmax_l|apply Rmax_r|apply Rmax_lub_lt; lra]).
    exists (C + C'), t. split; [lra|]. split; [lra|]. intros k.
    rewrite corrected_snoc. fold p. fold b. rewrite apart_app by (symmetry; apply Lp). cbn [apart].
    specialize (HIH k). specialize (B4 k). cbv beta in B4.
    assert (r ^ k <= t ^ k) by (apply pow_incr; lra). assert (s ^ k <= t ^ k) by (apply pow_incr; lra).
    assert (C * r ^ k <= C * t ^ k) by (apply Rmult_le_compat_l; lra). assert (C' * s ^ k <= C' * t ^ k) by (apply Rmult_le_compat_l; lra). lra.
Qed.
End Converge.
