(** * Watermark arrays: sums, profiles and integrals. *)
From Coq Require Import ZArith List Bool Reals Lra Lia.
From Coquelicot Require Import Rcomplements Rbar Hierarchy RInt.
From Verif Require Import Num Py RFacts CCDModel TrapsModel ManagerModel Spec.
Import ListNotations.
Open Scope R_scope.

(** ** Sums. *)
Lemma Rsum_app a b : Rsum (a ++ b) = Rsum a + Rsum b.
Proof. unfold Rsum. induction a; cbn; [ring|]. rewrite IHa. ring. Qed.
Lemma fold_left_Rplus l a : fold_left Rplus l a = a + Rsum l.
Proof. revert a. induction l; intros; cbn; [unfold Rsum; cbn; ring|]. rewrite IHl. unfold Rsum; cbn. ring. Qed.
Lemma sumF_Rsum (l : list R) : sumF l = Rsum l.
Proof. unfold sumF; rnum. rewrite fold_left_Rplus. ring. Qed.
Lemma Rsum_nonneg l : Forall (fun x => 0 <= x) l -> 0 <= Rsum l.
Proof. unfold Rsum. induction 1; cbn; lra. Qed.
Lemma Rsum_repeat x n : Rsum (repeat x n) = INR n * x.
Proof. induction n; [cbn; ring|]. rewrite S_INR. cbn [repeat]. unfold Rsum in *; cbn. rewrite IHn. ring. Qed.
Lemma Rsum_scal k l : Rsum (map (Rmult k) l) = k * Rsum l.
Proof. unfold Rsum. induction l; cbn; [ring|]. rewrite IHl. ring. Qed.

(** Scalar product of fill fractions with densities. *)
Fixpoint dot (a b : list R) : R :=
  match a, b with
  | x :: a', y :: b' => x * y + dot a' b'
  | _, _ => 0
  end.

Definition row_trapped (ds : list R) (r : wrow R) : R := fst r * dot (snd r) ds.
Definition trapped (ds : list R) (w : wmarks R) : R := Rsum (map (row_trapped ds) w).

Lemma dot_fold v fs ds tot :
  fold_left (fun total '(f, d) => total + v * f * d) (combine fs ds) tot = tot + v * dot fs ds.
Proof.
  revert ds tot. induction fs as [|f fs IH]; intros [|d ds] tot; cbn; try ring.
  rewrite IH. ring.
Qed.
Lemma cy_n_trapped_eq w ds : cy_n_trapped w ds = trapped ds w.
Proof.
  unfold cy_n_trapped; rnum.
  assert (H : forall tot, fold_left (fun total (r : wrow R) =>
      fold_left (fun total '(f, d) => total + vol r * f * d) (combine (vals r) ds) total) w tot
      = tot + trapped ds w).
  { induction w as [|r w IH]; intros; cbn; [unfold trapped, Rsum; cbn; ring|].
    rewrite dot_fold, IH. unfold trapped, row_trapped, Rsum. cbn. unfold vol, vals. ring. }
  rewrite H. ring.
Qed.

Lemma trapped_app ds a b : trapped ds (a ++ b) = trapped ds a + trapped ds b.
Proof. unfold trapped. now rewrite map_app, Rsum_app. Qed.
Lemma trapped_cons ds r w : trapped ds (r :: w) = row_trapped ds r + trapped ds w.
Proof. reflexivity. Qed.
Lemma trapped_zeros ds fs k : trapped ds (repeat (0, fs) k) = 0.
Proof.
  induction k; [reflexivity|]. cbn [repeat]. rewrite trapped_cons, IHk. unfold row_trapped; cbn. ring.
Qed.
Lemma volume_app a b : volume (a ++ b) = volume a + volume b.
Proof. unfold volume. now rewrite map_app, Rsum_app. Qed.
Lemma volume_cons r w : volume (r :: w) = fst r + volume w.
Proof. reflexivity. Qed.
Lemma volume_zeros (fs : list R) k : volume (repeat (0, fs) k) = 0.
Proof. induction k; [reflexivity|]. cbn [repeat]. rewrite volume_cons, IHk. cbn. ring. Qed.

Lemma dot_nonneg a b : Forall (fun x => 0 <= x) a -> Forall (fun x => 0 <= x) b -> 0 <= dot a b.
Proof.
  intros Ha. revert b. induction Ha; intros b Hb; [cbn; lra|].
  destruct Hb; cbn; [lra|]. specialize (IHHa _ Hb). nra.
Qed.
Lemma dot_le a b ds : Forall2 Rle a b -> Forall (fun x => 0 <= x) ds -> dot a ds <= dot b ds.
Proof.
  intros H. revert ds. induction H; intros ds Hd; [cbn; lra|].
  destruct Hd; cbn; [lra|]. specialize (IHForall2 _ Hd). nra.
Qed.
Lemma dot_ones n ds : length ds = n -> dot (repeat 1 n) ds = Rsum ds.
Proof.
  revert n. induction ds; intros n <-; cbn; [reflexivity|]. rewrite IHds by reflexivity. unfold Rsum; cbn. ring.
Qed.
Lemma dot_zeros n ds : dot (repeat 0 n) ds = 0.
Proof. revert ds. induction n; intros [|d ds]; cbn; auto. rewrite IHn. ring. Qed.

(** ** Rows. *)
Definition zrow (n : nat) : wrow R := (0, repeat 0 n).
Lemma zero_row_zrow n : zero_row n = zrow n. Proof. reflexivity. Qed.

(** ** Profiles. *)
Lemma occupancy_app a b s x :
  Forall (fun r => 0 <= fst r) a ->
  0 <= x ->
  occupancy (a ++ b) s x = if Rlt_dec x (volume a) then occupancy a s x else occupancy b s (x - volume a).
Proof.
  intros Ha. revert x. induction Ha as [|[v fs] a Hv Ha IH]; intros x Hx.
  - cbn. unfold volume, Rsum; cbn. destruct (Rlt_dec x 0); [lra|]. f_equal. ring.
  - cbn in Hv. cbn [app occupancy]. rewrite volume_cons; cbn [fst].
    assert (0 <= volume a).
    { unfold volume. apply Rsum_nonneg. apply Forall_map. exact Ha. }
    destruct (Rlt_dec x v).
    + destruct (Rlt_dec x (v + volume a)); [|lra]. reflexivity.
    + rewrite IH by lra. destruct (Rlt_dec (x - v) (volume a)), (Rlt_dec x (v + volume a)); try lra; try reflexivity.
      f_equal. ring.
Qed.
Lemma occupancy_zeros (fs : list R) k s x : 0 <= x -> occupancy (repeat (0, fs) k) s x = 0.
Proof.
  induction k; intros; [reflexivity|]. cbn. destruct (Rlt_dec x 0); [lra|].
  replace (x - 0) with x by ring. auto.
Qed.
Lemma occupancy_above w s x : Forall (fun r => 0 <= fst r) w -> volume w <= x -> occupancy w s x = 0.
Proof.
  intros Hw. revert x. induction Hw as [|[v fs] w Hv Hw IH]; intros x Hx; [reflexivity|].
  rewrite volume_cons in Hx. cbn in *. 
  assert (0 <= volume w) by (unfold volume; apply Rsum_nonneg, Forall_map, Hw).
  destruct (Rlt_dec x v); [lra|]. apply IH. lra.
Qed.

Definition species_sum (s : nat) (w : wmarks R) : R := Rsum (map (fun r => fst r * nth s (snd r) 0) w).

(** ** Integrals of profiles. *)
Lemma is_RInt_const_ext (f : R -> R) a b c : a <= b ->
  (forall x, a < x < b -> f x = c) -> is_RInt f a b ((b - a) * c).
Proof.
  intros Hab H. apply is_RInt_ext with (f := fun _ => c).
  - intros x Hx. rewrite Rmin_left, Rmax_right in Hx by lra. symmetry; now apply H.
  - apply (is_RInt_const a b c).
Qed.

Lemma is_RInt_chain (f : R -> R) a b c l1 l2 :
  is_RInt f a b l1 -> is_RInt f b c l2 -> is_RInt f a c (l1 + l2).
Proof. intros H1 H2. exact (is_RInt_Chasles f a b c l1 l2 H1 H2). Qed.

Lemma is_RInt_shift (f g : R -> R) v b l : 0 <= b ->
  is_RInt f 0 b l -> (forall x, v < x < v + b -> g x = f (x - v)) -> is_RInt g v (v + b) l.
Proof.
  intros Hb Hf Hg.
  apply is_RInt_ext with (f := fun y => scal 1 (f (1 * y + - v))).
  - intros x Hx. rewrite Rmin_left, Rmax_right in Hx by lra. rewrite Hg by lra.
    unfold scal; cbn. unfold mult; cbn. rewrite !Rmult_1_l. reflexivity.
  - refine (is_RInt_comp_lin f 1 (- v) v (v + b) l _).
    replace (1 * v + - v) with 0 by ring. replace (1 * (v + b) + - v) with b by ring. exact Hf.
Qed.

Lemma is_RInt_occupancy w s : Forall (fun r => 0 <= fst r) w ->
  is_RInt (occupancy w s) 0 (volume w) (species_sum s w).
Proof.
  intros Hw. induction Hw as [|[v fs] w Hv Hw IH].
  - unfold volume, species_sum, Rsum; cbn. apply (is_RInt_point (occupancy [] s) 0).
  - cbn [fst] in Hv.
    rewrite volume_cons. unfold species_sum in *. cbn [map]. unfold Rsum at 1. cbn [fold_right fst snd].
    fold (Rsum (map (fun r : wrow R => fst r * nth s (snd r) 0) w)).
    assert (0 <= volume w) by (unfold volume; apply Rsum_nonneg, Forall_map, Hw).
    apply (is_RInt_chain _ 0 v (v + volume w)).
    + replace (v * nth s fs 0) with ((v - 0) * nth s fs 0) by ring.
      apply is_RInt_const_ext; [lra|]. intros x Hx. cbn. destruct (Rlt_dec x v); [reflexivity|lra].
    + apply (is_RInt_shift (occupancy w s)); auto. intros x Hx. cbn. destruct (Rlt_dec x v); [lra|reflexivity].
Qed.
Lemma is_RInt_occupancy_prefix a b s : Forall (fun r => 0 <= fst r) a ->
  is_RInt (occupancy (a ++ b) s) 0 (volume a) (species_sum s a).
Proof.
  intros Ha. eapply is_RInt_ext; [|apply is_RInt_occupancy, Ha].
  intros x Hx. assert (0 <= volume a) by (unfold volume; apply Rsum_nonneg, Forall_map, Ha).
  rewrite Rmin_left, Rmax_right in Hx by lra. rewrite occupancy_app by (auto; lra).
  destruct (Rlt_dec x (volume a)); [reflexivity|lra].
Qed.
Lemma is_RInt_occupancy_upto w s b : Forall (fun r => 0 <= fst r) w -> volume w <= b ->
  is_RInt (occupancy w s) 0 b (species_sum s w).
Proof.
  intros Hw Hb. replace (species_sum s w) with (species_sum s w + (b - volume w) * 0) by ring.
  apply (is_RInt_chain _ 0 (volume w) b); [now apply is_RInt_occupancy|].
  apply is_RInt_const_ext; [lra|]. intros x Hx. apply occupancy_above; auto; lra.
Qed.

(** Number of electrons of a profile from the species sums. *)
Fixpoint weighted (s : nat) (ds : list R) (w : wmarks R) : R :=
  match ds with [] => 0 | d :: ds' => d * species_sum s w + weighted (S s) ds' w end.
Lemma dot_nth fs ds s0 : 
  dot (skipn s0 fs) ds = (fix go s ds := match ds with [] => 0 | d :: ds' => d * nth s fs 0 + go (S s) ds' end) s0 ds.
Proof.
  revert s0. induction ds as [|d ds IH]; intros; [destruct (skipn s0 fs); reflexivity|].
  rewrite <- IH. destruct (Nat.lt_ge_cases s0 (length fs)).
  - assert (E : skipn s0 fs = nth s0 fs 0 :: skipn (S s0) fs).
    { clear -H. revert s0 H. induction fs; intros [|s0] H; cbn in *; try lia; auto. apply IHfs. lia. }
    rewrite E. cbn [dot]. ring.
  - rewrite nth_overflow, !skipn_all2 by lia. cbn. ring.
Qed.
Lemma weighted_cons s ds r w : weighted s ds (r :: w) = fst r * (fix go s ds := match ds with [] => 0 | d :: ds' => d * nth s (snd r) 0 + go (S s) ds' end) s ds + weighted s ds w.
Proof.
  revert s. induction ds; intros; cbn; [ring|]. rewrite IHds. unfold species_sum, Rsum; cbn. ring.
Qed.
Lemma trapped_weighted ds w : trapped ds w = weighted 0 ds w.
Proof.
  induction w as [|r w IH].
  - assert (forall s, weighted s ds [] = 0); [|rewrite H; reflexivity].
    induction ds; intros; cbn; auto. rewrite IHds. unfold species_sum, Rsum; cbn. ring.
  - rewrite trapped_cons, weighted_cons, IH, <- dot_nth. reflexivity.
Qed.
Lemma electrons_weighted traps P a b w s0 :
  (forall s, is_RInt (P s) a b (species_sum s w)) ->
  electrons_from s0 traps P a b = weighted s0 (map (@t_density R) traps) w.
Proof.
  intros H. revert s0. induction traps as [|t ts IH]; intros; [reflexivity|].
  cbn [electrons_from map weighted].
  assert (E : RInt (P s0) a b = species_sum s0 w) by exact (is_RInt_unique (P s0) a b _ (H s0)).
  rewrite E, IH. reflexivity.
Qed.
Lemma electrons_trapped traps P a b w :
  (forall s, is_RInt (P s) a b (species_sum s w)) ->
  electrons traps P a b = trapped (map (@t_density R) traps) w.
Proof. intros. unfold electrons. rewrite (electrons_weighted _ _ _ _ w) by auto. symmetry; apply trapped_weighted. Qed.

Lemma electrons_ext traps P Q a b : a <= b ->
  (forall s x, (s < length traps)%nat -> a < x < b -> P s x = Q s x) -> electrons traps P a b = electrons traps Q a b.
Proof.
  intros Hab H. unfold electrons.
  assert (G : forall k, (forall s x, (k <= s < k + length traps)%nat -> a < x < b -> P s x = Q s x) ->
     electrons_from k traps P a b = electrons_from k traps Q a b).
  { clear H. induction traps as [|t ts IH]; intros k H; [reflexivity|]. cbn [electrons_from]. f_equal.
    - f_equal. apply RInt_ext. intros x Hx. rewrite Rmin_left, Rmax_right in Hx by lra. apply H; [cbn; lia|lra].
    - apply IH. intros. apply H; [cbn; lia|auto]. }
  apply G. intros; apply H; auto; lia.
Qed.
