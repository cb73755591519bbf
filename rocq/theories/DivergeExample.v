(** * An image on which the recovery does not settle. *)
From Coq Require Import ZArith List Bool Reals Lra Lia.
From Coquelicot Require Import Rcomplements Rbar Hierarchy RInt.
From Verif Require Import Num Py RFacts CCDModel TrapsModel ManagerModel ROEModel ClockModel MainModel Spec SpecImage SpecReadout SpecHistory SpecRecovery
  InstantFacts ReadoutImage ReadoutExamples OverfullExample RemoveFacts OrderFacts TameFacts RecoverFacts DepthFacts RecoverImageFacts.
Import ListNotations.
Open Scope R_scope.

(** Two rows, one pixel away from the output. *)
Definition further : direction R := mkDir (Some small_ccd) (Some small_roe) (Some (TOne half_trap)) 0 1 WNone.
Lemma further_setting : single_phase further 2 small_ccd 1 [half_trap] (ln 2) false.
Proof.
  constructor; try reflexivity; try lra.
  - exists (TOne half_trap). auto.
  - discriminate.
  - exists true, DFloat. reflexivity.
  - apply ln_pos. lra.
  - left. reflexivity.
Qed.
Lemma thin_half : map (thinned 1) [half_trap] = [half_trap].
Proof. cbn [map]. do 1 f_equal. unfold thinned, half_trap, small_trap. cbn. f_equal. lra. Qed.
Lemma half_per_pixel : traps_per_pixel [half_trap] = 1 / 2.
Proof. unfold traps_per_pixel, Rsum. cbn. lra. Qed.
Lemma half_mild : mild (traps_per_pixel (map (thinned 1) [half_trap])) 1 1 0.
Proof. rewrite thin_half, half_per_pixel. left. lra. Qed.
Lemma half_physical : Forall physical [half_trap].
Proof. constructor; [apply small_physical; lra|constructor]. Qed.

Notation one_pass := (pass [half_trap] (ln 2) (depth 1 1) 0).
Notation send := (leaves [half_trap] (ln 2) (depth 1 1) 0).
Notation left := (behind [half_trap] (ln 2) (depth 1 1) 0).
Lemma depth_one a : 0 < a -> depth 1 1 a = Rmin 1 a.
Proof.
  intros Ha. unfold depth. destruct (Rle_dec a 0); [lra|]. rewrite Rdiv_1. apply Rpower_1. unfold Rmin. destruct (Rle_dec 1 a); lra.
Qed.
Lemma ln2_nonneg : 0 <= ln 2. Proof. left. apply ln_pos. lra. Qed.
Lemma small_gradual : gradual [half_trap] (depth 1 1) 0 1 /\ forall a, 0 <= a -> 0 <= depth 1 1 a <= 1.
Proof.
  split; [|intros; apply sensitive_range; [apply depth_sensitive; lra|auto]].
  destruct (mild_gradual [half_trap] 1 1 0 ltac:(lra) ltac:(lra) ltac:(rewrite half_per_pixel; lra)) as [G _].
  { rewrite half_per_pixel. left. lra. }
  replace (slope_of 1 1 0) with 1 in G; [exact G|]. unfold slope_of. destruct (Req_EM_T 0 0); [field|lra].
Qed.
Lemma half_electrons q a b : electrons [half_trap] (fun _ _ => q) a b = q * (b - a) / 2.
Proof.
  unfold electrons. cbn [electrons_from]. rewrite RInt_const. change (scal (b - a) q) with ((b - a) * q). change (t_density half_trap) with (1 / 2). lra.
Qed.
Lemma empty_electrons a b : a <= b -> electrons [half_trap] empty_profile a b = 0.
Proof. intros H. unfold empty_profile. rewrite half_electrons. lra. Qed.
Lemma empty_released : released [half_trap] (ln 2) empty_profile = 0.
Proof.
  unfold released. rewrite (electrons_eq [half_trap] (after_release [half_trap] (ln 2) empty_profile) empty_profile 0 1);
    [lra|lra|intros; unfold after_release, empty_profile; lra].
Qed.
Lemma first_sent a : 0 < a -> send a empty_profile = a - Rmin 1 a / 2.
Proof.
  intros Ha. unfold leaves, cloud_from. rewrite empty_released. rewrite Rplus_0_r, (Rmax_right 0 a), depth_one by lra.
  assert (R01 : 0 <= Rmin 1 a <= 1) by (unfold Rmin; destruct (Rle_dec 1 a); lra).
  rewrite demand_value; [|apply tidy_release; [apply half_physical|apply ln2_nonneg|apply tidy_empty]|exact R01].
  rewrite half_per_pixel. rewrite (electrons_eq [half_trap] _ empty_profile 0 (Rmin 1 a));
    [rewrite empty_electrons by lra; lra|lra|intros; unfold after_release, empty_profile; lra].
Qed.
Lemma full_released a : 1 <= a -> released [half_trap] (ln 2) (left a empty_profile) = 1 / 4.
Proof.
  intros Ha. unfold behind, cloud_from. rewrite empty_released, Rplus_0_r, (Rmax_right 0 a), depth_one, Rmin_left by lra.
  unfold released.
  rewrite (electrons_eq [half_trap] (fill_to 1 _) (fun _ _ => 1) 0 1); [|lra|intros; unfold fill_to; destruct (Rlt_dec x 1); lra].
  rewrite (electrons_eq [half_trap] (after_release _ _ _) (fun _ _ => 1 / 2) 0 1).
  - rewrite !half_electrons. lra.
  - lra.
  - intros s x Hs Hx. cbn in Hs. assert (s = 0%nat) as -> by lia. unfold after_release, fill_to. destruct (Rlt_dec x 1); [|lra].
    cbn. replace (- ln 2 / 1) with (- ln 2) by lra. rewrite exp_Ropp, exp_ln by lra. lra.
Qed.
Lemma sent_half m P : tidy 1 P -> cloud_from [half_trap] (ln 2) 0 m P / 2 <= send m P.
Proof.
  intros HP. pose proof (leaves_bound [half_trap] (ln 2) half_physical ln2_nonneg (depth 1 1) 0 (proj2 small_gradual) m P HP) as [B _].
  rewrite half_per_pixel in B. pose proof (gr_grows _ _ _ _ (proj1 small_gradual) 0 _ (conj (Rle_refl 0) (cloud_floor [half_trap] (ln 2) 0 m P))) as G.
  assert (E : depth 1 1 0 = 0) by (unfold depth; destruct (Rle_dec 0 0); [reflexivity|lra]). rewrite E in G. lra.
Qed.
Notation F := (column_reads [half_trap] (ln 2) (depth 1 1) 0 2 1).
Lemma two_rows_read a x : 0 < a -> exists y, F [a; x] = [send (send a empty_profile) empty_profile; y] /\ 0 <= y /\ (3 / 2 <= a -> 1 / 16 <= y).
Proof.
  intros Ha. unfold column_reads. cbn [enters reads pass skip].
  set (e := empty_profile). assert (T : tidy 1 e) by apply (tidy_empty [half_trap]).
  set (a1 := send a e). set (x1 := send x (left a e)). set (a2 := send a1 e). set (x2 := send x1 (left a1 e)).
  assert (Tb : forall m P, tidy 1 P -> tidy 1 (left m P)).
  { intros m P HP. apply (behind_tidy [half_trap] (ln 2) half_physical ln2_nonneg (depth 1 1) 0 (proj2 small_gradual) m P HP). }
  assert (N : forall m P, tidy 1 P -> 0 <= send m P).
  { intros m P HP. pose proof (sent_half m P HP). pose proof (cloud_floor [half_trap] (ln 2) 0 m P). lra. }
  exists (send x2 e). split; [reflexivity|]. split; [apply N, T|]. intros H.
  assert (Ha1 : 1 <= a1) by (unfold a1; fold e; unfold e; rewrite first_sent, Rmin_left by lra; lra).
  pose proof (sent_half x1 (left a1 e) (Tb a1 e T)) as S2. fold x2 in S2. unfold cloud_from in S2. unfold e in S2 at 1. rewrite (full_released a1 Ha1) in S2.
  pose proof (N x (left a e) (Tb a e T)) as Hx1. fold x1 in Hx1. rewrite Rmax_right in S2 by lra.
  pose proof (sent_half x2 e T) as S3. unfold cloud_from in S3. unfold e in S3 at 1. rewrite empty_released in S3. rewrite Rmax_right in S3 by lra. lra.
Qed.
Lemma estimates : forall k, exists x, corrected F [1; 0] (S (S k)) = [2; x] /\ x <= - INR k / 16.
Proof.
  assert (G : forall a, 0 < a -> send (send a empty_profile) empty_profile = let b := a - Rmin 1 a / 2 in b - Rmin 1 b / 2).
  { intros a Ha. rewrite (first_sent a Ha). cbv zeta. apply first_sent. unfold Rmin. destruct (Rle_dec 1 a); lra. }
  assert (Rm : forall x y : R, x <= y -> Rmin x y = x) by (intros; apply Rmin_left; auto).
  assert (Rm' : forall x y : R, y <= x -> Rmin x y = y) by (intros; apply Rmin_right; auto).
  induction k as [|k (x & E & Hx)].
  - cbn [corrected]. destruct (two_rows_read 1 0 ltac:(lra)) as (y1 & E1 & Hy1 & _). rewrite E1, (G 1) by lra. cbv zeta.
    rewrite (Rm 1 1), (Rm' 1 (1 - 1 / 2)) by lra. cbn [plus_list].
    set (x1 := 0 + (0 - y1)). replace (1 + (1 - (1 - 1 / 2 - (1 - 1 / 2) / 2))) with (7 / 4) by lra.
    destruct (two_rows_read (7 / 4) x1 ltac:(lra)) as (y2 & E2 & Hy2 & _). rewrite E2, (G (7 / 4)) by lra. cbv zeta.
    rewrite (Rm 1 (7 / 4)), (Rm 1 (7 / 4 - 1 / 2)) by lra. cbn [plus_list]. exists (x1 + (0 - y2)). split; [f_equal; lra|]. unfold x1. cbn. lra.
  - set (j := S (S k)) in *. cbn [corrected]. cbv zeta. rewrite E. destruct (two_rows_read 2 x ltac:(lra)) as (y & Ey & Hy & Hy'). rewrite Ey, (G 2) by lra. cbv zeta.
    rewrite (Rm 1 2), (Rm 1 (2 - 1 / 2)) by lra. cbn [plus_list]. exists (x + (0 - y)). split; [f_equal; lra|]. specialize (Hy' ltac:(lra)). rewrite S_INR. lra.
Qed.
Lemma diverges_image : forall bound, exists n, forall k, (n <= k)%nat ->
  exists est, remove_cti small_image k further no_direction None = Ok est /\ pixel est 0 0 = 2 /\ pixel est 1 0 < - bound.
Proof.
  intros bound. destruct (nfloor_ex (16 * Rabs bound) ltac:(pose proof (Rabs_pos bound); lra)) as [n Hn]. exists (S (S (S n))). intros k Hk.
  assert (Hs : shape 2 1 small_image) by (split; [reflexivity|repeat constructor]).
  pose proof (remove_columns further no_direction small_ccd 1 (ln 2) 1 1 0 [half_trap] 2 1 ltac:(lia) further_setting (small_group (1 / 2) ltac:(lra)) small_params
    ltac:(lra) ltac:(lra) eq_refl eq_refl half_mild small_image ltac:(lia) Hs) as H.
  destruct H with (k := k) as (est & E & S & K).
  { intros k0 j Hj. apply Forall_forall. intros y _. left. reflexivity. }
  exists est. split; [exact E|]. specialize (K 0%nat ltac:(lia)). rewrite thin_half in K. 
  change (column_of small_image 0) with [1; 0] in K. change (d_offset further) with 1%nat in K.
  destruct k as [|[|k]]; [lia|lia|]. destruct (estimates k) as (x & Ex & Hx). rewrite Ex in K.
  rewrite <- !nth_column, K. cbn [nth]. split; [reflexivity|].
  assert (INR n + 1 <= INR k) by (rewrite <- S_INR; apply le_INR; lia). pose proof (Rle_abs bound). lra.
Qed.

(** ** Wells that fill too steeply *)
(** One packet past empty traps. *)
Lemma empty_left traps well dwell a : Forall physical traps -> 0 <= dwell -> 0 <= a -> 0 <= well a <= 1 ->
  left_over traps well dwell a empty_profile = a - Rmin a (traps_per_pixel traps * well a).
Proof.
  intros Hp Hd Ha Hw. assert (E0 : forall v, 0 <= v <= 1 -> electrons traps (after_release traps dwell empty_profile) 0 v = 0).
  { intros v Hv. rewrite (electrons_eq traps _ (fun s x => 1 - 1) 0 v); [|lra|intros; unfold after_release, empty_profile; lra].
    rewrite (electrons_minus traps (fun _ _ => 1) (fun _ _ => 1)) by apply one_integrable. lra. }
  assert (Er : released traps dwell empty_profile = 0).
  { unfold released. rewrite (electrons_eq traps empty_profile (after_release traps dwell empty_profile) 0 1); [lra|lra|intros; unfold after_release, empty_profile; lra]. }
  unfold left_over, cloud. rewrite Er, Rplus_0_r, (Rmax_right 0 a) by lra. unfold captured.
  rewrite demand_value by (auto; apply tidy_release; auto; apply tidy_empty). rewrite E0 by exact Hw. do 2 f_equal. lra.
Qed.
Definition steep_ccd : ccd R := mkCCD [1] 1 [1] [2] [0] [BList [1]].
Definition steep : direction R := mkDir (Some steep_ccd) (Some small_roe) (Some (TOne (small_trap (3 / 4)))) 0 0 WNone.
Lemma steep_setting : single_phase steep 1 steep_ccd 1 [small_trap (3 / 4)] (ln 2) false.
Proof.
  constructor; try reflexivity; try lra.
  - exists (TOne (small_trap (3 / 4))). auto.
  - discriminate.
  - exists true, DFloat. reflexivity.
  - apply ln_pos. lra.
  - left. reflexivity.
Qed.
Lemma steep_readout a : 0 < a <= 1 -> add_cti [[a]] steep no_direction None = Ok ([[a - 3 / 4 * (a * a)]], the_roe steep, the_roe no_direction).
Proof.
  intros Ha. assert (Hs : shape 1 1 [[a]]) by (split; [reflexivity|repeat constructor]).
  destruct (any_image [[a]] steep no_direction steep_ccd 1 [small_trap (3 / 4)] (ln 2) 1 2 1 1 Hs ltac:(lia) steep_setting (small_group (3 / 4) ltac:(lra))) as (im' & E & S & K);
    [constructor; reflexivity|lra|lra|reflexivity|reflexivity|].
  specialize (K 0%nat ltac:(lia)). change (column_of [[a]] 0) with [a] in K. change (d_offset steep) with 0%nat in K.
  unfold column_clouds in K. cbn [length through_clouds read_clouds past_clouds] in K.
  assert (D : depth 1 2 a = a * a).
  { unfold depth. destruct (Rle_dec a 0); [lra|]. rewrite Rdiv_1, Rmin_right by lra. replace 2 with (1 + 1) by lra. rewrite Rpower_plus, Rpower_1 by lra. reflexivity. }
  rewrite empty_left in K; [| |apply ln2_nonneg|lra|rewrite D; nra].
  - rewrite D in K. assert (P : traps_per_pixel (map (thinned 1) [small_trap (3 / 4)]) = 3 / 4) by (unfold traps_per_pixel, Rsum; cbn; lra).
    rewrite P, Rmin_right in K by nra. rewrite E. do 3 f_equal.
    apply (columns_determine im' [[a - 3 / 4 * (a * a)]] 1 1 S); [split; [reflexivity|repeat constructor]|]. intros j Hj. assert (j = 0)%nat as -> by lia. rewrite K. reflexivity.
  - cbn [map]. constructor; [apply thinned_physical; [lra|apply small_physical; lra]|constructor].
Qed.
