(** * Order, differences and recovery of images. *)
From Coq Require Import ZArith List Bool Reals Lra Lia.
From Coquelicot Require Import Rcomplements.
From Verif Require Import Num Py RFacts CCDModel TrapsModel ManagerModel ROEModel ClockModel MainModel Spec SpecImage SpecReadout SpecHistory SpecRecovery
  InstantFacts ReadoutImage RemoveFacts OrderFacts TameFacts RecoverFacts DepthFacts.
Import ListNotations.
Open Scope R_scope.

(** ** How much a pixel changes *)
Definition near (d : R) : list R -> list R -> Prop := Forall2 (fun a b => Rabs (b - a) <= d).
Lemma near_refl x : near 0 x x.
Proof. induction x; constructor; [rewrite Rminus_eq_0, Rabs_R0; lra|exact IHx]. Qed.
Lemma near_trans d1 d2 x y z : near d1 x y -> near d2 y z -> near (d1 + d2) x z.
Proof.
  intros H. revert z. induction H as [|a b x y Hab H IH]; intros z H2; inversion H2; subst; constructor; [|apply IH; auto].
  replace (y0 - a) with ((y0 - b) + (b - a)) by lra. eapply Rle_trans; [apply Rabs_triang|]. lra.
Qed.
Lemma near_weaken d1 d2 x y : d1 <= d2 -> near d1 x y -> near d2 x y.
Proof. intros Hd H. induction H; constructor; auto. lra. Qed.
Section Change.
Context (traps : list (trap R)) (well : R -> R) (dwell floor : R).
Hypothesis Hphys : Forall physical traps.
Hypothesis Hdwell : 0 <= dwell.
Hypothesis Hw : forall a, floor <= a -> 0 <= well a <= 1.
Let rho := traps_per_pixel traps.
Let th (p : nat) := floor + INR p * rho.
Lemma pass_near : forall x P, tidy (length traps) P -> Forall (Rle floor) x -> near rho x (pass traps dwell well floor P x).
Proof.
  induction x as [|m x IH]; intros P HP Hx; cbn [pass]; constructor.
  - inversion Hx; subst. pose proof (leaves_bound traps dwell Hphys Hdwell well floor Hw m P HP) as B.
    pose proof (released_nonneg traps dwell Hphys Hdwell P HP) as Rn.
    assert (Rr : released traps dwell P <= rho).
    { unfold released. pose proof (electrons_at_most traps Hphys P 0 1 HP ltac:(lra) ltac:(lra)).
      pose proof (electrons_nonneg traps Hphys _ 0 1 (tidy_release traps dwell Hphys Hdwell P HP) ltac:(lra) ltac:(lra)). unfold rho. lra. }
    assert (E : cloud_from traps dwell floor m P = m + released traps dwell P) by (unfold cloud_from; rewrite Rmax_right; lra).
    pose proof (Hw _ (cloud_floor traps dwell floor m P)) as W. pose proof (density_nonneg traps Hphys) as Hr. fold rho in Hr, B.
    apply Rabs_le. rewrite E in *. nra.
  - inversion Hx; subst. apply IH; auto. apply behind_tidy; auto.
Qed.
Lemma near_above d t x y : near d x y -> Forall (Rle (t + d)) x -> Forall (Rle t) y.
Proof.
  induction 1 as [|a b x y Hab H IH]; intros Hx; constructor; inversion Hx; subst; auto.
  apply Rabs_le_between in Hab. lra.
Qed.
Lemma rho_nonneg : 0 <= rho. Proof. apply density_nonneg, Hphys. Qed.
Lemma th_floor' p : floor <= th p.
Proof. unfold th. pose proof rho_nonneg. pose proof (pos_INR p). nra. Qed.
Lemma th_S p : th (S p) = th p + rho. Proof. unfold th. rewrite S_INR. lra. Qed.
Lemma above_floor p x : Forall (Rle (th p)) x -> Forall (Rle floor) x.
Proof. intros H. eapply Forall_impl; [|exact H]. intros a Ha. pose proof (th_floor' p). lra. Qed.
Lemma reads_near : forall k x, Forall (Rle (th k)) x -> near (INR k * rho) x (reads traps dwell well floor k x).
Proof.
  induction k as [|k IH]; intros x Hx; cbn [reads].
  - replace (INR 0 * rho) with 0 by (cbn; lra). apply near_refl.
  - pose proof (pass_near x empty_profile (tidy_empty traps) (above_floor _ _ Hx)) as N.
    rewrite th_S in Hx. pose proof (near_above _ _ _ _ N Hx) as Hy. rewrite S_INR. replace ((INR k + 1) * rho) with (rho + INR k * rho) by lra.
    eapply near_trans; [exact N|]. destruct (pass traps dwell well floor empty_profile x) as [|h y]; cbn [skip]; [constructor|].
    inversion Hy; subst. constructor; [rewrite Rminus_eq_0, Rabs_R0; pose proof rho_nonneg; pose proof (pos_INR k); nra|]. apply IH. auto.
Qed.
Lemma enters_near q : forall k x, Forall (Rle (th (k + q))) x ->
  near (INR k * rho) x (enters traps dwell well floor k x) /\ Forall (Rle (th q)) (enters traps dwell well floor k x).
Proof.
  induction k as [|k IH]; intros x Hx; cbn [enters].
  - split; [replace (INR 0 * rho) with 0 by (cbn; lra); apply near_refl|exact Hx].
  - pose proof (pass_near x empty_profile (tidy_empty traps) (above_floor _ _ Hx)) as N.
    cbn [Nat.add] in Hx. rewrite th_S in Hx. pose proof (near_above _ _ _ _ N Hx) as Hy. destruct (IH _ Hy) as [I1 I2]. split; [|exact I2].
    rewrite S_INR. replace ((INR k + 1) * rho) with (rho + INR k * rho) by lra. eapply near_trans; [exact N|exact I1].
Qed.
Lemma column_near rows offset x : Forall (Rle (th (offset + rows))) x ->
  near (INR (offset + rows) * rho) x (column_reads traps dwell well floor rows offset x).
Proof.
  intros Hx. destruct (enters_near rows offset x Hx) as [N1 N2]. unfold column_reads.
  rewrite plus_INR, Rmult_plus_distr_r. eapply near_trans; [exact N1|]. apply reads_near, N2.
Qed.

(** The iterates of a recovery stay near the image to recover. *)
Context (rows offset : nat).
Let F := column_reads traps dwell well floor rows offset.
Let d := INR (offset + rows) * rho.
Lemma plus_near_truth : forall x fx y fy, near d x fx -> near d y fy -> length x = length y ->
  near (d + d) x (plus_list y fx fy).
Proof.
  intros x fx y fy H. revert y fy. induction H as [|a fa x fx Ha H IH]; intros y fy H2 L; destruct H2 as [|b fb y fy Hb H2]; try discriminate; cbn [plus_list]; [constructor|].
  constructor; [|apply IH; auto]. apply Rabs_le_between in Ha, Hb. apply Rabs_le. lra.
Qed.
Lemma iterates_near x : Forall (Rle (th (offset + rows) + (d + d))) x -> length (F x) = length x ->
  forall k, near (d + d) x (corrected F (F x) k).
Proof.
  intros Hx L. assert (D0 : 0 <= d) by (unfold d; pose proof rho_nonneg; pose proof (pos_INR (offset + rows)); nra).
  assert (Hx1 : Forall (Rle (th (offset + rows))) x) by (eapply Forall_impl; [|exact Hx]; cbv beta; intros; lra).
  induction k as [|k IH]; cbn [corrected].
  - apply (near_weaken d); [lra|]. apply column_near, Hx1.
  - apply plus_near_truth.
    + apply column_near, Hx1.
    + apply column_near. eapply near_above; [exact IH|exact Hx].
    + clear L Hx Hx1. induction IH; cbn; auto.
Qed.
End Change.

(** ** Images *)
Lemma nth_column (im : image R) i j : nth i (column_of im j) 0 = pixel im i j.
Proof.
  unfold column_of, pixel. rnum.
  destruct (Nat.lt_ge_cases i (length im)) as [H|H].
  - rewrite (nth_indep _ 0 (nth j (@nil R) 0)) by (rewrite map_length; exact H). apply (map_nth (fun row => nth j row 0)).
  - rewrite !nth_overflow; [reflexivity|destruct (nth i im []) eqn:E; [cbn; lia|]; rewrite nth_overflow in E by exact H; discriminate|rewrite map_length; exact H].
Qed.
Lemma column_length (im : image R) rows cols j : shape rows cols im -> length (column_of im j) = rows.
Proof. intros [H _]. unfold column_of. rewrite map_length. exact H. Qed.
Lemma Forall_column (Q : R -> Prop) (im : image R) rows cols j : shape rows cols im -> (forall i, (i < rows)%nat -> Q (pixel im i j)) -> Forall Q (column_of im j).
Proof.
  intros Hs H. apply Forall_forall. intros x Hx. apply (In_nth _ _ 0) in Hx as (i & Hi & <-). rewrite (column_length im rows cols j Hs) in Hi.
  rewrite nth_column. apply H, Hi.
Qed.
Lemma Forall_pixel (Q : R -> Prop) (im : image R) rows cols i j : shape rows cols im -> Forall Q (column_of im j) -> (i < rows)%nat -> Q (pixel im i j).
Proof.
  intros Hs H Hi. rewrite <- nth_column. rewrite Forall_forall in H. apply H, nth_In. rewrite (column_length im rows cols j Hs). exact Hi.
Qed.
Lemma ordered_columns (a b : image R) rows cols j : shape rows cols a -> shape rows cols b ->
  (ordered (column_of a j) (column_of b j) <-> forall i, (i < rows)%nat -> pixel a i j <= pixel b i j).
Proof.
  intros Ha Hb. split.
  - intros H i Hi. rewrite <- !nth_column. pose proof (column_length a rows cols j Ha) as L. revert i Hi. rewrite <- L. clear L.
    induction H as [|x y l l' Hxy H IH]; intros i Hi; cbn in Hi; [lia|]. destruct i; cbn; [exact Hxy|apply IH; lia].
  - intros H. apply Forall2_nth_R; [rewrite (column_length a rows cols j Ha), (column_length b rows cols j Hb); reflexivity|].
    intros i Hi. rewrite (column_length a rows cols j Ha) in Hi. rewrite !nth_column. apply H, Hi.
Qed.
Lemma columns_determine (a b : image R) rows cols : shape rows cols a -> shape rows cols b ->
  (forall j, (j < cols)%nat -> column_of a j = column_of b j) -> a = b.
Proof.
  intros Ha Hb H. apply (image_ext a b rows cols Ha Hb). intros i j Hi Hj. rewrite <- !nth_column, H by exact Hj. reflexivity.
Qed.
Lemma plus_list_nth : forall x a b i, length x = length a -> length a = length b ->
  (i < length x)%nat -> nth i (plus_list x a b) 0 = nth i x 0 + (nth i a 0 - nth i b 0).
Proof.
  induction x as [|u x IH]; intros [|v a] [|w b] i E1 E2 Hi; try discriminate; cbn in Hi; [lia|]. destruct i; cbn; [reflexivity|]. apply IH; cbn in *; lia.
Qed.
Lemma uniform_rates (e : nat -> nat -> R) cols : (forall j, (j < cols)%nat -> exists C r, 0 <= C /\ 0 <= r < 1 /\ forall k, e j k <= C * r ^ k) ->
  exists C r, 0 <= C /\ 0 <= r < 1 /\ forall j k, (j < cols)%nat -> e j k <= C * r ^ k.
Proof.
  induction cols as [|n IH]; intros H; [exists 0, 0; repeat split; try lra; intros; lia|].
  destruct (IH ltac:(intros; apply H; lia)) as (C & r & HC & Hr & K). destruct (H n ltac:(lia)) as (C' & r' & HC' & Hr' & K').
  exists (C + C'), (Rmax r r'). split; [lra|]. split; [split; [pose proof (Rmax_l r r'); lra|apply Rmax_lub_lt; lra]|].
  intros j k Hj. pose proof (Rmax_l r r') as M1. pose proof (Rmax_r r r') as M2.
  assert (r ^ k <= Rmax r r' ^ k) by (apply pow_incr; lra). assert (r' ^ k <= Rmax r r' ^ k) by (apply pow_incr; lra).
  pose proof (pow_le r k ltac:(lra)). pose proof (pow_le r' k ltac:(lra)).
  assert (C * r ^ k <= C * Rmax r r' ^ k) by (apply Rmult_le_compat_l; lra). assert (C' * r' ^ k <= C' * Rmax r r' ^ k) by (apply Rmult_le_compat_l; lra).
  assert (0 <= C * r ^ k) by (apply Rmult_le_pos; lra). assert (0 <= C' * r' ^ k) by (apply Rmult_le_pos; lra).
  destruct (Nat.eq_dec j n) as [->|]; [specialize (K' k)|specialize (K j k ltac:(lia))]; lra.
Qed.

Section Images.
Context (parallel serial : direction R) (c : ccd R) (fraction dwell full beta floor : R) (group : list (trap R)) (rows cols : nat).
Let traps := map (thinned fraction) group.
Let rho := traps_per_pixel traps.
Let passes := (d_offset parallel + rows)%nat.
Hypothesis Hr : (0 < rows)%nat.
Hypothesis Hset : single_phase parallel rows c fraction group dwell false.
Hypothesis Hgroup : instant_group group.
Hypothesis Hpp : phase_params c 0 0 beta full.
Hypothesis Hf : 0 < full.
Hypothesis Hb : 0 < beta.
Hypothesis Hst : d_traps serial = None.
Hypothesis Hsw : d_window serial = WNone.
Hypothesis Hmild : mild rho full beta floor.
Let th (p : nat) : R := if Req_EM_T floor 0 then 0 else floor + INR p * rho.
Let F := column_reads traps dwell (depth full beta) floor rows (d_offset parallel).
Let gain := 1 - rho * slope_of full beta floor.

Lemma im_phys : Forall physical traps.
Proof.
  unfold traps. apply Forall_map. eapply Forall_impl; [|exact (proj2 Hgroup)]. intros t [Ht _]. 
  apply thinned_physical; [pose proof (sp_share _ _ _ _ _ _ _ Hset); lra|exact Ht].
Qed.
Lemma im_rho : 0 <= rho. Proof. apply density_nonneg, im_phys. Qed.
Lemma im_dwell : 0 <= dwell. Proof. pose proof (sp_dwell _ _ _ _ _ _ _ Hset). lra. Qed.
Lemma im_floor : 0 <= floor. Proof. destruct Hmild as [(-> & _)|(H & _)]; lra. Qed.
Lemma im_well a : floor <= a -> 0 <= depth full beta a <= 1.
Proof. intros Ha. apply sensitive_range; [apply depth_sensitive; auto|pose proof im_floor; lra]. Qed.
Lemma im_gradual : gradual traps (depth full beta) floor (slope_of full beta floor) /\ 0 < gain.
Proof. apply mild_gradual; auto. apply im_rho. Qed.
Lemma im_th0 : floor <= th 0.
Proof. unfold th. destruct (Req_EM_T floor 0) as [->|]; cbn; lra. Qed.
Lemma im_th p a : th (S p) <= a -> th p <= a - rho * depth full beta a.
Proof.
  unfold th. intros Ha. destruct (Req_EM_T floor 0) as [E|E].
  - pose proof (gr_enough _ _ _ _ (proj1 im_gradual) a ltac:(lra)). fold rho in H. lra.
  - rewrite S_INR in Ha. pose proof im_rho. pose proof (pos_INR p). pose proof (im_well a ltac:(nra)). nra.
Qed.
Lemma im_th1 p : th p <= th (S p).
Proof. unfold th. destruct (Req_EM_T floor 0); [lra|]. rewrite S_INR. pose proof im_rho. lra. Qed.
Lemma im_tame : tame (gain ^ passes) (th passes) (th 0) F.
Proof. apply (column_tame traps dwell (depth full beta) floor (slope_of full beta floor) th im_phys im_dwell (proj1 im_gradual) im_well); [pose proof (proj2 im_gradual); fold rho; fold gain; lra|apply im_th0|apply im_th|apply im_th1]. Qed.
Lemma im_gain : 0 < gain ^ passes <= 1.
Proof.
  split; [apply pow_lt, im_gradual|]. rewrite <- (pow1 passes). apply pow_incr. split; [left; apply im_gradual|].
  apply (gain_1 traps (depth full beta) floor (slope_of full beta floor) im_phys (proj1 im_gradual)).
Qed.
Lemma stays_high l : Forall (stays_above rho floor passes) l -> high floor (th passes) l.
Proof.
  intros H. unfold high. destruct (Req_dec floor 0) as [E|E]; [left; exact E|right]. eapply Forall_impl; [|exact H].
  intros a [Ha|Ha]; [contradiction|]. unfold th. destruct (Req_EM_T floor 0); [contradiction|exact Ha].
Qed.
Lemma image_reads im : shape rows cols im -> (forall i j, (i < rows)%nat -> (j < cols)%nat -> stays_above rho floor passes (pixel im i j)) ->
  exists im', add_cti im parallel serial None = Ok (im', the_roe parallel, the_roe serial) /\ shape rows cols im' /\
    forall j, (j < cols)%nat -> column_of im' j = F (column_of im j).
Proof.
  intros Hs Hp. destruct (any_image im parallel serial c fraction group dwell full beta rows cols Hs Hr Hset Hgroup Hpp Hf Hb Hst Hsw) as (im' & E & S & K).
  exists im'. split; [exact E|]. split; [exact S|]. intros j Hj. rewrite (K j Hj). fold traps.
  pose proof (column_length im rows cols j Hs) as L.
  pose proof (column_same traps (depth full beta) dwell floor (slope_of full beta floor) th im_phys im_dwell (proj1 im_gradual) im_well im_th0 im_th im_th1 (d_offset parallel) (column_of im j)) as C.
  rewrite L in C. apply C. apply stays_high. apply (Forall_column _ im rows cols j Hs). intros i Hi. apply Hp; auto.
Qed.

Lemma order_image a b : shape rows cols a -> shape rows cols b ->
  (forall i j, (i < rows)%nat -> (j < cols)%nat -> stays_above rho floor passes (pixel a i j)) ->
  (forall i j, (i < rows)%nat -> (j < cols)%nat -> pixel a i j <= pixel b i j) ->
  exists a' b', add_cti a parallel serial None = Ok (a', the_roe parallel, the_roe serial) /\
    add_cti b parallel serial None = Ok (b', the_roe parallel, the_roe serial) /\
    forall i j, (i < rows)%nat -> (j < cols)%nat -> pixel a' i j <= pixel b' i j.
Proof.
  intros Ha Hb' Hpa Hab.
  destruct (image_reads a Ha Hpa) as (a' & Ea & Sa & Ka). destruct (image_reads b Hb') as (b' & Eb & Sb & Kb).
  { intros i j Hi Hj. destruct (Hpa i j Hi Hj) as [H|H]; [left; exact H|right]. specialize (Hab i j Hi Hj). lra. }
  exists a', b'. split; [exact Ea|]. split; [exact Eb|]. intros i j Hi Hj.
  apply (ordered_columns a' b' rows cols j Sa Sb); [|exact Hi]. rewrite Ka, Kb by exact Hj. apply (tm_mono _ _ _ _ im_tame).
  apply (ordered_columns a b rows cols j Ha Hb'). intros i0 Hi0. apply Hab; auto.
Qed.
Lemma apart_image a b : shape rows cols a -> shape rows cols b ->
  (forall i j, (i < rows)%nat -> (j < cols)%nat -> stays_above rho floor passes (pixel a i j)) ->
  (forall i j, (i < rows)%nat -> (j < cols)%nat -> stays_above rho floor passes (pixel b i j)) ->
  exists a' b', add_cti a parallel serial None = Ok (a', the_roe parallel, the_roe serial) /\
    add_cti b parallel serial None = Ok (b', the_roe parallel, the_roe serial) /\
    forall i j, (j < cols)%nat -> apart (firstn i (column_of a' j)) (firstn i (column_of b' j)) <= apart (firstn i (column_of a j)) (firstn i (column_of b j)).
Proof.
  intros Ha Hb' Hpa Hpb.
  destruct (image_reads a Ha Hpa) as (a' & Ea & Sa & Ka). destruct (image_reads b Hb' Hpb) as (b' & Eb & Sb & Kb).
  exists a', b'. split; [exact Ea|]. split; [exact Eb|]. intros i j Hj. rewrite Ka, Kb by exact Hj. rewrite <- !(tm_prefix _ _ _ _ im_tame).
  apply (tame_apart _ _ _ _ _ _ im_tame). rewrite !firstn_length, (column_length a rows cols j Ha), (column_length b rows cols j Hb'). reflexivity.
Qed.
Lemma injective_image a b a' pr sr pr' sr' : shape rows cols a -> shape rows cols b ->
  (forall i j, (i < rows)%nat -> (j < cols)%nat -> 0 <= pixel a i j /\ stays_above rho floor passes (pixel a i j)) ->
  (forall i j, (i < rows)%nat -> (j < cols)%nat -> 0 <= pixel b i j /\ stays_above rho floor passes (pixel b i j)) ->
  add_cti a parallel serial None = Ok (a', pr, sr) -> add_cti b parallel serial None = Ok (a', pr', sr') -> a = b.
Proof.
  intros Ha Hb' Hpa Hpb Ea Eb.
  destruct (image_reads a Ha ltac:(intros; apply Hpa; auto)) as (a1 & Ea1 & _ & Ka). destruct (image_reads b Hb' ltac:(intros; apply Hpb; auto)) as (b1 & Eb1 & _ & Kb).
  rewrite Ea in Ea1. injection Ea1 as <- _ _. rewrite Eb in Eb1. injection Eb1 as <- _ _.
  assert (T : forall x i j, (i < rows)%nat -> (j < cols)%nat -> (forall i j, (i < rows)%nat -> (j < cols)%nat -> 0 <= pixel x i j /\ stays_above rho floor passes (pixel x i j)) -> th passes <= pixel x i j).
  { intros x i j Hi Hj H. destruct (H i j Hi Hj) as [H0 H1]. unfold th. destruct (Req_EM_T floor 0); [lra|]. destruct H1 as [H1|H1]; [contradiction|exact H1]. }
  apply (columns_determine a b rows cols Ha Hb'). intros j Hj. apply (tame_injective _ _ _ _ im_tame (proj1 im_gain)).
  - rewrite (column_length a rows cols j Ha), (column_length b rows cols j Hb'). reflexivity.
  - apply (Forall_column _ a rows cols j Ha). intros i Hi. apply T; auto.
  - apply (Forall_column _ b rows cols j Hb'). intros i Hi. apply T; auto.
  - rewrite <- Ka, <- Kb by exact Hj. reflexivity.
Qed.

(** The estimates, column by column, as long as they stay above the floor. *)
Lemma remove_columns im : (0 < cols)%nat -> shape rows cols im ->
  (forall k j, (j < cols)%nat -> Forall (stays_above rho floor passes) (corrected F (column_of im j) k)) ->
  forall k, exists est, remove_cti im k parallel serial None = Ok est /\ shape rows cols est /\
    forall j, (j < cols)%nat -> column_of est j = corrected F (column_of im j) k.
Proof.
  intros Hc Si Hst'. induction k as [|k (est & Ee & Se & Ke)].
  - exists im. split; [reflexivity|]. split; [exact Si|]. intros j Hj. reflexivity.
  - destruct (image_reads est Se) as (added & Ea & Sadd & Kadd).
    { intros i j Hi Hj. apply (Forall_pixel _ est rows cols i j Se); [|exact Hi]. rewrite (Ke j Hj). apply Hst', Hj. }
    set (out := image_zip nadd est (image_zip nsub im added)).
    assert (So : shape rows cols out) by (unfold out; repeat (apply image_zip_shape; try assumption)).
    assert (Po : forall i j, (i < rows)%nat -> (j < cols)%nat -> pixel out i j = pixel est i j + (pixel im i j - pixel added i j)).
    { intros i j Hi Hj. unfold out. rewrite (image_zip_pixel _ _ _ rows cols) by (try apply image_zip_shape; assumption).
      rewrite (image_zip_pixel _ _ _ rows cols) by assumption. reflexivity. }
    exists out. split; [|split; [exact So|]].
    + apply (remove_S im parallel serial None rows cols Si Hr Hc k out). exists est, added, (the_roe parallel), (the_roe serial).
      split; [exact Ee|]. split; [exact Ea|]. split; [exact So|exact Po].
    + intros j Hj. cbn [corrected]. cbv zeta. rewrite <- (Ke j Hj), <- (Kadd j Hj).
      pose proof (column_length out rows cols j So) as L0. pose proof (column_length est rows cols j Se) as L1.
      pose proof (column_length im rows cols j Si) as L2. pose proof (column_length added rows cols j Sadd) as L3.
      apply (nth_ext _ _ 0 0); [rewrite plus_list_length; congruence|]. intros i Hi. rewrite L0 in Hi.
      rewrite plus_list_nth by congruence. rewrite !nth_column. apply Po; auto.
Qed.
Lemma recover_image x : (0 < cols)%nat -> shape rows cols x ->
  (forall i j, (i < rows)%nat -> (j < cols)%nat -> well_above rho floor passes (pixel x i j)) ->
  exists im, add_cti x parallel serial None = Ok (im, the_roe parallel, the_roe serial) /\
  exists C r, 0 <= C /\ 0 <= r < 1 /\ forall k, exists est, remove_cti im k parallel serial None = Ok est /\ shape rows cols est /\
    forall i j, (i < rows)%nat -> (j < cols)%nat -> Rabs (pixel est i j - pixel x i j) <= C * r ^ k.
Proof.
  intros Hc Hx Hp. pose proof im_rho as Hrho. assert (Hpr : 0 <= INR passes * rho) by (pose proof (pos_INR passes); nra).
  destruct (image_reads x Hx) as (im & E & Si & K).
  { intros i j Hi Hj. destruct (Hp i j Hi Hj) as [[H _]|[H1 H2]]; [left; exact H|right]. lra. }
  exists im. split; [exact E|].
  assert (Hth : forall j, (j < cols)%nat -> Forall (Rlt (th passes)) (column_of x j)).
  { intros j Hj. apply (Forall_column _ x rows cols j Hx). intros i Hi. unfold th. destruct (Hp i j Hi Hj) as [[H H']|[H1 H2]]; destruct (Req_EM_T floor 0); lra. }
  destruct (uniform_rates (fun j k => apart (corrected F (F (column_of x j)) k) (column_of x j)) cols) as (C & r & HC & Hr1 & HCr).
  { intros j Hj. apply (converges _ _ _ F im_tame im_gain). apply Hth, Hj. }
  exists C, r. split; [exact HC|]. split; [exact Hr1|].
  intros k. destruct (remove_columns im Hc Si) with (k := k) as (est & Ee & Se & Ke).
  { intros k0 j Hj. rewrite (K j Hj). apply Forall_forall. intros y Hy. destruct (Req_dec floor 0) as [E0|E0]; [left; exact E0|right].
    revert y Hy. apply Forall_forall.
    assert (Nr : near (INR passes * rho + INR passes * rho) (column_of x j) (corrected F (F (column_of x j)) k0)).
    { apply (iterates_near traps (depth full beta) dwell floor im_phys im_dwell im_well rows (d_offset parallel)); [|apply (tm_length _ _ _ _ im_tame)].
      apply (Forall_column _ x rows cols j Hx). intros i0 Hi0. fold rho. fold passes. destruct (Hp i0 j Hi0 Hj) as [[H _]|[H1 H2]]; [contradiction|]. lra. }
    eapply near_above; [exact Nr|]. apply (Forall_column _ x rows cols j Hx). intros i0 Hi0. destruct (Hp i0 j Hi0 Hj) as [[H _]|[H1 H2]]; [contradiction|]. lra. }
  exists est. split; [exact Ee|]. split; [exact Se|]. intros i j Hi Hj.
  eapply Rle_trans; [|apply (HCr j k Hj)]. rewrite <- !nth_column, (Ke j Hj), (K j Hj). apply apart_pixel.
  rewrite (corrected_length _ _ _ F im_tame), (tm_length _ _ _ _ im_tame). reflexivity.
Qed.
End Images.
