(** * The first packet of a column (C116). *)
From Coq Require Import ZArith List Bool Reals Lra Lia.
From Coquelicot Require Import Rcomplements Rbar Hierarchy RInt.
From Verif Require Import Num Py RFacts CCDModel TrapsModel ManagerModel ROEModel ClockModel MainModel Spec SpecImage SpecReadout SpecHistory SpecRecovery SpecFirst
  InstantFacts OrderFacts TameFacts RecoverFacts DepthFacts AboveFacts RecoverImageFacts ReadoutImage.
Import ListNotations.
Open Scope R_scope.

Section Lead.
Context (traps : list (trap R)) (full beta dwell : R).
Hypothesis Hphys : Forall physical traps.
Hypothesis Hd : 0 <= dwell.
Hypothesis Hf : 0 < full.
Hypothesis Hb : 0 < beta.
Let rho := SpecRecovery.traps_per_pixel traps.
(** No electrons in the traps. *)
Definition void (P : profile) : Prop := forall s x, 0 < x < 1 -> P s x = 0.
Lemma void_empty : void empty_profile. Proof. intros s x _. reflexivity. Qed.
Lemma void_release P : void P -> void (after_release traps dwell P).
Proof. intros H s x Hx. unfold after_release. rewrite H by exact Hx. lra. Qed.
Lemma void_electrons P v : void P -> 0 <= v <= 1 -> electrons traps P 0 v = 0.
Proof.
  intros H Hv. rewrite (electrons_eq traps P (fun s x => 1 - 1) 0 v); [|lra|intros s x _ Hx; rewrite H; lra].
  rewrite (electrons_minus traps (fun _ _ => 1) (fun _ _ => 1)) by apply one_integrable. lra.
Qed.
Lemma void_released P : void P -> released traps dwell P = 0.
Proof. intros H. unfold released. rewrite !void_electrons by (auto using void_release; lra). lra. Qed.
Lemma void_demand P v : void P -> 0 <= v <= 1 -> demand traps v P = rho * v.
Proof.
  intros H Hv. unfold demand. rewrite (electrons_eq traps _ (fun _ _ => 1) 0 v); [|lra|intros s x _ Hx; rewrite H; lra]. rewrite electrons_one. unfold rho. lra.
Qed.
Lemma void_left P a : void P -> 0 <= a -> left_over traps (depth full beta) dwell a P = past_empty rho full beta a.
Proof.
  intros H Ha. unfold left_over, cloud. rewrite void_released, Rplus_0_r, Rmax_right by assumption. unfold captured. rewrite void_demand; [reflexivity|now apply void_release|now apply depth_range].
Qed.
Lemma depth_0 : depth full beta 0 = 0. Proof. unfold depth. destruct (Rle_dec 0 0); lra. Qed.
Lemma void_then P : void P -> void (then_traps traps (depth full beta) dwell 0 P).
Proof.
  intros H s x Hx. unfold then_traps, cloud. rewrite void_released, Rplus_0_r, Rmax_right by (auto; lra). rewrite depth_0. unfold after_capture.
  destruct (Rlt_dec x 0); [lra|]. now apply void_release.
Qed.
Lemma past_empty_0 : past_empty rho full beta 0 = 0.
Proof. unfold past_empty. rewrite depth_0, Rmult_0_r, Rmin_left; lra. Qed.
Lemma past_empty_nonneg a : 0 <= past_empty rho full beta a.
Proof. unfold past_empty. pose proof (Rmin_l a (rho * depth full beta a)). lra. Qed.

(** A column that starts with empty rows and then [a] electrons. *)
Lemma lead_past i a l : 0 <= a -> exists l', length l' = length l /\
  past_clouds traps (depth full beta) dwell empty_profile (repeat 0 i ++ a :: l) = repeat 0 i ++ past_empty rho full beta a :: l'.
Proof.
  intros Ha. generalize empty_profile, void_empty. induction i as [|i IH]; intros P HP; cbn [repeat app past_clouds].
  - rewrite void_left by assumption. eexists. split; [|reflexivity]. generalize (then_traps traps (depth full beta) dwell a P). clear. induction l as [|x l IH]; intros P; cbn; [reflexivity|now rewrite IH].
  - destruct (IH _ (void_then P HP)) as (l' & L & E). exists l'. split; [exact L|]. rewrite E, void_left, past_empty_0 by (auto; lra). reflexivity.
Qed.
Lemma lead_through i : forall offset a l, 0 <= a -> exists l', length l' = length l /\
  through_clouds traps (depth full beta) dwell offset (repeat 0 i ++ a :: l) = repeat 0 i ++ past_pixels rho full beta offset a :: l' /\ 0 <= past_pixels rho full beta offset a.
Proof.
  induction offset as [|k IH]; intros a l Ha; cbn [through_clouds past_pixels]; [exists l; auto|].
  destruct (lead_past i a l Ha) as (l1 & L1 & E1). rewrite E1. destruct (IH (past_empty rho full beta a) l1 (past_empty_nonneg a)) as (l2 & L2 & E2). exists l2. split; [congruence|exact E2].
Qed.
Lemma lead_read : forall i a l rows, 0 <= a -> (i < rows)%nat ->
  nth i (read_clouds traps (depth full beta) dwell rows (repeat 0 i ++ a :: l)) 0 = past_pixels rho full beta (S i) a.
Proof.
  induction i as [|i IH]; intros a l [|rows] Ha Hi; try lia; cbn [read_clouds].
  - destruct (lead_past 0 a l Ha) as (l' & _ & E). cbn [repeat app] in *. rewrite E. reflexivity.
  - destruct (lead_past (S i) a l Ha) as (l' & _ & E). rewrite E. cbn [repeat app nth]. rewrite IH by (auto using past_empty_nonneg; lia). reflexivity.
Qed.
Lemma past_pixels_add n m a : past_pixels rho full beta (n + m) a = past_pixels rho full beta m (past_pixels rho full beta n a).
Proof. revert a. induction n as [|n IH]; intros a; cbn; auto. Qed.
Lemma lead_column i a l offset : 0 <= a ->
  nth i (column_clouds traps (depth full beta) dwell offset (repeat 0 i ++ a :: l)) 0 = past_pixels rho full beta (i + 1 + offset) a.
Proof.
  intros Ha. unfold column_clouds. destruct (lead_through i offset a l Ha) as (l' & _ & E & N). rewrite E, lead_read; [|exact N|rewrite app_length, repeat_length; cbn; lia].
  rewrite <- past_pixels_add. f_equal. lia.
Qed.
End Lead.

Lemma leading_column (col : list R) i : (i < length col)%nat -> (forall k, (k < i)%nat -> nth k col 0 = 0) -> exists l, col = repeat 0 i ++ nth i col 0 :: l.
Proof.
  revert i. induction col as [|x col IH]; intros i Hi H; cbn in Hi; [lia|]. destruct i as [|i]; [exists col; reflexivity|].
  destruct (IH i ltac:(lia)) as (l & E); [intros k Hk; exact (H (S k) ltac:(lia))|]. exists l. pose proof (H 0%nat ltac:(lia)) as H0. cbn in H0. subst x. cbn [nth repeat app]. f_equal. exact E.
Qed.
Lemma first_packet im parallel serial c fraction group dwell full beta rows cols i j :
  shape rows cols im -> (i < rows)%nat -> (j < cols)%nat -> single_phase parallel rows c fraction group dwell false -> instant_group group ->
  phase_params c 0 0 beta full -> 0 < full -> 0 < beta -> d_traps serial = None -> d_window serial = WNone -> leads im i j -> 0 <= pixel im i j ->
  exists im', add_cti im parallel serial None = Ok (im', the_roe parallel, the_roe serial) /\ shape rows cols im' /\
    pixel im' i j = past_pixels (fraction * SpecRecovery.traps_per_pixel group) full beta (i + 1 + d_offset parallel) (pixel im i j).
Proof.
  intros Hs Hi Hj Hset Hg Hpp Hf Hb Hst Hsw Hl Ha. destruct (any_image im parallel serial c fraction group dwell full beta rows cols Hs ltac:(lia) Hset Hg Hpp Hf Hb Hst Hsw) as (im' & E & S & K).
  exists im'. split; [exact E|]. split; [exact S|]. specialize (K j Hj).
  rewrite <- (nth_column im' i j), K. destruct (leading_column (column_of im j) i) as (l & El); [unfold column_of; rewrite map_length; rewrite (proj1 Hs); exact Hi|intros k Hk; rewrite nth_column; now apply Hl|].
  rewrite El, nth_column. destruct Hg as [_ Hg]. pose proof (sp_share _ _ _ _ _ _ _ Hset). pose proof (sp_dwell _ _ _ _ _ _ _ Hset).
  rewrite lead_column; try assumption; try lra.
  - f_equal. clear. unfold SpecRecovery.traps_per_pixel. induction group as [|t g IH]; unfold Rsum in *; cbn in *; [lra|]. rewrite IH. lra.
Qed.

(** ** Comparing numbers of traps *)
Lemma past_empty_gentle rho full beta a : 0 <= rho -> 0 < full -> 1 <= beta -> rho * beta <= full -> 0 <= a -> past_empty rho full beta a = a - rho * depth full beta a.
Proof.
  intros Hr Hf Hb Hg Ha. unfold past_empty. rewrite Rmin_right; [reflexivity|]. pose proof (depth_slope full beta 0 a Hf Hb ltac:(lra)) as H. assert (D0 : depth full beta 0 = 0) by (unfold depth; destruct (Rle_dec 0 0); lra). rewrite D0 in H.
  assert (rho * depth full beta a <= rho * (beta / full * a)) by (apply Rmult_le_compat_l; lra).
  assert (rho * (beta / full * a) = rho * beta / full * a) as E by (field; lra). rewrite E in *. assert (rho * beta / full <= 1) by (apply Rle_div_l; lra). nra.
Qed.
Lemma past_empty_grows rho full beta a b : 0 <= rho -> 0 < full -> 1 <= beta -> rho * beta <= full -> 0 <= a <= b -> past_empty rho full beta a <= past_empty rho full beta b.
Proof.
  intros Hr Hf Hb Hg Ha. rewrite !past_empty_gentle by (auto; lra). pose proof (depth_slope full beta a b Hf Hb Ha) as H.
  assert (rho * (depth full beta b - depth full beta a) <= rho * (beta / full * (b - a))) by (apply Rmult_le_compat_l; lra).
  assert (rho * (beta / full * (b - a)) = rho * beta / full * (b - a)) as E by (field; lra). rewrite E in *. assert (rho * beta / full <= 1) by (apply Rle_div_l; lra). nra.
Qed.
Lemma past_empty_strict rho full beta a b : 0 <= rho -> 0 < full -> 1 <= beta -> rho * beta < full -> 0 <= a < b -> past_empty rho full beta a < past_empty rho full beta b.
Proof.
  intros Hr Hf Hb Hg Ha. rewrite !past_empty_gentle by (auto; lra). pose proof (depth_slope full beta a b Hf Hb ltac:(lra)) as H.
  assert (rho * (depth full beta b - depth full beta a) <= rho * (beta / full * (b - a))) by (apply Rmult_le_compat_l; lra).
  assert (rho * (beta / full * (b - a)) = rho * beta / full * (b - a)) as E by (field; lra). rewrite E in *. assert (rho * beta / full < 1) by (apply Rlt_div_l; lra). nra.
Qed.
Lemma past_more rho rho' full beta a : 0 < full -> 0 < beta -> rho <= rho' -> past_empty rho' full beta a <= past_empty rho full beta a.
Proof.
  intros Hf Hb H. unfold past_empty. pose proof (depth_range full beta a Hf Hb). assert (rho * depth full beta a <= rho' * depth full beta a) by (apply Rmult_le_compat_r; lra).
  unfold Rmin. repeat destruct (Rle_dec _ _); lra.
Qed.
Lemma past_more_strict rho rho' full beta a : 0 <= rho -> 0 < full -> 1 <= beta -> rho * beta < full -> rho < rho' -> 0 < a -> past_empty rho' full beta a < past_empty rho full beta a.
Proof.
  intros Hr Hf Hb Hg H Ha. rewrite (past_empty_gentle rho) by (auto; lra). unfold past_empty. assert (Dp : 0 < depth full beta a) by (rewrite depth_pos by exact Ha; apply exp_pos).
  assert (rho * depth full beta a < rho' * depth full beta a) by (apply Rmult_lt_compat_r; lra).
  assert (rho * depth full beta a < a).
  { pose proof (past_empty_strict rho full beta 0 a Hr Hf Hb Hg ltac:(lra)) as Q. rewrite !past_empty_gentle in Q by (auto; lra). assert (D0 : depth full beta 0 = 0) by (unfold depth; destruct (Rle_dec 0 0); lra). rewrite D0 in Q. lra. }
  unfold Rmin. destruct (Rle_dec _ _); lra.
Qed.
Lemma past_nonneg rho full beta a : 0 <= past_empty rho full beta a.
Proof. unfold past_empty. pose proof (Rmin_l a (rho * depth full beta a)). lra. Qed.
Lemma pixels_more rho rho' full beta : 0 <= rho -> 0 < full -> 1 <= beta -> rho * beta <= full -> rho <= rho' -> forall n a b, 0 <= a <= b ->
  past_pixels rho' full beta n a <= past_pixels rho full beta n b.
Proof.
  intros Hr Hf Hb Hg H. induction n as [|n IH]; intros a b Hab; cbn [past_pixels]; [lra|]. apply IH. split; [apply past_nonneg|].
  apply Rle_trans with (past_empty rho full beta a); [apply past_more; lra|now apply past_empty_grows].
Qed.
Lemma pixels_apart rho rho' full beta : 0 <= rho -> 0 < full -> 1 <= beta -> rho * beta < full -> rho <= rho' -> forall n a b, 0 <= a < b ->
  past_pixels rho' full beta n a < past_pixels rho full beta n b.
Proof.
  intros Hr Hf Hb Hg H. induction n as [|n IH]; intros a b Hab; cbn [past_pixels]; [lra|]. apply IH. split; [apply past_nonneg|].
  apply Rle_lt_trans with (past_empty rho full beta a); [apply past_more; lra|now apply past_empty_strict].
Qed.
Lemma pixels_more_strict rho rho' full beta n a : 0 <= rho -> 0 < full -> 1 <= beta -> rho * beta < full -> rho < rho' -> 0 < a -> (0 < n)%nat ->
  past_pixels rho' full beta n a < past_pixels rho full beta n a.
Proof.
  intros Hr Hf Hb Hg H Ha Hn. destruct n as [|n]; [lia|]. cbn [past_pixels]. apply pixels_apart; auto; [lra|]. split; [apply past_nonneg|]. now apply past_more_strict.
Qed.
