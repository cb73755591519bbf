(** * A correction approaches the first charge from below. *)
From Coq Require Import ZArith List Bool Reals Lra Lia Rfunctions.
From Coquelicot Require Import Rcomplements.
From Verif Require Import Num Py RFacts CCDModel TrapsModel ManagerModel ROEModel ClockModel MainModel Spec SpecImage SpecReadout SpecHistory SpecRecovery SpecFirst SpecInTurn SpecReturn
  OrderFacts TameFacts RecoverFacts DepthFacts AboveFacts RecoverImageFacts ReadoutImage RemoveFacts FirstFacts EfficiencyFacts InTurnFacts.
Import ListNotations.
Open Scope R_scope.

(** ** One pixel after another *)
Section Packet.
Context (rho full beta : R).
Hypothesis Hrho : 0 <= rho.
Hypothesis Hf : 0 < full.
Hypothesis Hb : 0 < beta.
Hypothesis Ho : orderly rho full beta.
Notation past := (past_empty rho full beta).
Notation pixels := (past_pixels rho full beta).
Lemma past_strict a b : 0 <= a < b -> 0 < past b -> past a < past b.
Proof.
  intros Hab Hp. destruct Ho as [H1|[H1 H2]]; [|apply past_empty_strict; auto].
  destruct (Req_dec a 0) as [->|N]; [now rewrite past_0|]. pose proof (past_share rho full beta Hrho Hf a b H1 ltac:(lra)) as S.
  apply (Rmult_lt_reg_r b); [lra|]. eapply Rle_lt_trans; [exact S|]. apply Rmult_lt_compat_l; lra.
Qed.
Lemma past_order a b : 0 <= a <= b -> past a <= past b.
Proof.
  intros Hab. destruct (Req_dec a b) as [->|N]; [lra|]. pose proof (past_pos rho full beta b) as P. destruct (Req_dec (past b) 0) as [Z|Z]; [|left; apply past_strict; lra].
  destruct Ho as [H1|[H1 H2]]; [|apply past_empty_grows; auto; lra]. destruct (Req_dec a 0) as [->|N0]; [rewrite past_0; lra|].
  pose proof (past_share rho full beta Hrho Hf a b H1 ltac:(lra)) as S. rewrite Z, Rmult_0_l in S. apply (Rmult_le_reg_r b); [lra|]. rewrite Z, Rmult_0_l. exact S.
Qed.
Lemma past_short a b : 0 <= a <= b -> past b - past a <= b - a.
Proof.
  intros Hab. unfold past_empty. assert (D : rho * depth full beta a <= rho * depth full beta b) by (apply Rmult_le_compat_l; [exact Hrho|]; apply depth_grows; auto).
  assert (M : Rmin a (rho * depth full beta a) <= Rmin b (rho * depth full beta b)) by (apply Rmin_glb; [eapply Rle_trans; [apply Rmin_l|lra]|eapply Rle_trans; [apply Rmin_r|lra]]). lra.
Qed.
Lemma pixels_order n : forall a b, 0 <= a <= b -> pixels n a <= pixels n b.
Proof. induction n as [|n IH]; intros a b Hab; cbn [past_pixels]; [lra|]. apply IH. split; [apply past_pos|now apply past_order]. Qed.
Lemma pixels_short n : forall a b, 0 <= a <= b -> pixels n b - pixels n a <= b - a.
Proof.
  induction n as [|n IH]; intros a b Hab; cbn [past_pixels]; [lra|]. eapply Rle_trans; [apply IH; split; [apply past_pos|now apply past_order]|]. now apply past_short.
Qed.
Lemma pixels_strict n : forall a b, 0 <= a < b -> 0 < pixels n b -> pixels n a < pixels n b.
Proof.
  induction n as [|n IH]; intros a b Hab Hp; cbn [past_pixels] in *; [lra|]. pose proof (past_pos rho full beta b) as P.
  destruct (Req_dec (past b) 0) as [Z|Z]; [rewrite Z, pixels_0 in Hp; lra|]. apply IH; [|exact Hp]. split; [apply past_pos|apply past_strict; lra].
Qed.
End Packet.

(** ** The iterations, for a map that keeps the order and does not enlarge differences *)
Section Iterations.
Context (f : R -> R) (x : R).
Hypothesis f_pos : forall a, 0 <= a -> 0 <= f a.
Hypothesis f_le : forall a, 0 <= a -> f a <= a.
Hypothesis f_order : forall a b, 0 <= a <= b -> f a <= f b.
Hypothesis f_short : forall a b, 0 <= a <= b -> f b - f a <= b - a.
Hypothesis Hx : 0 <= x.
Fixpoint estimate (n : nat) : R := match n with O => f x | S n => estimate n + (f x - f (estimate n)) end.
Lemma estimate_range n : f x <= estimate n <= x.
Proof.
  induction n as [|n IH]; cbn [estimate]; [pose proof (f_le x Hx); lra|]. pose proof (f_pos x Hx) as P. split.
  - pose proof (f_le (estimate n) ltac:(lra)). lra.
  - pose proof (f_short (estimate n) x ltac:(lra)). lra.
Qed.
Lemma estimate_grows n : estimate n <= estimate (S n).
Proof. cbn [estimate]. pose proof (estimate_range n). pose proof (f_pos x Hx). pose proof (f_order (estimate n) x ltac:(lra)). lra. Qed.
Lemma estimate_later n m : (n <= m)%nat -> estimate n <= estimate m.
Proof. induction 1 as [|m _ IH]; [lra|]. eapply Rle_trans; [exact IH|apply estimate_grows]. Qed.
Hypothesis f_strict : forall a, 0 <= a < x -> f a < f x.
Lemma estimate_returns eps : 0 < eps -> exists N, forall n, (N <= n)%nat -> x - eps < estimate n.
Proof.
  intros He. destruct (Rlt_dec (x - eps) 0) as [L|L].
  { exists 0%nat. intros n _. pose proof (estimate_range n). pose proof (f_pos x Hx). lra. }
  set (a := x - eps) in *. assert (Ha : 0 <= a < x) by (unfold a in *; lra). pose proof (f_strict a Ha) as D. set (d := f x - f a) in *. assert (Hd : 0 < d) by (unfold d; lra).
  assert (Q : forall n, estimate n <= a -> INR (S n) * d <= x).
  { intros n Hn. assert (G : forall k, (k <= n)%nat -> INR k * d <= estimate k).
    { induction k as [|k IH]; intros Hk; [cbn; pose proof (f_pos x Hx); lra|]. rewrite S_INR. cbn [estimate]. specialize (IH ltac:(lia)).
      pose proof (estimate_later k n ltac:(lia)). pose proof (estimate_range k). pose proof (f_pos x Hx). pose proof (f_order (estimate k) a ltac:(lra)). unfold d in *. lra. }
    specialize (G n (le_n n)). rewrite S_INR. pose proof (f_order 0 a ltac:(lra)) as F0. pose proof (f_pos 0 ltac:(lra)). pose proof (estimate_range n).
    assert (d <= x - a) by (unfold d; pose proof (f_short a x ltac:(lra)); lra). lra. }
  destruct (nfloor_ex (x / d)) as [N [_ HN]]; [apply Rmult_le_pos; [lra|left; now apply Rinv_0_lt_compat]|]. exists N. intros n Hn. destruct (Rle_dec (estimate n) a) as [E|E]; [exfalso|lra].
  specialize (Q n E). rewrite S_INR in Q. pose proof (le_INR _ _ Hn). apply Rlt_div_l in HN; [|exact Hd]. assert ((INR N + 1) * d <= (INR n + 1) * d) by (apply Rmult_le_compat_r; lra). lra.
Qed.
End Iterations.

(** ** Images *)
Section Returned.
Context (parallel serial : direction R) (cp cs : ccd R) (fp fs dwp dws fullp fulls bp bs : R) (gp gs : list (trap R)) (rows cols i j : nat).
Let rhop := fp * traps_per_pixel gp.
Let rhos := fs * traps_per_pixel gs.
Hypothesis Sp : single_phase parallel rows cp fp gp dwp false.
Hypothesis Gp : instant_group gp.
Hypothesis Pp : phase_params cp 0 0 bp fullp.
Hypothesis Fp : 0 < fullp.
Hypothesis Bp : 0 < bp.
Hypothesis Op : orderly rhop fullp bp.
Hypothesis Ss : single_phase serial cols cs fs gs dws false.
Hypothesis Gs : instant_group gs.
Hypothesis Ps : phase_params cs 0 0 bs fulls.
Hypothesis Fs : 0 < fulls.
Hypothesis Bs : 0 < bs.
Hypothesis Os : orderly rhos fulls bs.
Hypothesis Hi : (i < rows)%nat.
Hypothesis Hj : (j < cols)%nat.
Let f a := past_pixels rhos fulls bs (j + 1 + d_offset serial) (past_pixels rhop fullp bp (i + 1 + d_offset parallel) a).
Lemma some_p : 0 <= rhop. Proof. apply Rmult_le_pos; [left; exact (sp_share _ _ _ _ _ _ _ Sp)|]. apply density_nonneg. eapply Forall_impl; [|exact (proj2 Gp)]. intros t Ht. apply Ht. Qed.
Lemma some_s : 0 <= rhos. Proof. apply Rmult_le_pos; [left; exact (sp_share _ _ _ _ _ _ _ Ss)|]. apply density_nonneg. eapply Forall_impl; [|exact (proj2 Gs)]. intros t Ht. apply Ht. Qed.
Lemma both_pos a : 0 <= a -> 0 <= f a. Proof. intros Ha. apply pixels_pos, pixels_pos, Ha. Qed.
Lemma both_le a : 0 <= a -> f a <= a.
Proof. intros Ha. eapply Rle_trans; [apply pixels_le; auto using some_s; apply pixels_pos, Ha|]. apply pixels_le; auto using some_p. Qed.
Lemma both_order a b : 0 <= a <= b -> f a <= f b.
Proof. intros H. apply pixels_order; auto using some_s. split; [apply pixels_pos; lra|]. apply pixels_order; auto using some_p. Qed.
Lemma both_short a b : 0 <= a <= b -> f b - f a <= b - a.
Proof.
  intros H. eapply Rle_trans; [apply pixels_short; auto using some_s; split; [apply pixels_pos; lra|apply pixels_order; auto using some_p]|]. apply pixels_short; auto using some_p.
Qed.
Lemma both_strict a b : 0 <= a < b -> 0 < f b -> f a < f b.
Proof.
  intros H Hp. apply pixels_strict; auto using some_s. split; [apply pixels_pos; lra|]. apply pixels_strict; auto using some_p.
  pose proof (pixels_pos rhop fullp bp (i + 1 + d_offset parallel) b ltac:(lra)) as [P|P]; [exact P|]. exfalso. unfold f in Hp. rewrite <- P, pixels_0 in Hp. lra.
Qed.
Lemma read_first im : shape rows cols im -> leads_corner im i j -> 0 <= pixel im i j ->
  exists im', add_cti im parallel serial None = Ok (im', the_roe parallel, the_roe serial) /\ shape rows cols im' /\ leads_corner im' i j /\ pixel im' i j = f (pixel im i j).
Proof.
  intros Hs Hl Ha.
  destruct (first_pixel parallel serial cp cs fp fs dwp dws fullp fulls bp bs gp gs rows cols Sp Gp Pp Fp Bp Ss Gs Ps Fs Bs im i j Hs Hi Hj Hl Ha) as (im' & E & Sh & K).
  exists im'. split; [exact E|]. split; [exact Sh|]. split; [|exact K].
  intros k l Hk Hlj N. assert (Z : pixel im k l = 0) by now apply Hl.
  assert (L' : leads_corner im k l). { intros k' l' Hk' Hl' N'. apply Hl; [lia|lia|]. intros Q. injection Q as -> ->. apply N. f_equal; lia. }
  destruct (first_pixel parallel serial cp cs fp fs dwp dws fullp fulls bp bs gp gs rows cols Sp Gp Pp Fp Bp Ss Gs Ps Fs Bs im k l Hs ltac:(lia) ltac:(lia) L' ltac:(rewrite Z; lra)) as (im2 & E2 & _ & K2).
  rewrite E in E2. injection E2 as <-. rewrite K2, Z, !pixels_0. reflexivity.
Qed.
Lemma loop_estimates y x : shape rows cols y -> leads_corner y i j -> 0 <= x -> pixel y i j = f x ->
  forall n k est, shape rows cols est -> leads_corner est i j -> pixel est i j = estimate f x k ->
  exists im', remove_cti_loop y n parallel serial None est = Ok (im', parallel, serial) /\ shape rows cols im' /\ pixel im' i j = estimate f x (k + n).
Proof.
  intros Hy Ly Hx Ey. induction n as [|n IH]; intros k est Hs Hl Ha.
  - exists est. rewrite Nat.add_0_r. auto.
  - pose proof (estimate_range f x both_pos both_le both_short Hx k) as B. pose proof (both_pos x Hx) as P.
    destruct (read_first est Hs Hl ltac:(rewrite Ha; lra)) as (added & E & Sa & La & Ka).
    cbn [remove_cti_loop]. rewrite E. cbn [bind]. rewrite !keep_same.
    pose proof (image_zip_shape nsub y added rows cols Hy Sa) as S1. pose proof (image_zip_shape nadd est _ rows cols Hs S1) as S2.
    replace (k + S n)%nat with (S k + n)%nat by lia. apply IH; [exact S2| |].
    + intros k' l' Hk Hl' N. rewrite (image_zip_pixel nadd est _ rows cols), (image_zip_pixel nsub y added rows cols) by (assumption || lia). rewrite (Hl k' l'), (Ly k' l'), (La k' l') by assumption. rnum. lra.
    + rewrite (image_zip_pixel nadd est _ rows cols), (image_zip_pixel nsub y added rows cols) by assumption. rewrite Ka, Ey, Ha. rnum. cbn [estimate]. lra.
Qed.
Lemma returned im : shape rows cols im -> leads_corner im i j -> 0 <= pixel im i j ->
  exists y, add_cti im parallel serial None = Ok (y, the_roe parallel, the_roe serial) /\ pixel y i j = f (pixel im i j) /\
    forall n, exists im', remove_cti y n parallel serial None = Ok im' /\ shape rows cols im' /\ pixel im' i j = estimate f (pixel im i j) n.
Proof.
  intros Hs Hl Ha. destruct (read_first im Hs Hl Ha) as (y & E & Sy & Ly & Ky). exists y. split; [exact E|]. split; [exact Ky|]. intros n.
  destruct (loop_estimates y (pixel im i j) Sy Ly Ha Ky n 0 y Sy Ly Ky) as (im' & E' & Sh & K). exists im'. unfold remove_cti. rewrite E'. cbn [bind]. auto.
Qed.
End Returned.
