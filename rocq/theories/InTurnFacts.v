(** * Clocking in one direction and then in the other. *)
From Coq Require Import ZArith List Bool Reals Lra Lia.
From Verif Require Import Num Py RFacts CCDModel TrapsModel ManagerModel ROEModel ClockModel MainModel Spec SpecImage SpecReadout SpecHistory SpecRecovery SpecFirst SpecInTurn
  ImageFacts ClockFacts MainFacts ROEExpressFacts MainReadoutFacts MainColumnFacts OrderFacts TameFacts RecoverFacts DepthFacts AboveFacts RecoverImageFacts ReadoutImage FirstFacts EfficiencyFacts.
Import ListNotations.
Open Scope R_scope.

Section AnyNumbers.
Context {F : Type} {num : Num F}.
Lemma clocked_shape (im : image F) d r traps window columns tw im' r' rows cols : shape rows cols im -> (0 < rows)%nat ->
  clock_direction im d r traps window columns tw = Ok (im', r') -> shape rows cols im'.
Proof.
  intros Hs Hr. unfold clock_direction. destruct (d_ccd d) as [c|].
  - intros H. destruct (clocking_ok _ _ _ _ _ _ _ _ _ _ _ _ _ Hs Hr H) as [S _ _ _]. exact S.
  - intros H. apply bind_ok in H as ([[r1 em] mon] & _ & H). apply bind_ok in H as (? & _ & H). discriminate.
Qed.
Lemma columns_of_shape rows cols (im : image F) : shape rows cols im -> (0 < rows)%nat -> n_columns im = cols.
Proof. intros [L H] Hr. destruct im as [|r im]; [cbn in L; lia|]. cbn. now inversion H. Qed.
Lemma in_turn (im : image F) parallel serial tw rows cols : shape rows cols im -> (0 < rows)%nat ->
  add_cti im parallel serial tw =
  do '(im1, pr, _) <- add_cti im parallel (without_traps serial) tw;
  do '(im2, _, sr) <- add_cti im1 (without_traps parallel) serial tw;
  Ok (im2, pr, sr).
Proof.
  intros Hs Hr. unfold add_cti. cbn [without_traps d_window d_traps d_offset].
  destruct (resolve_time_window tw (resolve_window (d_window parallel) (length im)) (length im) (d_offset parallel)) as [[t sc]|e] eqn:E; [|reflexivity]. cbn [bind].
  destruct (d_traps parallel) as [traps|] eqn:Tp.
  - destruct (clock_direction im parallel _ traps _ _ _) as [[im1 pr]|e] eqn:E1; [|reflexivity]. cbn [bind].
    pose proof (clocked_shape _ _ _ _ _ _ _ _ _ rows cols Hs Hr E1) as S1. rewrite (proj1 S1), (proj1 Hs) in *. rewrite (columns_of_shape rows cols im Hs Hr), (columns_of_shape rows cols im1 S1 Hr). rewrite E. cbn [bind].
    destruct (d_traps serial); [|reflexivity]. clear E1. destruct (clock_direction _ _ _ _ _ _ _) as [[im2 sr]|e]; reflexivity.
  - cbn [bind]. rewrite E. cbn [bind]. destruct (d_traps serial); [|reflexivity]. destruct (clock_direction _ _ _ _ _ _ _) as [[im2 sr]|e]; reflexivity.
Qed.
Lemma idle_parallel (im : image F) parallel serial : d_window parallel = WNone ->
  add_cti im (without_traps parallel) serial None =
  do '(im', _, sr) <- add_cti im no_direction serial None; Ok (im', the_roe parallel, sr).
Proof.
  intros Hw. unfold add_cti. cbn [without_traps no_direction d_window d_traps d_offset]. rewrite Hw. cbn [resolve_window resolve_time_window bind].
  destruct (d_traps serial); [|reflexivity]. destruct (clock_direction _ _ _ _ _ _ _) as [[im2 sr]|e]; reflexivity.
Qed.
End AnyNumbers.

Section FirstPixel.
Context (parallel serial : direction R) (cp cs : ccd R) (fp fs dwp dws fullp fulls bp bs : R) (gp gs : list (trap R)) (rows cols : nat).
Hypothesis Sp : single_phase parallel rows cp fp gp dwp false.
Hypothesis Gp : instant_group gp.
Hypothesis Pp : phase_params cp 0 0 bp fullp.
Hypothesis Fp : 0 < fullp.
Hypothesis Bp : 0 < bp.
Hypothesis Ss : single_phase serial cols cs fs gs dws false.
Hypothesis Gs : instant_group gs.
Hypothesis Ps : phase_params cs 0 0 bs fulls.
Hypothesis Fs : 0 < fulls.
Hypothesis Bs : 0 < bs.
Lemma along_rows im i j : shape rows cols im -> (i < rows)%nat -> (j < cols)%nat -> (forall l, (l < j)%nat -> pixel im i l = 0) -> 0 <= pixel im i j ->
  exists im', add_cti im no_direction serial None = Ok (im', the_roe no_direction, the_roe serial) /\ shape rows cols im' /\
    pixel im' i j = past_pixels (fs * traps_per_pixel gs) fulls bs (j + 1 + d_offset serial) (pixel im i j).
Proof.
  intros Hs Hi Hj Hl Ha. assert (Hr : (0 < rows)%nat) by lia. assert (Hc : (0 < cols)%nat) by lia. pose proof (transpose_shape rows cols im Hs Hr) as Ht.
  assert (Tp : forall k l, pixel (transpose im) k l = pixel im l k) by (intros; apply (transpose_pixel_all rows cols); assumption).
  destruct (first_packet (transpose im) serial no_direction cs fs gs dws fulls bs cols rows j i Ht Hj Hi Ss Gs Ps Fs Bs eq_refl eq_refl) as (im' & E & Sh & K); [intros k Hk; rewrite Tp; now apply Hl|now rewrite Tp|].
  pose proof (sp_roe _ _ _ _ _ _ _ Ss) as (force & dt & Er).
  exists (transpose im'). split.
  - rewrite (serial_parallel im serial rows cols cols true (the_roe serial) Hs Hr Hc eq_refl).
    + rewrite E. reflexivity.
    + unfold the_roe. rewrite Er. reflexivity.
    + rewrite (sp_window _ _ _ _ _ _ _ Ss). cbn [selected]. rewrite <- py_range_0. apply window_ok_range. exact Hc.
    + lia.
  - split; [now apply transpose_shape|]. rewrite (transpose_pixel_all cols rows) by assumption. rewrite K, Tp. reflexivity.
Qed.
Lemma first_pixel im i j : shape rows cols im -> (i < rows)%nat -> (j < cols)%nat -> leads_corner im i j -> 0 <= pixel im i j ->
  exists im', add_cti im parallel serial None = Ok (im', the_roe parallel, the_roe serial) /\ shape rows cols im' /\
    pixel im' i j = past_pixels (fs * traps_per_pixel gs) fulls bs (j + 1 + d_offset serial) (past_pixels (fp * traps_per_pixel gp) fullp bp (i + 1 + d_offset parallel) (pixel im i j)).
Proof.
  intros Hs Hi Hj Hl Ha.
  assert (W : d_window (without_traps serial) = WNone) by (cbn; exact (sp_window _ _ _ _ _ _ _ Ss)).
  assert (Q : forall l, (l <= j)%nat -> leads im i l /\ 0 <= pixel im i l).
  { intros l Hlj. split; [intros k Hk; apply Hl; [lia|lia|intros E; injection E; lia]|]. destruct (Nat.eq_dec l j) as [->|N]; [exact Ha|]. rewrite Hl; [lra|lia|lia|intros E; injection E; lia]. }
  destruct (first_packet im parallel (without_traps serial) cp fp gp dwp fullp bp rows cols i j Hs Hi Hj Sp Gp Pp Fp Bp eq_refl W (proj1 (Q j (le_n j))) Ha) as (im1 & E1 & S1 & K1).
  assert (Z : forall l, (l < j)%nat -> pixel im1 i l = 0).
  { intros l Hlj. destruct (Q l ltac:(lia)) as [Q1 Q2].
    destruct (first_packet im parallel (without_traps serial) cp fp gp dwp fullp bp rows cols i l Hs Hi ltac:(lia) Sp Gp Pp Fp Bp eq_refl W Q1 Q2) as (im1' & E1' & _ & K1').
    rewrite E1 in E1'. injection E1' as <-. rewrite K1'. rewrite (Hl i l); [apply pixels_0|lia|lia|intros E; injection E; lia]. }
  assert (Hrho : 0 <= fp * traps_per_pixel gp). { apply Rmult_le_pos; [left; exact (sp_share _ _ _ _ _ _ _ Sp)|]. apply density_nonneg. eapply Forall_impl; [|exact (proj2 Gp)]. intros t Ht. apply Ht. }
  assert (P1 : 0 <= pixel im1 i j) by (rewrite K1; apply pixels_pos; assumption).
  destruct (along_rows im1 i j S1 Hi Hj Z P1) as (im2 & E2 & S2 & K2).
  exists im2. split; [|split; [exact S2|]].
  - rewrite (in_turn im parallel serial None rows cols Hs ltac:(lia)), E1. cbn [bind]. rewrite idle_parallel by exact (sp_window _ _ _ _ _ _ _ Sp). rewrite E2. reflexivity.
  - rewrite K2, K1. reflexivity.
Qed.
End FirstPixel.
