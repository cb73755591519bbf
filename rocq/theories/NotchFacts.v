(** * Two states in which the managers lose track: after a cloud inside the notch, and with every
    level in use. *)
From Coq Require Import ZArith List Bool Reals Lra Lia.
From Coquelicot Require Import Rcomplements Rbar Hierarchy RInt.
From Verif Require Import Num Py RFacts CCDModel TrapsModel ManagerModel Spec SpecBalance TrapsFacts CCDFacts WmFacts ArrayFacts CutFacts
  InstantFacts CaptureFacts InstantSpecFacts ClockFacts ShapeFacts BalanceFacts TimeFacts StoredFacts.
Import ListNotations.
Open Scope R_scope.

Definition total_density (traps : list (trap R)) : R := Rsum (dens traps).
Lemma dot_ones_dens traps : dot (repeat 1 (length traps)) (dens traps) = total_density traps.
Proof.
  unfold total_density, dens. induction traps as [|t ts IH]; [reflexivity|]. cbn [length repeat map dot]. rewrite IH.
  unfold Rsum. cbn [fold_right]. ring.
Qed.

(** Nothing is recognised as a level in use when the first volume is zero. *)
Lemma max_index_head0 fs w : max_watermark_index ((0, fs) :: w) = (-1)%Z.
Proof.
  unfold max_watermark_index, first_zero_volume. cbn [map]. unfold np_argmax. cbn [vol fst find_true].
  unfold vol; cbn [fst]. rnum. replace (Reqb 0 0) with true by (symmetry; now apply Reqb_true). reflexivity.
Qed.
Lemma max_index_none (w : wmarks R) : Forall (fun r => fst r <> 0) w -> max_watermark_index w = (-1)%Z.
Proof.
  intros H. unfold max_watermark_index, first_zero_volume, np_argmax.
  assert (E : find_true (map (fun r : wrow R => neqb (vol r) n0) w) = None).
  { induction H as [|r w Hr H IH]; [reflexivity|]. cbn [map find_true]. unfold vol at 1. rnum.
    replace (Reqb (fst r) 0) with false by (symmetry; now apply Reqb_false). rewrite IH. reflexivity. }
  rewrite E. reflexivity.
Qed.

(** What a call does when it recognises no level in use. *)
Section Blind.
Variables (traps : list (trap R)) (r0 : wrow R) (rest : wmarks R) (fill : filling R) (n_free dwell v : R).
Let n := length traps.
Let m := mkManager KInstant traps (r0 :: rest).
Let ones := repeat 1 n.
Let w' := (v, ones) :: rest.
Let S := stored KInstant traps w'.
Hypothesis Hmax : max_watermark_index (r0 :: rest) = (-1)%Z.
Hypothesis Hfree : 0 < n_free.
Hypothesis Hfill : fill n_free = Ok v.
Lemma blind_n_trapped m' w : m_kind m' = KInstant -> m_traps m' = traps -> n_trapped m' w = stored KInstant traps w.
Proof.
  intros E1 E2. rewrite stored_fractions by discriminate. unfold n_trapped. rewrite E1. unfold n_traps_per_pixel. rewrite E2.
  apply cy_n_trapped_eq.
Qed.
Lemma blind_step : manager_step m n_free fill dwell =
  if Reqb S 0 then Ok (0, mkManager KInstant traps w')
  else if Rltb (n_free / S) 1 then
    let w2 := blend (n_free / S) w' ((v, snd r0) :: rest) in
    Ok (- stored KInstant traps w2, mkManager KInstant traps w2)
  else Ok (- S, mkManager KInstant traps w').
Proof.
  unfold manager_step, instant_step. cbn [m_kind m]. unfold n_electrons_released. cbn [m_wm m].
  rewrite Hmax. change (Z.to_nat (-1 + 1)) with 0%nat. rewrite slice_none.
  rnum. replace (n_trapped _ (r0 :: rest) - n_trapped _ (r0 :: rest)) with 0 by ring. rewrite Rplus_0_r.
  change (with_wm m (r0 :: rest)) with m.
  unfold n_electrons_captured. change (m_wm m) with (r0 :: rest). rewrite Hmax, Hfill. cbn [bind]. rnum.
  replace (Rltb 0 n_free) with true by (symmetry; now apply Rltb_true). cbn [Z.eqb Pos.eqb andb].
  unfold instant_first_capture. change (m_wm m) with (r0 :: rest). change (m_kind m) with KInstant. change (m_traps m) with traps.
  cbn [set_row0 filled_value]. rnum. fold n. change (repeat 1 n) with ones.
  change (set_row0 (r0 :: rest) (v, ones)) with w'. change (set_vol (r0 :: rest) 0 v) with ((v, snd r0) :: rest).
  rewrite (blind_n_trapped m w') by reflexivity. fold S.
  destruct (Reqb S 0); [cbn [bind]; rewrite Rminus_0_r; reflexivity|].
  destruct (Rltb (n_free / S) 1).
  - cbn [not_enough m_kind m bind]. rewrite blind_n_trapped by reflexivity. cbn [bind]. unfold with_wm. cbn [m_kind m_traps m]. rewrite Rminus_0_l. reflexivity.
  - cbn [bind]. rewrite Rminus_0_l. reflexivity.
Qed.
End Blind.

Lemma stored_head traps v k : stored KInstant traps ((v, repeat 1 (length traps)) :: Zs (length traps) k) = v * total_density traps.
Proof.
  change ((v, repeat 1 (length traps)) :: Zs (length traps) k) with ([(v, repeat 1 (length traps))] ++ Zs (length traps) k).
  rewrite stored_app, stored_Zs, stored_fractions by discriminate. rewrite trapped_cons, trapped_nil. unfold row_trapped; cbn [fst snd].
  rewrite dot_ones_dens. ring.
Qed.

(** Empty traps, then a cloud inside the notch, then a larger cloud. *)
Lemma notch_history traps N fill n1 d1 n2 d2 v : 
  0 < n1 -> fill n1 = Ok 0 -> 0 < n2 -> fill n2 = Ok v -> v * total_density traps <> 0 ->
  exists m', run_manager fill [(n1, d1); (n2, d2)] (manager_init KInstant traps N) = Ok ([0; - (v * total_density traps)], m').
Proof.
  intros H1 F1 H2 F2 Hnz. unfold manager_init. cbn [n_watermarks_per_transfer]. unfold zero_row; rnum.
  replace (1 + N * 1)%nat with (Datatypes.S N) by lia. cbn [repeat].
  cbn [run_manager]. rewrite (blind_step traps _ _ fill n1 d1 0 (max_index_head0 _ _) H1 F1).
  change (repeat (0, repeat 0 (length traps)) N) with (Zs (length traps) N).
  rewrite stored_head, Rmult_0_l. destruct (Reqb_spec 0 0) as [_|H]; [|lra]. cbn [bind run_manager].
  rewrite (blind_step traps _ _ fill n2 d2 v (max_index_head0 _ _) H2 F2). rewrite stored_head.
  destruct (Reqb_spec (v * total_density traps) 0) as [H|_]; [contradiction|]. cbn [snd].
  destruct (Rltb _ 1).
  - cbv zeta. rewrite blend_self. rewrite stored_head. cbn [bind]. eexists. reflexivity.
  - cbn [bind]. eexists. reflexivity.
Qed.

(** Every level in use: the array is overwritten from the bottom and nothing is released. *)
Lemma overfull_step traps r0 rest fill n_free dwell v :
  let w' := (v, repeat 1 (length traps)) :: rest in
  Forall (fun r => fst r <> 0) (r0 :: rest) -> 0 < n_free -> fill n_free = Ok v -> 
  0 < stored KInstant traps w' <= n_free ->
  manager_step (mkManager KInstant traps (r0 :: rest)) n_free fill dwell
  = Ok (- stored KInstant traps w', mkManager KInstant traps w').
Proof.
  intros w' Hnz Hf Hfill [HS HS']. rewrite (blind_step traps r0 rest fill n_free dwell v (max_index_none _ Hnz) Hf Hfill). fold w'.
  destruct (Reqb_spec (stored KInstant traps w') 0) as [H|_]; [lra|].
  destruct (Rltb_spec (n_free / stored KInstant traps w') 1) as [H|_]; [|reflexivity].
  exfalso. apply (Rmult_lt_compat_r (stored KInstant traps w')) in H; [|lra]. unfold Rdiv in H. rewrite Rmult_assoc, Rinv_l in H; lra.
Qed.

(** A first capture: all the electrons, if the traps reached by the cloud are more numerous. *)
Lemma first_capture traps N fill n d v : 0 < n -> fill n = Ok v -> 0 < v * total_density traps ->
  exists m', run_manager fill [(n, d)] (manager_init KInstant traps N) = Ok ([- Rmin n (v * total_density traps)], m').
Proof.
  intros H1 F1 HD. unfold manager_init. cbn [n_watermarks_per_transfer]. unfold zero_row; rnum.
  replace (1 + N * 1)%nat with (Datatypes.S N) by lia. cbn [repeat].
  cbn [run_manager]. rewrite (blind_step traps _ _ fill n d v (max_index_head0 _ _) H1 F1).
  change (repeat (0, repeat 0 (length traps)) N) with (Zs (length traps) N). rewrite stored_head.
  set (D := v * total_density traps) in *. destruct (Reqb_spec D 0) as [H|_]; [lra|]. cbn [snd].
  destruct (Rltb_spec (n / D) 1) as [H|H].
  - cbv zeta. rewrite Rmin_left by (apply (Rmult_lt_compat_r D) in H; [|exact HD]; unfold Rdiv in H; rewrite Rmult_assoc, Rinv_l in H; lra).
    rewrite blend_cons, blend_self. rewrite stored_fractions by discriminate. rewrite trapped_cons, <- (stored_fractions KInstant) by discriminate.
    rewrite stored_Zs. cbn [fst snd]. unfold row_trapped. cbn [fst snd bind].
    assert (E : zip_with (fun f fi => n / D * f + (1 - n / D) * fi) (repeat 1 (length traps)) (repeat 0 (length traps)) = repeat (n / D) (length traps)).
    { clear. generalize (n / D). intros e. induction (length traps) as [|k IH]; [reflexivity|]. unfold zip_with in *. cbn. rewrite IH. f_equal. ring. }
    unfold vals, vol; cbn [fst snd]. rnum. rewrite E.
    assert (E2 : dot (repeat (n / D) (length traps)) (dens traps) = n / D * total_density traps).
    { clear. generalize (n / D). intros e. unfold total_density, dot, dens. induction traps as [|t ts IH]; cbn; [ring|]. unfold Rsum in *. cbn in *. rewrite IH. ring. }
    rewrite E2. eexists. f_equal. f_equal. f_equal. f_equal. rewrite Rplus_0_r. replace (v * (n / D * total_density traps)) with (n / D * D) by (unfold D; ring).
    field. lra.
  - rewrite Rmin_right by (apply (Rmult_le_compat_r D) in H; [|lra]; unfold Rdiv in H; rewrite Rmult_assoc, Rinv_l in H; lra).
    cbn [bind]. eexists. reflexivity.
Qed.
