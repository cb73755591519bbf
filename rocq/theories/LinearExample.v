(** * A single pixel, passed once over empty instant traps, in a well of any fill power. *)
From Coq Require Import ZArith List Bool Reals Lra Lia.
From Coquelicot Require Import Rcomplements Rbar Hierarchy RInt.
From Verif Require Import Num Py RFacts CCDModel TrapsModel ManagerModel ROEModel ClockModel MainModel Spec SpecROE SpecImage SpecReadout SpecColumn SpecRecovery SpecHold SpecWork SpecMeet
  ROEMatrixFacts ROEExpressFacts ReadoutForced ReadoutFull MainReadoutFacts ReadoutInjection MainColumnFacts ReadoutExamples WmFacts ReadoutSpecFacts OrderFacts PhaseOrderFacts AboveFacts.
Import ListNotations.
Open Scope R_scope.

Definition curve_ccd (beta : R) : ccd R := mkCCD [1] 1 [1] [beta] [0] [BList [1]].
Lemma curve_plain beta : 0 < beta -> plain_ccd (curve_ccd beta).
Proof.
  intros Hb. constructor; [reflexivity| |].
  - intros [|[|k]]; unfold share; cbn; lra.
  - intros [|k] Hk; [|cbn in Hk; lia]. exists 1, beta. split; [constructor; reflexivity|lra].
Qed.
Definition few_traps : traps_arg R := TOne (small_trap (1 / 4)).
Definition once (beta : R) : direction R := mkDir (Some (curve_ccd beta)) (Some (roe_injection_init [1] (Some 1%nat) true true DFloat)) (Some few_traps) 0 0 WNone.
Definition dot (m : R) : image R := [[m]].
Lemma dot_pixel m i j : pixel (dot m) i j = match i, j with O, O => m | _, _ => 0 end.
Proof. unfold pixel, dot. destruct i as [|[|i]]; destruct j as [|[|j]]; reflexivity. Qed.
Lemma dot_shape m : shape 1 1 (dot m).
Proof. split; [reflexivity|repeat constructor]. Qed.
Lemma once_setting beta : 0 < beta -> kinds_injection (once beta) 1 (curve_ccd beta) few_traps [1] (Some 1%nat).
Proof.
  intros Hb. split; try reflexivity; [now apply curve_plain| |cbn; lia]. split; [discriminate|]. constructor; [|constructor]. destruct (small_group (1 / 4) ltac:(lra)) as [G1 G2]. split; [exact G1|now left].
Qed.
Lemma once_mild beta k : 1 <= beta < 4 -> (k < 1)%nat -> mild_phase (curve_ccd beta) (groups_in few_traps) 1 k.
Proof.
  intros Hb Hk. assert (k = 0%nat) by lia. subst k. exists 1, beta. split; [constructor; reflexivity|]. split; [lra|]. assert (S : share (curve_ccd beta) 0 = 1) by reflexivity. rewrite S.
  assert (G : group_traps [small_trap (1 / 4)] = 1 / 4) by (unfold group_traps, full_traps; cbn; lra).
  cbn [groups_in few_traps map]. split; [constructor; [rewrite G; lra|constructor]|]. rewrite G. unfold Rsum. cbn. lra.
Qed.
Lemma once_readout beta m : 0 < beta -> 0 <= m -> 1 / 4 * depth 1 beta m <= m ->
  exists im', add_cti (dot m) (once beta) no_direction None = Ok (im', roe_injection_init [1] (Some 1%nat) true true DFloat, the_roe no_direction) /\
    pixel im' 0 0 = m - 1 / 4 * depth 1 beta m.
Proof.
  intros Hb Hm Hle. destruct (injection_parallel (dot m) (once beta) no_direction (curve_ccd beta) few_traps [1] (Some 1%nat) 1 1) as (im' & E & Hs & _ & _ & Hi);
    auto using dot_shape, small_columns; try (now apply curve_plain); try (apply small_instant; lra); try (cbn; lia).
  { intros i j. rewrite dot_pixel. destruct i, j; lra. }
  exists im'. split; [exact E|].
  pose proof (Hi 0%nat 0%nat ltac:(lia) (or_introl eq_refl)) as H1.
  assert (EP : trap_phases (curve_ccd beta) = [0%nat]) by (apply one_phase; [reflexivity|unfold share; cbn; lra]).
  change (the_roe (once beta)) with (built (Injection (Some 1%nat)) [1] DFloat true true) in H1. rewrite EP, roe_steps in H1 by lra. unfold readout, injection_passes in H1.
  cbn [once d_express d_offset passes_for Nat.eqb injection_transfers seq map Nat.add Nat.min] in H1.
  rewrite (overlap_is _ _ _ _ 1) in H1; [|cbn [INR]; unfold Rmin, Rmax; repeat destruct Rle_dec; lra|lra].
  cbn [fold_left transfer_pass] in H1; rewrite ?one_cell in H1; cbn zeta in H1. cbn [fst snd] in H1.
  change (groups_in few_traps) with [[small_trap (1/4)]] in H1.
  change (all_empty (site_of (curve_ccd beta) [[small_trap (1 / 4)]]) 0%nat) with [empty_profile] in H1.
  change (site_of (curve_ccd beta) [[small_trap (1 / 4)]] 0) with (mkSite [[thinned 1 (small_trap (1/4))]] (depth 1 beta)) in H1.
  rewrite one_group_net in H1. change (Z.of_nat 0) with 0%Z in H1. change (col_fun (dot m) 0 0%Z) with m in H1.
  set (g := [thinned 1 (small_trap (1 / 4))]) in *.
  assert (Hphys : Forall physical g) by (constructor; [|constructor]; pose proof (small_physical (1 / 4) ltac:(lra)) as [A B C]; constructor; cbn in *; lra).
  assert (Z : forall Q : profile, (forall s x, Q s x = 0) -> electrons g Q 0 1 = 0).
  { intros Q HQ. rewrite (WmFacts.electrons_ext g Q empty_profile 0 1); [apply (ReadoutSpecFacts.electrons_empty g)|lra|]. intros s x _ _. apply HQ. }
  assert (R0 : released g 1 empty_profile = 0) by (unfold released; rewrite !Z; [ring| |]; intros; unfold after_release, empty_profile; ring).
  assert (D : demand g (depth 1 beta m) (after_release g 1 empty_profile) = 1 / 4 * depth 1 beta m).
  { pose proof (depth_range 1 beta m ltac:(lra) Hb) as V. assert (T : tidy (length g) (after_release g 1 empty_profile)) by (apply tidy_release; [exact Hphys|lra|apply tidy_empty]).
    rewrite (demand_value g _ _ T V). rewrite (WmFacts.electrons_ext g _ empty_profile); [|lra|intros s x _ _; unfold after_release, empty_profile; ring].
    assert (Z' : electrons g empty_profile 0 (depth 1 beta m) = 0). { unfold electrons, g. cbn [electrons_from]. unfold empty_profile. rewrite (RInt_const (V := R_CompleteNormedModule)). unfold scal. cbn. unfold mult. cbn. ring. }
    rewrite Z'. unfold traps_per_pixel, g. cbn. lra. }
  assert (N : transfer_net g (depth 1 beta) 1 m empty_profile = - (1 / 4 * depth 1 beta m)).
  { unfold transfer_net. cbv zeta. rewrite R0, Rplus_0_r. unfold captured. rewrite D. rewrite Rmin_right by exact Hle. ring. }
  rewrite N in H1. rewrite H1. unfold give. rewrite Z.eqb_refl. rewrite Rmult_1_r. change (col_fun (dot m) 0 0%Z) with m. rewrite Rmax_right by lra. ring.
Qed.
