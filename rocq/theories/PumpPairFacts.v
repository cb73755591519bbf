(** * Pumping with one phase per pixel, and examples. *)
From Coq Require Import ZArith List Bool Reals Lra Lia FinFun.
From Coquelicot Require Import Rcomplements Rbar Hierarchy RInt.
From Verif Require Import Num Py RFacts CCDModel TrapsModel ManagerModel ROEModel ClockModel MainModel Spec SpecROE SpecImage SpecReadout SpecColumn SpecPumping
  WmFacts ArrayFacts CutFacts InstantFacts ClockFacts MainFacts ShapeFacts ColumnFacts
  ROEClockFacts ROEMatrixFacts ROEExpressFacts ROEKindFacts ReadoutFacts ReadoutImage ReadoutForced ReadoutFull ReadoutSpecFacts ReadoutColumnFacts MainReadoutFacts MainColumnFacts PumpFacts PumpSpecFacts ReadoutExamples.
Import ListNotations.
Open Scope R_scope.

Definition here : roe_phase R := mkRP true 0%Z [0%Z] [1].
Definition next : roe_phase R := mkRP true 1%Z [1%Z] [1].
Lemma pair_steps d0 d1 n_pumps ef : 0 < d0 -> 0 < d1 -> timed_steps (pump_roe [d0; d1] n_pumps ef DFloat) = [(d0, [here]); (d1, [next])].
Proof.
  intros H0 H1. unfold timed_steps. cbn [pump_roe make_roe roe_dwell_times roe_clock_sequence length].
  cbn -[Rlt_dec]. destruct (Rlt_dec 0 d0); [|contradiction]. destruct (Rlt_dec 0 d1); [|contradiction]. reflexivity.
Qed.

Lemma one_expose sites row mult d (c : column) T (t : Z) : 
  expose sites row mult d [mkRP true t [t] [1]] (c, T) 0 =
  (give c (row + t) (site_net (sites 0%nat) d (c (row + t)%Z) (T 0%nat) * mult), put T 0 (site_after (sites 0%nat) d (c (row + t)%Z) (T 0%nat))).
Proof.
  cbn [expose]. unfold electrode. cbn [nth rp_high rp_capture rp_release rp_fraction combine]. unfold deposit. cbn [fold_left]. rewrite Rmult_1_r. reflexivity.
Qed.
Lemma expose_here sites row mult d (c : column) T :
  expose sites row mult d [here] (c, T) 0 =
  (give c (row + 0) (site_net (sites 0%nat) d (c (row + 0)%Z) (T 0%nat) * mult), put T 0 (site_after (sites 0%nat) d (c (row + 0)%Z) (T 0%nat))).
Proof. apply one_expose. Qed.
Lemma expose_next sites row mult d (c : column) T :
  expose sites row mult d [next] (c, T) 0 =
  (give c (row + 1) (site_net (sites 0%nat) d (c (row + 1)%Z) (T 0%nat) * mult), put T 0 (site_after (sites 0%nat) d (c (row + 1)%Z) (T 0%nat))).
Proof. apply one_expose. Qed.
Lemma pair_transfer sites d0 d1 row mult (c : column) T :
  transfer_pixel sites [0%nat] [(d0, [here]); (d1, [next])] row mult (c, T) =
  expose sites row mult d1 [next] (expose sites row mult d0 [here] (c, T) 0) 0.
Proof. reflexivity. Qed.

Lemma put_same T k Ps : put T k Ps k = Ps.
Proof. unfold put. rewrite Nat.eqb_refl. reflexivity. Qed.

Section Pair.
Context (sites : nat -> site) (g : list (trap R)) (well : R -> R) (d0 d1 : R) (p : Z).
Hypothesis Hsite : sites 0%nat = mkSite [g] well.
Hypothesis Hgood : good_site (sites 0%nat).
Hypothesis H0 : 0 < d0.
Hypothesis H1 : 0 < d1.
Lemma net_one d n P : site_net (sites 0%nat) d n [P] = transfer_net g well d n P.
Proof. rewrite Hsite. unfold site_net, Rsum. cbn. lra. Qed.
Lemma after_one d n P : site_after (sites 0%nat) d n [P] = [transfer_after g well d n P].
Proof. rewrite Hsite. reflexivity. Qed.
Lemma pair_pumps n : forall (c : column) P T, (forall z, 0 <= c z) -> real g P -> T 0%nat = [P] ->
  let c' := fst (fold_left (fun st m => transfer_pixel sites [0%nat] [(d0, [here]); (d1, [next])] p m st) (repeat 1 n) (c, T)) in
  (c' p, c' (p + 1)%Z) = back_and_forth g well d0 d1 n (c p) (c (p + 1)%Z) P.
Proof.
  assert (Hgs : sensitive well /\ Forall physical g /\ (0 < length g)%nat).
  { pose proof Hgood as G. rewrite Hsite in G. destruct G as [G1 G2]. split; [exact G1|]. exact (Forall_inv G2). }
  destruct Hgs as (Hw & Hp & Hl).
  induction n as [|n IH]; intros c P T Hc HP HT; [reflexivity|]. cbn [repeat fold_left].
  rewrite pair_transfer. rewrite expose_here, expose_next, HT. rewrite net_one, after_one, put_same.
  rewrite net_one, after_one, Z.add_0_r, !Rmult_1_r.
  set (q0 := transfer_net g well d0 (c p) P). set (P1 := transfer_after g well d0 (c p) P).
  destruct (real_step g well (c p) d0 P Hp Hl Hw HP (Hc _) H0) as (G1 & _ & G3). fold q0 in G3. fold P1 in G1.
  rewrite (give_other c p q0 (p + 1)) by lia. set (q1 := transfer_net g well d1 (c (p + 1)%Z) P1). set (P2 := transfer_after g well d1 (c (p + 1)%Z) P1).
  destruct (real_step g well (c (p + 1)%Z) d1 P1 Hp Hl Hw G1 (Hc _) H1) as (K1 & _ & K3). fold q1 in K3. fold P2 in K1.
  cbn [back_and_forth]. fold q0 P1 q1 P2.
  rewrite (IH (give (give c p q0) (p + 1) q1) P2); [|apply give_nonneg, give_nonneg, Hc|exact K1|reflexivity].
  rewrite (give_other _ (p + 1) q1 p) by lia. rewrite (give_at c p q0 (c p + q0)) by lra.
  rewrite (give_at (give c p q0) (p + 1) q1 (c (p + 1)%Z + q1)); [reflexivity|rewrite give_other by lia; reflexivity|lra].
Qed.
End Pair.

Lemma pumping_pair im d serial c traps group d0 d1 n_pumps ef rows cols p im' :
  shape rows cols im -> (forall i j, 0 <= pixel im i j) ->
  pumping_setting d rows p c traps [d0; d1] n_pumps ef -> d_traps serial = None -> columns_ok (selected (d_window serial) cols) cols ->
  0 < d0 -> 0 < d1 -> ccd_n_phases c = 1%nat -> 0 < share c 0 -> groups_in traps = [group] -> every_pump d n_pumps ->
  add_cti im d serial None = Ok (im', the_roe d, the_roe serial) ->
  (p + 1 < rows)%nat -> forall j, In (Z.of_nat j) (selected (d_window serial) cols) ->
  (pixel im' p j, pixel im' (p + 1) j) = back_and_forth (map (thinned (share c 0)) group) (depth (nth 0 (ccd_full_well c) 1) (nth 0 (ccd_fill_power c) 1)) d0 d1
     n_pumps (pixel im p j) (pixel im (p + 1) j) empty_profile.
Proof.
  intros Hs Hp Hset Hser Hcols H0 H1 Hph Hsh Hgr Hev E Hlt j Hj.
  destruct (pumping_readout im d serial c traps [d0; d1] n_pumps ef rows cols p Hs Hp Hset Hser Hcols) as (im2 & E2 & _ & _ & _ & G4). rewrite E in E2. injection E2 as <-.
  rewrite (counts_all n_pumps (d_express d) ef) in G4 by (auto; apply Hset). destruct (pump_the_roe d c traps [d0; d1] n_pumps ef rows p Hset) as [Er _].
  rewrite (G4 p j), (G4 (p + 1)%nat j), Er, (pair_steps d0 d1 n_pumps ef H0 H1), (one_phase c Hph Hsh), Hgr by (auto; lia).
  pose proof (pair_pumps (site_of c [group]) (map (thinned (share c 0)) group) (depth (nth 0 (ccd_full_well c) 1) (nth 0 (ccd_fill_power c) 1)) d0 d1 (Z.of_nat p) eq_refl) as G.
  unfold pumped, pumps. replace (Z.of_nat (p + 1)) with (Z.of_nat p + 1)%Z by lia.
  rewrite (G ltac:(apply site_good; [apply Hset|rewrite <- Hgr; apply (pu_instant _ _ _ _ _ _ _ _ Hset)|lia]) H0 H1 n_pumps (col_fun im j) empty_profile); [|intros z; apply Hp|apply real_empty|reflexivity].
  unfold col_fun. rewrite Nat2Z.id. replace (Z.to_nat (Z.of_nat p + 1)) with (p + 1)%nat by lia. reflexivity.
Qed.

(** ** A pixel of charge pumped against an empty one *)
Definition pump_direction (n_pumps express : nat) (ef : bool) : direction R :=
  mkDir (Some small_ccd) (Some (pump_roe [ln 2; ln 2] n_pumps ef DFloat)) (Some (TOne (small_trap (1/2)))) express 0 (WInt 0).
Lemma pump_small n_pumps express ef : (0 < n_pumps)%nat ->
  pumping_setting (pump_direction n_pumps express ef) 2 0 small_ccd (TOne (small_trap (1/2))) [ln 2; ln 2] n_pumps ef.
Proof.
  intros H. constructor; try reflexivity; auto.
  - eexists. split; reflexivity.
  - exact small_plain.
  - apply small_instant. lra.
Qed.
Lemma pump_once : back_and_forth [thinned 1 (small_trap (1/2))] small_well (ln 2) (ln 2) 1 1 0 empty_profile = (1/2, 3/16).
Proof.
  cbn [back_and_forth].
  destruct (flat_step small_well (1/2) (ln 2) 0 (1/2) 1 0 1 empty_profile (flat_empty 1) exp_ln2) as [E1 H1]; try lra; [apply small_well_at; lra|].
  rewrite E1.
  destruct (flat_step small_well (1/2) (ln 2) 1 (1/2) 0 (1/4) (1/4) _ H1 exp_ln2) as [E2 H2]; try lra; [apply small_well_at; lra|].
  rewrite E2. f_equal; lra.
Qed.
(** One pump computed for all of them: every pixel of charge lost is given back many times. *)
Lemma pump_many M : (6 <= M)%nat -> exists im', add_cti small_image (pump_direction M 1 false) no_direction None =
    Ok (im', the_roe (pump_direction M 1 false), the_roe no_direction) /\
  charge small_image = 1 /\ charge im' = 3 / 16 * INR M.
Proof.
  intros HM. set (d := pump_direction M 1 false).
  destruct (pumping_readout small_image d no_direction small_ccd (TOne (small_trap (1/2))) [ln 2; ln 2] M false 2 1 0 small_shape small_nonneg
    (pump_small M 1 false ltac:(lia)) eq_refl small_columns) as (im' & E & G1 & _ & _ & G4).
  exists im'. split; [exact E|]. split; [unfold charge, small_image, Rsum; cbn; lra|].
  assert (Hp : pump_counts M (d_express d) false = [INR M]).
  { unfold pump_counts, passes_for. cbn [andb]. change (d_express d) with 1%nat. cbn [Nat.eqb]. replace (Nat.min 1 M) with 1%nat by lia. cbn [repeat INR]. f_equal. lra. }
  assert (Hst : timed_steps (the_roe d) = [(ln 2, [here]); (ln 2, [next])]) by (apply pair_steps; apply ln_pos; lra).
  rewrite Hp, Hst, small_phases in G4. set (sites := site_of small_ccd (groups_in (TOne (small_trap (1 / 2))))) in *.
  assert (Hsite : sites 0%nat = mkSite [[thinned 1 (small_trap (1/2))]] small_well) by reflexivity.
  assert (G5 : forall i, (i < 2)%nat -> pixel im' i 0 = pumped sites [0%nat] [(ln 2, [here]); (ln 2, [next])] 0 [INR M] (col_fun small_image 0) (Z.of_nat i))
    by (intros i Hi; apply (G4 i 0%nat Hi (or_introl eq_refl))). clear G4.
  unfold pumped, pumps in G5. cbn [fold_left] in G5. rewrite pair_transfer, expose_here, expose_next, put_same in G5. cbn [fst] in G5.
  change (all_empty sites 0%nat) with [empty_profile] in G5. rewrite (after_one _ _ _ Hsite) in G5. rewrite !(net_one _ _ _ Hsite) in G5.
  change (0 + 0)%Z with 0%Z in G5. change (0 + 1)%Z with 1%Z in G5. change (col_fun small_image 0%nat 0%Z) with 1 in G5.
  destruct (flat_step small_well (1/2) (ln 2) 0 (1/2) 1 0 1 empty_profile (flat_empty 1) exp_ln2) as [E1 H1]; try lra; [apply small_well_at; lra|].
  rewrite E1 in G5. rewrite (give_other (col_fun small_image 0) 0 ((0 - 1 / 2 * ((1 - 0 * (1 / 2)) * 1)) * INR M) 1) in G5 by lia. change (col_fun small_image 0%nat 1%Z) with 0 in G5.
  destruct (flat_step small_well (1/2) (ln 2) 1 (1/2) 0 (1/4) (1/4) _ H1 exp_ln2) as [E2 H2]; try lra; [apply small_well_at; lra|].
  rewrite E2 in G5. pose proof (G5 0%nat ltac:(lia)) as A0. pose proof (G5 1%nat ltac:(lia)) as A1.
  assert (HMr : 6 <= INR M) by (replace 6 with (INR 6) by (cbn; lra); apply le_INR, HM).
  rewrite give_other in A0 by lia. rewrite give_neg in A0; [|change (col_fun small_image 0 (Z.of_nat 0)) with 1; lra].
  change (Z.of_nat 1) with 1%Z in A1. rewrite (give_at _ 1 _ (3/16 * INR M)) in A1; [|rewrite give_other by lia; change (col_fun small_image 0 1%Z) with 0; lra|lra].
  destruct G1 as [L Fo]. destruct im' as [|[|x [|? ?]] [|[|y [|? ?]] [|? ?]]]; try discriminate; repeat match goal with H : Forall _ (_ :: _) |- _ => inversion H; clear H; subst end; try discriminate.
  unfold pixel in A0, A1. cbn in A0, A1. subst x y. unfold charge, Rsum. cbn. lra.
Qed.
