(** * Properties C60-C62: approximate readouts, mixtures of trap species, readouts in parts
    (main.py:36-233, main_utils.pyx:14-264, roe.py:430-583, trap_managers.py). *)
From Coq Require Import ZArith List Bool Reals Lra Lia Permutation.
From Coquelicot Require Import Rcomplements Rbar Hierarchy RInt.
From Verif Require Import Num Py RFacts CCDModel TrapsModel ManagerModel ROEModel ClockModel MainModel Spec SpecROE SpecImage SpecReadout SpecColumn SpecExpress
  ROEMatrixFacts ROEExpressFacts ClockFacts MainFacts ReadoutForced ReadoutFull MainReadoutFacts MainColumnFacts ReadoutExamples
  ExpressFacts ExpressExample MixtureFacts PartsFacts.
Import ListNotations.
Open Scope R_scope.

(** ** C60: what the express argument approximates. *)
(** Whatever express value: the passes stand for exactly the right number of transfers of
    every pixel, and the image is that of the readout model with these multiplicities. *)
Theorem C60_express_model im parallel serial c traps dwell dt rows cols :
  shape rows cols im -> (0 < rows)%nat -> (forall i j, 0 <= pixel im i j) ->
  plain_setting parallel rows c traps dwell dt -> d_window parallel = WNone ->
  d_traps serial = None -> columns_ok (selected (d_window serial) cols) cols ->
  exists im' m E, rect E rows m /\
  (forall e w, (e < E)%nat -> (w < rows)%nat -> 0 <= entry m e w) /\
  (forall w, (w < rows)%nat -> transfers m w = INR (w + 1 + d_offset parallel)) /\
  add_cti im parallel serial None = Ok (im', the_roe parallel, the_roe serial) /\
  shape rows cols im' /\
  forall i j, (i < rows)%nat -> In (Z.of_nat j) (selected (d_window serial) cols) ->
    pixel im' i j = readout (site_of c (groups_in traps)) (trap_phases c) (timed_steps (the_roe parallel))
                      (weighted_passes m) (col_fun im j) (Z.of_nat i).
Proof.
  intros Hs Hr Hp Hps Hw Hser Hcols.
  destruct (express_readout im parallel serial c traps dwell dt rows cols Hs Hr Hp Hps Hw Hser Hcols) as (im' & m & mon & E & _ & H1 & H2 & H3 & H4 & H5 & H6).
  exists im', m, E. auto 10.
Qed.
Print Assumptions C60_express_model.

(** With at least as many passes as rows the multiplicities are known. *)
Theorem C60_even_passes im parallel serial c traps dwell rows cols :
  shape rows cols im -> (0 < rows)%nat -> (forall i j, 0 <= pixel im i j) ->
  plain_setting parallel rows c traps dwell DFloat -> d_window parallel = WNone ->
  d_traps serial = None -> columns_ok (selected (d_window serial) cols) cols ->
  d_express parallel = 0%nat \/ (rows <= d_express parallel)%nat ->
  exists im', add_cti im parallel serial None = Ok (im', the_roe parallel, the_roe serial) /\
  shape rows cols im' /\
  forall i j, (i < rows)%nat -> In (Z.of_nat j) (selected (d_window serial) cols) ->
    pixel im' i j = readout (site_of c (groups_in traps)) (trap_phases c) (timed_steps (the_roe parallel))
                      (weighted_passes (even_multipliers rows (d_offset parallel) (passes_for (rows + d_offset parallel) (d_express parallel))))
                      (col_fun im j) (Z.of_nat i).
Proof. exact (even_readout im parallel serial c traps dwell rows cols). Qed.
Print Assumptions C60_even_passes.

(** The approximation can create charge, unlike the full calculation (C36): one group of one
    species, the default ROE, express = 2. *)
Theorem C60_express_creates_no_charge_refuted : exists (im im' : image R) d c traps dwell pr sr,
  shape 2 1 im /\ (forall i j, 0 <= pixel im i j) /\ plain_setting d 2 c traps dwell DFloat /\ d_window d = WNone /\
  length (groups_in traps) = 1%nat /\
  add_cti im d no_direction None = Ok (im', pr, sr) /\ charge im < charge im'.
Proof.
  exists small_image, [[61/64]; [434007/8388608]], quick_direction. do 5 eexists.
  split; [exact small_shape|]. split; [exact small_nonneg|]. split; [exact quick_setting|]. split; [reflexivity|]. split; [reflexivity|].
  split; [exact quick_readout|]. unfold charge, small_image. cbn. lra.
Qed.
Print Assumptions C60_express_creates_no_charge_refuted.
Example C60_example : plain_setting quick_direction 2 shallow_ccd (TOne (small_trap (1/64))) [ln 8] DFloat /\
  (2 <= d_express quick_direction)%nat /\
  even_multipliers 2 2 (passes_for (2 + 2) 2) = [[2; 2]; [1; 2]] /\
  add_cti small_image quick_direction no_direction None = Ok ([[61/64]; [434007/8388608]], the_roe quick_direction, the_roe no_direction).
Proof.
  split; [exact quick_setting|]. split; [cbn; lia|]. split; [|exact quick_readout].
  unfold even_multipliers. change (passes_for (2 + 2) 2) with 2%nat. change (seq 0 2) with [0; 1]%nat. cbn [map].
  replace (INR (2 + 2) / INR 2) with 2 by (cbn; lra). cbn [Nat.add INR].
  repeat first [rewrite Rmax_right by lra | rewrite Rmin_left by lra | rewrite Rmin_right by lra].
  repeat (f_equal; try lra).
Qed.

(** ** C61: only the mixture of traps matters. *)
(** Reordering the species of a group, or splitting a species into several with the same
    release timescale and total density, does not change the image. *)
Theorem C61_only_the_mixture_matters im parallel serial parallel' serial' rows cols :
  shape rows cols im -> (0 < rows)%nat -> (0 < cols)%nat -> (forall i j, 0 <= pixel im i j) ->
  plain_direction parallel rows -> plain_direction serial cols ->
  relisted parallel parallel' -> relisted serial serial' ->
  add_cti im parallel' serial' None = add_cti im parallel serial None.
Proof. exact (relisted_add_cti im parallel serial parallel' serial' rows cols). Qed.
Print Assumptions C61_only_the_mixture_matters.
(** In particular the order of the species within the groups. *)
Theorem C61_order_of_species im d l l' serial rows cols : shape rows cols im -> (0 < rows)%nat -> (0 < cols)%nat -> (forall i j, 0 <= pixel im i j) ->
  plain_direction (mkDir (d_ccd d) (d_roe d) (Some (TFlat l)) (d_express d) (d_offset d) (d_window d)) rows -> plain_direction serial cols ->
  Permutation l l' ->
  add_cti im (mkDir (d_ccd d) (d_roe d) (Some (TFlat l')) (d_express d) (d_offset d) (d_window d)) serial None =
  add_cti im (mkDir (d_ccd d) (d_roe d) (Some (TFlat l)) (d_express d) (d_offset d) (d_window d)) serial None.
Proof.
  intros Hs Hr Hc Hp H1 H2 Hl. apply (relisted_add_cti im _ serial _ serial rows cols); auto.
  - constructor; try reflexivity. cbn [d_traps]. destruct H1 as [_ [H1|(c & traps & dwell & dt & H1)]]; [discriminate|].
    pose proof (ps_traps _ _ _ _ _ _ H1) as E. injection E as <-. destruct (ps_instant _ _ _ _ _ _ H1) as [_ G].
    cbn [groups_in] in G |- *. inversion G as [|? ? [G1 G2] _]; subst. split.
    + split; [discriminate|]. constructor; [|constructor]. split; [|exact (Permutation_Forall Hl G2)].
      intros ->. apply Permutation_sym, Permutation_nil in Hl. contradiction.
    + constructor; [|constructor]. intros tau. unfold density_at. clear -Hl. induction Hl as [|x l l' _ IH|x y l|l l1 l2 _ IH1 _ IH2]; cbn [map]; rewrite ?Rsum_cons; [reflexivity|rewrite IH; reflexivity|lra|congruence].
  - constructor; try reflexivity. destruct H2 as [_ [H2|(c & traps & dwell & dt & H2)]]; [rewrite H2; exact I|].
    rewrite (ps_traps _ _ _ _ _ _ H2). split; [exact (ps_instant _ _ _ _ _ _ H2)|]. induction (groups_in traps); constructor; auto. intros tau. reflexivity.
Qed.
Print Assumptions C61_order_of_species.
(** Two species of density 1/4 instead of one of density 1/2. *)
Definition split_species : traps_arg R := TFlat [small_trap (1/4); small_trap (1/4)].
Example C61_example : let d := small_direction small_roe (TOne (small_trap (1/2))) in
  let d' := small_direction small_roe split_species in
  plain_direction d 2 /\ plain_direction no_direction 1 /\ relisted d d' /\ relisted no_direction (no_direction : direction R) /\
  add_cti small_image d' no_direction None = Ok ([[1/2]; [3/32]], the_roe d, the_roe no_direction).
Proof.
  intros d d'.
  assert (H1 : plain_direction d 2). { split; [reflexivity|right]. do 4 eexists. apply small_setting, small_instant. lra. }
  assert (H2 : plain_direction no_direction 1) by (split; [reflexivity|left; reflexivity]).
  assert (H3 : relisted d d').
  { constructor; try reflexivity. cbn [d d' small_direction d_traps]. split.
    - split; [discriminate|]. constructor; [|constructor]. split; [discriminate|].
      assert (G : physical (small_trap (1/4)) /\ t_class (small_trap (1/4)) = CInstant).
      { destruct (small_instant (1/4) ltac:(lra)) as [_ G]. inversion G as [|? ? [_ G2] _]; subst. inversion G2; subst. assumption. }
      constructor; [exact G|constructor; [exact G|constructor]].
    - constructor; [|constructor]. intros tau. unfold density_at, split_species. cbn [map]. rewrite !Rsum_cons. cbn [t_release_timescale t_density small_trap].
      destruct (Req_EM_T 1 tau); lra. }
  assert (H4 : relisted no_direction (no_direction : direction R)) by (constructor; try reflexivity; exact I).
  split; [exact H1|]. split; [exact H2|]. split; [exact H3|]. split; [exact H4|].
  rewrite (C61_only_the_mixture_matters small_image d no_direction d' no_direction 2 1 small_shape ltac:(lia) ltac:(lia) small_nonneg H1 H2 H3 H4).
  exact small_readout.
Qed.

(** ** C62: a readout in several calls. *)
(** Splitting the readout into any number of successive time windows gives the same image as
    a single call when every parallel transfer is computed (main.py:139-147), in both
    directions and for any serial express value: each row is clocked serially in the call in
    which it reaches the readout register. *)
Theorem C62_successive_time_windows im parallel serial rows cols ends :
  shape rows cols im -> (0 < rows)%nat -> (0 < cols)%nat -> (forall i j, 0 <= pixel im i j) ->
  plain_direction parallel rows -> computes_all parallel rows -> plain_direction serial cols ->
  increasing_from 0 ends -> (Z.of_nat (rows + d_offset parallel) <= last ends 0)%Z ->
  exists im', add_cti im parallel serial None = Ok (im', the_roe parallel, the_roe serial) /\
    in_parts (fun im '(a, b) => do '(im', _, _) <- add_cti im parallel serial (Some (py_range a b)); Ok im') im (windows_from 0 ends) = Ok im'.
Proof.
  intros Hs Hr Hc Hp Hpar Hall Hser Hinc Hlast.
  destruct (part_map_exists parallel serial rows cols Hr Hpar Hall) as [adv PM]. destruct (row_map_exists serial rows cols Hr Hc Hser) as [fin RM].
  destruct Hpar as [Wp _], Hser as [Ws _].
  destruct (whole_call im parallel serial rows cols adv fin Hs Hr Hp Wp Ws PM RM) as (Y & E & _). exists Y. split; [exact E|].
  apply (parts_end im parallel serial rows cols adv fin Hs Hr Hp Wp Ws PM RM ends Y E 0 im); [lia|exact Hinc|exact Hlast|].
  cbn [Z.to_nat Nat.min]. split; [exact Hs|]. split; [exact Hp|]. intros i j Hi Hj. destruct (Nat.ltb_spec (i + d_offset parallel) 0); [lia|].
  rewrite (pm_none _ _ _ _ _ PM). unfold col_fun. rewrite Nat2Z.id. reflexivity.
Qed.
Print Assumptions C62_successive_time_windows.
Example C62_example : let d := small_direction small_roe (TOne (small_trap (1/2))) in
  plain_direction d 2 /\ computes_all d 2 /\ plain_direction no_direction 1 /\ increasing_from 0 [1; 2]%Z /\
  in_parts (fun im '(a, b) => do '(im', _, _) <- add_cti im d no_direction (Some (py_range a b)); Ok im') small_image (windows_from 0 [1; 2]%Z) = Ok [[1/2]; [3/32]].
Proof.
  intros d.
  assert (H1 : plain_direction d 2). { split; [reflexivity|right]. do 4 eexists. apply small_setting, small_instant. lra. }
  assert (H2 : plain_direction no_direction 1) by (split; [reflexivity|left; reflexivity]).
  assert (H3 : computes_all d 2) by (left; reflexivity). assert (H4 : increasing_from 0 [1; 2]%Z) by (cbn; lia).
  split; [exact H1|]. split; [exact H3|]. split; [exact H2|]. split; [exact H4|].
  destruct (C62_successive_time_windows small_image d no_direction 2 1 [1; 2]%Z small_shape ltac:(lia) ltac:(lia) small_nonneg H1 H3 H2 H4 ltac:(cbn; lia)) as (im' & E1 & E2).
  rewrite E2. f_equal. pose proof small_readout as E3. cbn zeta in E3. fold d in E3. rewrite E3 in E1. congruence.
Qed.
