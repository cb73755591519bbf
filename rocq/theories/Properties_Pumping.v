(** * Properties C71-C73: trap pumping (arcticpy/roe.py, main_utils.pyx, main.py). *)
From Coq Require Import ZArith List Bool Reals Lra Lia.
From Verif Require Import Num Py RFacts CCDModel TrapsModel ManagerModel ROEModel ClockModel MainModel Spec SpecROE SpecImage SpecReadout SpecColumn SpecPumping
  PumpFacts PumpSpecFacts PumpPairFacts ReadoutExamples.
Import ListNotations.
Open Scope R_scope.

(** ** C71: add_cti with trap pumping is the pumping model. *)
Theorem C71_pumping_model im d serial c traps dwell n_pumps ef rows cols p :
  shape rows cols im -> (forall i j, 0 <= pixel im i j) ->
  pumping_setting d rows p c traps dwell n_pumps ef ->
  d_traps serial = None -> columns_ok (selected (d_window serial) cols) cols ->
  exists im', add_cti im d serial None = Ok (im', the_roe d, the_roe serial) /\
  shape rows cols im' /\ (forall i j, 0 <= pixel im' i j) /\
  (forall i j, ~ In (Z.of_nat j) (selected (d_window serial) cols) -> pixel im' i j = pixel im i j) /\
  forall i j, (i < rows)%nat -> In (Z.of_nat j) (selected (d_window serial) cols) ->
    pixel im' i j = pumped (site_of c (groups_in traps)) (trap_phases c) (timed_steps (the_roe d)) (Z.of_nat p)
                      (pump_counts n_pumps (d_express d) ef) (col_fun im j) (Z.of_nat i).
Proof. exact (pumping_readout im d serial c traps dwell n_pumps ef rows cols p). Qed.
Print Assumptions C71_pumping_model.
(** One phase: the traps see two pixels in turn. *)
Theorem C71_two_pixels im d serial c traps group d0 d1 n_pumps ef rows cols p im' :
  shape rows cols im -> (forall i j, 0 <= pixel im i j) ->
  pumping_setting d rows p c traps [d0; d1] n_pumps ef -> d_traps serial = None -> columns_ok (selected (d_window serial) cols) cols ->
  0 < d0 -> 0 < d1 -> ccd_n_phases c = 1%nat -> 0 < share c 0 -> groups_in traps = [group] -> every_pump d n_pumps ->
  add_cti im d serial None = Ok (im', the_roe d, the_roe serial) ->
  (p + 1 < rows)%nat -> forall j, In (Z.of_nat j) (selected (d_window serial) cols) ->
  (pixel im' p j, pixel im' (p + 1) j) =
    back_and_forth (map (thinned (share c 0)) group) (depth (nth 0 (ccd_full_well c) 1) (nth 0 (ccd_fill_power c) 1)) d0 d1
      n_pumps (pixel im p j) (pixel im (p + 1) j) empty_profile.
Proof. exact (pumping_pair im d serial c traps group d0 d1 n_pumps ef rows cols p im'). Qed.
Print Assumptions C71_two_pixels.
(** No traps or no charge: pumping changes nothing. *)
Theorem C71_no_density_or_no_charge im d serial c traps dwell n_pumps ef rows cols p :
  shape rows cols im -> (forall i j, 0 <= pixel im i j) ->
  pumping_setting d rows p c traps dwell n_pumps ef ->
  d_traps serial = None -> columns_ok (selected (d_window serial) cols) cols ->
  no_density traps \/ (forall i j, pixel im i j = 0) ->
  add_cti im d serial None = Ok (im, the_roe d, the_roe serial).
Proof. exact (pumping_unchanged im d serial c traps dwell n_pumps ef rows cols p). Qed.
Print Assumptions C71_no_density_or_no_charge.

(** A pixel of one electron pumped once against an empty one. *)
Example C71_example : let d := pump_direction 1 0 true in
  pumping_setting d 2 0 small_ccd (TOne (small_trap (1/2))) [ln 2; ln 2] 1 true /\
  exists im', add_cti small_image d no_direction None = Ok (im', the_roe d, the_roe no_direction) /\
    pixel im' 0 0 = 1/2 /\ pixel im' 1 0 = 3/16.
Proof.
  intros d. assert (Hset := pump_small 1 0 true ltac:(lia)). split; [exact Hset|].
  destruct (C71_pumping_model small_image d no_direction _ _ _ _ _ 2 1 0 small_shape small_nonneg Hset eq_refl small_columns) as (im' & E & _).
  exists im'. split; [exact E|].
  pose proof (C71_two_pixels small_image d no_direction small_ccd _ [small_trap (1/2)] (ln 2) (ln 2) 1 true 2 1 0 im' small_shape small_nonneg Hset eq_refl small_columns) as G.
  assert (Hl : 0 < ln 2) by (apply ln_pos; lra).
  specialize (G Hl Hl eq_refl ltac:(unfold share; cbn; lra) eq_refl (or_introl eq_refl) E ltac:(lia) 0%nat (or_introl eq_refl)).
  change (pixel small_image 0 0) with 1 in G. change (pixel small_image (0 + 1) 0) with 0 in G. change (map (thinned (share small_ccd 0)) [small_trap (1/2)]) with [thinned 1 (small_trap (1/2))] in G.
  change (depth (nth 0 (ccd_full_well small_ccd) 1) (nth 0 (ccd_fill_power small_ccd) 1)) with small_well in G. rewrite pump_once in G.
  injection G as G1 G2. auto.
Qed.

(** ** C72: the rows that pumping changes.

    Only the pixel pumped and its two neighbours; and if all the traps lie in phases closer to
    one neighbour, the other one does not change: a dipole. *)
Theorem C72_pumping_changes_neighbours_only im d serial c traps dwell n_pumps ef rows cols p im' :
  shape rows cols im -> (forall i j, 0 <= pixel im i j) ->
  pumping_setting d rows p c traps dwell n_pumps ef ->
  d_traps serial = None -> columns_ok (selected (d_window serial) cols) cols ->
  add_cti im d serial None = Ok (im', the_roe d, the_roe serial) -> forall i j,
  ((i + 1 < p)%nat \/ (p + 1 < i)%nat -> pixel im' i j = pixel im i j) /\
  ((forall k, In k (trap_phases c) -> (2 * k < length dwell / 2)%nat) -> (i + 1 = p)%nat -> pixel im' i j = pixel im i j) /\
  ((forall k, In k (trap_phases c) -> (length dwell / 2 < 2 * k)%nat) -> (i = p + 1)%nat -> pixel im' i j = pixel im i j).
Proof. intros H1 H2 H3 H4 H5. exact (pumping_rows im d serial c traps dwell n_pumps ef rows cols p H1 H2 H3 H4 H5 im'). Qed.
Print Assumptions C72_pumping_changes_neighbours_only.

(** Three phases, all the traps in the last one. *)
Definition last_phase_ccd : ccd R := mkCCD [0; 0; 1] 3 [1; 1; 1] [1; 1; 1] [0; 0; 0] [BList [1; 1; 1]].
Lemma last_phase_plain : plain_ccd last_phase_ccd.
Proof.
  constructor; [reflexivity| |].
  - intros [|[|[|[|k]]]]; unfold share; cbn; lra.
  - intros [|[|[|k]]] Hk; try (exists 1, 1; split; [constructor; reflexivity|lra]). cbn in Hk. lia.
Qed.
Lemma last_phase_traps : trap_phases last_phase_ccd = [2%nat].
Proof. unfold trap_phases, share. cbn -[Rlt_dec]. destruct (Rlt_dec 0 0); [lra|]. destruct (Rlt_dec 0 1); [reflexivity|lra]. Qed.
Definition last_phase_direction : direction R :=
  mkDir (Some last_phase_ccd) (Some (pump_roe [ln 2; ln 2; ln 2; ln 2; ln 2; ln 2] 5 true DFloat)) (Some (TOne (small_trap (1/2)))) 2 0 (WInt 2).
Lemma last_phase_setting : pumping_setting last_phase_direction 4 2 last_phase_ccd (TOne (small_trap (1/2))) [ln 2; ln 2; ln 2; ln 2; ln 2; ln 2] 5 true.
Proof.
  constructor; try reflexivity; auto; try lia.
  - eexists. split; reflexivity.
  - exact last_phase_plain.
  - apply small_instant. lra.
Qed.
Definition four_pixels : image R := [[1]; [2]; [3]; [4]].
Lemma four_shape : shape 4 1 four_pixels.
Proof. split; [reflexivity|repeat constructor]. Qed.
Lemma four_nonneg i j : 0 <= pixel four_pixels i j.
Proof. unfold pixel, four_pixels. destruct i as [|[|[|[|[|i]]]]], j as [|[|j]]; cbn; rnum; lra. Qed.
Example C72_example : exists im', add_cti four_pixels last_phase_direction no_direction None = Ok (im', the_roe last_phase_direction, the_roe no_direction) /\
  pixel im' 0 0 = 1 /\ pixel im' 3 0 = 4.
Proof.
  destruct (C71_pumping_model four_pixels last_phase_direction no_direction _ _ _ _ _ 4 1 2 four_shape four_nonneg last_phase_setting eq_refl small_columns) as (im' & E & _).
  exists im'. split; [exact E|].
  pose proof (C72_pumping_changes_neighbours_only four_pixels last_phase_direction no_direction _ _ _ _ _ 4 1 2 im' four_shape four_nonneg last_phase_setting eq_refl small_columns E) as G.
  split.
  - apply (proj1 (G 0%nat 0%nat)). lia.
  - apply (proj2 (proj2 (G 3%nat 0%nat))); [|reflexivity]. intros k Hk. rewrite last_phase_traps in Hk. destruct Hk as [<-|[]]. cbn. lia.
Qed.

(** ** C73: charge during trap pumping.

    If every pump is computed, the electrons missing from a column are those in the traps
    at the end, and those moved beyond the last row of the image. *)
Theorem C73_pumping_charge_balance im d serial c traps dwell n_pumps ef rows cols p im' :
  shape rows cols im -> (forall i j, 0 <= pixel im i j) ->
  pumping_setting d rows p c traps dwell n_pumps ef ->
  d_traps serial = None -> columns_ok (selected (d_window serial) cols) cols ->
  add_cti im d serial None = Ok (im', the_roe d, the_roe serial) ->
  length (groups_in traps) = 1%nat -> every_pump d n_pumps -> forall j, In (Z.of_nat j) (selected (d_window serial) cols) ->
  let sites := site_of c (groups_in traps) in
  let held := trapped_electrons sites (trap_phases c)
                (still_trapped sites (trap_phases c) (timed_steps (the_roe d)) (Z.of_nat p) (repeat 1 n_pumps) (col_fun im j)) in
  let beyond := pumped sites (trap_phases c) (timed_steps (the_roe d)) (Z.of_nat p) (repeat 1 n_pumps) (col_fun im j) (Z.of_nat rows) in
  0 <= held /\ 0 <= beyond /\ ((p + 1 < rows)%nat -> beyond = 0) /\
  total rows (col_fun im' j) + held + beyond = total rows (col_fun im j).
Proof. intros H1 H2 H3 H4 H5. exact (pumping_account im d serial c traps dwell n_pumps ef rows cols p H1 H2 H3 H4 H5 im'). Qed.
Print Assumptions C73_pumping_charge_balance.
Theorem C73_pumping_creates_no_charge im d serial c traps dwell n_pumps ef rows cols p im' :
  shape rows cols im -> (forall i j, 0 <= pixel im i j) ->
  pumping_setting d rows p c traps dwell n_pumps ef ->
  d_traps serial = None -> columns_ok (selected (d_window serial) cols) cols ->
  add_cti im d serial None = Ok (im', the_roe d, the_roe serial) ->
  length (groups_in traps) = 1%nat -> every_pump d n_pumps -> charge im' <= charge im.
Proof. intros H1 H2 H3 H4 H5. exact (pumping_charge im d serial c traps dwell n_pumps ef rows cols p H1 H2 H3 H4 H5 im'). Qed.
Print Assumptions C73_pumping_creates_no_charge.

(** With express, one pump computed for all of them creates as much charge as there are pumps. *)
Lemma above_any x : exists M, x < INR M.
Proof.
  exists (Z.to_nat (up x)). destruct (archimed x) as [H _]. rewrite INR_IZR_INZ. eapply Rlt_le_trans; [exact H|]. apply IZR_le. lia.
Qed.
Theorem C73_express_pumping_creates_charge_refuted bound : exists M im', 
  let d := pump_direction M 1 false in
  pumping_setting d 2 0 small_ccd (TOne (small_trap (1/2))) [ln 2; ln 2] M false /\
  add_cti small_image d no_direction None = Ok (im', the_roe d, the_roe no_direction) /\
  charge small_image = 1 /\ bound < charge im'.
Proof.
  destruct (above_any (16 / 3 * bound)) as [M HM]. set (M' := (M + 6)%nat). destruct (pump_many M' ltac:(unfold M'; lia)) as (im' & E & H1 & H2).
  exists M', im'. split; [apply pump_small; unfold M'; lia|]. split; [exact E|]. split; [exact H1|]. rewrite H2.
  assert (INR M <= INR M') by (apply le_INR; unfold M'; lia). lra.
Qed.
Print Assumptions C73_express_pumping_creates_charge_refuted.

Example C73_example : let d := pump_direction 3 0 true in
  exists im', add_cti small_image d no_direction None = Ok (im', the_roe d, the_roe no_direction) /\ charge im' <= 1.
Proof.
  intros d. assert (Hset := pump_small 3 0 true ltac:(lia)).
  destruct (C71_pumping_model small_image d no_direction _ _ _ _ _ 2 1 0 small_shape small_nonneg Hset eq_refl small_columns) as (im' & E & _).
  exists im'. split; [exact E|].
  pose proof (C73_pumping_creates_no_charge small_image d no_direction _ _ _ _ _ 2 1 0 im' small_shape small_nonneg Hset eq_refl small_columns E eq_refl (or_introl eq_refl)) as G.
  replace (charge small_image) with 1 in G by (unfold charge, small_image, Rsum; cbn; lra). exact G.
Qed.
