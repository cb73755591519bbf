(** * Properties C79-C80: units of charge and of time, and the surface flag. *)
From Coq Require Import ZArith List Bool Reals Lra Lia.
From Verif Require Import Num Py RFacts CCDModel TrapsModel ManagerModel ROEModel ClockModel MainModel Spec SpecROE SpecImage SpecReadout SpecColumn SpecCalls SpecUnits
  ReadoutExamples UnitFacts UnitClockFacts.
Import ListNotations.
Open Scope R_scope.

(** ** C79: units. *)
(** Counting charge in another unit (image, densities, full well depth, notch, blooming
    level) and time in another unit (dwell times, timescales) gives the same image in the
    other unit, or the same exception: for any images, traps, ROE, express, windows and
    offsets.  (A manager that records times is covered for the unit of charge.) *)
Theorem C79_units_do_not_matter q s f g im parallel serial tw : 0 < q -> 0 < s ->
  s = 1 \/ (~ records_times parallel /\ ~ records_times serial) ->
  add_cti (image_units q im) (direction_units q s f parallel) (direction_units q s g serial) tw = output_units q s (add_cti im parallel serial tw).
Proof. exact (add_cti_units q s f g im parallel serial tw). Qed.
Print Assumptions C79_units_do_not_matter.
Theorem C79_units_of_a_correction_do_not_matter q s f g im iterations parallel serial tw : 0 < q -> 0 < s ->
  s = 1 \/ (~ records_times parallel /\ ~ records_times serial) ->
  remove_cti (image_units q im) iterations (direction_units q s f parallel) (direction_units q s g serial) tw =
  (do im' <- remove_cti im iterations parallel serial tw; Ok (image_units q im')).
Proof. intros Hq Hs HK. rewrite remove_cti_units by assumption. destruct (remove_cti im iterations parallel serial tw); reflexivity. Qed.
Print Assumptions C79_units_of_a_correction_do_not_matter.
(** Electrons and minutes, instead of thousands of electrons and hours. *)
Example C79_example :
  let d := mkDir (Some (mkCCD [1] 1 [1000] [1] [0] [BList [1000]])) (Some (roe_init [60 * ln 2] true true true DFloat))
                 (Some (TOne (mkTrap 500 60 RInf (1 / 60) false CInstant))) 0 0 WNone in
  exists pr sr, add_cti [[1000]; [0]] d no_direction None = Ok ([[500]; [375 / 4]], pr, sr).
Proof.
  intros d. pose proof small_readout as S. cbv zeta in S.
  assert (Ed : d = direction_units 1000 60 (fun b => b) (small_direction small_roe (TOne (small_trap (1/2))))).
  { unfold d, direction_units, small_direction, small_ccd, ccd_units, small_roe, small_trap, trap_units. cbn. repeat (f_equal; try lra). }
  assert (E : add_cti (image_units 1000 small_image) d (direction_units 1000 60 (fun b => b) no_direction) None =
    output_units 1000 60 (Ok ([[1/2]; [3/32]], the_roe (small_direction small_roe (TOne (small_trap (1/2)))), the_roe no_direction))).
  { rewrite Ed, C79_units_do_not_matter, S by (try lra; right; split; intros []). reflexivity. }
  replace (image_units 1000 small_image) with [[1000]; [0]] in E by (unfold image_units, small_image; cbn; repeat (f_equal; try lra)).
  unfold add_cti in E |- *. cbn [direction_units no_direction d_window d_offset d_traps option_map] in E |- *.
  match type of E with bind ?a _ = _ => destruct a as [[t sc]|]; [|discriminate E] end. cbn [bind] in E |- *.
  match type of E with bind ?a _ = _ => destruct a as [[im1 r1]|]; [|discriminate E] end. cbn [bind output_units] in E |- *. injection E as -> _.
  do 2 eexists. f_equal. f_equal. f_equal. unfold image_units. cbn. repeat (f_equal; try lra).
Qed.

(** ** C80: surface traps (traps.py:29-31, ccd.py:75 "similarly to a notch, but for surface traps"). *)
(** Neither the flag [surface] of a trap nor the blooming level of the CCD has any effect:
    two calls that differ only in them return the same. *)
Theorem C80_surface_flag_has_no_effect im parallel serial parallel' serial' tw :
  direction_flags (fun _ => false) parallel = direction_flags (fun _ => false) parallel' ->
  direction_flags (fun _ => false) serial = direction_flags (fun _ => false) serial' ->
  add_cti im parallel serial tw = add_cti im parallel' serial' tw.
Proof.
  intros Hp Hs. rewrite <- (flags_free (fun _ => false) (fun _ => false) im parallel serial), <- (flags_free (fun _ => false) (fun _ => false) im parallel' serial'), Hp, Hs. reflexivity.
Qed.
Print Assumptions C80_surface_flag_has_no_effect.
Theorem C80_blooming_level_has_no_effect im parallel serial level level' tw :
  add_cti im (with_blooming_level level parallel) (with_blooming_level level' serial) tw = add_cti im parallel serial tw.
Proof. exact (bloom_free im parallel serial level level' tw). Qed.
Print Assumptions C80_blooming_level_has_no_effect.
(** So a surface trap captures charge that does not reach the blooming level. *)
Theorem C80_surface_traps_need_blooming_refuted : exists d level im im' pr sr,
  d_ccd d = Some (mkCCD [1] 1 [1] [1] [0] [BNum level]) /\ d_traps d = Some (TOne (mkTrap (1/2) 1 RInf (1 / 1) true CInstant)) /\
  shape 2 1 im /\ (forall i, pixel im i 0 < level) /\
  add_cti im d no_direction None = Ok (im', pr, sr) /\ pixel im' 0 0 < pixel im 0 0.
Proof.
  set (d := with_blooming_level [BNum 2] (direction_flags (fun _ => true) (small_direction small_roe (TOne (small_trap (1/2)))))).
  exists d, 2, small_image, [[1/2]; [3/32]], (the_roe d), (the_roe no_direction). repeat split; try exact small_shape.
  - repeat constructor.
  - intros [|[|[|i]]]; unfold pixel; cbn; rnum; lra.
  - pose proof small_readout as S. cbv zeta in S. refine (eq_trans _ S). change (no_direction : direction R) with (with_blooming_level [] no_direction) at 1.
    unfold d. rewrite C80_blooming_level_has_no_effect. apply C80_surface_flag_has_no_effect; reflexivity.
  - unfold pixel. cbn. rnum. lra.
Qed.
Print Assumptions C80_surface_traps_need_blooming_refuted.
