(** * add_cti with any express value and any time window, in terms of the readout model. *)
From Coq Require Import ZArith List Bool Reals Lra Lia FinFun.
From Coquelicot Require Import Rcomplements Rbar Hierarchy RInt.
From Verif Require Import Num Py RFacts CCDModel TrapsModel ManagerModel ROEModel ClockModel MainModel Spec SpecROE SpecImage SpecReadout SpecColumn SpecExpress
  WmFacts ArrayFacts CutFacts InstantFacts ClockFacts MainFacts ShapeFacts ColumnFacts
  ROEClockFacts ROEMatrixFacts ROEExpressFacts ROEKindFacts ReadoutFacts ReadoutImage ReadoutForced ReadoutFull ReadoutSpecFacts ReadoutColumnFacts MainReadoutFacts.
Import ListNotations.
Open Scope R_scope.

(** The time window that add_cti uses. *)
Definition used_window (tw : option (Z * Z)) (rows offset : nat) : Z * Z :=
  match tw with Some w => w | None => (0, Z.of_nat (rows + offset))%Z end.

Lemma add_cti_parallel_windowed (im : image R) parallel serial traps tw rows : d_traps parallel = Some traps -> d_traps serial = None ->
  d_window parallel = WNone -> length im = rows -> (0 < rows)%nat -> tw_ok tw ->
  add_cti im parallel serial (tw_arg tw) =
  do '(im1, pr) <- clock_direction im parallel (the_roe parallel) traps (py_range 0 (Z.of_nat rows))
                     (resolve_window (d_window serial) (n_columns im)) (tw_arg (Some (used_window tw rows (d_offset parallel))));
  Ok (im1, pr, the_roe serial).
Proof.
  intros Ht Hser Hw Hl Hr Hok. unfold add_cti. rewrite Ht, Hser, Hw, Hl. cbn [resolve_window].
  destruct tw as [[a b]|]; cbn [tw_arg option_map resolve_time_window used_window].
  - cbn [tw_ok] in Hok. rewrite (py_range_first 0), (py_range_first a), (py_range_last 0), (py_range_last a) by lia. cbn [bind].
    match goal with |- context [clock_direction ?u1 ?u2 ?u3 ?u4 ?u5 ?u6 ?u7] => destruct (clock_direction u1 u2 u3 u4 u5 u6 u7) as [[im1 pr]|e]; reflexivity end.
  - cbn [bind]. match goal with |- context [clock_direction ?u1 ?u2 ?u3 ?u4 ?u5 ?u6 ?u7] => destruct (clock_direction u1 u2 u3 u4 u5 u6 u7) as [[im1 pr]|e]; reflexivity end.
Qed.

Section Parallel.
Context (im : image R) (parallel serial : direction R) (c : ccd R) (traps : traps_arg R) (dwell : list R) (dt : dtype) (rows cols : nat)
  (tw : option (Z * Z)).
Hypothesis Hs : shape rows cols im.
Hypothesis Hr : (0 < rows)%nat.
Hypothesis Hp : forall i j, 0 <= pixel im i j.
Hypothesis Hps : plain_setting parallel rows c traps dwell dt.
Hypothesis Hw : d_window parallel = WNone.
Hypothesis Hser : d_traps serial = None.
Hypothesis Hcols : columns_ok (selected (d_window serial) cols) cols.
Hypothesis Htw : tw_ok tw.
Let uw := used_window tw rows (d_offset parallel).

Lemma used_ok : tw_ok (Some uw).
Proof. unfold uw. destruct tw as [[a b]|]; cbn in *; lia. Qed.

Lemma windowed_readout : exists im' em mon,
  standard_express true dt (py_range 0 (Z.of_nat rows)) (d_express parallel) (d_offset parallel) (tw_arg (Some uw)) = Ok (em, mon) /\
  add_cti im parallel serial (tw_arg tw) = Ok (im', the_roe parallel, the_roe serial) /\
  shape rows cols im' /\ (forall i j, 0 <= pixel im' i j) /\
  (forall i j, ~ In (Z.of_nat j) (selected (d_window serial) cols) -> pixel im' i j = pixel im i j) /\
  forall i j, (i < rows)%nat -> In (Z.of_nat j) (selected (d_window serial) cols) ->
    pixel im' i j = readout (site_of c (groups_in traps)) (trap_phases c) (timed_steps (the_roe parallel))
                      (map (fun '(e, m) => cells_of (py_range 0 (Z.of_nat rows)) e m (map (fun _ => false) e)) (combine em mon))
                      (col_fun im j) (Z.of_nat i).
Proof.
  destruct Hcols as [Hnd Hrange].
  rewrite (add_cti_parallel_windowed im parallel serial traps tw rows (ps_traps _ _ _ _ _ _ Hps) Hser Hw (proj1 Hs) Hr Htw).
  rewrite (shape_columns rows cols im Hs Hr), resolve_selected. fold uw.
  destruct (plain_clocking im parallel rows c traps dwell dt (selected (d_window serial) cols) (Some uw) rows cols Hps eq_refl Hs Hr Hp Hrange Hnd used_ok)
    as (im' & em & mon & E1 & E2 & G1 & G2 & G3 & G4).
  rewrite (plain_roe _ _ _ _ _ _ Hps), E2. cbn [bind]. exists im', em, mon. auto 10.
Qed.
End Parallel.

(** ** Without time window: the multipliers add up to the number of transfers. *)
Lemma cells_weighted rows : forall (e : list R) (m : list bool) s, length e = rows -> length m = rows ->
  (forall k, (k < rows)%nat -> nth k m false = true <-> 0 < nth k e 0) ->
  cells_of (map Z.of_nat (seq s rows)) e m (map (fun _ => false) e)
  = flat_map (fun '(w, x) => if Rlt_dec 0 x then [(Z.of_nat w, x, false)] else []) (combine (seq s rows) e).
Proof.
  unfold cells_of. induction rows as [|rows IH]; intros [|x e] [|b m] s He Hm H; try discriminate; [reflexivity|].
  cbn [seq map combine flat_map length] in *. rewrite (IH e m (S s)); [|lia|lia|intros k Hk; exact (H (S k) ltac:(lia))].
  specialize (H 0%nat ltac:(lia)). cbn in H. destruct b, (Rlt_dec 0 x); try reflexivity; exfalso; [tauto|].
  assert (false = true) by tauto. discriminate.
Qed.
Lemma passes_weighted rows E : forall (em : matrix R) (mon : bmatrix), rect E rows em -> rect E rows mon ->
  (forall i k, (i < E)%nat -> (k < rows)%nat -> bentry mon i k = true <-> 0 < entry em i k) ->
  map (fun '(e, m) => cells_of (py_range 0 (Z.of_nat rows)) e m (map (fun _ => false) e)) (combine em mon) = weighted_passes em.
Proof.
  rewrite py_range_0. induction E as [|E IH]; intros em mon [L1 F1] [L2 F2] H.
  - destruct em; [|discriminate]. reflexivity.
  - destruct em as [|e em]; [discriminate|]. destruct mon as [|m mon]; [discriminate|].
    inversion F1 as [|? ? Le F1']; subst. inversion F2 as [|? ? Lm F2']; subst. unfold weighted_passes.
    cbn [combine map]. f_equal.
    + unfold weighted_pass. apply cells_weighted; [reflexivity|exact Lm|]. intros k Hk. exact (H 0%nat k ltac:(lia) Hk).
    + apply IH; [split; [now injection L1|exact F1']|split; [now injection L2|exact F2']|].
      intros i k Hi Hk. exact (H (S i) k ltac:(lia) Hk).
Qed.

Lemma express_readout im parallel serial c traps dwell dt rows cols :
  shape rows cols im -> (0 < rows)%nat -> (forall i j, 0 <= pixel im i j) ->
  plain_setting parallel rows c traps dwell dt -> d_window parallel = WNone ->
  d_traps serial = None -> columns_ok (selected (d_window serial) cols) cols ->
  exists im' m mon E, standard_express true dt (py_range 0 (Z.of_nat rows)) (d_express parallel) (d_offset parallel) None = Ok (m, mon) /\
  rect E rows m /\
  (forall e w, (e < E)%nat -> (w < rows)%nat -> 0 <= entry m e w) /\ (forall w, (w < rows)%nat -> transfers m w = INR (w + 1 + d_offset parallel)) /\
  add_cti im parallel serial None = Ok (im', the_roe parallel, the_roe serial) /\
  shape rows cols im' /\
  forall i j, (i < rows)%nat -> In (Z.of_nat j) (selected (d_window serial) cols) ->
    pixel im' i j = readout (site_of c (groups_in traps)) (trap_phases c) (timed_steps (the_roe parallel))
                      (weighted_passes m) (col_fun im j) (Z.of_nat i).
Proof.
  intros Hs Hr Hp Hps Hw Hser Hcols.
  destruct (windowed_readout im parallel serial c traps dwell dt rows cols None Hs Hr Hp Hps Hw Hser Hcols I) as (im' & em & mon & E1 & E2 & G1 & _ & _ & G4).
  cbn [used_window] in E1. change (tw_arg (Some (0, Z.of_nat (rows + d_offset parallel))%Z)) with (whole rows (d_offset parallel)) in E1.
  rewrite whole_none in E1 by exact Hr.
  pose proof (window_ok_range rows Hr) as Hwin.
  destruct (column_transfers _ _ _ _ _ _ Hwin _ _ E1) as (E & R1 & R2 & HE & Hk).
  rewrite py_range_length, Z.sub_0_r, Nat2Z.id in R1, R2.
  assert (Hk' : forall w, (w < rows)%nat -> transfers em w = INR (w + 1 + d_offset parallel) /\
    forall i, (i < E)%nat -> 0 <= entry em i w /\ (bentry mon i w = true <-> 0 < entry em i w)).
  { intros w Hlt. destruct (Hk w (Z.of_nat w)) as [T1 T2]; [rewrite py_range_nth_error by lia; f_equal; lia|].
    split; [|exact T2]. rewrite T1, !plus_INR, <- INR_IZR_INZ. reflexivity. }
  exists im', em, mon, E. split; [exact E1|]. split; [exact R1|].
  split; [intros e w He Hlt; apply (proj1 (proj2 (Hk' w Hlt) e He))|].
  split; [intros w Hlt; apply Hk', Hlt|].
  split; [exact E2|]. split; [exact G1|].
  intros i j Hi Hj. rewrite (G4 i j Hi Hj). f_equal. apply (passes_weighted rows E em mon R1 R2). intros e w He Hlt. apply Hk'; assumption.
Qed.

(** From as many passes as rows on, the transfers are spread evenly. *)
Lemma even_matrix rows express offset : (0 < rows)%nat -> express = 0%nat \/ (rows <= express)%nat ->
  exists mon, standard_express true DFloat (py_range 0 (Z.of_nat rows)) express offset None
              = Ok (even_multipliers rows offset (passes_for (rows + offset) express), mon).
Proof.
  intros Hr He. pose proof (window_ok_range rows Hr) as Hwin.
  assert (Hbad : ~ bad_express true rows express) by (unfold bad_express; lia).
  destruct (standard_full_cases true DFloat rows express offset Hr) as [(_ & A & B & _)|[(A & _)|(_ & Hf)]]; [lia|contradiction|].
  cbn zeta in Hf. set (E := express_used (rows + offset) express) in *.
  assert (HE : (0 < E <= rows + offset)%nat) by (apply express_used_pos; lia).
  assert (HM : 0 <= @max_multiplier R _ DFloat (rows + offset) E) by (apply mm_ge; lia).
  set (M := max_multiplier DFloat (rows + offset) E) in *.
  unfold standard_express. rewrite (window_n_pixels _ _ Hwin). cbn [bind]. rewrite Hf, plain_tab.
  assert (Hw : Forall (fun w => (0 <= w /\ w + Z.of_nat offset < Z.of_nat (rows + offset))%Z) (py_range 0 (Z.of_nat rows))).
  { apply Forall_forall. intros w Hi. apply py_range_in in Hi. lia. }
  rewrite (select_ok false offset _ E (rows + offset) _ (positive_mask_rect _ _ _ (tab_rect E (rows + offset) (plain_entry M))) Hw).
  cbn [bind restrict_time_span]. rewrite (select_ok 0 offset _ E (rows + offset) _ (tab_rect E (rows + offset) (plain_entry M)) Hw). cbn [bind].
  eexists. f_equal. f_equal. unfold even_multipliers, tab. rewrite map_map. change (passes_for (rows + offset) express) with E.
  apply map_ext_in. intros e He'. unfold pick. rewrite py_range_0, map_map. apply map_ext_in. intros w Hw'. apply in_seq in Hw'.
  rewrite Nat2Z.id, nth_map_seq by lia. rewrite plain_entry_eq by exact HM.
  replace (S (offset + w)) with (w + 1 + offset)%nat by lia.
  assert (HMe : M = INR (rows + offset) / INR E) by (unfold M, max_multiplier; rewrite !nofN_INR; reflexivity).
  rewrite <- HMe. reflexivity.
Qed.

Lemma even_readout im parallel serial c traps dwell rows cols :
  shape rows cols im -> (0 < rows)%nat -> (forall i j, 0 <= pixel im i j) ->
  plain_setting parallel rows c traps dwell DFloat -> d_window parallel = WNone ->
  d_traps serial = None -> columns_ok (selected (d_window serial) cols) cols ->
  d_express parallel = 0%nat \/ (rows <= d_express parallel)%nat ->
  exists im', add_cti im parallel serial None = Ok (im', the_roe parallel, the_roe serial) /\
  shape rows cols im' /\
  forall i j, (i < rows)%nat -> In (Z.of_nat j) (selected (d_window serial) cols) ->
    pixel im' i j = readout (site_of c (groups_in traps)) (trap_phases c) (timed_steps (the_roe parallel))
                      (weighted_passes (even_multipliers rows (d_offset parallel) (passes_for (rows + d_offset parallel) (d_express parallel))))
                      (col_fun im j) (Z.of_nat i).
Proof.
  intros Hs Hr Hp Hps Hw Hser Hcols He.
  destruct (express_readout im parallel serial c traps dwell DFloat rows cols Hs Hr Hp Hps Hw Hser Hcols) as (im' & m & mon & E & E1 & _ & _ & _ & E2 & E3 & E4).
  destruct (even_matrix rows (d_express parallel) (d_offset parallel) Hr He) as [mon' E5]. rewrite E5 in E1. injection E1 as <- _.
  exists im'. auto.
Qed.
