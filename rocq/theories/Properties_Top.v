(** * C133: no pixel becomes brighter than the brightest one. *)
From Coq Require Import ZArith List Bool Reals Lra Lia Sorted.
From Verif Require Import Num Py RFacts CCDModel TrapsModel ManagerModel ROEModel ClockModel MainModel ContinuumModel Spec SpecROE SpecImage SpecReadout SpecColumn SpecTime SpecSlow SpecHistory SpecHold SpecFlatten SpecBound SpecPhases SpecWork SpecWindowOrder SpecContinuum SpecInjected SpecMeet SpecTop
  ROEExpressFacts ReadoutExamples SlowExamples MemoryExample ExpressGridFacts WindowGridFacts ReadoutImage MainReadoutFacts MeetGridFacts InjectedExample TopGridFacts TopExample Properties_Phases Properties_WindowOrder Properties_TimesOrder Properties_Mild Properties_Meet.
Import ListNotations.
Open Scope R_scope.

(** ** C133: clocking in a single step only redistributes charge: whatever image with pixels between 0 and [top] is read out or
    injected, past traps of several kinds that are few enough, or any number of instant traps in one group, all pixels of the
    output are between 0 and [top] again. *)
Theorem C133_no_pixel_becomes_brighter_than_the_brightest im parallel serial time rows cols top : (0 < rows)%nat -> (0 < cols)%nat ->
  time_range time -> single_call parallel rows -> single_call serial cols -> shape rows cols im -> (forall i j, 0 <= pixel im i j <= top) ->
  exists im' pr sr, add_cti im parallel serial time = Ok (im', pr, sr) /\ shape rows cols im' /\ forall i j, 0 <= pixel im' i j <= top.
Proof. exact (single_dimmer im parallel serial time rows cols top). Qed.
Print Assumptions C133_no_pixel_becomes_brighter_than_the_brightest.

(** Not so for any number of instant traps in two groups, which are offered the same electrons, ... *)
Theorem C133_dense_groups_refuted :
  ~ (forall (im im' : image R) d c traps dwell npt rows cols top pr sr, (0 < rows)%nat -> (0 < cols)%nat ->
       kinds_injection d rows c traps [dwell] npt -> d_window d = WNone -> d_express d = 0%nat -> instant_traps traps ->
       shape rows cols im -> (forall i j, 0 <= pixel im i j <= top) ->
       add_cti im d no_direction None = Ok (im', pr, sr) -> forall i j, pixel im' i j <= top).
Proof.
  intros H. assert (K : kinds_injection (injection_direction deep_ccd (ln 4) (Some 1%nat) two_groups) 2 deep_ccd two_groups [ln 4] (Some 1%nat)).
  { split; try reflexivity; [exact deep_plain| |cbn; lia]. destruct two_groups_instant as [N F]. split; [exact N|]. revert F. apply Forall_impl. intros g [G1 G2]. split; [exact G1|now left]. }
  pose proof (H small_image _ _ _ _ _ _ 2%nat 1%nat 1 _ _ ltac:(lia) ltac:(lia) K eq_refl eq_refl two_groups_instant small_shape trail_range two_groups_create 1%nat 0%nat) as E.
  unfold pixel in E. cbn in E. lra.
Qed.
Print Assumptions C133_dense_groups_refuted.
(** ... nor for any number of slow traps in one group, ... *)
Lemma wide_plain : plain_ccd wide_ccd.
Proof.
  constructor; [reflexivity| |].
  - intros [|[|k]]; unfold share; cbn; lra.
  - intros [|k] Hk; [|cbn in Hk; lia]. exists 1000, 1. split; [constructor; reflexivity|lra].
Qed.
Theorem C133_dense_slow_traps_refuted :
  ~ (forall (im im' : image R) d c traps group dwell npt rows cols top pr sr, (0 < rows)%nat -> (0 < cols)%nat ->
       kinds_injection d rows c traps [dwell] npt -> d_window d = WNone -> d_express d = 0%nat -> groups_in traps = [group] -> kind_for group = KSlow ->
       shape rows cols im -> (forall i j, 0 <= pixel im i j <= top) ->
       add_cti im d no_direction None = Ok (im', pr, sr) -> forall i j, pixel im' i j <= top).
Proof.
  intros H. assert (K : kinds_injection dense_injected 5 wide_ccd (TOne (slow_trap 6000)) [ln 4] (Some 1%nat)).
  { split; try reflexivity; [exact wide_plain| |cbn; lia]. split; [discriminate|]. constructor; [|constructor]. split; [discriminate|right; left]. constructor; [|constructor].
    pose proof (slow_trap_capturing 6000 ltac:(lra)) as F. inversion F; subst. split; [assumption|reflexivity]. }
  destruct dense_readout as (im' & A & S & C).
  assert (B : forall i j, 0 <= pixel flash i j <= 500).
  { intros i j. unfold pixel, flash. cbn [map]. destruct i as [|[|[|[|[|i]]]]]; destruct j as [|[|j]]; cbn; try lra; destruct i; cbn; try lra; destruct j; cbn; lra. }
  pose proof (H flash im' dense_injected _ _ [slow_trap 6000] _ _ 5%nat 1%nat 500 _ _ ltac:(lia) ltac:(lia) K eq_refl eq_refl eq_refl eq_refl flash_shape B A 4%nat 0%nat) as E.
  assert (P : pixel im' 4 0 = 1261125 / 1024).
  { change (pixel im' 4 0) with (nth 0 (nth 4 im' []) 0). rewrite <- (map_nth (fun row : list R => nth 0 row 0) im' [] 4). change (nth 4 (column_of im' 0) 0 = 1261125 / 1024). rewrite C. reflexivity. }
  lra.
Qed.
Print Assumptions C133_dense_slow_traps_refuted.
(** ... nor for one group of instant traps with an express that lets one computed transfer stand for several. *)
Theorem C133_express_refuted :
  ~ (forall (im im' : image R) d c traps dwell npt rows cols top pr sr, (0 < rows)%nat -> (0 < cols)%nat ->
       kinds_injection d rows c traps [dwell] npt -> d_window d = WNone -> one_instant_group traps ->
       shape rows cols im -> (forall i j, 0 <= pixel im i j <= top) ->
       add_cti im d no_direction None = Ok (im', pr, sr) -> forall i j, pixel im' i j <= top).
Proof.
  intros H. pose proof (small_group (1 / 2) ltac:(lra)) as G.
  assert (K : kinds_injection trail_direction 2 small_ccd (TOne (small_trap (1 / 2))) [ln 2] None).
  { split; try reflexivity; [exact small_plain| |cbn; lia]. split; [discriminate|]. constructor; [|constructor]. destruct G as [G1 G2]. split; [exact G1|now left]. }
  assert (O : one_instant_group (TOne (small_trap (1 / 2)))) by (exists [small_trap (1 / 2)]; split; [reflexivity|exact G]).
  destruct trail_readout as (im' & A & P).
  pose proof (H small_image im' trail_direction _ _ _ _ 2%nat 1%nat 1 _ _ ltac:(lia) ltac:(lia) K eq_refl O small_shape trail_range A 1%nat 0%nat) as E. lra.
Qed.
Print Assumptions C133_express_refuted.

(** Rows read out in two passes past traps of three kinds, columns past five times more instant traps than a pixel holds electrons. *)
Definition broad_rows (t : trap R) : direction R := mkDir (Some wide_ccd) (Some (roe_init [1 / 2] true true true DFloat)) (Some (mixed t)) 2 0 WNone.
Definition dense_columns : direction R := mkDir (Some small_ccd) (Some (roe_init [ln 2] true true true DFloat)) (Some (TOne (small_trap 5))) 0 1 (WRange [0; 2]%Z).
Example C133_example : exists t, log_normal_trap (fun _ x => x) (1 / 8) 3 (1 / 2) = Ok t /\ time_range (Some (py_range 1 3)) /\
  map kind_for (groups_in (mixed t)) = [KInstant; KSlow; KTime] /\
  single_call (broad_rows t) 4 /\ single_call dense_columns 3 /\ shape 4 3 spots /\ (forall i j, 0 <= pixel spots i j <= 120).
Proof.
  destruct C129_example as (t & E & T & _ & _ & S1 & _ & P1 & _). exists t. split; [exact E|]. split; [exact T|]. destruct (timed_trap t E) as (T1 & _ & _). split; [cbn [groups_in mixed map]; rewrite T1; reflexivity|].
  destruct (mixed_traps t E) as (M1 & M2 & M3).
  split; [|split; [|split; [exact S1|]]].
  - left. exists 4%nat. rewrite (selected_all (broad_rows t) 4 eq_refl). split; [apply ExpressGridFacts.range_sorted|]. split; [apply window_ok_range; lia|]. split; [lia|]. right.
    exists wide_ccd, (mixed t), (1 / 2), DFloat. split.
    + split; try reflexivity; [left; reflexivity|exact wide_plain|now apply mixed_kinds|right; cbn; lia].
    + left. intros k x Hk Hx. cbn in Hk. assert (k = 0%nat) by lia. subst k. cbn in Hx. assert (x = 2) by lra. clear Hx. subst x. exists 1000, 1. split; [repeat split|]. split; [lra|].
      assert (S : share wide_ccd 0 = 1) by reflexivity. cbn [groups_in mixed]. rewrite S. split; [repeat (constructor; [rewrite ?M1, ?M2, ?M3; lra|]); constructor|].
      cbn [map]; rewrite M1, M2, M3, T1; unfold Rsum; cbn [fold_right kind_for grip]; cbn; lra.
  - left. exists 3%nat. change (selected (d_window dense_columns) 3) with [0; 2]%Z. split; [repeat constructor; lia|]. split; [split; [repeat constructor; lia|cbn; auto]|]. split; [lia|]. right.
    exists small_ccd, (TOne (small_trap 5)), (ln 2), DFloat. pose proof (small_group 5 ltac:(lra)) as G. split.
    + split; try reflexivity; [left; reflexivity|exact small_plain| |left; reflexivity]. split; [discriminate|]. constructor; [|constructor]. destruct G as [G1 G2]. split; [exact G1|now left].
    + right. split; [exists [small_trap 5]; split; [reflexivity|exact G]|left; reflexivity].
  - intros i j. split; [apply P1|]. unfold pixel, spots. destruct i as [|[|[|[|i]]]]; destruct j as [|[|[|j]]]; cbn; try lra; repeat match goal with |- context [match ?k with O => _ | S _ => _ end] => destruct k; cbn; try lra end.
Qed.
