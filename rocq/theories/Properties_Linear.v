(** * C142: in wells that fill evenly, the output is proportional to the image. *)
From Coq Require Import ZArith List Bool Reals Lra Lia Sorted.
From Verif Require Import Num Py RFacts CCDModel TrapsModel ManagerModel ROEModel ClockModel MainModel ContinuumModel Spec SpecROE SpecImage SpecReadout SpecColumn SpecTime SpecSlow SpecHistory SpecHold SpecFlatten SpecBound SpecPhases SpecWork SpecWindowOrder SpecContinuum SpecInjected SpecMeet SpecTop SpecLinear
  ROEExpressFacts ReadoutExamples SlowExamples MemoryExample ExpressGridFacts WindowGridFacts ReadoutImage MainReadoutFacts MeetGridFacts InjectedExample TopGridFacts ScaleGridFacts LinearExample Properties_Phases Properties_WindowOrder Properties_TimesOrder Properties_Mild Properties_Meet Properties_Top.
Import ListNotations.
Open Scope R_scope.

(** ** C142: with a fill power of 1, no notch and no full well, [x] times the image leads to [x] times the output, for any [x],
    any size of image, groups of any kinds of traps, express, offsets, windows and charge injection, clocked in a single step. *)
Theorem C142_brighter_or_fainter_images_lead_to_the_same_in_proportion im im2 parallel serial time rows cols top x : (0 < rows)%nat -> (0 < cols)%nat ->
  time_range time -> linear_call parallel rows top -> linear_call serial cols top ->
  shape rows cols im -> shape rows cols im2 -> (forall i j, 0 <= pixel im i j <= top) -> (forall i j, 0 <= pixel im2 i j <= top) -> 0 < x -> times_image x im im2 ->
  exists im' im2' pr sr, add_cti im parallel serial time = Ok (im', pr, sr) /\ add_cti im2 parallel serial time = Ok (im2', pr, sr) /\
    shape rows cols im' /\ shape rows cols im2' /\ times_image x im' im2'.
Proof. exact (linear_readout_any im im2 parallel serial time rows cols top x). Qed.
Print Assumptions C142_brighter_or_fainter_images_lead_to_the_same_in_proportion.
(** So do corrections, after any number of iterations, if the estimates for the brighter image are between 0 and [top]. *)
Theorem C142_corrections_of_fainter_images_are_in_proportion im im2 parallel serial time rows cols top x n : (0 < rows)%nat -> (0 < cols)%nat ->
  time_range time -> linear_call parallel rows top -> linear_call serial cols top ->
  shape rows cols im -> shape rows cols im2 -> 0 < x <= 1 -> times_image x im im2 ->
  (forall m est, (m < n)%nat -> remove_cti im m parallel serial time = Ok est -> forall i j, 0 <= pixel est i j <= top) ->
  exists est est2, remove_cti im n parallel serial time = Ok est /\ remove_cti im2 n parallel serial time = Ok est2 /\
    shape rows cols est /\ shape rows cols est2 /\ times_image x est est2.
Proof. intros Hr Hc Ht Hp Hs Si Si2 Hx Hi. exact (linear_correction im im2 parallel serial time rows cols top x Hr Hc Ht Hp Hs Si Si2 Hx Hi n). Qed.
Print Assumptions C142_corrections_of_fainter_images_are_in_proportion.

(** Not so for other fill powers, ... *)
Theorem C142_other_fill_powers_refuted :
  ~ (forall (im im2 im' im2' : image R) d c traps dwell npt rows cols top x pr sr pr2 sr2, (0 < rows)%nat -> (0 < cols)%nat ->
       kinds_injection d rows c traps [dwell] npt -> d_window d = WNone -> d_express d = 0%nat ->
       (forall k, (k < ccd_n_phases c)%nat -> mild_phase c (groups_in traps) 1 k) ->
       (forall k, (k < ccd_n_phases c)%nat -> exists full beta, phase_params c k 0 beta full /\ Forall (fun g => top + share c k * group_traps g <= full) (groups_in traps)) ->
       shape rows cols im -> shape rows cols im2 -> (forall i j, 0 <= pixel im i j <= top) -> 0 < x <= 1 -> times_image x im im2 ->
       add_cti im d no_direction None = Ok (im', pr, sr) -> add_cti im2 d no_direction None = Ok (im2', pr2, sr2) -> times_image x im' im2').
Proof.
  intros H. assert (D : forall m, 0 < m <= 1 -> depth 1 2 m = m * m).
  { intros m Hm. unfold depth. destruct (Rle_dec m 0); [lra|]. replace (m / 1) with m by field. rewrite Rmin_right by lra. replace 2 with (1 + 1) by ring. rewrite Rpower_plus, Rpower_1 by lra. reflexivity. }
  destruct (once_readout 2 (1 / 2) ltac:(lra) ltac:(lra) ltac:(rewrite D; lra)) as (im' & E1 & P1). destruct (once_readout 2 (1 / 4) ltac:(lra) ltac:(lra) ltac:(rewrite D; lra)) as (im2' & E2 & P2).
  assert (K : times_image (1 / 2) im' im2').
  { refine (H (dot (1 / 2)) (dot (1 / 4)) im' im2' (once 2) (curve_ccd 2) few_traps 1 (Some 1%nat) 1%nat 1%nat (1 / 2) (1 / 2) _ _ _ _ ltac:(lia) ltac:(lia) (once_setting 2 ltac:(lra)) eq_refl eq_refl _ _ (dot_shape _) (dot_shape _) _ ltac:(lra) _ E1 E2).
    - intros k Hk. apply once_mild; [lra|exact Hk].
    - intros [|k] Hk; [|cbn in Hk; lia]. exists 1, 2. split; [constructor; reflexivity|]. constructor; [|constructor]. unfold share, group_traps, full_traps. cbn. lra.
    - intros i j. rewrite dot_pixel. destruct i, j; lra.
    - intros i j. rewrite !dot_pixel. destruct i, j; lra. }
  specialize (K 0%nat 0%nat). rewrite P1, P2, !D in K by lra. lra.
Qed.
Print Assumptions C142_other_fill_powers_refuted.
(** ... nor when pixels fill the well. *)
Theorem C142_full_wells_refuted :
  ~ (forall (im im2 im' im2' : image R) d c traps dwell npt rows cols x pr sr pr2 sr2, (0 < rows)%nat -> (0 < cols)%nat ->
       kinds_injection d rows c traps [dwell] npt -> d_window d = WNone -> d_express d = 0%nat ->
       (forall k, (k < ccd_n_phases c)%nat -> mild_phase c (groups_in traps) 1 k) ->
       (forall k, (k < ccd_n_phases c)%nat -> exists full, phase_params c k 0 1 full) ->
       shape rows cols im -> shape rows cols im2 -> (forall i j, 0 <= pixel im i j) -> 0 < x <= 1 -> times_image x im im2 ->
       add_cti im d no_direction None = Ok (im', pr, sr) -> add_cti im2 d no_direction None = Ok (im2', pr2, sr2) -> times_image x im' im2').
Proof.
  intros H. assert (D : forall m, 1 <= m -> depth 1 1 m = 1).
  { intros m Hm. unfold depth. destruct (Rle_dec m 0); [lra|]. replace (m / 1) with m by field. rewrite Rmin_left by lra. rewrite Rpower_1 by lra. reflexivity. }
  destruct (once_readout 1 2 ltac:(lra) ltac:(lra) ltac:(rewrite D; lra)) as (im' & E1 & P1). destruct (once_readout 1 1 ltac:(lra) ltac:(lra) ltac:(rewrite D; lra)) as (im2' & E2 & P2).
  assert (K : times_image (1 / 2) im' im2').
  { refine (H (dot 2) (dot 1) im' im2' (once 1) (curve_ccd 1) few_traps 1 (Some 1%nat) 1%nat 1%nat (1 / 2) _ _ _ _ ltac:(lia) ltac:(lia) (once_setting 1 ltac:(lra)) eq_refl eq_refl _ _ (dot_shape _) (dot_shape _) _ ltac:(lra) _ E1 E2).
    - intros k Hk. apply once_mild; [lra|exact Hk].
    - intros [|k] Hk; [|cbn in Hk; lia]. exists 1. constructor; reflexivity.
    - intros i j. rewrite dot_pixel. destruct i, j; lra.
    - intros i j. rewrite !dot_pixel. destruct i, j; lra. }
  specialize (K 0%nat 0%nat). rewrite P1, P2, !D in K by lra. lra.
Qed.
Print Assumptions C142_full_wells_refuted.

(** Rows read out in two passes past traps of three kinds, columns within a window past slow traps. *)
Definition slow_window : direction R := mkDir (Some wide_ccd) (Some (roe_init [2] true true true DFloat)) (Some (TOne (slow_trap 10))) 0 1 (WRange [0; 2]%Z).
Definition faint_spots : image R := [[0; 7 / 2; 0]; [60; 0; 0]; [0; 0; 3 / 2]; [0; 25; 0]].
Lemma broad_linear t top : log_normal_trap (fun _ x => x) (1 / 8) 3 (1 / 2) = Ok t -> top <= 900 -> linear_call (broad_rows t) 4 top.
Proof.
  intros E Htop. destruct (timed_trap t E) as (T1 & _ & _). destruct (mixed_traps t E) as (M1 & M2 & M3).
  left. exists 4%nat. rewrite (selected_all (broad_rows t) 4 eq_refl). split; [apply ExpressGridFacts.range_sorted|]. split; [apply window_ok_range; lia|]. split; [lia|]. right.
  exists wide_ccd, (mixed t), (1 / 2), DFloat. assert (S : share wide_ccd 0 = 1) by reflexivity. split; [|split].
  - split; try reflexivity; [left; reflexivity|exact wide_plain|now apply mixed_kinds|right; cbn; lia].
  - intros k Hk. cbn in Hk. assert (k = 0%nat) by lia. subst k. exists 1000. split; [repeat split|]. cbn [groups_in mixed]. rewrite S. repeat (constructor; [rewrite ?M1, ?M2, ?M3; lra|]). constructor.
  - intros k x Hk Hx. cbn in Hk. assert (k = 0%nat) by lia. subst k. cbn in Hx. assert (x = 2) by lra. clear Hx. subst x. exists 1000, 1. split; [repeat split|]. split; [lra|].
    cbn [groups_in mixed]. rewrite S. split; [repeat (constructor; [rewrite ?M1, ?M2, ?M3; lra|]); constructor|].
    cbn [map]; rewrite M1, M2, M3, T1; unfold Rsum; cbn [fold_right kind_for grip]; cbn; lra.
Qed.
Lemma slow_window_ok : StronglySorted Z.lt (selected (d_window slow_window) 3) /\ window_ok (selected (d_window slow_window) 3) 3.
Proof. change (selected (d_window slow_window) 3) with [0; 2]%Z. split; [repeat constructor; lia|]. split; [repeat constructor; lia|cbn; auto]. Qed.
Lemma slow_window_setting : kinds_setting slow_window 3 wide_ccd (TOne (slow_trap 10)) [2] DFloat.
Proof.
  split; try reflexivity; [left; reflexivity|exact wide_plain| |left; reflexivity]. split; [discriminate|]. constructor; [|constructor]. split; [discriminate|right; left]. constructor; [|constructor].
  pose proof (slow_trap_capturing 10 ltac:(lra)) as F. inversion F; subst. split; [assumption|reflexivity].
Qed.
Lemma slow_window_linear top : top <= 900 -> linear_call slow_window 3 top.
Proof.
  intros Htop. left. exists 3%nat. split; [apply slow_window_ok|]. split; [apply slow_window_ok|]. split; [lia|]. right.
  exists wide_ccd, (TOne (slow_trap 10)), 2, DFloat. assert (G : group_traps [slow_trap 10] = 10) by (unfold group_traps, full_traps; cbn; lra). assert (S : share wide_ccd 0 = 1) by reflexivity.
  split; [exact slow_window_setting|split].
  - intros k Hk. cbn in Hk. assert (k = 0%nat) by lia. subst k. exists 1000. split; [repeat split|]. cbn [groups_in]. rewrite S. constructor; [rewrite G; lra|constructor].
  - intros k x Hk Hx. cbn in Hk. assert (k = 0%nat) by lia. subst k. cbn in Hx. assert (Hx1 : x = 1) by lra. clear Hx. subst x. exists 1000, 1. split; [repeat split|]. split; [lra|].
    cbn [groups_in map]. rewrite S, G. split; [constructor; [lra|constructor]|]. unfold Rsum. cbn. lra.
Qed.
Example C142_example : exists t, log_normal_trap (fun _ x => x) (1 / 8) 3 (1 / 2) = Ok t /\ time_range (Some (py_range 1 3)) /\
  map kind_for (groups_in (mixed t)) = [KInstant; KSlow; KTime] /\
  linear_call (broad_rows t) 4 120 /\ linear_call slow_window 3 120 /\ shape 4 3 spots /\ shape 4 3 faint_spots /\
  (forall i j, 0 <= pixel spots i j <= 120) /\ (forall i j, 0 <= pixel faint_spots i j <= 120) /\ times_image (1 / 2) spots faint_spots.
Proof.
  destruct C133_example as (t & E & T & M & _ & _ & S1 & P1). exists t. split; [exact E|]. split; [exact T|]. split; [exact M|].
  assert (K : times_image (1 / 2) spots faint_spots).
  { intros i j. unfold pixel, spots, faint_spots. destruct i as [|[|[|[|i]]]]; destruct j as [|[|[|j]]]; cbn; try lra; repeat match goal with |- context [match ?k with O => _ | S _ => _ end] => destruct k; cbn; try lra end. }
  split; [apply broad_linear; [exact E|lra]|]. split; [apply slow_window_linear; lra|]. split; [exact S1|]. split; [split; [reflexivity|repeat constructor]|]. split; [exact P1|]. split; [|exact K].
  intros i j. rewrite K. specialize (P1 i j). lra.
Qed.
(** Two iterations: the first estimate differs from the image by at most the traps that the pixels pass. *)
Lemma linear_kinds d n top : linear_call d n top -> kinds_call d n.
Proof.
  intros [(b & H1 & H2 & H3 & [H|(c & traps & dwell & dt & H4 & _ & H5)])|(H1 & c & traps & dwell & npt & H2 & _ & H3)].
  - left. exists b. auto.
  - left. exists b. split; [exact H1|]. split; [exact H2|]. split; [exact H3|]. right. now exists c, traps, [dwell], dt.
  - right. split; [exact H1|]. now exists c, traps, [dwell], npt.
Qed.
Definition faint_lit : image R := [[150; 200; 250]; [150; 200; 250]; [150; 200; 250]; [150; 200; 250]].
Example C142_correction_example : exists t, log_normal_trap (fun _ x => x) (1 / 8) 3 (1 / 2) = Ok t /\
  linear_call (broad_rows t) 4 600 /\ linear_call slow_window 3 600 /\ shape 4 3 lit /\ shape 4 3 faint_lit /\ times_image (1 / 2) lit faint_lit /\
  forall m est, (m < 2)%nat -> remove_cti lit m (broad_rows t) slow_window None = Ok est -> forall i j, 0 <= pixel est i j <= 600.
Proof.
  destruct C133_example as (t & E & _). exists t. split; [exact E|]. pose proof (broad_linear t 600 E ltac:(lra)) as L1. pose proof (slow_window_linear 600 ltac:(lra)) as L2.
  assert (Sl : shape 4 3 lit) by (split; [reflexivity|repeat constructor]).
  assert (Pl : forall i j, 0 <= pixel lit i j) by (intros i j; unfold pixel, lit; destruct i as [|[|[|[|i]]]]; destruct j as [|[|[|j]]]; cbn; try lra; repeat match goal with |- context [match ?k with O => _ | S _ => _ end] => destruct k; cbn; try lra end).
  assert (Bl : forall i j, (i < 4)%nat -> (j < 3)%nat -> 300 <= pixel lit i j <= 500) by (intros i j Hi Hj; destruct i as [|[|[|[|i]]]]; [| | | |lia]; (destruct j as [|[|[|j]]]; [| | |lia]); unfold pixel; cbn; lra).
  split; [exact L1|]. split; [exact L2|]. split; [exact Sl|]. split; [split; [reflexivity|repeat constructor]|]. split.
  { intros i j. unfold pixel, lit, faint_lit. destruct i as [|[|[|[|i]]]]; destruct j as [|[|[|j]]]; cbn; try lra; repeat match goal with |- context [match ?k with O => _ | S _ => _ end] => destruct k; cbn; try lra end. }
  assert (W : forall im, shape 4 3 im -> (forall i j, (i < 4)%nat -> (j < 3)%nat -> 0 <= pixel im i j <= 600) -> forall i j, 0 <= pixel im i j <= 600).
  { intros im Si H. apply (pixels_outside im 4 3 (fun v => 0 <= v <= 600) Si); [lra|exact H]. }
  intros m est Hm Em. apply W; [exact (RemoveFacts.remove_shape lit _ _ _ 4 3 Sl ltac:(lia) ltac:(lia) m est Em)|]. intros i j Hi Hj. pose proof (Bl i j Hi Hj) as B.
  destruct m as [|m]; [injection Em as <-; lra|]. assert (m = 0%nat) by lia. subst m.
  apply (RemoveFacts.remove_S lit _ _ _ 4 3 Sl ltac:(lia) ltac:(lia)) in Em as (e0 & a & pr & sr & E0 & A & _ & V). injection E0 as <-. rewrite (V i j Hi Hj). rnum.
  destruct (C129_no_pixel_changes_by_more_than_the_traps_it_passes lit (broad_rows t) slow_window None 4 3 ltac:(lia) ltac:(lia) ltac:(constructor) (linear_kinds _ _ _ L1) (linear_kinds _ _ _ L2) Sl Pl) as (a' & pr' & sr' & A' & _ & _ & C).
  rewrite A in A'. injection A' as <- _ _.
  destruct (mixed_traps t E) as (M1 & M2 & M3).
  assert (AT : all_traps (groups_in (mixed t)) = 57 / 40) by (unfold all_traps; cbn [groups_in mixed map]; rewrite M1, M2, M3; unfold Rsum; cbn; lra).
  assert (AS : all_shares wide_ccd = 1) by (unfold all_shares, share; cbn; lra).
  assert (K1 : kinds_limit (broad_rows t) 4 i (INR (i + 1 + 0) * (1 * (57 / 40)))).
  { rewrite <- AT, <- AS. apply (kinds_step (broad_rows t) 4 i 4 wide_ccd (mixed t) (1 / 2) DFloat); [rewrite (selected_all (broad_rows t) 4 eq_refl); apply window_ok_range; lia|]. split; try reflexivity; [left; reflexivity|exact wide_plain|now apply mixed_kinds|right; cbn; lia]. }
  assert (K2 : kinds_limit slow_window 3 j (INR (j + 1 + 1) * (1 * 10))).
  { assert (G : all_traps (groups_in (TOne (slow_trap 10))) = 10) by (unfold all_traps, group_traps, full_traps, Rsum; cbn; lra). rewrite <- AS, <- G. apply (kinds_step slow_window 3 j 3 wide_ccd (TOne (slow_trap 10)) 2 DFloat); [apply slow_window_ok|exact slow_window_setting]. }
  specialize (C i j _ _ Hi Hj K1 K2). apply Coquelicot.Rcomplements.Rabs_le_between in C.
  assert (INR (i + 1 + 0) <= 4) by (replace 4 with (INR 4) by (cbn; lra); apply le_INR; lia). assert (INR (j + 1 + 1) <= 4) by (replace 4 with (INR 4) by (cbn; lra); apply le_INR; lia). lra.
Qed.
