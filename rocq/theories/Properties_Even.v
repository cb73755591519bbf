(** * C131: traps of several kinds create no charge when every pass moves all its rows alike. *)
From Coq Require Import ZArith List Bool Reals Lra Lia Sorted.
From Verif Require Import Num Py RFacts CCDModel TrapsModel ManagerModel ROEModel ClockModel MainModel ContinuumModel Spec SpecROE SpecImage SpecReadout SpecColumn SpecTime SpecSlow SpecHistory SpecHold SpecFlatten SpecBound SpecPhases SpecWork SpecWindowOrder SpecContinuum SpecInjected SpecMeet SpecEven
  ROEExpressFacts ReadoutExamples ExpressExample ExpressGridFacts WindowGridFacts ReadoutImage MainReadoutFacts MeetGridFacts InjectedGridFacts MeetBalanceFacts Properties_Phases Properties_WindowOrder Properties_TimesOrder Properties_Mild Properties_Express Properties_Meet.
Import ListNotations.
Open Scope R_scope.

(** ** C131: with instant traps, slow traps and traps that record times at once, in any number of phases, any window and
    any time: whatever corner of the image next to the amplifier is considered, its charge never grows, if every transfer is
    computed, or if the charge is injected (with any express). *)
Theorem C131_no_corner_gains_charge im parallel serial time rows cols : (0 < rows)%nat -> (0 < cols)%nat ->
  time_range time -> even_call parallel rows -> even_call serial cols -> shape rows cols im -> (forall i j, 0 <= pixel im i j) ->
  exists im' pr sr, add_cti im parallel serial time = Ok (im', pr, sr) /\ shape rows cols im' /\ (forall i j, 0 <= pixel im' i j) /\
    forall i j, (i <= rows)%nat -> (j <= cols)%nat -> corner im' i j <= corner im i j.
Proof. exact (even_corners im parallel serial time rows cols). Qed.
Print Assumptions C131_no_corner_gains_charge.

(** With express, other readouts can gain charge, whatever the traps. *)
Lemma quick_call : kinds_call quick_direction 2.
Proof.
  left. exists 2%nat. rewrite (selected_all quick_direction 2 eq_refl). split; [apply ExpressGridFacts.range_sorted|]. split; [apply window_ok_range; lia|]. split; [lia|]. right.
  exists shallow_ccd, (TOne (small_trap (1/64))), [ln 8], DFloat. destruct quick_setting as [Q1 Q2 Q3 Q4 Q5 Q6 Q7]. split.
  - split; try assumption. split; [discriminate|]. constructor; [|constructor]. split; [discriminate|left]. destruct (small_group (1 / 64) ltac:(lra)) as [_ H]. exact H.
  - intros k x Hk Hx. cbn [ccd_n_phases shallow_ccd] in Hk. assert (k = 0%nat) by lia. subst k. cbn in Hx. subst x. exists (1 / 2), 1. split; [repeat split|]. split; [lra|].
    split; [constructor; [|constructor]|]; unfold group_traps, full_traps, share; cbn; lra.
Qed.
Theorem C131_no_corner_gains_charge_refuted :
  ~ (forall (im im' : image R) parallel serial rows cols pr sr, (0 < rows)%nat -> (0 < cols)%nat ->
       kinds_call parallel rows -> kinds_call serial cols -> shape rows cols im -> (forall i j, 0 <= pixel im i j) ->
       add_cti im parallel serial None = Ok (im', pr, sr) -> corner im' rows cols <= corner im rows cols).
Proof.
  intros H. assert (K : kinds_call no_direction 1).
  { left. exists 1%nat. rewrite (selected_all no_direction 1 eq_refl). split; [apply ExpressGridFacts.range_sorted|]. split; [apply window_ok_range; lia|]. split; [lia|]. left. reflexivity. }
  specialize (H small_image _ quick_direction no_direction 2%nat 1%nat _ _ ltac:(lia) ltac:(lia) quick_call K small_shape small_nonneg quick_readout).
  unfold corner, pixel, small_image in H. cbn in H. lra.
Qed.
Print Assumptions C131_no_corner_gains_charge_refuted.

(** Three of four rows, every transfer computed, and three columns injected through six pixels in two passes. *)
Definition mixed_window (t : trap R) : direction R := mkDir (Some trio_ccd) (Some (roe_init [1; 2; 1 / 2] true true true DFloat)) (Some (mixed t)) 0 1 (WRange [0; 2; 3]%Z).
Example C131_example : exists t, log_normal_trap (fun _ x => x) (1 / 8) 3 (1 / 2) = Ok t /\ time_range (Some (py_range 1 3)) /\
  map kind_for (groups_in (mixed t)) = [KInstant; KSlow; KTime] /\
  even_call (mixed_window t) 4 /\ even_call (mixed_columns t) 3 /\ shape 4 3 spots /\ (forall i j, 0 <= pixel spots i j) /\ corner spots 4 3 = 180 /\ corner spots 1 3 = 7.
Proof.
  destruct C129_example as (t & E & T & _ & _ & S1 & _ & P1 & _). exists t. split; [exact E|]. split; [exact T|]. destruct (timed_trap t E) as (T1 & _ & _). split; [cbn [groups_in mixed map]; rewrite T1; reflexivity|].
  assert (W : window_ok [0; 2; 3]%Z 4) by (split; [repeat constructor; lia|cbn; auto]).
  split; [left; split; [|intros b _; left; reflexivity]|].
  - exists 4%nat. change (selected (d_window (mixed_window t)) 4) with [0; 2; 3]%Z. split; [repeat constructor; lia|]. split; [exact W|]. split; [lia|]. right.
    exists trio_ccd, (mixed t), [1; 2; 1 / 2], DFloat. split.
    + split; try reflexivity; [left; reflexivity|exact trio_plain|now apply mixed_kinds|left; reflexivity].
    + intros k x Hk Hx. cbn in Hx. assert (x = 1) by lra. clear Hx. subst x. destruct (mixed_mild t E 2 k (or_introl eq_refl) Hk) as (full & beta & M1 & M2 & M3 & M4). exists full, beta. split; [exact M1|]. split; [exact M2|]. split; [exact M3|].
      lra.
  - split; [right; destruct (mixed_columns_call t E) as [(b & _ & _ & _ & [H|(c & tr & dw & dt & H & _)])|H]; [discriminate|destruct H as [_ _ [H|[H _]] _ _ _ _]; discriminate|exact H]|]. split; [exact S1|]. split; [exact P1|].
    unfold corner, pixel, spots. cbn. split; lra.
Qed.
