(** * C128-C130: traps of several kinds at once, in any number of phases, with express, windows and charge injection. *)
From Coq Require Import ZArith List Bool Reals Lra Lia Sorted.
From Verif Require Import Num Py RFacts CCDModel TrapsModel ManagerModel ROEModel ClockModel MainModel ContinuumModel Spec SpecROE SpecImage SpecReadout SpecTime SpecSlow SpecHistory SpecHold SpecFlatten SpecBound SpecRecovery SpecPhases SpecWork SpecInjectionOrder SpecWindowOrder SpecContinuum SpecMeet
  ROEExpressFacts ReadoutExamples ContinuumFacts LogNormalFacts GridFacts ExpressGridFacts WindowGridFacts ReadoutImage ReadoutInjection MainReadoutFacts SlowExamples MildFacts MeetGridFacts Properties_Phases Properties_WindowOrder Properties_TimesOrder Properties_Mild.
Import ListNotations.
Open Scope R_scope.

(** ** C128: a readout past groups of instant traps, slow traps and traps that record times, all at once, moves each
    pixel of each column past the traps of all phases in turn: in every step, every group meets
    the same cloud, by its own law, and what they take or give together is multiplied by the
    number of transfers that the pass stands for.  Groups that are not instant need wells that
    hold more than their traps. *)
Theorem C128_readout_past_all_kinds_of_traps im c dwell dt traps express offset window n_pixels columns tw rows cols :
  let r := roe_init dwell true true true dt in
  shape rows cols im -> (0 < rows)%nat -> (forall i j, 0 <= pixel im i j) ->
  plain_ccd c -> (ccd_n_phases c <= length dwell)%nat -> kind_traps traps ->
  (forall k, (k < ccd_n_phases c)%nat -> roomy_phase c (groups_in traps) k) ->
  window_ok window n_pixels -> (n_pixels <= rows)%nat -> tw_ok tw -> (express = 0%nat \/ S express <> n_pixels) ->
  (forall j, In j columns -> (0 <= j < Z.of_nat cols)%Z) -> NoDup columns ->
  exists im' em mon, standard_express true dt window express offset (tw_arg tw) = Ok (em, mon) /\
  clock_charge_in_one_direction im c r traps express offset window columns (tw_arg tw) = Ok (im', r) /\
  shape rows cols im' /\ (forall i j, ~ In (Z.of_nat j) columns -> pixel im' i j = pixel im i j) /\
  forall i j, (i < rows)%nat -> In (Z.of_nat j) columns ->
    pixel im' i j = meeting c (groups_in traps) (timed_steps r)
      (map (fun '(e, m) => cells_of window e m (map (fun _ => false) e)) (combine em mon)) (col_fun im j) (Z.of_nat i).
Proof.
  intros r Hs Hr Hp Hc Hph Hk Hroom Hw Hn Htw He Hcol Hnd.
  destruct (ROEExpressFacts.standard_express_ok true dt window n_pixels express offset Hw tw (window_express n_pixels express He) Htw) as (E & em & mon & EE & _).
  destruct (standard_meeting c traps dwell dt Hc Hph Hk Hroom im express offset window n_pixels columns tw rows cols em mon Hs Hr Hp Hw Hn Htw He Hcol Hnd EE) as (im' & H). exists im', em, mon. split; [exact EE|exact H].
Qed.
Print Assumptions C128_readout_past_all_kinds_of_traps.
(** In charge injection, every pass takes all rows through the same number of transfers. *)
Theorem C128_injection_past_all_kinds_of_traps im c dwell traps npt express offset columns tw rows cols :
  let r := roe_injection_init dwell npt true true DFloat in
  let N := injection_transfers npt rows offset in let E := passes_for N express in let x := INR N / INR E in
  shape rows cols im -> (0 < rows)%nat -> (forall i j, 0 <= pixel im i j) ->
  plain_ccd c -> (ccd_n_phases c <= length dwell)%nat -> kind_traps traps ->
  (forall k, (k < ccd_n_phases c)%nat -> roomy_phase c (groups_in traps) k) -> (0 < N)%nat -> tw_ok tw ->
  (forall j, In j columns -> (0 <= j < Z.of_nat cols)%Z) -> NoDup columns ->
  exists im', clock_charge_in_one_direction im c r traps express offset (py_range 0 (Z.of_nat rows)) columns (tw_arg tw) = Ok (im', roe_injection_init dwell (Some N) true true DFloat) /\
  shape rows cols im' /\ (forall i j, ~ In (Z.of_nat j) columns -> pixel im' i j = pixel im i j) /\
  forall i j, (i < rows)%nat -> In (Z.of_nat j) columns ->
    pixel im' i j = meeting c (groups_in traps) (timed_steps r) (injection_passes rows E (fun i => tw_part tw (INR i * x) (INR (S i) * x))) (col_fun im j) (Z.of_nat i).
Proof.
  intros r N E x Hs Hr Hp Hc Hph Hk Hroom HN Htw Hcol Hnd.
  exact (injection_meeting c traps dwell Hc Hph Hk Hroom im npt express offset columns tw rows cols Hs Hr Hp HN Htw Hcol Hnd).
Qed.
Print Assumptions C128_injection_past_all_kinds_of_traps.

(** ** C129: with traps of several kinds, in any number of phases, with any express, offset, windows and times, and
    charge injection in either direction: the call never fails, more charge in gives more charge
    out, small changes have small effects, no two images give the same result, and no pixel
    changes by more than the traps it passes. *)
Theorem C129_more_charge_in_more_charge_out a b parallel serial time rows cols : (0 < rows)%nat -> (0 < cols)%nat ->
  time_range time -> kinds_call parallel rows -> kinds_call serial cols -> shape rows cols a -> shape rows cols b ->
  (forall i j, 0 <= pixel a i j) -> (forall i j, (i < rows)%nat -> (j < cols)%nat -> pixel a i j <= pixel b i j) ->
  exists a' b' pr sr, add_cti a parallel serial time = Ok (a', pr, sr) /\ add_cti b parallel serial time = Ok (b', pr, sr) /\
    forall i j, (i < rows)%nat -> (j < cols)%nat -> pixel a' i j <= pixel b' i j.
Proof.
  intros Hr Hc Ht Hp Hs Sa Sb Pa Hab. destruct (kinds_ready _ _ _ _ _ Hr Hc Ht Hp Hs) as (rp & rs & tw & lines & D1 & D2 & D3 & D4 & D5).
  destruct (mild_order parallel serial rows cols _ _ Hr Hc rp rs time tw lines D1 D2 D3 D4 D5 a b Sa Sb Pa Hab) as (a' & b' & H). exists a', b', rp, rs. exact H.
Qed.
Print Assumptions C129_more_charge_in_more_charge_out.
Theorem C129_differences_grow_at_most_by_a_factor parallel serial time rows cols : (0 < rows)%nat -> (0 < cols)%nat ->
  time_range time -> kinds_call parallel rows -> kinds_call serial cols ->
  exists K, 0 <= K /\ forall a b, shape rows cols a -> shape rows cols b ->
  (forall i j, 0 <= pixel a i j) -> (forall i j, 0 <= pixel b i j) ->
  exists a' b' pr sr, add_cti a parallel serial time = Ok (a', pr, sr) /\ add_cti b parallel serial time = Ok (b', pr, sr) /\
    image_apart a' b' <= K * image_apart a b.
Proof.
  intros Hr Hc Ht Hp Hs. destruct (kinds_ready _ _ _ _ _ Hr Hc Ht Hp Hs) as (rp & rs & tw & lines & D1 & D2 & D3 & D4 & D5).
  destruct (mild_apart parallel serial rows cols _ _ Hr Hc rp rs time tw lines D1 D2 D3 D4 D5) as (K & HK & H). exists K. split; [exact HK|].
  intros a b Sa Sb Pa Pb. destruct (H a b Sa Sb Pa Pb) as (a' & b' & H'). exists a', b', rp, rs. exact H'.
Qed.
Print Assumptions C129_differences_grow_at_most_by_a_factor.
Theorem C129_different_images_stay_different a b out pr sr pr' sr' parallel serial time rows cols : (0 < rows)%nat -> (0 < cols)%nat ->
  time_range time -> kinds_call parallel rows -> kinds_call serial cols -> shape rows cols a -> shape rows cols b ->
  (forall i j, 0 <= pixel a i j) -> (forall i j, 0 <= pixel b i j) ->
  add_cti a parallel serial time = Ok (out, pr, sr) -> add_cti b parallel serial time = Ok (out, pr', sr') -> a = b.
Proof.
  intros Hr Hc Ht Hp Hs Sa Sb Pa Pb. destruct (kinds_ready _ _ _ _ _ Hr Hc Ht Hp Hs) as (rp & rs & tw & lines & D1 & D2 & D3 & D4 & D5).
  exact (mild_injective parallel serial rows cols _ _ Hr Hc rp rs time tw lines D1 D2 D3 D4 D5 a b out pr sr pr' sr' Sa Sb Pa Pb).
Qed.
Print Assumptions C129_different_images_stay_different.
Theorem C129_no_pixel_changes_by_more_than_the_traps_it_passes im parallel serial time rows cols : (0 < rows)%nat -> (0 < cols)%nat ->
  time_range time -> kinds_call parallel rows -> kinds_call serial cols -> shape rows cols im -> (forall i j, 0 <= pixel im i j) ->
  exists im' pr sr, add_cti im parallel serial time = Ok (im', pr, sr) /\ shape rows cols im' /\ (forall i j, 0 <= pixel im' i j) /\
    forall i j p s, (i < rows)%nat -> (j < cols)%nat -> kinds_limit parallel rows i p -> kinds_limit serial cols j s ->
      Rabs (pixel im' i j - pixel im i j) <= p + s.
Proof.
  intros Hr Hc Ht Hp Hs Si Pi. destruct (kinds_ready _ _ _ _ _ Hr Hc Ht Hp Hs) as (rp & rs & tw & lines & D1 & D2 & D3 & D4 & D5).
  destruct (mild_map parallel serial rows cols _ _ Hr Hc rp rs time tw lines D1 D2 D3 D4 D5) as (gain & big & F & _ & _ & _ & HF).
  destruct (HF im Si Pi) as (im' & E & S' & P' & _ & B). exists im', rp, rs. auto.
Qed.
Print Assumptions C129_no_pixel_changes_by_more_than_the_traps_it_passes.

(** ** C130: remove_cti recovers the image that was read out, at a geometric rate, with traps of several kinds too. *)
Theorem C130_correction_recovers_the_image x parallel serial time rows cols : (0 < rows)%nat -> (0 < cols)%nat ->
  time_range time -> kinds_call parallel rows -> kinds_call serial cols -> shape rows cols x ->
  kinds_enough parallel serial rows cols x ->
  exists im pr sr, add_cti x parallel serial time = Ok (im, pr, sr) /\
  exists C r, 0 <= C /\ 0 <= r < 1 /\ forall n, exists est, remove_cti im n parallel serial time = Ok est /\ shape rows cols est /\
    image_apart est x <= C * r ^ n.
Proof.
  intros Hr Hc Ht Hp Hs Sx Hx. destruct (kinds_ready _ _ _ _ _ Hr Hc Ht Hp Hs) as (rp & rs & tw & lines & D1 & D2 & D3 & D4 & D5).
  destruct (mild_recover parallel serial rows cols _ _ (fun i x => kinds_limit_nonneg parallel rows i x) (fun i x => kinds_limit_nonneg serial cols i x) Hr Hc rp rs time tw lines D1 D2 D3 D4 D5 x Sx Hx) as (im & H1 & H2). exists im, rp, rs. split; [exact H1|exact H2].
Qed.
Print Assumptions C130_correction_recovers_the_image.

(** ** Two species of instant traps, slow traps and a log-normal continuum together, in three phases: rows read out in
    two passes, columns injected through six pixels in two passes. *)
Definition mixed (t : trap R) : traps_arg R := TNested [[small_trap (1 / 10); small_trap (1 / 5)]; [slow_trap 1]; [t]].
Definition mixed_rows (t : trap R) : direction R := mkDir (Some trio_ccd) (Some (roe_init [1; 2; 1 / 2] true true true DFloat)) (Some (mixed t)) 2 0 WNone.
Definition mixed_columns (t : trap R) : direction R := mkDir (Some trio_ccd) (Some (roe_injection_init [1; 2; 1 / 2] (Some 6%nat) true true DFloat)) (Some (mixed t)) 2 0 WNone.
Section Mixed.
Context (t : trap R) (Ht : log_normal_trap (fun _ x => x) (1 / 8) 3 (1 / 2) = Ok t).
Lemma mixed_kinds : kind_traps (mixed t).
Proof.
  destruct (timed_trap t Ht) as (T1 & T2 & _). split; [discriminate|]. constructor; [|constructor; [|constructor; [|constructor]]].
  - split; [discriminate|left]. constructor; [|constructor; [|constructor]].
    + destruct (small_group (1 / 10) ltac:(lra)) as [_ H]. now inversion H.
    + destruct (small_group (1 / 5) ltac:(lra)) as [_ H]. now inversion H.
  - split; [discriminate|right; left]. constructor; [|constructor]. pose proof (slow_trap_capturing 1 ltac:(lra)) as H. inversion H; subst. split; [assumption|reflexivity].
  - split; [discriminate|right; right]. auto.
Qed.
Lemma mixed_traps : group_traps [small_trap (1 / 10); small_trap (1 / 5)] = 3 / 10 /\ group_traps [slow_trap 1] = 1 /\ group_traps [t] = 1 / 8.
Proof.
  destruct (timed_trap t Ht) as (T1 & _ & T3). split; [unfold group_traps, full_traps; cbn; lra|]. split; [unfold group_traps, full_traps; cbn; lra|]. unfold group_traps. rewrite T1. exact T3.
Qed.
Lemma mixed_mild x k : x = 2 \/ x = 3 -> (k < 3)%nat -> mild_phase trio_ccd (groups_in (mixed t)) x k.
Proof.
  intros Hx Hk. destruct mixed_traps as (M1 & M2 & M3). destruct (timed_trap t Ht) as (T1 & _ & _).
  assert (S : share trio_ccd 0 = 1 / 2 /\ share trio_ccd 1 = 1 / 3 /\ share trio_ccd 2 = 1 / 6) by (repeat split; reflexivity). destruct S as (S0 & S1 & S2).
  destruct k as [|[|[|k]]]; [exists 100, 1|exists 200, 2|exists 50, 1|lia]; (split; [repeat split|]); (split; [lra|]); cbn [groups_in mixed]; rewrite ?S0, ?S1, ?S2;
  (split; [repeat (constructor; [rewrite ?M1, ?M2, ?M3; lra|]); constructor|]); cbn [map]; rewrite M1, M2, M3, T1; unfold Rsum; cbn [fold_right kind_for grip]; cbn; destruct Hx as [-> | ->]; lra.
Qed.
Lemma trio_plain : plain_ccd trio_ccd.
Proof. exact (ps_plain _ _ _ _ _ _ (trio_setting 4)). Qed.
Lemma mixed_rows_setting : kinds_setting (mixed_rows t) 4 trio_ccd (mixed t) [1; 2; 1 / 2] DFloat.
Proof. split; try reflexivity; [left; reflexivity|exact trio_plain|exact mixed_kinds|right; cbn; lia]. Qed.
Lemma mixed_columns_setting : kinds_injection (mixed_columns t) 3 trio_ccd (mixed t) [1; 2; 1 / 2] (Some 6%nat).
Proof. split; try reflexivity; [exact trio_plain|exact mixed_kinds|cbn; lia]. Qed.
Lemma mixed_rows_call : kinds_call (mixed_rows t) 4.
Proof.
  left. exists 4%nat. rewrite (selected_all (mixed_rows t) 4 eq_refl). split; [apply ExpressGridFacts.range_sorted|]. split; [apply window_ok_range; lia|]. split; [lia|]. right.
  exists trio_ccd, (mixed t), [1; 2; 1 / 2], DFloat. split; [exact mixed_rows_setting|]. intros k x Hk Hx. apply mixed_mild; [|exact Hk]. left. cbn in Hx. subst x. lra.
Qed.
Lemma mixed_columns_call : kinds_call (mixed_columns t) 3.
Proof.
  right. split; [reflexivity|]. exists trio_ccd, (mixed t), [1; 2; 1 / 2], (Some 6%nat). split; [exact mixed_columns_setting|]. intros N k Hk. apply mixed_mild; [|exact Hk]. right. cbn. lra.
Qed.
End Mixed.
Example C128_example : exists t, log_normal_trap (fun _ x => x) (1 / 8) 3 (1 / 2) = Ok t /\ kind_traps (mixed t) /\ map kind_for (groups_in (mixed t)) = [KInstant; KSlow; KTime] /\
  plain_ccd trio_ccd /\ (forall k, (k < ccd_n_phases trio_ccd)%nat -> roomy_phase trio_ccd (groups_in (mixed t)) k) /\
  exists im' em mon, clock_charge_in_one_direction spots trio_ccd (roe_init [1; 2; 1 / 2] true true true DFloat) (mixed t) 2 0 [0; 2; 3]%Z [0; 2]%Z (Some (py_range 1 3)) = Ok (im', roe_init [1; 2; 1 / 2] true true true DFloat) /\
    pixel im' 2 2 = meeting trio_ccd (groups_in (mixed t)) (timed_steps (roe_init [1; 2; 1 / 2] true true true DFloat)) (map (fun '(e, m) => cells_of [0; 2; 3]%Z e m (map (fun _ => false) e)) (combine em mon)) (col_fun spots 2) 2%Z.
Proof.
  destruct C120_example as (t & E & _ & _ & _ & _ & _ & _ & _ & Sp & _ & Pp & _). exists t. split; [exact E|]. destruct (timed_trap t E) as (T1 & _ & _). pose proof (mixed_kinds t E) as Hk. split; [exact Hk|].
  split; [cbn [groups_in mixed map]; rewrite T1; reflexivity|]. split; [exact trio_plain|].
  assert (Hroom : forall k, (k < ccd_n_phases trio_ccd)%nat -> roomy_phase trio_ccd (groups_in (mixed t)) k) by (intros k Hlt; apply (mild_is_roomy _ _ 2), (mixed_mild t E); [now left|exact Hlt]).
  split; [exact Hroom|].
  assert (W : window_ok [0; 2; 3]%Z 4) by (split; [repeat constructor; lia|cbn; auto]).
  destruct (C128_readout_past_all_kinds_of_traps spots trio_ccd [1; 2; 1 / 2] DFloat (mixed t) 2 0 [0; 2; 3]%Z 4 [0; 2]%Z (Some (1, 3)%Z) 4 3 Sp ltac:(lia) Pp trio_plain ltac:(cbn; lia) Hk Hroom W ltac:(lia) ltac:(cbn; lia) ltac:(right; lia)) as (im' & em & mon & _ & E2 & _ & _ & E5).
  - intros j [<-|[<-|[]]]; lia.
  - repeat constructor; cbn; lia.
  - exists im', em, mon. split; [exact E2|]. exact (E5 2%nat 2%nat ltac:(lia) ltac:(cbn; auto)).
Qed.
Example C129_example : exists t, log_normal_trap (fun _ x => x) (1 / 8) 3 (1 / 2) = Ok t /\ time_range (Some (py_range 1 3)) /\
  kinds_call (mixed_rows t) 4 /\ kinds_call (mixed_columns t) 3 /\ shape 4 3 spots /\ shape 4 3 more_spots /\ (forall i j, 0 <= pixel spots i j) /\
  (forall i j, (i < 4)%nat -> (j < 3)%nat -> pixel spots i j <= pixel more_spots i j) /\ spots <> more_spots.
Proof.
  destruct C120_example as (t & E & _ & _ & _ & _ & _ & _ & _ & K). exists t. split; [exact E|]. split; [constructor; lia|]. split; [now apply mixed_rows_call|]. split; [now apply mixed_columns_call|exact K].
Qed.
Example C130_example : exists t, log_normal_trap (fun _ x => x) (1 / 8) 3 (1 / 2) = Ok t /\ kinds_enough (mixed_rows t) (mixed_columns t) 4 3 lit.
Proof.
  destruct C120_example as (t & E & _). exists t. split; [exact E|]. destruct (mixed_traps t E) as (M1 & M2 & M3).
  assert (A : all_traps (groups_in (mixed t)) = 57 / 40) by (unfold all_traps; cbn [groups_in mixed map]; rewrite M1, M2, M3; unfold Rsum; cbn; lra).
  assert (S : all_shares trio_ccd = 1) by (unfold all_shares, share; cbn; lra).
  intros i j Hi Hj. eexists _, _. split; [apply (kinds_steps (mixed_rows t) 4 i 4 trio_ccd (mixed t) [1; 2; 1 / 2] DFloat); [rewrite (selected_all (mixed_rows t) 4 eq_refl); apply window_ok_range; lia|now apply mixed_rows_setting]|].
  split; [apply (kinds_injection_steps (mixed_columns t) 3 j trio_ccd (mixed t) [1; 2; 1 / 2] (Some 6%nat)), mixed_columns_setting, E|]. rewrite A, S.
  destruct i as [|[|[|[|i]]]]; [| | | |lia]; (destruct j as [|[|[|j]]]; [| | |lia]); unfold pixel; cbn; lra.
Qed.
