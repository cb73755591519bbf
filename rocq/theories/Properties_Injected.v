(** * C124-C127: charge injection past traps of any kind, and what slow traps cannot do. *)
From Coq Require Import ZArith List Bool Reals Lra Lia.
From Verif Require Import Num Py RFacts CCDModel TrapsModel ManagerModel ROEModel ClockModel MainModel ContinuumModel Spec SpecROE SpecImage SpecReadout SpecTime SpecSlow SpecHistory SpecHold SpecBound SpecRecovery SpecPhases SpecInjectionOrder SpecWindowOrder SpecAbove SpecFlatten SpecContinuum SpecPatient SpecMild SpecInjected
  ReadoutExamples ContinuumFacts LogNormalFacts GridFacts WindowGridFacts ReadoutImage SlowExamples MemoryExample HistoryFacts MildFacts InjectedFacts InjectedSpecFacts InjectedGridFacts InjectedExample Properties_WindowOrder Properties_TimesOrder Properties_Mild.
Import ListNotations.
Open Scope R_scope.

(** ** C124: with one phase, one group of traps of any kind and every transfer computed, charge injection moves every
    packet through as many pixels of traps as asked for, and nothing is read out in between.  The
    managers are used one call per packet and start again for each transfer; any error is that of
    the first failing call, and the clock remembers the number of transfers. *)
Theorem C124_injection_by_manager_histories im parallel serial c fraction group dwell npt keep rows cols :
  shape rows cols im -> (0 < rows)%nat -> single_injection parallel rows c fraction group dwell npt keep ->
  d_traps serial = None -> d_window serial = WNone ->
  let transfers := injection_transfers npt rows (d_offset parallel) in
  let empty := empty_manager fraction group rows in
  match columns_injected (past_manager (well_fill c 0 false) dwell) keep empty empty transfers (map (column_of im) (seq 0 cols)) with
  | Ok outs => exists im', add_cti im parallel serial None = Ok (im', counted (the_roe parallel) transfers, the_roe serial) /\ shape rows cols im' /\
                 length outs = cols /\ forall j, (j < cols)%nat -> column_of im' j = nth j outs []
  | Err e => add_cti im parallel serial None = Err e
  end.
Proof. exact (injection_history im parallel serial c fraction group dwell npt keep rows cols). Qed.
Print Assumptions C124_injection_by_manager_histories.
(** For slow traps the history is that of the rate equation (as in C65), for traps that record
    times that of the times (as in C66). *)
Theorem C124_injection_past_slow_traps im parallel serial c fraction group dwell npt well rows cols outs :
  shape rows cols im -> (0 < rows)%nat -> (forall i j, 0 <= pixel im i j) ->
  single_injection parallel rows c fraction group dwell npt false ->
  Forall (fun t => t_class t = CTrap) group -> Forall capturing group ->
  sensitive well -> (forall n, 0 <= n -> well_fill c 0 false n = Ok (well n)) ->
  d_traps serial = None -> d_window serial = WNone ->
  let transfers := injection_transfers npt rows (d_offset parallel) in
  columns_injected (past_slow (map (thinned fraction) group) well dwell) false (0, empty_profile) (0, empty_profile)
    transfers (map (column_of im) (seq 0 cols)) = Ok outs ->
  exists im', add_cti im parallel serial None = Ok (im', counted (the_roe parallel) transfers, the_roe serial) /\ shape rows cols im' /\
    length outs = cols /\ forall j, (j < cols)%nat -> column_of im' j = nth j outs [].
Proof. exact (slow_injected im parallel serial c fraction group dwell npt well rows cols outs). Qed.
Print Assumptions C124_injection_past_slow_traps.
Theorem C124_injection_past_traps_that_record_times im parallel serial c fraction group dwell npt well rows cols :
  shape rows cols im -> (0 < rows)%nat -> (forall i j, 0 <= pixel im i j) ->
  single_injection parallel rows c fraction group dwell npt false -> kind_for group = KTime -> Forall fading group ->
  sensitive well -> (forall n, 0 <= n -> well_fill c 0 false n = Ok (well n)) ->
  d_traps serial = None -> d_window serial = WNone ->
  let transfers := injection_transfers npt rows (d_offset parallel) in
  match columns_injected (past_times (map (thinned fraction) group) well dwell) false never never transfers (map (column_of im) (seq 0 cols)) with
  | Ok outs => exists im', add_cti im parallel serial None = Ok (im', counted (the_roe parallel) transfers, the_roe serial) /\ shape rows cols im' /\
                 length outs = cols /\ forall j, (j < cols)%nat -> column_of im' j = nth j outs []
  | Err e => add_cti im parallel serial None = Err e
  end.
Proof. exact (times_injected im parallel serial c fraction group dwell npt well rows cols). Qed.
Print Assumptions C124_injection_past_traps_that_record_times.

(** ** C125: with charge injection in either direction too, the call never fails, more charge in gives more charge out,
    small changes have small effects, no two images give the same result, and no pixel changes by
    more than the traps it passes. *)
Theorem C125_more_charge_in_more_charge_out a b parallel serial time rows cols : (0 < rows)%nat -> (0 < cols)%nat ->
  mild_times parallel rows time -> mild_any_call parallel rows -> mild_any_call serial cols -> shape rows cols a -> shape rows cols b ->
  (forall i j, 0 <= pixel a i j) -> (forall i j, (i < rows)%nat -> (j < cols)%nat -> pixel a i j <= pixel b i j) ->
  exists a' b' pr sr, add_cti a parallel serial time = Ok (a', pr, sr) /\ add_cti b parallel serial time = Ok (b', pr, sr) /\
    forall i j, (i < rows)%nat -> (j < cols)%nat -> pixel a' i j <= pixel b' i j.
Proof.
  intros Hr Hc Ht [Bp Hp] [Bs Hs] Sa Sb Pa Hab. destruct (any_ready _ _ _ _ _ _ _ Hr Hc Ht Hp Hs) as (rp & rs & tw & lines & D1 & D2 & D3 & D4 & D5).
  destruct (mild_order parallel serial rows cols _ _ Hr Hc rp rs time tw lines D1 D2 D3 D4 D5 a b Sa Sb Pa Hab) as (a' & b' & H). exists a', b', rp, rs. exact H.
Qed.
Print Assumptions C125_more_charge_in_more_charge_out.
Theorem C125_differences_grow_at_most_by_a_factor parallel serial time rows cols : (0 < rows)%nat -> (0 < cols)%nat ->
  mild_times parallel rows time -> mild_any_call parallel rows -> mild_any_call serial cols ->
  exists K, 0 <= K /\ forall a b, shape rows cols a -> shape rows cols b ->
  (forall i j, 0 <= pixel a i j) -> (forall i j, 0 <= pixel b i j) ->
  exists a' b' pr sr, add_cti a parallel serial time = Ok (a', pr, sr) /\ add_cti b parallel serial time = Ok (b', pr, sr) /\
    image_apart a' b' <= K * image_apart a b.
Proof.
  intros Hr Hc Ht [Bp Hp] [Bs Hs]. destruct (any_ready _ _ _ _ _ _ _ Hr Hc Ht Hp Hs) as (rp & rs & tw & lines & D1 & D2 & D3 & D4 & D5).
  destruct (mild_apart parallel serial rows cols _ _ Hr Hc rp rs time tw lines D1 D2 D3 D4 D5) as (K & HK & H). exists K. split; [exact HK|].
  intros a b Sa Sb Pa Pb. destruct (H a b Sa Sb Pa Pb) as (a' & b' & H'). exists a', b', rp, rs. exact H'.
Qed.
Print Assumptions C125_differences_grow_at_most_by_a_factor.
Theorem C125_different_images_stay_different a b out pr sr pr' sr' parallel serial time rows cols : (0 < rows)%nat -> (0 < cols)%nat ->
  mild_times parallel rows time -> mild_any_call parallel rows -> mild_any_call serial cols -> shape rows cols a -> shape rows cols b ->
  (forall i j, 0 <= pixel a i j) -> (forall i j, 0 <= pixel b i j) ->
  add_cti a parallel serial time = Ok (out, pr, sr) -> add_cti b parallel serial time = Ok (out, pr', sr') -> a = b.
Proof.
  intros Hr Hc Ht [Bp Hp] [Bs Hs] Sa Sb Pa Pb. destruct (any_ready _ _ _ _ _ _ _ Hr Hc Ht Hp Hs) as (rp & rs & tw & lines & D1 & D2 & D3 & D4 & D5).
  exact (mild_injective parallel serial rows cols _ _ Hr Hc rp rs time tw lines D1 D2 D3 D4 D5 a b out pr sr pr' sr' Sa Sb Pa Pb).
Qed.
Print Assumptions C125_different_images_stay_different.
Theorem C125_no_pixel_changes_by_more_than_the_traps_it_passes im parallel serial time rows cols P S : (0 < rows)%nat -> (0 < cols)%nat ->
  mild_times parallel rows time -> mild_direction parallel rows P -> mild_direction serial cols S -> shape rows cols im -> (forall i j, 0 <= pixel im i j) ->
  exists im' pr sr, add_cti im parallel serial time = Ok (im', pr, sr) /\ shape rows cols im' /\ (forall i j, 0 <= pixel im' i j) /\
    forall i j p s, (i < rows)%nat -> (j < cols)%nat -> P i p -> S j s -> Rabs (pixel im' i j - pixel im i j) <= p + s.
Proof.
  intros Hr Hc Ht Hp Hs Si Pi. destruct (any_ready _ _ _ _ _ _ _ Hr Hc Ht Hp Hs) as (rp & rs & tw & lines & D1 & D2 & D3 & D4 & D5).
  destruct (mild_map parallel serial rows cols _ _ Hr Hc rp rs time tw lines D1 D2 D3 D4 D5) as (gain & big & F & _ & _ & _ & HF).
  destruct (HF im Si Pi) as (im' & E & S' & P' & _ & B). exists im', rp, rs. auto.
Qed.
Print Assumptions C125_no_pixel_changes_by_more_than_the_traps_it_passes.

(** ** C126: remove_cti recovers the image, at a geometric rate, with charge injection too, although the clock that
    add_cti returns has changed. *)
Theorem C126_correction_recovers_the_image x parallel serial time rows cols : (0 < rows)%nat -> (0 < cols)%nat ->
  mild_times parallel rows time -> shape rows cols x -> mild_any_enough parallel serial rows cols x ->
  exists im pr sr, add_cti x parallel serial time = Ok (im, pr, sr) /\
  exists C r, 0 <= C /\ 0 <= r < 1 /\ forall n, exists est, remove_cti im n parallel serial time = Ok est /\ shape rows cols est /\
    image_apart est x <= C * r ^ n.
Proof.
  intros Hr Hc Ht Sx (P & S & Hp & Hs & Hx). destruct (any_ready _ _ _ _ _ _ _ Hr Hc Ht Hp Hs) as (rp & rs & tw & lines & D1 & D2 & D3 & D4 & D5).
  destruct (mild_recover parallel serial rows cols _ _ (fun i x => mild_direction_nonneg parallel rows P i x Hr Hp) (fun i x => mild_direction_nonneg serial cols S i x Hc Hs) Hr Hc rp rs time tw lines D1 D2 D3 D4 D5 x Sx Hx) as (im & H1 & H2). exists im, rp, rs. split; [exact H1|exact H2].
Qed.
Print Assumptions C126_correction_recovers_the_image.

(** ** C127: traps that take time create no charge, in wells that fill evenly or ever more slowly: whatever corner of
    the image one looks at, it holds no more electrons after readout or charge injection than
    before, so charge is at most moved away from the readout registers. *)
Theorem C127_no_corner_gains_charge im parallel serial rows cols : (0 < rows)%nat -> (0 < cols)%nat ->
  mild_slow parallel rows -> mild_slow serial cols -> shape rows cols im -> (forall i j, 0 <= pixel im i j) ->
  exists im' pr sr, add_cti im parallel serial None = Ok (im', pr, sr) /\ shape rows cols im' /\ (forall i j, 0 <= pixel im' i j) /\
    forall i j, (i <= rows)%nat -> (j <= cols)%nat -> corner im' i j <= corner im i j.
Proof. exact (corner_never_grows im parallel serial rows cols). Qed.
Print Assumptions C127_no_corner_gains_charge.
(** Without serial readout, this holds for every column by itself. *)
Theorem C127_no_end_of_a_column_gains_charge im parallel serial rows cols : (0 < rows)%nat -> (0 < cols)%nat ->
  mild_slow parallel rows -> d_traps serial = None -> d_window serial = WNone -> shape rows cols im -> (forall i j, 0 <= pixel im i j) ->
  exists im' pr sr, add_cti im parallel serial None = Ok (im', pr, sr) /\ shape rows cols im' /\
    forall i j, (j < cols)%nat -> Rsum (firstn i (column_of im' j)) <= Rsum (firstn i (column_of im j)).
Proof. exact (column_never_grows im parallel serial rows cols). Qed.
Print Assumptions C127_no_end_of_a_column_gains_charge.
(** With more traps than the well holds electrons, slow traps create charge: of five rows of which
    the first holds 500 electrons, 1231 come out, in the last row, after one transfer. *)
Theorem C127_no_corner_gains_charge_refuted :
  ~ (forall im parallel c fraction group dwell npt rows cols im' r r',
       shape rows cols im -> (0 < rows)%nat -> (0 < cols)%nat -> (forall i j, 0 <= pixel im i j) ->
       single_injection parallel rows c fraction group dwell npt false -> Forall (fun t => t_class t = CTrap) group -> Forall capturing group ->
       add_cti im parallel no_direction None = Ok (im', r, r') -> corner im' rows cols <= corner im rows cols).
Proof.
  intros H. destruct dense_readout as (im' & E & Hs & Hc).
  assert (K := H flash dense_injected wide_ccd 1 [slow_trap 6000] (ln 4) (Some 1%nat) 5%nat 1%nat im' (counted (the_roe dense_injected) 1) (the_roe no_direction) flash_shape ltac:(lia) ltac:(lia)).
  assert (K' : corner im' 5 1 <= corner flash 5 1).
  { apply K; [|exact dense_setting|constructor; [reflexivity|constructor]|apply slow_trap_capturing; lra|exact E].
    intros i j. unfold pixel, flash. destruct i as [|[|[|[|[|[|i]]]]]], j as [|[|j]]; cbn; rnum; lra. }
  rewrite !corner_columns in K'. cbn [seq map] in K'. rewrite Hc in K'. cbn in K'. rnum. lra.
Qed.
Print Assumptions C127_no_corner_gains_charge_refuted.

(** ** Charge injection in wells that fill evenly, through four pixels and offset or two, next to readout, and images
    with empty pixels. *)
Definition even_injected (npt : option nat) (t : trap R) : direction R := mkDir (Some even_ccd) (Some (roe_injection_init [1] npt true false DFloat)) (Some (TNested [[t]])) 9 1 WNone.
Lemma even_injected_setting npt n t : (0 < injection_transfers npt n 1 <= n + 1)%nat -> (n < 9)%nat -> single_injection (even_injected npt t) n even_ccd 1 [t] 1 npt false.
Proof. intros H Hn. constructor; try reflexivity; try lra; [exists (TNested [[t]]); split; reflexivity|discriminate|exists false; reflexivity|exact H|right; cbn in *; lia]. Qed.
Lemma even_injected_slow : mild_injection (even_injected None (slow_trap 10)) 4 (INR 5 * (1 * full_traps [slow_trap 10])).
Proof.
  apply (mild_patient_injection (even_injected None (slow_trap 10)) 4 even_ccd 1 [slow_trap 10] 1 None 100 1); [apply even_injected_setting; cbn; lia|constructor; [reflexivity|constructor]|apply slow_trap_capturing; lra|constructor; reflexivity|lra|lra|unfold full_traps; cbn; lra].
Qed.
Lemma even_injected_timed t : log_normal_trap (fun _ x => x) (1 / 8) 3 (1 / 2) = Ok t -> mild_injection (even_injected (Some 2%nat) t) 3 (INR 2 * (1 * filled_traps [t])).
Proof.
  intros E. destruct (timed_trap t E) as (H1 & H2 & H3).
  apply (mild_timed_injection (even_injected (Some 2%nat) t) 3 even_ccd 1 [t] 1 (Some 2%nat) 100 1); [apply even_injected_setting; cbn; lia|exact H1|exact H2|constructor; reflexivity|lra|lra|rewrite H3; lra].
Qed.
Example C124_example : single_injection dense_injected 5 wide_ccd 1 [slow_trap 6000] (ln 4) (Some 1%nat) false /\
  exists im', add_cti flash dense_injected no_direction None = Ok (im', counted (the_roe dense_injected) 1, the_roe no_direction) /\ column_of im' 0 = [0; 0; 0; 0; 1261125 / 1024].
Proof. split; [exact dense_setting|]. destruct dense_readout as (im' & E & _ & C). exists im'. auto. Qed.
Example C125_example : exists t, log_normal_trap (fun _ x => x) (1 / 8) 3 (1 / 2) = Ok t /\
  mild_times (even_injected None (slow_trap 10)) 4 None /\ mild_any_call (even_injected None (slow_trap 10)) 4 /\ mild_any_call (even_rows (slow_trap 10)) 4 /\
  mild_any_call (even_injected (Some 2%nat) t) 3 /\ mild_any_call (even_columns (slow_trap 10)) 3 /\
  shape 4 3 spots /\ shape 4 3 more_spots /\ (forall i j, 0 <= pixel spots i j) /\
  (forall i j, (i < 4)%nat -> (j < 3)%nat -> pixel spots i j <= pixel more_spots i j) /\ spots <> more_spots.
Proof.
  destruct C120_example as (t & E & _ & _ & _ & _ & K1 & _ & K2 & K3). exists t. split; [exact E|]. split; [split; [constructor|now left]|].
  split; [eexists; apply mild_injected, even_injected_slow|]. split; [eexists; apply mild_readout, K1|]. split; [eexists; apply mild_injected, (even_injected_timed t E)|]. split; [eexists; apply mild_readout, K2|exact K3].
Qed.
Example C126_example : mild_any_enough (even_injected None (slow_trap 10)) (even_columns (slow_trap 10)) 4 3 lit.
Proof.
  eexists _, _. split; [apply mild_injected, even_injected_slow|]. split; [apply mild_readout; right; right; apply even_slow|].
  intros i j Hi Hj. exists (INR 5 * (1 * full_traps [slow_trap 10])), (INR (j + 1 + 1) * (1 * full_traps [slow_trap 10])). split; [reflexivity|].
  split; [right; apply (limit_patient (even_columns (slow_trap 10)) 3 j even_ccd 1 [slow_trap 10] 2); [apply even_columns_setting|constructor; [reflexivity|constructor]]|].
  unfold full_traps. destruct i as [|[|[|[|i]]]]; [| | | |lia]; (destruct j as [|[|[|j]]]; [| | |lia]); unfold pixel; cbn; lra.
Qed.
Example C127_example : exists t, log_normal_trap (fun _ x => x) (1 / 8) 3 (1 / 2) = Ok t /\
  mild_slow no_direction 4 /\ mild_slow (even_rows (slow_trap 10)) 4 /\ mild_slow (even_injected None (slow_trap 10)) 4 /\ mild_slow (even_injected (Some 2%nat) t) 3 /\ mild_slow (even_columns t) 3 /\
  corner spots 4 3 = 180 /\ corner spots 4 1 = 120 /\ corner spots 1 3 = 7.
Proof.
  destruct C120_example as (t & E & _). exists t. split; [exact E|]. split; [left; split; reflexivity|]. split; [right; right; left; apply even_slow|].
  split; [right; right; right; eexists; apply even_injected_slow|]. split; [right; right; right; eexists; apply (even_injected_timed t E)|]. split; [right; left; apply (even_timed t E)|].
  unfold corner, pixel, spots. cbn. repeat split; lra.
Qed.
