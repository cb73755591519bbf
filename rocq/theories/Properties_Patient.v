(** * C118-C119: traps of the class [Trap], whatever their capture timescale: order, differences, and the inverse of the
    readout, also beside the other kinds of traps. *)
From Coq Require Import ZArith List Bool Reals Lra Lia Sorted.
From Verif Require Import Num Py RFacts CCDModel TrapsModel ManagerModel ROEModel ClockModel MainModel ContinuumModel Spec SpecROE SpecImage SpecReadout SpecTime SpecSlow SpecHistory SpecHold SpecBound SpecRecovery SpecPhases SpecInjectionOrder SpecWindowOrder SpecAbove SpecFlatten SpecContinuum SpecPatient
  ReadoutExamples ContinuumFacts LogNormalFacts GridFacts SteadyFacts ContractFacts WindowGridFacts AboveGridFacts InverseFacts TimesGridFacts OrderlyFacts HistoryFacts HistorySpecFacts ReadoutImage SlowExamples SlowOrderFacts SlowGridFacts Properties_AboveOrder Properties_TimesOrder.
Import ListNotations.
Open Scope R_scope.

(** ** C118: the call never fails, more charge in gives more charge out, small changes have small
    effects, no two images give the same result, and no pixel changes by more than the traps that
    it passes.  The two directions may have traps of different kinds. *)
Theorem C118_more_charge_in_more_charge_out a b parallel serial time rows cols floor : 0 < floor -> (0 < rows)%nat -> (0 < cols)%nat ->
  times_fit floor parallel rows time -> any_call floor parallel rows -> any_call floor serial cols -> shape rows cols a -> shape rows cols b ->
  (forall i j, 0 <= pixel a i j) -> any_above floor 1 parallel serial rows cols a -> (forall i j, (i < rows)%nat -> (j < cols)%nat -> pixel a i j <= pixel b i j) ->
  exists a' b' pr sr, add_cti a parallel serial time = Ok (a', pr, sr) /\ add_cti b parallel serial time = Ok (b', pr, sr) /\
    forall i j, (i < rows)%nat -> (j < cols)%nat -> pixel a' i j <= pixel b' i j.
Proof.
  intros Hfl Hr Hc Ht Hp Hs Sa Sb Pa Ca Hab. destruct (any_ready _ _ _ _ _ _ Hfl Hr Hc Ht Hp Hs) as (rp & rs & tw & lines & D1 & D2 & D3 & D4 & D5).
  destruct (orderly_order floor parallel serial rows cols _ _ (fun i x => any_nonneg floor serial cols i x Hs) Hr Hc rp rs time tw lines D1 D2 D3 D4 D5 a b Sa Sb Pa Ca Hab) as (a' & b' & H). exists a', b', rp, rs. exact H.
Qed.
Print Assumptions C118_more_charge_in_more_charge_out.
Theorem C118_differences_grow_at_most_by_a_factor parallel serial time rows cols floor : 0 < floor -> (0 < rows)%nat -> (0 < cols)%nat ->
  times_fit floor parallel rows time -> any_call floor parallel rows -> any_call floor serial cols ->
  exists K, 0 <= K /\ forall a b, shape rows cols a -> shape rows cols b ->
  (forall i j, 0 <= pixel a i j) -> (forall i j, 0 <= pixel b i j) ->
  any_above floor 1 parallel serial rows cols a -> any_above floor 1 parallel serial rows cols b ->
  exists a' b' pr sr, add_cti a parallel serial time = Ok (a', pr, sr) /\ add_cti b parallel serial time = Ok (b', pr, sr) /\
    image_apart a' b' <= K * image_apart a b.
Proof.
  intros Hfl Hr Hc Ht Hp Hs. destruct (any_ready _ _ _ _ _ _ Hfl Hr Hc Ht Hp Hs) as (rp & rs & tw & lines & D1 & D2 & D3 & D4 & D5).
  destruct (orderly_apart floor parallel serial rows cols _ _ (fun i x => any_nonneg floor serial cols i x Hs) Hr Hc rp rs time tw lines D1 D2 D3 D4 D5) as (K & HK & H). exists K. split; [exact HK|].
  intros a b Sa Sb Pa Pb Ca Cb. destruct (H a b Sa Sb Pa Pb Ca Cb) as (a' & b' & H'). exists a', b', rp, rs. exact H'.
Qed.
Print Assumptions C118_differences_grow_at_most_by_a_factor.
Theorem C118_different_images_stay_different a b out pr sr pr' sr' parallel serial time rows cols floor : 0 < floor -> (0 < rows)%nat -> (0 < cols)%nat ->
  times_fit floor parallel rows time -> any_call floor parallel rows -> any_call floor serial cols -> shape rows cols a -> shape rows cols b ->
  (forall i j, 0 <= pixel a i j) -> (forall i j, 0 <= pixel b i j) ->
  any_above floor 1 parallel serial rows cols a -> any_above floor 1 parallel serial rows cols b ->
  add_cti a parallel serial time = Ok (out, pr, sr) -> add_cti b parallel serial time = Ok (out, pr', sr') -> a = b.
Proof.
  intros Hfl Hr Hc Ht Hp Hs Sa Sb Pa Pb Ca Cb. destruct (any_ready _ _ _ _ _ _ Hfl Hr Hc Ht Hp Hs) as (rp & rs & tw & lines & D1 & D2 & D3 & D4 & D5).
  exact (orderly_injective floor parallel serial rows cols _ _ (fun i x => any_nonneg floor serial cols i x Hs) Hr Hc rp rs time tw lines D1 D2 D3 D4 D5 a b out pr sr pr' sr' Sa Sb Pa Pb Ca Cb).
Qed.
Print Assumptions C118_different_images_stay_different.
Theorem C118_no_pixel_changes_by_more_than_the_traps_it_passes im parallel serial time rows cols floor : 0 < floor -> (0 < rows)%nat -> (0 < cols)%nat ->
  times_fit floor parallel rows time -> any_call floor parallel rows -> any_call floor serial cols -> shape rows cols im -> (forall i j, 0 <= pixel im i j) ->
  any_above floor 1 parallel serial rows cols im ->
  exists im' pr sr, add_cti im parallel serial time = Ok (im', pr, sr) /\ shape rows cols im' /\ (forall i j, 0 <= pixel im' i j) /\
    forall i j p s, (i < rows)%nat -> (j < cols)%nat -> any_limit parallel rows i p -> any_limit serial cols j s ->
      Rabs (pixel im' i j - pixel im i j) <= p + s.
Proof.
  intros Hfl Hr Hc Ht Hp Hs Si Pi Ci. destruct (any_ready _ _ _ _ _ _ Hfl Hr Hc Ht Hp Hs) as (rp & rs & tw & lines & D1 & D2 & D3 & D4 & D5).
  destruct (orderly_map floor parallel serial rows cols _ _ (fun i x => any_nonneg floor serial cols i x Hs) Hr Hc rp rs time tw lines D1 D2 D3 D4 D5) as (gain & big & F & _ & _ & _ & HF).
  destruct (HF im Si Pi Ci) as (im' & E & S' & P' & _ & B). exists im', rp, rs. auto.
Qed.
Print Assumptions C118_no_pixel_changes_by_more_than_the_traps_it_passes.

(** The description of the readout past slow traps (C65) ends where the recomputed cloud passes the
    highest level.  In wells that grow slowly enough it never does, so it is the whole story. *)
Theorem C118_description_past_slow_traps_is_complete im parallel serial c fraction group dwell full beta rows cols floor : 0 < floor -> (0 < rows)%nat ->
  single_phase parallel rows c fraction group dwell false -> Forall (fun t => t_class t = CTrap) group -> Forall capturing group ->
  phase_params c 0 0 beta full -> 0 < full -> 0 < beta -> slow_growth floor 1 (fraction * full_traps group) beta full ->
  d_traps serial = None -> d_window serial = WNone -> shape rows cols im -> (forall i j, 0 <= pixel im i j) ->
  (forall i j, (i < rows)%nat -> (j < cols)%nat -> floor + INR (i + 1 + d_offset parallel) * (fraction * full_traps group) <= pixel im i j) ->
  exists outs im', columns_past (past_slow (map (thinned fraction) group) (depth full beta) dwell) false (0, empty_profile) (0, empty_profile)
      (d_offset parallel) (map (column_of im) (seq 0 cols)) = Ok outs /\
    add_cti im parallel serial None = Ok (im', the_roe parallel, the_roe serial) /\ shape rows cols im' /\
    length outs = cols /\ forall j, (j < cols)%nat -> column_of im' j = nth j outs [].
Proof.
  intros Hfl Hr H1 H2 H3 H4 H5 H6 H7 N1 N2 Hs Hp Hch.
  destruct (patient_described floor parallel rows c fraction group dwell full beta im cols Hfl H1 H2 H3 H5 H6 H7 Hs Hch) as [outs E].
  destruct (slow_image im parallel serial c fraction group dwell (depth full beta) rows cols outs Hs Hr Hp H1 H2 H3 (depth_sensitive full beta H5 H6) (fun x Hx => depth_fill c 0 beta full x H4 H5 H6 Hx) N1 N2 E) as (im' & K). exists outs, im'. auto.
Qed.
Print Assumptions C118_description_past_slow_traps_is_complete.

(** ** C119: every image with enough charge is the readout of exactly one image, to which remove_cti
    converges at a geometric rate that is the same for all images; noise is enlarged by a
    bounded factor. *)
Theorem C119_every_image_is_the_readout_of_one_image parallel serial time rows cols floor : 0 < floor -> (0 < rows)%nat -> (0 < cols)%nat ->
  times_fit floor parallel rows time -> any_call floor parallel rows -> any_call floor serial cols ->
  exists C r, 0 <= C /\ 0 <= r < 1 /\ forall im, shape rows cols im -> any_above floor 2 parallel serial rows cols im ->
  exists x pr sr, shape rows cols x /\ any_above floor 1 parallel serial rows cols x /\ add_cti x parallel serial time = Ok (im, pr, sr) /\
    (forall y pr' sr', shape rows cols y -> (forall i j, 0 <= pixel y i j) -> any_above floor 1 parallel serial rows cols y -> add_cti y parallel serial time = Ok (im, pr', sr') -> y = x) /\
    forall n, exists est, remove_cti im n parallel serial time = Ok est /\ shape rows cols est /\
      image_apart est x <= C * r ^ n * image_apart im x.
Proof.
  intros Hfl Hr Hc Ht Hp Hs. destruct (any_ready _ _ _ _ _ _ Hfl Hr Hc Ht Hp Hs) as (rp & rs & tw & lines & D1 & D2 & D3 & D4 & D5).
  destruct (orderly_map floor parallel serial rows cols _ _ (fun i x => any_nonneg floor serial cols i x Hs) Hr Hc rp rs time tw lines D1 D2 D3 D4 D5) as (gain & big & F & Hg & Hb & HT & HF).
  exists (scale_of gain big (rows * cols)), (1 - gain / 2). split; [left; now apply scale_pos|]. split; [now apply rate_range|]. intros im Si Ci.
  destruct (orderly_undone floor 1 parallel serial rows cols _ _ (fun i x => any_nonneg floor parallel rows i x Hp) (fun i x => any_nonneg floor serial cols i x Hs) (Rlt_le _ _ Hfl) Rle_0_1 Hr Hc rp rs time gain big F Hg Hb HT HF im Si ltac:(replace (1 + 1) with 2 by lra; exact Ci)) as (x & Sx & Nx & Cx & Ex & Ux & Ax).
  exists x, rp, rs. split; [exact Sx|]. split; [exact Cx|]. split; [exact Ex|]. split; [exact Ux|exact Ax].
Qed.
Print Assumptions C119_every_image_is_the_readout_of_one_image.
Theorem C119_correction_recovers_the_image x parallel serial time rows cols floor : 0 < floor -> (0 < rows)%nat -> (0 < cols)%nat ->
  times_fit floor parallel rows time -> any_call floor parallel rows -> any_call floor serial cols -> shape rows cols x ->
  any_above floor 3 parallel serial rows cols x ->
  exists im pr sr, add_cti x parallel serial time = Ok (im, pr, sr) /\
  exists C r, 0 <= C /\ 0 <= r < 1 /\ forall k, exists est, remove_cti im k parallel serial time = Ok est /\ shape rows cols est /\
    image_apart est x <= C * r ^ k.
Proof.
  intros Hfl Hr Hc Ht Hp Hs Sx Cx. destruct (any_ready _ _ _ _ _ _ Hfl Hr Hc Ht Hp Hs) as (rp & rs & tw & lines & D1 & D2 & D3 & D4 & D5).
  destruct (orderly_recover floor parallel serial rows cols _ _ (fun i x => any_nonneg floor parallel rows i x Hp) (fun i x => any_nonneg floor serial cols i x Hs) Hfl Hr Hc rp rs time tw lines D1 D2 D3 D4 D5 x Sx Cx) as (im & E & H). exists im, rp, rs. split; [exact E|exact H].
Qed.
Print Assumptions C119_correction_recovers_the_image.
Theorem C119_noise_is_amplified_by_a_bounded_factor parallel serial time rows cols floor : 0 < floor -> (0 < rows)%nat -> (0 < cols)%nat ->
  times_fit floor parallel rows time -> any_call floor parallel rows -> any_call floor serial cols ->
  exists K, 0 <= K /\ forall a b n, shape rows cols a -> shape rows cols b -> any_above floor 2 parallel serial rows cols a -> any_above floor 2 parallel serial rows cols b ->
  exists a' b', remove_cti a n parallel serial time = Ok a' /\ remove_cti b n parallel serial time = Ok b' /\ image_apart a' b' <= K * image_apart a b.
Proof.
  intros Hfl Hr Hc Ht Hp Hs. destruct (any_ready _ _ _ _ _ _ Hfl Hr Hc Ht Hp Hs) as (rp & rs & tw & lines & D1 & D2 & D3 & D4 & D5).
  destruct (orderly_map floor parallel serial rows cols _ _ (fun i x => any_nonneg floor serial cols i x Hs) Hr Hc rp rs time tw lines D1 D2 D3 D4 D5) as (gain & big & F & Hg & Hb & HT & HF).
  exists (scale_of gain big (rows * cols) * (1 + 2 / gain)). split.
  { apply Rmult_le_pos; [left; now apply scale_pos|]. assert (0 < 2 / gain) by (apply Rdiv_lt_0_compat; lra). lra. }
  intros a b n Sa Sb Ca Cb. apply (orderly_noise floor 1 parallel serial rows cols _ _ (fun i x => any_nonneg floor parallel rows i x Hp) (fun i x => any_nonneg floor serial cols i x Hs) (Rlt_le _ _ Hfl) Rle_0_1 Hr Hc rp rs time gain big F Hg Hb HT HF a b Sa Sb); replace (1 + 1) with 2 by lra; assumption.
Qed.
Print Assumptions C119_noise_is_amplified_by_a_bounded_factor.

(** ** Slow traps in both directions, in wells that fill as the square root of the charge, and
    beside instant traps or a log-normal continuum. *)
Definition patient_columns_dir : direction R := mkDir (Some root_ccd) (Some (roe_init [2] true true false DInt)) (Some (TOne (slow_trap (1 / 8)))) 0 1 WNone.
Definition patient_rows_dir : direction R := mkDir (Some root_ccd) (Some (roe_init [1] true true true DFloat)) (Some (TNested [[slow_trap (1 / 8)]])) 9 0 WNone.
Lemma patient_columns_setting : single_phase patient_columns_dir 3 root_ccd 1 [slow_trap (1 / 8)] 2 false.
Proof. constructor; try reflexivity; try lra; [exists (TOne (slow_trap (1 / 8))); split; reflexivity|discriminate|exists false, DInt; reflexivity|left; reflexivity]. Qed.
Lemma patient_rows_setting : single_phase patient_rows_dir 4 root_ccd 1 [slow_trap (1 / 8)] 1 false.
Proof. constructor; try reflexivity; try lra; [exists (TNested [[slow_trap (1 / 8)]]); split; reflexivity|discriminate|exists true, DFloat; reflexivity|right; cbn; lia]. Qed.
Lemma patient_growth : phase_params root_ccd 0 0 (1 / 2) 100 /\ slow_growth 1 1 (1 * full_traps [slow_trap (1 / 8)]) (1 / 2) 100.
Proof. split; [constructor; reflexivity|]. right. rewrite root_depth. unfold full_traps. cbn. lra. Qed.
Lemma patient_columns_call : patient_call 1 patient_columns_dir 3.
Proof.
  destruct patient_growth as [H3 H4]. exists root_ccd, 1, [slow_trap (1 / 8)], 2, 100, (1 / 2).
  split; [apply patient_columns_setting|]. split; [constructor; [reflexivity|constructor]|]. split; [apply slow_trap_capturing; lra|]. split; [exact H3|]. split; [lra|]. split; [lra|exact H4].
Qed.
Lemma patient_rows_call : patient_call 1 patient_rows_dir 4.
Proof.
  destruct patient_growth as [H3 H4]. exists root_ccd, 1, [slow_trap (1 / 8)], 1, 100, (1 / 2).
  split; [apply patient_rows_setting|]. split; [constructor; [reflexivity|constructor]|]. split; [apply slow_trap_capturing; lra|]. split; [exact H3|]. split; [lra|]. split; [lra|exact H4].
Qed.
Lemma patient_columns_limit j : (j < 3)%nat -> exists s, any_limit patient_columns_dir 3 j s /\ 0 <= s <= 1.
Proof.
  intros Hj. eexists. split; [right; apply (limit_patient _ 3 j root_ccd 1 [slow_trap (1 / 8)] 2); [apply patient_columns_setting|constructor; [reflexivity|constructor]]|]. unfold full_traps. destruct j as [|[|[|j]]]; [| | |lia]; cbn; lra.
Qed.
Lemma patient_rows_limit i : (i < 4)%nat -> exists s, any_limit patient_rows_dir 4 i s /\ 0 <= s <= 1.
Proof.
  intros Hj. eexists. split; [right; apply (limit_patient _ 4 i root_ccd 1 [slow_trap (1 / 8)] 1); [apply patient_rows_setting|constructor; [reflexivity|constructor]]|]. unfold full_traps. destruct i as [|[|[|[|i]]]]; [| | | |lia]; cbn; lra.
Qed.
Lemma any_charged parallel serial k : 1 <= k <= 3 -> (forall i, (i < 4)%nat -> exists p, any_limit parallel 4 i p /\ 0 <= p <= 1) -> (forall j, (j < 3)%nat -> exists s, any_limit serial 3 j s /\ 0 <= s <= 1) -> any_above 1 k parallel serial 4 3 faint.
Proof.
  intros Hk HP HS i j Hi Hj. destruct (HP i Hi) as (p & Lp & Bp). destruct (HS j Hj) as (s & Ls & Bs). exists p, s. split; [exact Lp|]. split; [exact Ls|].
  assert (k * (p + s) <= 6) by nra. destruct i as [|[|[|[|i]]]]; [| | | |lia]; (destruct j as [|[|[|j]]]; [| | |lia]); unfold pixel; cbn; lra.
Qed.
Lemma any_from_rows i : (i < 4)%nat -> exists p, any_limit root_rows 4 i p /\ 0 <= p <= 1.
Proof. intros Hi. destruct (root_rows_limit i Hi) as (p & Lp & Bp). exists p. split; [left; left; exact Lp|exact Bp]. Qed.
Lemma any_from_timed t j : log_normal_trap (fun _ x => x) (1 / 8) 3 (1 / 2) = Ok t -> (j < 3)%nat -> exists s, any_limit (timed_columns t) 3 j s /\ 0 <= s <= 1.
Proof. intros E Hj. destruct (timed_columns_limit t E j Hj) as (s & Ls & Bs). exists s. split; [left; exact Ls|exact Bs]. Qed.
Example C118_example : exists t, log_normal_trap (fun _ x => x) (1 / 8) 3 (1 / 2) = Ok t /\
  times_fit 1 root_rows 4 (Some (py_range 1 3)) /\ times_fit 1 patient_rows_dir 4 None /\
  any_call 1 root_rows 4 /\ any_call 1 patient_rows_dir 4 /\ any_call 1 patient_columns_dir 3 /\ any_call 1 (timed_columns t) 3 /\
  shape 4 3 faint /\ shape 4 3 faint_more /\ (forall i j, 0 <= pixel faint i j) /\
  any_above 1 1 root_rows patient_columns_dir 4 3 faint /\ any_above 1 1 patient_rows_dir patient_columns_dir 4 3 faint /\ any_above 1 1 patient_rows_dir (timed_columns t) 4 3 faint /\
  (forall i j, (i < 4)%nat -> (j < 3)%nat -> pixel faint i j <= pixel faint_more i j) /\ faint <> faint_more.
Proof.
  destruct (continuum_built log_normal_distribution (fun _ x => x) (1 / 8) 3 (1 / 2) ltac:(lra)) as (t & E & _ & _). exists t. split; [exact E|].
  destruct C108_example as (H1 & H2 & _ & _ & _ & H3 & H4 & H5 & _ & _ & H6 & H7).
  split; [split; [exact H1|right; exact H2]|]. split; [split; [constructor|left; reflexivity]|]. split; [left; left; exact H2|]. split; [right; exact patient_rows_call|]. split; [right; exact patient_columns_call|]. split; [left; right; now apply timed_columns_call|].
  split; [exact H3|]. split; [exact H4|]. split; [exact H5|].
  split; [apply any_charged; [lra|exact any_from_rows|exact patient_columns_limit]|].
  split; [apply any_charged; [lra|exact patient_rows_limit|exact patient_columns_limit]|].
  split; [apply any_charged; [lra|exact patient_rows_limit|intros j; now apply any_from_timed]|].
  split; [exact H6|exact H7].
Qed.
Example C119_example : any_above 1 3 root_rows patient_columns_dir 4 3 faint /\ any_above 1 2 patient_rows_dir patient_columns_dir 4 3 faint.
Proof. split; (apply any_charged; [lra| |exact patient_columns_limit]); [exact any_from_rows|exact patient_rows_limit]. Qed.
Example C118_description_example : (forall i j, (i < 4)%nat -> (j < 3)%nat -> 1 + INR (i + 1 + d_offset patient_rows_dir) * (1 * full_traps [slow_trap (1 / 8)]) <= pixel faint i j) /\
  d_traps (no_direction (F := R)) = None /\ d_window (no_direction (F := R)) = WNone.
Proof.
  split; [|split; reflexivity]. intros i j Hi Hj. unfold full_traps. destruct i as [|[|[|[|i]]]]; [| | | |lia]; (destruct j as [|[|[|j]]]; [| | |lia]); unfold pixel; cbn; lra.
Qed.
(** The default [Trap], whose capture timescale is 0. *)
Definition prompt_rows : direction R := mkDir (Some root_ccd) (Some (roe_init [1] true true true DFloat)) (Some (TOne (prompt_trap (1 / 8)))) 9 0 WNone.
Example C118_default_trap : trap_init (1 / 8) 1 0 false = Ok (prompt_trap (1 / 8)) /\ any_call 1 prompt_rows 4 /\ any_above 1 3 prompt_rows patient_columns_dir 4 3 faint.
Proof.
  assert (S : single_phase prompt_rows 4 root_ccd 1 [prompt_trap (1 / 8)] 1 false).
  { constructor; try reflexivity; try lra; [exists (TOne (prompt_trap (1 / 8))); split; reflexivity|discriminate|exists true, DFloat; reflexivity|right; cbn; lia]. }
  split; [apply prompt_trap_init|]. split.
  - right. exists root_ccd, 1, [prompt_trap (1 / 8)], 1, 100, (1 / 2). split; [exact S|]. split; [constructor; [reflexivity|constructor]|]. split; [apply prompt_trap_capturing; lra|].
    split; [constructor; reflexivity|]. split; [lra|]. split; [lra|]. right. rewrite root_depth. unfold full_traps. cbn. lra.
  - apply any_charged; [lra| |exact patient_columns_limit]. intros i Hi. eexists. split; [right; apply (limit_patient _ 4 i root_ccd 1 [prompt_trap (1 / 8)] 1); [exact S|constructor; [reflexivity|constructor]]|].
    unfold full_traps. destruct i as [|[|[|[|i]]]]; [| | | |lia]; cbn; lra.
Qed.
