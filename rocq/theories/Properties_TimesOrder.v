(** * C114-C115: traps that record times, such as those with a continuum of lifetimes: order,
    differences, and the inverse of the readout. *)
From Coq Require Import ZArith List Bool Reals Lra Lia Sorted.
From Verif Require Import Num Py RFacts CCDModel TrapsModel ManagerModel ROEModel ClockModel MainModel ContinuumModel Spec SpecROE SpecImage SpecReadout SpecTime SpecHistory SpecHold SpecBound SpecRecovery SpecPhases SpecInjectionOrder SpecWindowOrder SpecAbove SpecFlatten SpecContinuum
  ReadoutExamples ContinuumFacts LogNormalFacts GridFacts SteadyFacts ContractFacts WindowGridFacts AboveGridFacts InverseFacts TimesGridFacts OrderlyFacts Properties_AboveOrder.
Import ListNotations.
Open Scope R_scope.

(** The log-normal continua that the code provides, and exponentials, flatten. *)
Theorem C114_continua_flatten root density m sigma t : 0 <= density -> 0 < m -> 0 < sigma -> log_normal_trap root density m sigma = Ok t -> flattening t.
Proof. exact (log_normal_flattens root density m sigma t). Qed.
Print Assumptions C114_continua_flatten.

(** ** C114: the call never fails, more charge in gives more charge out, small changes have small
    effects, no two images give the same result, and no pixel changes by more than the traps that
    it passes.  The two directions may have traps of different kinds. *)
Theorem C114_more_charge_in_more_charge_out a b parallel serial time rows cols floor : 0 < floor -> (0 < rows)%nat -> (0 < cols)%nat ->
  times_fit floor parallel rows time -> orderly_call floor parallel rows -> orderly_call floor serial cols -> shape rows cols a -> shape rows cols b ->
  (forall i j, 0 <= pixel a i j) -> keeps_above floor 1 parallel serial rows cols a -> (forall i j, (i < rows)%nat -> (j < cols)%nat -> pixel a i j <= pixel b i j) ->
  exists a' b' pr sr, add_cti a parallel serial time = Ok (a', pr, sr) /\ add_cti b parallel serial time = Ok (b', pr, sr) /\
    forall i j, (i < rows)%nat -> (j < cols)%nat -> pixel a' i j <= pixel b' i j.
Proof.
  intros Hfl Hr Hc Ht Hp Hs Sa Sb Pa Ca Hab. destruct (orderly_ready _ _ _ _ _ _ Hfl Hr Hc Ht Hp Hs) as (rp & rs & tw & lines & D1 & D2 & D3 & D4 & D5).
  destruct (orderly_order floor parallel serial rows cols _ _ (fun i x => orderly_nonneg floor serial cols i x Hs) Hr Hc rp rs time tw lines D1 D2 D3 D4 D5 a b Sa Sb Pa Ca Hab) as (a' & b' & H). exists a', b', rp, rs. exact H.
Qed.
Print Assumptions C114_more_charge_in_more_charge_out.
Theorem C114_differences_grow_at_most_by_a_factor parallel serial time rows cols floor : 0 < floor -> (0 < rows)%nat -> (0 < cols)%nat ->
  times_fit floor parallel rows time -> orderly_call floor parallel rows -> orderly_call floor serial cols ->
  exists K, 0 <= K /\ forall a b, shape rows cols a -> shape rows cols b ->
  (forall i j, 0 <= pixel a i j) -> (forall i j, 0 <= pixel b i j) ->
  keeps_above floor 1 parallel serial rows cols a -> keeps_above floor 1 parallel serial rows cols b ->
  exists a' b' pr sr, add_cti a parallel serial time = Ok (a', pr, sr) /\ add_cti b parallel serial time = Ok (b', pr, sr) /\
    image_apart a' b' <= K * image_apart a b.
Proof.
  intros Hfl Hr Hc Ht Hp Hs. destruct (orderly_ready _ _ _ _ _ _ Hfl Hr Hc Ht Hp Hs) as (rp & rs & tw & lines & D1 & D2 & D3 & D4 & D5).
  destruct (orderly_apart floor parallel serial rows cols _ _ (fun i x => orderly_nonneg floor serial cols i x Hs) Hr Hc rp rs time tw lines D1 D2 D3 D4 D5) as (K & HK & H). exists K. split; [exact HK|].
  intros a b Sa Sb Pa Pb Ca Cb. destruct (H a b Sa Sb Pa Pb Ca Cb) as (a' & b' & H'). exists a', b', rp, rs. exact H'.
Qed.
Print Assumptions C114_differences_grow_at_most_by_a_factor.
Theorem C114_different_images_stay_different a b out pr sr pr' sr' parallel serial time rows cols floor : 0 < floor -> (0 < rows)%nat -> (0 < cols)%nat ->
  times_fit floor parallel rows time -> orderly_call floor parallel rows -> orderly_call floor serial cols -> shape rows cols a -> shape rows cols b ->
  (forall i j, 0 <= pixel a i j) -> (forall i j, 0 <= pixel b i j) ->
  keeps_above floor 1 parallel serial rows cols a -> keeps_above floor 1 parallel serial rows cols b ->
  add_cti a parallel serial time = Ok (out, pr, sr) -> add_cti b parallel serial time = Ok (out, pr', sr') -> a = b.
Proof.
  intros Hfl Hr Hc Ht Hp Hs Sa Sb Pa Pb Ca Cb. destruct (orderly_ready _ _ _ _ _ _ Hfl Hr Hc Ht Hp Hs) as (rp & rs & tw & lines & D1 & D2 & D3 & D4 & D5).
  exact (orderly_injective floor parallel serial rows cols _ _ (fun i x => orderly_nonneg floor serial cols i x Hs) Hr Hc rp rs time tw lines D1 D2 D3 D4 D5 a b out pr sr pr' sr' Sa Sb Pa Pb Ca Cb).
Qed.
Print Assumptions C114_different_images_stay_different.
Theorem C114_no_pixel_changes_by_more_than_the_traps_it_passes im parallel serial time rows cols floor : 0 < floor -> (0 < rows)%nat -> (0 < cols)%nat ->
  times_fit floor parallel rows time -> orderly_call floor parallel rows -> orderly_call floor serial cols -> shape rows cols im -> (forall i j, 0 <= pixel im i j) ->
  keeps_above floor 1 parallel serial rows cols im ->
  exists im' pr sr, add_cti im parallel serial time = Ok (im', pr, sr) /\ shape rows cols im' /\ (forall i j, 0 <= pixel im' i j) /\
    forall i j p s, (i < rows)%nat -> (j < cols)%nat -> orderly_limit parallel rows i p -> orderly_limit serial cols j s ->
      Rabs (pixel im' i j - pixel im i j) <= p + s.
Proof.
  intros Hfl Hr Hc Ht Hp Hs Si Pi Ci. destruct (orderly_ready _ _ _ _ _ _ Hfl Hr Hc Ht Hp Hs) as (rp & rs & tw & lines & D1 & D2 & D3 & D4 & D5).
  destruct (orderly_map floor parallel serial rows cols _ _ (fun i x => orderly_nonneg floor serial cols i x Hs) Hr Hc rp rs time tw lines D1 D2 D3 D4 D5) as (gain & big & F & _ & _ & _ & HF).
  destruct (HF im Si Pi Ci) as (im' & E & S' & P' & _ & B). exists im', rp, rs. auto.
Qed.
Print Assumptions C114_no_pixel_changes_by_more_than_the_traps_it_passes.

(** ** C115: every image with enough charge is the readout of exactly one image, to which remove_cti
    converges at a geometric rate that is the same for all images; noise is enlarged by a
    bounded factor. *)
Theorem C115_every_image_is_the_readout_of_one_image parallel serial time rows cols floor : 0 < floor -> (0 < rows)%nat -> (0 < cols)%nat ->
  times_fit floor parallel rows time -> orderly_call floor parallel rows -> orderly_call floor serial cols ->
  exists C r, 0 <= C /\ 0 <= r < 1 /\ forall im, shape rows cols im -> keeps_above floor 2 parallel serial rows cols im ->
  exists x pr sr, shape rows cols x /\ keeps_above floor 1 parallel serial rows cols x /\ add_cti x parallel serial time = Ok (im, pr, sr) /\
    (forall y pr' sr', shape rows cols y -> (forall i j, 0 <= pixel y i j) -> keeps_above floor 1 parallel serial rows cols y -> add_cti y parallel serial time = Ok (im, pr', sr') -> y = x) /\
    forall n, exists est, remove_cti im n parallel serial time = Ok est /\ shape rows cols est /\
      image_apart est x <= C * r ^ n * image_apart im x.
Proof.
  intros Hfl Hr Hc Ht Hp Hs. destruct (orderly_ready _ _ _ _ _ _ Hfl Hr Hc Ht Hp Hs) as (rp & rs & tw & lines & D1 & D2 & D3 & D4 & D5).
  destruct (orderly_map floor parallel serial rows cols _ _ (fun i x => orderly_nonneg floor serial cols i x Hs) Hr Hc rp rs time tw lines D1 D2 D3 D4 D5) as (gain & big & F & Hg & Hb & HT & HF).
  exists (scale_of gain big (rows * cols)), (1 - gain / 2). split; [left; now apply scale_pos|]. split; [now apply rate_range|]. intros im Si Ci.
  destruct (orderly_undone floor 1 parallel serial rows cols _ _ (fun i x => orderly_nonneg floor parallel rows i x Hp) (fun i x => orderly_nonneg floor serial cols i x Hs) (Rlt_le _ _ Hfl) Rle_0_1 Hr Hc rp rs time gain big F Hg Hb HT HF im Si ltac:(replace (1 + 1) with 2 by lra; exact Ci)) as (x & Sx & Nx & Cx & Ex & Ux & Ax).
  exists x, rp, rs. split; [exact Sx|]. split; [exact Cx|]. split; [exact Ex|]. split; [exact Ux|exact Ax].
Qed.
Print Assumptions C115_every_image_is_the_readout_of_one_image.
Theorem C115_correction_recovers_the_image x parallel serial time rows cols floor : 0 < floor -> (0 < rows)%nat -> (0 < cols)%nat ->
  times_fit floor parallel rows time -> orderly_call floor parallel rows -> orderly_call floor serial cols -> shape rows cols x ->
  keeps_above floor 3 parallel serial rows cols x ->
  exists im pr sr, add_cti x parallel serial time = Ok (im, pr, sr) /\
  exists C r, 0 <= C /\ 0 <= r < 1 /\ forall k, exists est, remove_cti im k parallel serial time = Ok est /\ shape rows cols est /\
    image_apart est x <= C * r ^ k.
Proof.
  intros Hfl Hr Hc Ht Hp Hs Sx Cx. destruct (orderly_ready _ _ _ _ _ _ Hfl Hr Hc Ht Hp Hs) as (rp & rs & tw & lines & D1 & D2 & D3 & D4 & D5).
  destruct (orderly_recover floor parallel serial rows cols _ _ (fun i x => orderly_nonneg floor parallel rows i x Hp) (fun i x => orderly_nonneg floor serial cols i x Hs) Hfl Hr Hc rp rs time tw lines D1 D2 D3 D4 D5 x Sx Cx) as (im & E & H). exists im, rp, rs. split; [exact E|exact H].
Qed.
Print Assumptions C115_correction_recovers_the_image.
Theorem C115_noise_is_amplified_by_a_bounded_factor parallel serial time rows cols floor : 0 < floor -> (0 < rows)%nat -> (0 < cols)%nat ->
  times_fit floor parallel rows time -> orderly_call floor parallel rows -> orderly_call floor serial cols ->
  exists K, 0 <= K /\ forall a b n, shape rows cols a -> shape rows cols b -> keeps_above floor 2 parallel serial rows cols a -> keeps_above floor 2 parallel serial rows cols b ->
  exists a' b', remove_cti a n parallel serial time = Ok a' /\ remove_cti b n parallel serial time = Ok b' /\ image_apart a' b' <= K * image_apart a b.
Proof.
  intros Hfl Hr Hc Ht Hp Hs. destruct (orderly_ready _ _ _ _ _ _ Hfl Hr Hc Ht Hp Hs) as (rp & rs & tw & lines & D1 & D2 & D3 & D4 & D5).
  destruct (orderly_map floor parallel serial rows cols _ _ (fun i x => orderly_nonneg floor serial cols i x Hs) Hr Hc rp rs time tw lines D1 D2 D3 D4 D5) as (gain & big & F & Hg & Hb & HT & HF).
  exists (scale_of gain big (rows * cols) * (1 + 2 / gain)). split.
  { apply Rmult_le_pos; [left; now apply scale_pos|]. assert (0 < 2 / gain) by (apply Rdiv_lt_0_compat; lra). lra. }
  intros a b n Sa Sb Ca Cb. apply (orderly_noise floor 1 parallel serial rows cols _ _ (fun i x => orderly_nonneg floor parallel rows i x Hp) (fun i x => orderly_nonneg floor serial cols i x Hs) (Rlt_le _ _ Hfl) Rle_0_1 Hr Hc rp rs time gain big F Hg Hb HT HF a b Sa Sb); replace (1 + 1) with 2 by lra; assumption.
Qed.
Print Assumptions C115_noise_is_amplified_by_a_bounded_factor.

(** ** A log-normal continuum in the serial direction, in wells that fill as the square root of the
    charge, after instant traps in a window and some of the times, or a continuum there too. *)
Definition timed_columns (t : trap R) : direction R := mkDir (Some root_ccd) (Some (roe_init [2] true true false DInt)) (Some (TOne t)) 0 1 WNone.
Definition timed_rows (t : trap R) : direction R := mkDir (Some root_ccd) (Some (roe_init [1] true true true DFloat)) (Some (TNested [[t]])) 9 0 WNone.
Section Example.
Context (t : trap R).
Hypothesis Ht : log_normal_trap (fun _ x => x) (1 / 8) 3 (1 / 2) = Ok t.
Lemma timed_columns_setting : single_phase (timed_columns t) 3 root_ccd 1 [t] 2 false.
Proof. constructor; try reflexivity; try lra; [exists (TOne t); split; reflexivity|discriminate|exists false, DInt; reflexivity|left; reflexivity]. Qed.
Lemma timed_rows_setting : single_phase (timed_rows t) 4 root_ccd 1 [t] 1 false.
Proof. constructor; try reflexivity; try lra; [exists (TNested [[t]]); split; reflexivity|discriminate|exists true, DFloat; reflexivity|right; cbn; lia]. Qed.
Lemma timed_trap : kind_for [t] = KTime /\ Forall flattening [t] /\ filled_traps [t] = 1 / 8.
Proof.
  destruct (continuum_built log_normal_distribution (fun _ x => x) (1 / 8) 3 (1 / 2) ltac:(lra)) as (t' & E' & Ed & Ec). pose proof Ht as E. unfold log_normal_trap in E. rewrite E in E'. injection E' as <-.
  split; [unfold kind_for; rewrite Ec; reflexivity|]. split; [constructor; [|constructor]; apply (C114_continua_flatten (fun _ x => x) (1 / 8) 3 (1 / 2)); [lra|lra|lra|exact Ht]|].
  unfold filled_traps. cbn [map fold_right]. rewrite Ed. unfold fill_fraction_from_time_elapsed. rewrite Ec, fill_survival, survival_at_0 by (apply log_normal_lifetimes; lra). lra.
Qed.
Lemma timed_growth : phase_params root_ccd 0 0 (1 / 2) 100 /\ slow_growth 1 1 (1 * filled_traps [t]) (1 / 2) 100.
Proof. split; [constructor; reflexivity|]. right. rewrite root_depth. destruct timed_trap as (_ & _ & ->). lra. Qed.
Lemma timed_columns_call : timed_call 1 (timed_columns t) 3.
Proof.
  destruct timed_trap as (H1 & H2 & _). destruct timed_growth as [H3 H4]. exists root_ccd, 1, [t], 2, 100, (1 / 2).
  split; [apply timed_columns_setting|]. split; [exact H1|]. split; [exact H2|]. split; [exact H3|]. split; [lra|]. split; [lra|exact H4].
Qed.
Lemma timed_rows_call : timed_call 1 (timed_rows t) 4.
Proof.
  destruct timed_trap as (H1 & H2 & _). destruct timed_growth as [H3 H4]. exists root_ccd, 1, [t], 1, 100, (1 / 2).
  split; [apply timed_rows_setting|]. split; [exact H1|]. split; [exact H2|]. split; [exact H3|]. split; [lra|]. split; [lra|exact H4].
Qed.
Lemma timed_columns_limit j : (j < 3)%nat -> exists s, orderly_limit (timed_columns t) 3 j s /\ 0 <= s <= 1.
Proof.
  intros Hj. eexists. split; [right; apply (limit_timed _ 3 j root_ccd 1 [t] 2); [apply timed_columns_setting|apply timed_trap]|]. destruct timed_trap as (_ & _ & ->). destruct j as [|[|[|j]]]; [| | |lia]; cbn; lra.
Qed.
Lemma timed_rows_limit i : (i < 4)%nat -> exists s, orderly_limit (timed_rows t) 4 i s /\ 0 <= s <= 1.
Proof.
  intros Hj. eexists. split; [right; apply (limit_timed _ 4 i root_ccd 1 [t] 1); [apply timed_rows_setting|apply timed_trap]|]. destruct timed_trap as (_ & _ & ->). destruct i as [|[|[|[|i]]]]; [| | | |lia]; cbn; lra.
Qed.
Lemma timed_charged parallel k : 1 <= k <= 3 -> (forall i, (i < 4)%nat -> exists p, orderly_limit parallel 4 i p /\ 0 <= p <= 1) -> keeps_above 1 k parallel (timed_columns t) 4 3 faint.
Proof.
  intros Hk HP i j Hi Hj. destruct (HP i Hi) as (p & Lp & Bp). destruct (timed_columns_limit j Hj) as (s & Ls & Bs). exists p, s. split; [exact Lp|]. split; [exact Ls|].
  assert (k * (p + s) <= 6) by nra. destruct i as [|[|[|[|i]]]]; [| | | |lia]; (destruct j as [|[|[|j]]]; [| | |lia]); unfold pixel; cbn; lra.
Qed.
End Example.
Example C114_example : exists t, log_normal_trap (fun _ x => x) (1 / 8) 3 (1 / 2) = Ok t /\
  times_fit 1 root_rows 4 (Some (py_range 1 3)) /\ times_fit 1 (timed_rows t) 4 None /\
  orderly_call 1 root_rows 4 /\ orderly_call 1 (timed_rows t) 4 /\ orderly_call 1 (timed_columns t) 3 /\
  shape 4 3 faint /\ shape 4 3 faint_more /\ (forall i j, 0 <= pixel faint i j) /\
  keeps_above 1 1 root_rows (timed_columns t) 4 3 faint /\ keeps_above 1 1 (timed_rows t) (timed_columns t) 4 3 faint /\
  (forall i j, (i < 4)%nat -> (j < 3)%nat -> pixel faint i j <= pixel faint_more i j) /\ faint <> faint_more.
Proof.
  destruct (continuum_built log_normal_distribution (fun _ x => x) (1 / 8) 3 (1 / 2) ltac:(lra)) as (t & E & _ & _). exists t. split; [exact E|].
  destruct C108_example as (H1 & H2 & _ & _ & _ & H3 & H4 & H5 & _ & _ & H6 & H7).
  split; [split; [exact H1|right; exact H2]|]. split; [split; [constructor|left; reflexivity]|]. split; [left; exact H2|]. split; [right; now apply timed_rows_call|]. split; [right; now apply timed_columns_call|].
  split; [exact H3|]. split; [exact H4|]. split; [exact H5|]. split; [apply timed_charged; [exact E|lra|]|split; [apply timed_charged; [exact E|lra|]|split; [exact H6|exact H7]]].
  - intros i Hi. destruct (root_rows_limit i Hi) as (p & Lp & Bp). exists p. split; [left; exact Lp|exact Bp].
  - intros i Hi. now apply timed_rows_limit.
Qed.
Example C115_example : exists t, log_normal_trap (fun _ x => x) (1 / 8) 3 (1 / 2) = Ok t /\
  keeps_above 1 3 root_rows (timed_columns t) 4 3 faint /\ keeps_above 1 2 (timed_rows t) (timed_columns t) 4 3 faint.
Proof.
  destruct (continuum_built log_normal_distribution (fun _ x => x) (1 / 8) 3 (1 / 2) ltac:(lra)) as (t & E & _ & _). exists t. split; [exact E|].
  split; (apply timed_charged; [exact E|lra|]).
  - intros i Hi. destruct (root_rows_limit i Hi) as (p & Lp & Bp). exists p. split; [left; exact Lp|exact Bp].
  - intros i Hi. now apply timed_rows_limit.
Qed.
