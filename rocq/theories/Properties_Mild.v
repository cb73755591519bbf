(** * C120-C121: traps of any of the three kinds in wells that fill evenly or ever more slowly, for
    images that may have empty pixels: order, differences and recovery. *)
From Coq Require Import ZArith List Bool Reals Lra Lia Sorted.
From Verif Require Import Num Py RFacts CCDModel TrapsModel ManagerModel ROEModel ClockModel MainModel ContinuumModel Spec SpecROE SpecImage SpecReadout SpecTime SpecSlow SpecHistory SpecHold SpecBound SpecRecovery SpecPhases SpecInjectionOrder SpecWindowOrder SpecAbove SpecFlatten SpecContinuum SpecPatient SpecMild
  ReadoutExamples ContinuumFacts LogNormalFacts GridFacts WindowGridFacts SlowExamples MildFacts Properties_WindowOrder Properties_TimesOrder.
Import ListNotations.
Open Scope R_scope.

(** ** C120: the call never fails, more charge in gives more charge out, small changes have small effects, no two images
    give the same result, and no pixel changes by more than the traps it passes. *)
Theorem C120_more_charge_in_more_charge_out a b parallel serial time rows cols : (0 < rows)%nat -> (0 < cols)%nat ->
  mild_times parallel rows time -> mild_call parallel rows -> mild_call serial cols -> shape rows cols a -> shape rows cols b ->
  (forall i j, 0 <= pixel a i j) -> (forall i j, (i < rows)%nat -> (j < cols)%nat -> pixel a i j <= pixel b i j) ->
  exists a' b' pr sr, add_cti a parallel serial time = Ok (a', pr, sr) /\ add_cti b parallel serial time = Ok (b', pr, sr) /\
    forall i j, (i < rows)%nat -> (j < cols)%nat -> pixel a' i j <= pixel b' i j.
Proof.
  intros Hr Hc Ht Hp Hs Sa Sb Pa Hab. destruct (mild_ready _ _ _ _ _ Hr Hc Ht Hp Hs) as (rp & rs & tw & lines & D1 & D2 & D3 & D4 & D5).
  destruct (mild_order parallel serial rows cols _ _ Hr Hc rp rs time tw lines D1 D2 D3 D4 D5 a b Sa Sb Pa Hab) as (a' & b' & H). exists a', b', rp, rs. exact H.
Qed.
Print Assumptions C120_more_charge_in_more_charge_out.
Theorem C120_differences_grow_at_most_by_a_factor parallel serial time rows cols : (0 < rows)%nat -> (0 < cols)%nat ->
  mild_times parallel rows time -> mild_call parallel rows -> mild_call serial cols ->
  exists K, 0 <= K /\ forall a b, shape rows cols a -> shape rows cols b ->
  (forall i j, 0 <= pixel a i j) -> (forall i j, 0 <= pixel b i j) ->
  exists a' b' pr sr, add_cti a parallel serial time = Ok (a', pr, sr) /\ add_cti b parallel serial time = Ok (b', pr, sr) /\
    image_apart a' b' <= K * image_apart a b.
Proof.
  intros Hr Hc Ht Hp Hs. destruct (mild_ready _ _ _ _ _ Hr Hc Ht Hp Hs) as (rp & rs & tw & lines & D1 & D2 & D3 & D4 & D5).
  destruct (mild_apart parallel serial rows cols _ _ Hr Hc rp rs time tw lines D1 D2 D3 D4 D5) as (K & HK & H). exists K. split; [exact HK|].
  intros a b Sa Sb Pa Pb. destruct (H a b Sa Sb Pa Pb) as (a' & b' & H'). exists a', b', rp, rs. exact H'.
Qed.
Print Assumptions C120_differences_grow_at_most_by_a_factor.
Theorem C120_different_images_stay_different a b out pr sr pr' sr' parallel serial time rows cols : (0 < rows)%nat -> (0 < cols)%nat ->
  mild_times parallel rows time -> mild_call parallel rows -> mild_call serial cols -> shape rows cols a -> shape rows cols b ->
  (forall i j, 0 <= pixel a i j) -> (forall i j, 0 <= pixel b i j) ->
  add_cti a parallel serial time = Ok (out, pr, sr) -> add_cti b parallel serial time = Ok (out, pr', sr') -> a = b.
Proof.
  intros Hr Hc Ht Hp Hs Sa Sb Pa Pb. destruct (mild_ready _ _ _ _ _ Hr Hc Ht Hp Hs) as (rp & rs & tw & lines & D1 & D2 & D3 & D4 & D5).
  exact (mild_injective parallel serial rows cols _ _ Hr Hc rp rs time tw lines D1 D2 D3 D4 D5 a b out pr sr pr' sr' Sa Sb Pa Pb).
Qed.
Print Assumptions C120_different_images_stay_different.
Theorem C120_no_pixel_changes_by_more_than_the_traps_it_passes im parallel serial time rows cols : (0 < rows)%nat -> (0 < cols)%nat ->
  mild_times parallel rows time -> mild_call parallel rows -> mild_call serial cols -> shape rows cols im -> (forall i j, 0 <= pixel im i j) ->
  exists im' pr sr, add_cti im parallel serial time = Ok (im', pr, sr) /\ shape rows cols im' /\ (forall i j, 0 <= pixel im' i j) /\
    forall i j p s, (i < rows)%nat -> (j < cols)%nat -> any_limit parallel rows i p -> any_limit serial cols j s ->
      Rabs (pixel im' i j - pixel im i j) <= p + s.
Proof.
  intros Hr Hc Ht Hp Hs Si Pi. destruct (mild_ready _ _ _ _ _ Hr Hc Ht Hp Hs) as (rp & rs & tw & lines & D1 & D2 & D3 & D4 & D5).
  destruct (mild_map parallel serial rows cols _ _ Hr Hc rp rs time tw lines D1 D2 D3 D4 D5) as (gain & big & F & _ & _ & _ & HF).
  destruct (HF im Si Pi) as (im' & E & S' & P' & _ & B). exists im', rp, rs. auto.
Qed.
Print Assumptions C120_no_pixel_changes_by_more_than_the_traps_it_passes.

(** ** C121: remove_cti recovers the image that was read out, at a geometric
    rate. *)
Theorem C121_correction_recovers_the_image x parallel serial time rows cols : (0 < rows)%nat -> (0 < cols)%nat ->
  mild_times parallel rows time -> mild_call parallel rows -> mild_call serial cols -> shape rows cols x ->
  mild_enough parallel serial rows cols x ->
  exists im pr sr, add_cti x parallel serial time = Ok (im, pr, sr) /\
  exists C r, 0 <= C /\ 0 <= r < 1 /\ forall n, exists est, remove_cti im n parallel serial time = Ok est /\ shape rows cols est /\
    image_apart est x <= C * r ^ n.
Proof.
  intros Hr Hc Ht Hp Hs Sx Hx. destruct (mild_ready _ _ _ _ _ Hr Hc Ht Hp Hs) as (rp & rs & tw & lines & D1 & D2 & D3 & D4 & D5).
  destruct (mild_recover parallel serial rows cols _ _ (fun i x => mild_nonneg parallel rows i x Hp) (fun i x => mild_nonneg serial cols i x Hs) Hr Hc rp rs time tw lines D1 D2 D3 D4 D5 x Sx Hx) as (im & H1 & H2). exists im, rp, rs. split; [exact H1|exact H2].
Qed.
Print Assumptions C121_correction_recovers_the_image.

(** ** Slow traps, a log-normal continuum or instant traps, in wells that fill evenly, and images
    with empty pixels. *)
Definition even_ccd : ccd R := mkCCD [1] 1 [100] [1] [0] [BList [100]].
Lemma even_built : ccd_init (PList [1]) (Scalar 100) (Scalar 0) (Scalar 1) None = Ok even_ccd.
Proof. reflexivity. Qed.
Definition even_rows (t : trap R) : direction R := mkDir (Some even_ccd) (Some (roe_init [1] true true true DFloat)) (Some (TNested [[t]])) 9 0 WNone.
Definition even_columns (t : trap R) : direction R := mkDir (Some even_ccd) (Some (roe_init [2] true true false DInt)) (Some (TOne t)) 0 1 WNone.
Lemma even_columns_setting t : single_phase (even_columns t) 3 even_ccd 1 [t] 2 false.
Proof. constructor; try reflexivity; try lra; [exists (TOne t); split; reflexivity|discriminate|exists false, DInt; reflexivity|left; reflexivity]. Qed.
Lemma even_rows_setting t : single_phase (even_rows t) 4 even_ccd 1 [t] 1 false.
Proof. constructor; try reflexivity; try lra; [exists (TNested [[t]]); split; reflexivity|discriminate|exists true, DFloat; reflexivity|right; cbn; lia]. Qed.
Lemma even_slow : mild_patient (even_rows (slow_trap 10)) 4 /\ mild_patient (even_columns (slow_trap 10)) 3.
Proof.
  split; [exists even_ccd, 1, [slow_trap 10], 1, 100, 1; split; [apply even_rows_setting|]|exists even_ccd, 1, [slow_trap 10], 2, 100, 1; split; [apply even_columns_setting|]];
  (split; [constructor; [reflexivity|constructor]|]; split; [apply slow_trap_capturing; lra|]; split; [constructor; reflexivity|]; split; [lra|]; split; [lra|]; unfold full_traps; cbn; lra).
Qed.
Lemma even_timed t : log_normal_trap (fun _ x => x) (1 / 8) 3 (1 / 2) = Ok t -> mild_timed (even_rows t) 4 /\ mild_timed (even_columns t) 3.
Proof.
  intros E. destruct (timed_trap t E) as (H1 & H2 & H3).
  split; [exists even_ccd, 1, [t], 1, 100, 1; split; [apply even_rows_setting|]|exists even_ccd, 1, [t], 2, 100, 1; split; [apply even_columns_setting|]];
  (split; [exact H1|]; split; [exact H2|]; split; [constructor; reflexivity|]; split; [lra|]; split; [lra|]; rewrite H3; lra).
Qed.
Definition spots : image R := [[0; 7; 0]; [120; 0; 0]; [0; 0; 3]; [0; 50; 0]].
Definition more_spots : image R := [[0; 7; 0]; [130; 0; 2]; [0; 0; 3]; [0; 50; 0]].
Example C120_example : exists t, log_normal_trap (fun _ x => x) (1 / 8) 3 (1 / 2) = Ok t /\
  mild_times trio_rows 4 (Some (py_range 1 3)) /\ mild_times (even_rows t) 4 None /\
  mild_call trio_rows 4 /\ mild_call (even_rows t) 4 /\ mild_call (even_rows (slow_trap 10)) 4 /\ mild_call (even_columns t) 3 /\ mild_call (even_columns (slow_trap 10)) 3 /\
  shape 4 3 spots /\ shape 4 3 more_spots /\ (forall i j, 0 <= pixel spots i j) /\
  (forall i j, (i < 4)%nat -> (j < 3)%nat -> pixel spots i j <= pixel more_spots i j) /\ spots <> more_spots.
Proof.
  destruct (continuum_built log_normal_distribution (fun _ x => x) (1 / 8) 3 (1 / 2) ltac:(lra)) as (t & E & _ & _). exists t. split; [exact E|]. pose proof (even_timed t E) as [T1 T2]. pose proof even_slow as [S1 S2].
  split; [split; [constructor; lia|right; left; apply trio_rows_gentle]|]. split; [split; [constructor|left; reflexivity]|].
  split; [left; left; apply trio_rows_gentle|]. split; [right; left; exact T1|]. split; [right; right; exact S1|]. split; [right; left; exact T2|]. split; [right; right; exact S2|].
  split; [split; [reflexivity|repeat constructor]|]. split; [split; [reflexivity|repeat constructor]|].
  split; [intros i j; unfold pixel; destruct i as [|[|[|[|i]]]]; [| | | |destruct i; destruct j; cbn; lra]; (destruct j as [|[|[|j]]]; [| | |destruct j]; cbn; lra)|].
  split; [intros i j Hi Hj; destruct i as [|[|[|[|i]]]]; [| | | |lia]; (destruct j as [|[|[|j]]]; [| | |lia]); unfold pixel; cbn; lra|].
  intros K. assert (K' : pixel spots 1 0 = pixel more_spots 1 0) by now rewrite K. cbn in K'. lra.
Qed.
Definition lit : image R := [[300; 400; 500]; [300; 400; 500]; [300; 400; 500]; [300; 400; 500]].
Example C121_example : mild_enough (even_rows (slow_trap 10)) (even_columns (slow_trap 10)) 4 3 lit.
Proof.
  intros i j Hi Hj. exists (INR (i + 1 + 0) * (1 * full_traps [slow_trap 10])), (INR (j + 1 + 1) * (1 * full_traps [slow_trap 10])).
  split; [right; apply (limit_patient (even_rows (slow_trap 10)) 4 i even_ccd 1 [slow_trap 10] 1); [apply even_rows_setting|constructor; [reflexivity|constructor]]|].
  split; [right; apply (limit_patient (even_columns (slow_trap 10)) 3 j even_ccd 1 [slow_trap 10] 2); [apply even_columns_setting|constructor; [reflexivity|constructor]]|].
  unfold full_traps. destruct i as [|[|[|[|i]]]]; [| | | |lia]; (destruct j as [|[|[|j]]]; [| | |lia]); unfold pixel; cbn; lra.
Qed.
(** The default [Trap], whose capture timescale is 0. *)
Example C120_default_trap : trap_init 10 1 0 false = Ok (prompt_trap 10) /\ mild_call (even_rows (prompt_trap 10)) 4 /\ mild_call (even_columns (prompt_trap 10)) 3.
Proof.
  split; [apply prompt_trap_init|]. split; right; right;
  [exists even_ccd, 1, [prompt_trap 10], 1, 100, 1; split; [apply even_rows_setting|]|exists even_ccd, 1, [prompt_trap 10], 2, 100, 1; split; [apply even_columns_setting|]];
  (split; [constructor; [reflexivity|constructor]|]; split; [apply prompt_trap_capturing; lra|]; split; [constructor; reflexivity|]; split; [lra|]; split; [lra|]; unfold full_traps; cbn; lra).
Qed.
