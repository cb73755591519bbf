(** * Properties C52 to C54: random trap densities, single phases, conversions of trap states. *)
From Coq Require Import ZArith List Bool Reals Lra Lia.
From Verif Require Import Num Py RFacts CCDModel TrapsModel ManagerModel Spec SpecImage SpecReadout SpecManagers CCDFacts TrapsFacts WmFacts
  ArrayFacts ManagerSetFacts SmallFacts.
Import ListNotations.
Open Scope R_scope.

(** ** C52: Poisson realisations of trap densities (traps.py:159-198).
    [draw column species mean] is any outcome of the random generator. *)
(** One species after the other, one column after the other: the number of traps drawn for
    the whole column, spread over its rows, with the same release timescale. *)
Theorem C52_one_draw_for_each_column_and_species draw (traps : list (trap R)) rows columns :
  (0 < rows)%nat -> Forall (fun t => t_release_timescale t <> 0) traps ->
  exists l, poisson_trap draw traps rows columns = Ok l /\ length l = (columns * length traps)%nat /\
    forall col i t, (col < columns)%nat -> nth_error traps i = Some t -> exists t',
      nth_error l (col * length traps + i) = Some t' /\
      t_density t' * INR rows = draw col i (t_density t * INR rows) /\
      t_release_timescale t' = t_release_timescale t.
Proof.
  intros Hr Ht. exists (realisations draw rows columns traps). split; [exact (poisson_ok draw traps rows columns Hr Ht)|].
  split; [apply realisations_length|]. intros col i t Hc Hi. exists (realisation draw rows col i t).
  split; [exact (realisations_nth draw rows columns traps col i t Hc Hi)|]. split; [|reflexivity].
  unfold realisation. cbn. field. apply not_0_INR. lia.
Qed.
Print Assumptions C52_one_draw_for_each_column_and_species.
(** Violated: a realisation of a species is a trap of the same kind.  Whatever the species,
    the new traps are plain traps with instantaneous capture in the bulk. *)
Theorem C52_kind_of_trap_is_lost draw (traps l : list (trap R)) rows columns : (0 < rows)%nat ->
  Forall (fun t => t_release_timescale t <> 0) traps -> poisson_trap draw traps rows columns = Ok l ->
  Forall (fun t => t_class t = CTrap /\ t_capture_rate t = RInf /\ t_surface t = false) l.
Proof.
  intros Hr Ht. rewrite (poisson_ok draw traps rows columns Hr Ht). intros [= <-]. apply Forall_forall. intros t H.
  unfold realisations in H. apply in_flat_map in H as (col & _ & H). apply in_map_iff in H as ([i u] & <- & _). now repeat split.
Qed.
Print Assumptions C52_kind_of_trap_is_lost.
Theorem C52_realisations_keep_the_species_refuted :
  ~ (forall draw (traps l : list (trap R)) rows columns, (0 < rows)%nat -> Forall (fun t => t_release_timescale t <> 0) traps ->
       poisson_trap draw traps rows columns = Ok l ->
       forall col i t t', (col < columns)%nat -> nth_error traps i = Some t -> nth_error l (col * length traps + i) = Some t' ->
         t_capture_rate t' = t_capture_rate t).
Proof.
  intros H. set (t := mkTrap 1 1 (RFin 1) 1 false CTrap : trap R).
  assert (Ht : Forall (fun t : trap R => t_release_timescale t <> 0) [t]) by (constructor; [cbn; lra|constructor]).
  specialize (H (fun _ _ m => m) [t] _ 1%nat 1%nat Nat.lt_0_1 Ht (poisson_ok _ _ _ _ Nat.lt_0_1 Ht) 0%nat 0%nat t _ Nat.lt_0_1 eq_refl eq_refl).
  discriminate H.
Qed.
Print Assumptions C52_realisations_keep_the_species_refuted.
(** Violated: given to the clocking algorithm, the list models a random number of traps in
    each column.  Every column gets the traps of all columns: with draws equal to their
    means, an image of [columns] columns has [columns] times the traps. *)
Theorem C52_every_column_has_all_traps (traps : list (trap R)) rows columns N (c : ccd R) :
  (0 < rows)%nat -> (0 < columns)%nat -> traps <> [] -> Forall (fun t => t_release_timescale t <> 0) traps ->
  length (ccd_fractions c) = ccd_n_phases c ->
  exists l a, poisson_trap (fun _ _ mean => mean) traps rows columns = Ok l /\ atm_init (TFlat l) N c = Ok a /\
    length (atm_data a) = ccd_n_phases c /\
    forall k ms, nth_error (atm_data a) k = Some ms -> exists m, ms = [m] /\
      Rsum (map (@t_density R) (m_traps m)) = share c k * (INR columns * Rsum (map (@t_density R) traps)).
Proof.
  intros Hr Hc Hn Ht Hl. set (l := realisations (fun _ _ mean => mean) rows columns traps).
  assert (Hne : l <> []).
  { intros E. apply (f_equal (@length _)) in E. unfold l in E. rewrite realisations_length in E. destruct traps; [contradiction|].
    cbn [length] in E. nia. }
  assert (G : groups_in (TFlat l) = [l]) by (destruct l; [contradiction|reflexivity]).
  destruct (atm_init_spec (TFlat l) N c) as (a & E & L & H & _).
  { rewrite G. discriminate. }
  { rewrite G. intros g [<-|[]]. exact Hne. }
  { exact Hl. }
  exists l, a. split; [exact (poisson_ok _ _ _ _ Hr Ht)|]. split; [exact E|]. split; [exact L|].
  intros k ms Hk. specialize (H k ms Hk). rewrite G in H. inversion H as [|? m ? ms' Hm Hms]; subst. inversion Hms; subst.
  exists m. split; [reflexivity|]. destruct Hm as (_ & Hm & _). rewrite <- (mean_total rows columns traps Hr). fold l.
  revert Hm. generalize (m_traps m). clear. intros ts Hm. induction Hm as [|t t' g ts -> Hm IH]; [cbn; ring|].
  cbn [map]. unfold Rsum in *. cbn [fold_right]. rewrite IH. unfold thinned. cbn. ring.
Qed.
Print Assumptions C52_every_column_has_all_traps.
(** An image without rows has no meaningful density. *)
Theorem C52_no_rows draw (traps : list (trap R)) columns : traps <> [] -> (0 < columns)%nat ->
  poisson_trap draw traps 0 columns = Err NotANumber.
Proof. exact (poisson_empty draw traps columns). Qed.
Print Assumptions C52_no_rows.
(** Two species in an image of 4 rows and 3 columns; the generator draws the mean number of
    traps plus the number of the column. *)
Example C52_example :
  let traps := [mkTrap 10 1 (RFin 2) 1 false CTrap; mkTrap 5 2 RInf (1/2) false CInstant] in
  Forall (fun t => t_release_timescale t <> 0) traps /\
  exists l t', poisson_trap (fun col _ mean => mean + INR col) traps 4 3 = Ok l /\ length l = 6%nat /\
    nth_error l 5 = Some t' /\ t_density t' = 11/2.
Proof.
  intros traps. assert (Ht : Forall (fun t : trap R => t_release_timescale t <> 0) traps) by (repeat constructor; cbn; lra).
  split; [exact Ht|]. exists (realisations (fun col _ mean => mean + INR col) 4 3 traps), (realisation (fun col _ mean => mean + INR col) 4 2 1 (mkTrap 5 2 RInf (1/2) false CInstant)).
  split; [apply poisson_ok; [lia|exact Ht]|]. split; [apply realisations_length|].
  split; [apply (realisations_nth _ 4 3 traps 2 1); [lia|reflexivity]|]. cbn. lra.
Qed.

(** ** C53: one phase of a CCD (ccd.py:268-277). *)
Theorem C53_phase_of_a_ccd {F} {num : Num F} fr fw no fp bl (c : ccd F) phase :
  ccd_init fr fw no fp bl = Ok c -> (phase < n_phases_of fr)%nat ->
  exists p, ccd_phase_init c phase = Ok p /\
    value_at fr phase = Some (cp_fraction p) /\ value_at fw phase = Some (cp_full_well p) /\
    value_at no phase = Some (cp_notch p) /\ value_at fp phase = Some (cp_fill_power p) /\
    (forall b, bl = Some b -> option_map BNum (value_at b phase) = Some (cp_bloom p)) /\
    (forall n surface, cp_fill p n surface = cloud_fractional_volume c n phase surface).
Proof.
  intros E Hp. destruct (phase_ok fr fw no fp bl c phase E Hp) as (p & H & H1 & H2 & H3 & H4 & H5 & H6).
  exists p. do 5 (split; [assumption|]). split; [|exact H6]. intros b ->. now rewrite <- H5, (bloom_value _ _ _ _ _ _ _ E Hp).
Qed.
Print Assumptions C53_phase_of_a_ccd.
Theorem C53_no_such_phase {F} {num : Num F} fr fw no fp bl (c : ccd F) phase :
  ccd_init fr fw no fp bl = Ok c -> (n_phases_of fr <= phase)%nat -> ccd_phase_init c phase = Err IndexError.
Proof. exact (phase_err fr fw no fp bl c phase). Qed.
Print Assumptions C53_no_such_phase.
(** Violated: the blooming level of a phase is a number.  By default it is the list of the
    full-well depths of all phases, for every CCD. *)
Theorem C53_bloom_level_is_a_number_refuted {F} {num : Num F} fr fw no fp (c : ccd F) phase :
  ccd_init fr fw no fp None = Ok c -> (phase < n_phases_of fr)%nat ->
  exists p, ccd_phase_init c phase = Ok p /\ cp_bloom p = BList (ccd_full_well c).
Proof.
  intros E Hp. destruct (phase_ok fr fw no fp None c phase E Hp) as (p & H & _ & _ & _ & _ & H5 & _).
  exists p. split; [exact H|]. rewrite (bloom_value _ _ _ _ _ _ _ E Hp) in H5. congruence.
Qed.
Print Assumptions C53_bloom_level_is_a_number_refuted.
Example C53_example : exists c : ccd R,
  ccd_init (PList [1/4; 3/4]) (PList [100; 200]) (Scalar 5) (Scalar 1) (Some (PList [90; 180])) = Ok c /\
  exists p, ccd_phase_init c 1 = Ok p /\ cp_full_well p = 200 /\ cp_bloom p = BNum 180 /\ ccd_phase_init c 2 = Err IndexError.
Proof. eexists. split; [reflexivity|]. eexists. repeat split. Qed.

(** ** C54: trap states as times and as fill fractions (trap_managers.py:1231-1269). *)
(** The time found for a fill fraction gives that fill fraction: exactly for a trap with a
    single timescale (C07), and to 1e-7 for any trap, whatever the solver returns. *)
Theorem C54_time_found_is_accurate (t : trap R) f time : 0 < t_release_timescale t -> 0 < f ->
  time_elapsed_from_fill_fraction t f = Ok time -> Rabs (fill_fraction_from_time_elapsed t time - f) < 1 / 10000000.
Proof. exact (fill_time_near t f time). Qed.
Print Assumptions C54_time_found_is_accurate.
(** Converting an array of times to fill fractions and back changes nothing. *)
Theorem C54_times_to_fractions_and_back (traps : list (trap R)) (w : wmarks R) :
  Forall (fun t => exponential t /\ 0 < t_release_timescale t) traps -> Forall (fun r => length (snd r) = length traps) w ->
  to_elapsed_times traps (to_fill_fractions traps w) = Ok w.
Proof. exact (times_of_fractions traps w). Qed.
Print Assumptions C54_times_to_fractions_and_back.
(** And the other way round, if the fractions of the levels in use (those below the first
    level without volume) are positive. *)
Theorem C54_fractions_to_times_and_back (traps : list (trap R)) (w : wmarks R) :
  Forall (fun t => exponential t /\ 0 < t_release_timescale t) traps -> Forall (fun r => length (snd r) = length traps) w ->
  (forall i, (forall j r, (j <= i)%nat -> nth_error w j = Some r -> fst r <> 0) ->
     forall r, nth_error w i = Some r -> Forall (fun f => 0 < f) (snd r)) ->
  exists times, to_elapsed_times traps w = Ok times /\ to_fill_fractions traps times = w.
Proof.
  intros Ht Hw Hp. apply fractions_of_times; [exact Ht|exact Hw|]. intros i r Hi Hr. apply (Hp i); [|exact Hr].
  intros j q Hj Hq. apply (below_first_zero w j); [lia|exact Hq].
Qed.
Print Assumptions C54_fractions_to_times_and_back.
(** Violated: the conversion converts every level in use.  If no level is unused, none is
    converted, so that the times are taken for fill fractions. *)
Theorem C54_full_array_is_not_converted (traps : list (trap R)) (w : wmarks R) :
  Forall (fun r => fst r <> 0) w -> to_fill_fractions traps w = w.
Proof. exact (full_not_converted traps w). Qed.
Print Assumptions C54_full_array_is_not_converted.
Theorem C54_every_level_in_use_is_converted_refuted :
  ~ (forall (t : trap R) (w : wmarks R), exponential t -> 0 < t_release_timescale t -> Forall (fun r => length (snd r) = 1%nat /\ 0 < fst r) w ->
       Forall2 (fun r r' => fst r' = fst r /\ snd r' = map (fill_fraction_from_time_elapsed t) (snd r)) w (to_fill_fractions [t] w)).
Proof.
  intros H. set (t := mkTrap 1 1 RInf 1 false CTrap : trap R). specialize (H t [(1, [0])] I ltac:(cbn; lra)).
  assert (P : Forall (fun r : R * list R => length (snd r) = 1%nat /\ 0 < fst r) [(1, [0])]) by (repeat constructor; cbn; lra).
  specialize (H P). rewrite full_not_converted in H by (repeat constructor; cbn; lra).
  inversion H as [|? ? ? ? [_ E] _]; subst. cbn in E. injection E as E. revert E.
  replace (- (0) / 1) with 0 by lra. rewrite exp_0. lra.
Qed.
Print Assumptions C54_every_level_in_use_is_converted_refuted.
(** Two species and three levels, one of them unused. *)
Example C54_example :
  let traps := [mkTrap 10 1 RInf 1 false CTrap; mkTrap 5 2 RInf (1/2) false CInstant] in
  let w := [(1/4, [1/2; 1]); (1/2, [3; 4]); (0, [0; 0])] in
  Forall (fun t => exponential t /\ 0 < t_release_timescale t) traps /\ Forall (fun r => length (snd r) = length traps) w /\
  to_fill_fractions traps w <> w /\
  (forall i, (forall j r, (j <= i)%nat -> nth_error w j = Some r -> fst r <> 0) ->
     forall r, nth_error w i = Some r -> Forall (fun f => 0 < f) (snd r)).
Proof.
  intros traps w. repeat apply conj.
  - repeat constructor; cbn; lra.
  - repeat constructor.
  - intros E. assert (L : live [(1/4, [1/2; 1]); (1/2, [3; 4])]) by (repeat constructor; cbn; lra).
    pose proof (first_zero_live _ [0; 0] 0 L) as Z. unfold to_fill_fractions, w in E. cbn [app repeat] in Z. rewrite Z in E. cbn in E.
    injection E as E _ _ _. revert E. replace (- (1 / 2) / 1) with (- (1/2)) by lra. intros E.
    pose proof (exp_ineq1 (- (1/2)) ltac:(lra)) as G. rewrite E in G. lra.
  - intros [|[|[|i]]] H r Hr; cbn in Hr; try (injection Hr as <-; repeat constructor; lra).
    + injection Hr as <-. exfalso. apply (H 2%nat (0, [0; 0]) (le_n 2) eq_refl). reflexivity.
    + destruct i; discriminate.
Qed.
