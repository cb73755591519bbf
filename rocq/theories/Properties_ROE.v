(** * Properties C26-C33: readout electronics (arcticpy/roe.py). *)
From Coq Require Import ZArith List Bool Reals Lra Lia.
From Verif Require Import Num Py RFacts ROEModel Spec SpecROE ROEClockFacts ROEMatrixFacts ROEExpressFacts ROEKindFacts RoundFacts.
Import ListNotations.
Open Scope R_scope.

(** ** C26: the clock sequence.

    For every clocking with at most one forward and one backward half (standard readout
    and trap pumping): the release pixels of a phase are exactly those of the nearest
    charge clouds, moved by one pixel away from the readout when that is forced and the
    phase is ahead of the pixel's own cloud; each gets an equal share; a phase is high
    exactly when it holds a cloud, and then captures from and releases to that cloud only. *)
Theorem C26_clock_sequence_releases_to_nearest_clouds force n_steps N step rps phase rp :
  (n_steps <= 2 * N)%nat ->
  nth_error (@generate_clock_sequence R _ force n_steps N) step = Some rps ->
  nth_error rps phase = Some rp ->
  exists shift : Z, (shift = 0%Z \/ shift = 1%Z) /\
    (shift = 1%Z <-> force = true /\ ahead_of_cloud N step phase) /\
    (forall d, In d (rp_release rp) <-> nearest N step phase (d - shift)) /\
    NoDup (rp_release rp) /\
    rp_fraction rp = repeat (1 / INR (length (rp_release rp))) (length (rp_release rp)) /\
    (rp_high rp = true <-> exists d, holds_cloud N step phase d) /\
    (forall d, holds_cloud N step phase d -> rp_capture rp = d /\ rp_release rp = [d]).
Proof. exact (clock_sequence_spec force n_steps N step rps phase rp). Qed.
Print Assumptions C26_clock_sequence_releases_to_nearest_clouds.

Theorem C26_standard_sequence force N step rps :
  nth_error (@generate_clock_sequence R _ force N N) step = Some rps ->
  length rps = N /\
  forall phase rp, nth_error rps phase = Some rp ->
    (rp_high rp = true <-> phase = step) /\
    (phase = step -> rp_capture rp = 0%Z /\ rp_release rp = [0%Z] /\ rp_fraction rp = [1]) /\
    (forall d, In d (rp_capture rp :: rp_release rp) -> ((if force then 0 else -1) <= d <= 1)%Z) /\
    Rsum (rp_fraction rp) = 1 /\ length (rp_release rp) = length (rp_fraction rp).
Proof. exact (standard_sequence_spec force N step rps). Qed.
Print Assumptions C26_standard_sequence.

(** A three-phase device, second step, without forcing: the third phase releases half to
    its own pixel's cloud ... and a four-phase one shares between two clouds. *)
Example C26_example :
  exists rps rp, nth_error (@generate_clock_sequence R _ false 4 4) 1 = Some rps /\
    nth_error rps 3 = Some rp /\ rp_high rp = false /\ rp_release rp = [-1; 0]%Z.
Proof. do 2 eexists. split; [reflexivity|]. split; [reflexivity|]. split; reflexivity. Qed.
Example C26_example_pumping :
  exists rps rp, nth_error (@generate_clock_sequence R _ false 6 3) 3 = Some rps /\
    nth_error rps 0 = Some rp /\ rp_high rp = true /\ rp_capture rp = 1%Z /\ rp_release rp = [1%Z].
Proof. do 2 eexists. split; [reflexivity|]. split; [reflexivity|]. repeat split; reflexivity. Qed.

(** The objects that the constructors return: as many steps as dwell times, and as many phases as
    [n_phases] says; for trap pumping half as many as steps, for charge to go there and back. *)
Theorem C26_steps_and_phases (r : roe R) dwell ef eb force dt npt pumps :
  r = roe_init dwell ef eb force dt \/ r = roe_injection_init dwell npt eb force dt \/ roe_pumping_init dwell pumps ef dt = Ok r ->
  length (roe_clock_sequence r) = length dwell /\ roe_n_steps r = length dwell /\
  Forall (fun electrodes => length electrodes = roe_n_phases r) (roe_clock_sequence r) /\
  match roe_kind_of r with Pumping _ _ => length dwell = (2 * roe_n_phases r)%nat | _ => length dwell = roe_n_phases r end.
Proof.
  intros H. assert (G : exists k n, r = make_roe k dwell dt (roe_empty_between r) (roe_force r) n /\ roe_n_phases r = n /\
    match k with Pumping _ _ => length dwell = (2 * n)%nat | _ => length dwell = n end).
  { destruct H as [->|[->|H]].
    - exists (Standard ef), (length dwell). auto.
    - exists (Injection npt), (length dwell). auto.
    - unfold roe_pumping_init in H. destruct (Nat.even (length dwell)) eqn:E; [|discriminate]. injection H as <-.
      apply Nat.even_spec in E as [n E]. exists (Pumping pumps ef), n. unfold roe_n_phases, roe_n_steps. cbn [make_roe roe_kind_of roe_dwell_times roe_empty_between roe_force].
      assert (D : Nat.div (length dwell) 2 = n) by (rewrite E, Nat.mul_comm; now apply Nat.div_mul). rewrite D. auto. }
  clear H. destruct G as (k & n & -> & Hn & Hk). cbn [make_roe roe_clock_sequence roe_kind_of] in *. unfold roe_n_steps. cbn [roe_dwell_times]. rewrite Hn.
  unfold generate_clock_sequence. split; [now rewrite map_length, seq_length|]. split; [reflexivity|]. split; [|exact Hk].
  apply Forall_forall. intros x Hx. apply in_map_iff in Hx as (s & <- & _). now rewrite map_length, seq_length.
Qed.
Print Assumptions C26_steps_and_phases.
Example C26_example_steps : exists r : roe R, roe_pumping_init [1; 2; 3; 4; 5; 6] 10 true DFloat = Ok r /\ roe_n_phases r = 3%nat.
Proof. eexists. split; reflexivity. Qed.

(** ** C27: every pixel undergoes its number of transfers. *)
Theorem C27_every_pixel_gets_its_transfers ef dt window n_pixels express offset em mon :
  window_ok window n_pixels ->
  standard_express ef dt window express offset None = Ok (em, mon) ->
  exists E, rect E (length window) em /\ rect E (length window) mon /\ (0 < E)%nat /\
  forall k w, nth_error window k = Some w ->
    transfers em k = IZR w + 1 + INR offset /\
    forall i, (i < E)%nat -> 0 <= entry em i k /\ (bentry mon i k = true <-> 0 < entry em i k).
Proof. intros Hw. exact (column_transfers ef dt window n_pixels express offset Hw em mon). Qed.
Print Assumptions C27_every_pixel_gets_its_transfers.

(** A time window that contains the whole readout (the default of [add_cti]) changes nothing. *)
Theorem C27_C30_whole_time_window ef dt window n_pixels express offset T :
  window_ok window n_pixels -> (Z.of_nat (n_pixels + offset) <= T)%Z ->
  standard_express ef dt window express offset (Some (py_range 0 T)) =
  @standard_express R _ ef dt window express offset None.
Proof. intros Hw. exact (window_whole ef dt window n_pixels express offset Hw T). Qed.
Print Assumptions C27_C30_whole_time_window.

(** The default ROE computes the first transfer of every pixel on its own, exactly once. *)
Theorem C27_first_transfer_counted_once dt window n_pixels express offset em mon :
  window_ok window n_pixels -> (1 <= express)%nat -> (express < n_pixels - 1)%nat ->
  standard_express true dt window express offset None = Ok (em, mon) ->
  length em = (n_pixels + offset)%nat /\
  forall k w, nth_error window k = Some w ->
    let first := (n_pixels - 1 - Z.to_nat w)%nat in
    entry em first k = 1 /\ forall i, (i < first)%nat -> entry em i k = 0.
Proof. intros Hw. exact (first_transfer_once true dt window n_pixels express offset Hw em mon eq_refl). Qed.
Print Assumptions C27_first_transfer_counted_once.

Example C27_example : window_ok [2; 3; 5]%Z 6 /\
  exists em mon, standard_express true DFloat [2; 3; 5]%Z 2 1 None = Ok (em, mon) /\ length em = 7%nat /\
    transfers em 2 = 7.
Proof.
  assert (Hw : window_ok [2; 3; 5]%Z 6) by (split; [repeat constructor; lia|right; right; left; reflexivity]).
  split; [exact Hw|].
  assert (Hb : ~ bad_express true 6 2) by (intros (_ & _ & ?); discriminate).
  destruct (standard_express_ok true DFloat [2; 3; 5]%Z 6 2 1 Hw None Hb I) as (E & em & mon & H & _).
  exists em, mon. split; [exact H|]. split.
  - apply (first_transfer_once true DFloat _ 6 2 1 Hw em mon eq_refl ltac:(lia) ltac:(lia) H).
  - destruct (column_transfers true DFloat _ 6 2 1 Hw em mon H) as (E' & _ & _ & _ & Hc).
    destruct (Hc 2%nat 5%Z eq_refl) as [-> _]. cbn [INR]. lra.
Qed.

(** ** C28: express = 0. *)
Theorem C28_express_0_computes_every_transfer ef dt window n_pixels express offset tw :
  window_ok window n_pixels ->
  (express = 0%nat \/ (n_pixels + offset <= express)%nat) ->
  tw = None \/ (exists T, tw = Some (py_range 0 T) /\ (Z.of_nat (n_pixels + offset) <= T)%Z) ->
  exists em mon, standard_express ef dt window express offset tw = Ok (em, mon) /\
    rect (n_pixels + offset) (length window) em /\ rect (n_pixels + offset) (length window) mon /\
    forall e k w, (e < n_pixels + offset)%nat -> nth_error window k = Some w ->
      entry em e k = (if (Z.of_nat e <=? w + Z.of_nat offset)%Z then 1 else 0) /\
      bentry mon e k = (Z.of_nat e <=? w + Z.of_nat offset)%Z.
Proof. intros Hw. exact (express_all ef dt window n_pixels express offset Hw tw). Qed.
Print Assumptions C28_express_0_computes_every_transfer.

Example C28_example : window_ok (py_range 0 3) 3 /\ window_ok [4; 7]%Z 8.
Proof. split; [apply (window_ok_range 3); lia|split; [repeat constructor; lia|right; left; reflexivity]]. Qed.

(** ** C29: express = n_pixels - 1 fails with the default ROE, and is the only failure. *)
Theorem C29_every_express_works_refuted dt window n_pixels express offset tw :
  window_ok window n_pixels -> (1 <= express)%nat -> S express = n_pixels ->
  @standard_express R _ true dt window express offset tw = Err IndexError.
Proof.
  intros Hw H1 H2. apply (standard_express_bad true dt window n_pixels express offset Hw tw).
  repeat split; auto; lia.
Qed.
Print Assumptions C29_every_express_works_refuted.

Theorem C29_only_failing_express ef dt window n_pixels express offset (tw : option (Z * Z)) :
  window_ok window n_pixels -> match tw with Some (a, b) => (0 <= a < b)%Z | None => True end ->
  let tw := option_map (fun '(a, b) => py_range a b) tw in
  (exists r, @standard_express R _ ef dt window express offset tw = Ok r) \/
  (@standard_express R _ ef dt window express offset tw = Err IndexError /\
   ef = true /\ express <> 0%nat /\ S express = n_pixels).
Proof.
  intros Hw Htw. destruct (bad_express_dec ef n_pixels express) as [Hb|Hb].
  - right. split; [apply (standard_express_bad ef dt window n_pixels express offset Hw _ Hb)|exact Hb].
  - left. destruct (standard_express_ok ef dt window n_pixels express offset Hw tw Hb Htw) as (E & em & mon & H & _).
    exists (em, mon). exact H.
Qed.
Print Assumptions C29_only_failing_express.

(** e.g. an image with 10 rows and express = 9. *)
Example C29_example : @standard_express R _ true DFloat (py_range 0 10) 9 0 None = Err IndexError.
Proof. apply (C29_every_express_works_refuted DFloat (py_range 0 10) 10 9 0 None); [apply (window_ok_range 10)| |]; lia. Qed.

(** ** C30: time windows. *)
Theorem C30_time_window_keeps_the_overlap ef dt window n_pixels express offset em0 mon0 em mon a b :
  window_ok window n_pixels -> (0 <= a < b)%Z ->
  standard_express ef dt window express offset None = Ok (em0, mon0) ->
  standard_express ef dt window express offset (Some (py_range a b)) = Ok (em, mon) ->
  mon = mon0 /\ exists E, rect E (length window) em0 /\ rect E (length window) em /\
  forall i k, (i < E)%nat -> (k < length window)%nat ->
    entry em i k = overlap (transfers_before em0 i k) (transfers_before em0 (S i) k) (IZR a) (IZR b).
Proof. intros Hw. exact (windowed_overlap ef dt window n_pixels express offset Hw em0 mon0 em mon a b). Qed.
Print Assumptions C30_time_window_keeps_the_overlap.

Theorem C30_time_windows_partition ef dt window n_pixels express offset ends ems em0 mon0 :
  window_ok window n_pixels ->
  increasing_from 0 ends -> (Z.of_nat (n_pixels + offset) <= last ends 0)%Z ->
  standard_express ef dt window express offset None = Ok (em0, mon0) ->
  Forall2 (fun '(a, b) em => standard_express ef dt window express offset (Some (py_range a b)) = Ok (em, mon0))
    (windows_from 0 ends) ems ->
  forall i k, (i < length em0)%nat -> (k < length window)%nat ->
    Rsum (map (fun em => entry em i k) ems) = entry em0 i k /\
    Forall (fun em => 0 <= entry em i k <= entry em0 i k) ems.
Proof. exact (time_windows_partition ef dt window n_pixels express offset ends ems em0 mon0). Qed.
Print Assumptions C30_time_windows_partition.

(** Two windows of a five-pixel readout with a non-integer express. *)
Example C30_example : increasing_from 0 [2; 5]%Z /\ (Z.of_nat (5 + 0) <= last [2; 5] 0)%Z /\
  exists em0 mon0 em1 em2, standard_express true DFloat (py_range 0 5) 2 0 None = Ok (em0, mon0) /\
    Forall2 (fun '(a, b) em => @standard_express R _ true DFloat (py_range 0 5) 2 0 (Some (py_range a b)) = Ok (em, mon0))
      (windows_from 0 [2; 5]%Z) [em1; em2].
Proof.
  split; [cbn; lia|]. split; [cbn; lia|].
  assert (Hw : window_ok (py_range 0 5) 5) by (apply (window_ok_range 5); lia).
  assert (Hb : ~ bad_express true 5 2) by (intros (_ & _ & ?); discriminate).
  destruct (standard_express_ok true DFloat _ 5 2 0 Hw None Hb I) as (E & em0 & mon0 & H0 & _).
  destruct (standard_express_ok true DFloat _ 5 2 0 Hw (Some (0, 2)%Z) Hb ltac:(cbn; lia)) as (E1 & em1 & mon1 & H1 & _).
  destruct (standard_express_ok true DFloat _ 5 2 0 Hw (Some (2, 5)%Z) Hb ltac:(cbn; lia)) as (E2 & em2 & mon2 & H2 & _).
  destruct (windowed_overlap true DFloat _ 5 2 0 Hw em0 mon0 em1 mon1 0 2 ltac:(lia) H0 H1) as (-> & _).
  destruct (windowed_overlap true DFloat _ 5 2 0 Hw em0 mon0 em2 mon2 2 5 ltac:(lia) H0 H2) as (-> & _).
  exists em0, mon0, em1, em2. split; [exact H0|]. constructor; [exact H1|]. constructor; [exact H2|constructor].
Qed.

(** ** C31: charge injection. *)
Theorem C31_injection_columns_equal npt window n_pixels express offset n em mon :
  window_ok window n_pixels -> (0 < injection_transfers npt n_pixels offset)%nat ->
  injection_express npt DFloat window express offset None = Ok (n, em, mon) ->
  n = injection_transfers npt n_pixels offset /\
  forall k, (k < n_pixels)%nat -> transfers em k = INR (injection_transfers npt n_pixels offset) /\
    forall i, (i < length em)%nat ->
      entry em i k = INR (injection_transfers npt n_pixels offset) / INR (length em) /\ bentry mon i k = true.
Proof. intros Hw. exact (injection_columns npt window n_pixels express offset Hw em mon n). Qed.
Print Assumptions C31_injection_columns_equal.

(** The default parallel time window range(0, n_rows + offset) of [add_cti] (here: any
    [range(0, T)]) cuts the transfers down to [T], so a longer injection readout is lost. *)
Theorem C31_time_window_truncates_injection_refuted npt window n_pixels express offset T n em mon :
  window_ok window n_pixels -> (0 < injection_transfers npt n_pixels offset)%nat -> (0 < T)%Z ->
  injection_express npt DFloat window express offset (Some (py_range 0 T)) = Ok (n, em, mon) ->
  forall k, (k < n_pixels)%nat ->
    transfers em k = Rmin (INR (injection_transfers npt n_pixels offset)) (IZR T).
Proof. intros Hw. exact (injection_truncated npt window n_pixels express offset Hw T em mon n). Qed.
Print Assumptions C31_time_window_truncates_injection_refuted.

Theorem C31_integer_dtype_refuted npt window n_pixels express offset tw :
  window_ok window n_pixels -> (0 < injection_transfers npt n_pixels offset)%nat ->
  injection_express npt DInt window express offset tw = @Err (nat * matrix R * bmatrix) NameError.
Proof. intros Hw. exact (injection_int npt window n_pixels express offset Hw tw). Qed.
Print Assumptions C31_integer_dtype_refuted.

(** 100 transfers asked of a 6-row image: 6 are performed. *)
Example C31_example : exists n em mon,
  injection_express (Some 100%nat) DFloat (py_range 0 6) 3 0 (Some (py_range 0 6)) = Ok (n, em, mon) /\
  n = 100%nat /\ transfers em 4 = 6.
Proof.
  assert (Hw : window_ok (py_range 0 6) 6) by (apply (window_ok_range 6); lia).
  destruct (injection_ok (Some 100%nat) _ 6 3 0 Hw (Some (0, 6)%Z) ltac:(cbn; lia) ltac:(cbn; lia)) as (E & em & mon & H & _).
  exists 100%nat, em, mon. split; [exact H|]. split; [reflexivity|].
  rewrite (injection_truncated (Some 100%nat) _ 6 3 0 Hw 6 em mon _ ltac:(cbn; lia) ltac:(lia) H 4 ltac:(lia)).
  apply Rmin_right. cbn [injection_transfers]. rewrite INR_IZR_INZ. apply IZR_le. lia.
Qed.

(** ** C32: trap pumping. *)
Theorem C32_pumping_columns_sum_to_n_pumps n_pumps express ef dt window :
  (0 < n_pumps)%nat ->
  exists em mon, pumping_express n_pumps ef dt window express = Ok (em, mon) /\
    (exists E, rect E (length window) em) /\
    (forall k, (k < length window)%nat -> transfers em k = INR n_pumps) /\
    (forall i k, 0 < entry em i k -> forall k', k' <> k -> entry em i k' = 0) /\
    (forall i k, (k < length window)%nat -> bentry mon i k = true <-> 0 < entry em i k).
Proof.
  intros Hn. destruct (pumping_ok n_pumps express ef dt window Hn) as (em & mon & H & Hr & Hm & H1 & H2).
  exists em, mon. split; [exact H|]. split; [eexists; exact Hr|]. split; [exact H1|]. split; [exact H2|].
  intros i k Hk. subst mon. destruct (lt_dec i (length em)) as [Hi|Hi].
  - rewrite (positive_mask_entry em _ _ i k Hr) by (destruct Hr; lia). apply Rltb_true.
  - unfold bentry, entry. rewrite !nth_overflow with (n := i); [|lia|unfold positive_mask; rewrite map_length; lia].
    split; [destruct k; discriminate|destruct k; cbn; lra].
Qed.
Print Assumptions C32_pumping_columns_sum_to_n_pumps.

Theorem C32_float_multipliers_positive n_pumps express ef :
  (0 < express <= n_pumps)%nat ->
  Forall (Rlt 0) (@pumping_multipliers R _ n_pumps express ef DFloat) /\
  Rsum (@pumping_multipliers R _ n_pumps express ef DFloat) = INR n_pumps.
Proof. intros H. split; [apply multipliers_pos|apply multipliers_sum]; exact H. Qed.
Print Assumptions C32_float_multipliers_positive.

(** Integer multipliers: the equal share is rounded to the nearest integer (ties to even), and the
    last one is corrected. *)
Theorem C32_integer_multipliers n_pumps express ef : (0 < express <= n_pumps)%nat ->
  let alone := (ef && Nat.ltb 1 n_pumps && Nat.ltb express n_pumps)%bool in
  let first := if alone then [1] else [] in
  let rest := (n_pumps - length first)%nat in
  exists k, nearest_even (INR rest / INR express) k /\
    @pumping_multipliers R _ n_pumps express ef DInt = first ++ repeat (INR k) (express - 1) ++ [INR rest - INR (express - 1) * INR k].
Proof. exact (integer_multipliers n_pumps express ef). Qed.
Print Assumptions C32_integer_multipliers.
Example C32_integer_example : @pumping_multipliers R _ 7 2 false DInt = [4; 3] /\ @pumping_multipliers R _ 5 2 false DInt = [2; 3].
Proof.
  split; reflexivity.
Qed.
(** Integer multipliers can go negative at the end; the monitor matrix then drops that
    step, and 13 pumps are performed instead of 12. *)
Theorem C32_integer_pumps_refuted p :
  exists em mon, @pumping_express R _ 12 true DInt [p] 7 = Ok (em, mon) /\
    em = map (fun x => [x]) [1; 2; 2; 2; 2; 2; 2; -1] /\
    mon = map (fun b => [b]) [true; true; true; true; true; true; true; false] /\
    Rsum (map (fun '(row, m) => if nth 0 m false then nth 0 row 0 else 0) (combine em mon)) = 13.
Proof.
  exists (map (fun x => [x]) [1; 2; 2; 2; 2; 2; 2; -1]), (map (fun b => [b]) [true; true; true; true; true; true; true; false]).
  assert (Hm : positive_mask (map (fun x => [x]) [1; 2; 2; 2; 2; 2; 2; -1]) = map (fun b => [b]) [true; true; true; true; true; true; true; false]).
  { cbn [map positive_mask]. unfold positive_mask. cbn [map]. rnum.
    repeat (f_equal; [f_equal; (apply Rltb_true; lra) || (apply Rltb_false; lra)|]).
    do 2 f_equal. apply Rltb_false; lra. }
  split; [|split; [reflexivity|split; [reflexivity|unfold Rsum; cbn; lra]]].
  unfold pumping_express. change (express_used 12 7) with 7%nat. rewrite multipliers_negative.
  rewrite <- Hm. reflexivity.
Qed.
Print Assumptions C32_integer_pumps_refuted.

Theorem C32_two_pixels_refuted n_pumps express ef dt window em mon :
  (0 < n_pumps)%nat -> (2 <= length window)%nat ->
  @pumping_express R _ n_pumps ef dt window express = Ok (em, mon) -> pumping_save em = Err IndexError.
Proof. intros Hn. exact (pumping_save_two n_pumps express ef dt window Hn em mon). Qed.
Print Assumptions C32_two_pixels_refuted.

Theorem C32_one_pixel_saves_every_pass n_pumps express ef dt window em mon :
  (0 < n_pumps)%nat -> length window = 1%nat ->
  @pumping_express R _ n_pumps ef dt window express = Ok (em, mon) ->
  exists s, pumping_save em = Ok s /\
    forall i, (i < length em)%nat -> bentry s i 0 = negb (Nat.eqb (S i) (length em)).
Proof. intros Hn. exact (pumping_save_one n_pumps express ef dt window Hn em mon). Qed.
Print Assumptions C32_one_pixel_saves_every_pass.

Theorem C32_no_pumps_refuted ef dt window express :
  pumping_express 0 ef dt window express = @Err (matrix R * bmatrix) ZeroDivisionError.
Proof. exact (pumping_zero ef dt window express). Qed.
Print Assumptions C32_no_pumps_refuted.

Example C32_example : exists em mon,
  @pumping_express R _ 5 true DFloat [2; 4]%Z 2 = Ok (em, mon) /\ pumping_save em = Err IndexError /\ transfers em 1 = INR 5.
Proof.
  destruct (pumping_ok 5 2 true DFloat [2; 4]%Z ltac:(lia)) as (em & mon & H & _ & _ & H1 & _).
  exists em, mon. split; [exact H|]. split; [|apply H1; cbn; lia].
  apply (pumping_save_two 5 2 true DFloat [2; 4]%Z ltac:(lia) em mon ltac:(cbn; lia) H).
Qed.

(** ** C33: saving the trap states between express passes. *)
Theorem C33_one_save_per_pass em E n :
  rect E n em -> (0 < E)%nat -> (2 <= n)%nat ->
  exists s, standard_save false em = Ok s /\ rect E n s /\
  (forall k, bentry s (E - 1) k = false) /\
  forall e, (S e < E)%nat -> exists r, (r <= n - 2)%nat /\
    (forall k, bentry s e k = true <-> k = r) /\
    (forall k, (k < r)%nat -> entry em (S e) (S k) <= 0) /\
    (0 < entry em (S e) (S r) \/ r = (n - 2)%nat).
Proof. exact (save_spec em E n). Qed.
Print Assumptions C33_one_save_per_pass.

Theorem C33_saved_just_before_next_pass em E n e p :
  rect E n em -> (2 <= n)%nat -> (S e < E)%nat -> (0 < p < n)%nat ->
  0 < entry em (S e) p -> (forall k, (k < p)%nat -> entry em (S e) k = 0) ->
  exists s, standard_save false em = Ok s /\ forall k, bentry s e k = true <-> k = (p - 1)%nat.
Proof. exact (save_before_next em E n e p). Qed.
Print Assumptions C33_saved_just_before_next_pass.

(** If the next pass starts with pixel 0 there is no earlier pixel: the state saved is the
    one AFTER pixel 0 (first pixel of the window), not the one before it. *)
Theorem C33_pass_from_first_pixel_refuted em E n e :
  rect E n em -> (2 <= n)%nat -> (S e < E)%nat -> 0 < entry em (S e) 0 -> 0 < entry em (S e) 1 ->
  exists s, standard_save false em = Ok s /\ forall k, bentry s e k = true <-> k = 0%nat.
Proof. exact (save_at_zero em E n e). Qed.
Print Assumptions C33_pass_from_first_pixel_refuted.

Theorem C33_single_pixel_refuted em E :
  rect E 1 em -> (1 < E)%nat -> standard_save false em = @Err bmatrix UnboundLocalError.
Proof. exact (save_single em E). Qed.
Print Assumptions C33_single_pixel_refuted.

Theorem C33_empty_first_never_saves em :
  exists s, standard_save true em = Ok s /\ forall i k, bentry s i k = false.
Proof. exists (map (map (fun _ : R => false)) em). split; [exact (save_none em)|]. intros. apply map_false_bentry. Qed.
Print Assumptions C33_empty_first_never_saves.

Example C33_example :
  let em := [[1; 1; 1]; [0; 1; 1]; [0; 0; 1]] in
  rect 3 3 em /\ 0 < entry em 1 1 /\ (forall k, (k < 1)%nat -> entry em 1 k = 0) /\
  (exists s, standard_save false em = Ok s /\ forall k, bentry s 0 k = true <-> k = 0%nat).
Proof.
  assert (Hr : rect 3 3 [[1; 1; 1]; [0; 1; 1]; [0; 0; 1]]) by (split; [reflexivity|repeat constructor]).
  split; [exact Hr|]. split; [unfold entry; cbn; lra|]. split; [intros [|k] Hk; [reflexivity|lia]|].
  apply (save_before_next _ 3 3 0 1 Hr); try lia; [unfold entry; cbn; lra|intros [|k] Hk; [reflexivity|lia]].
Qed.
Example C33_example_single : rect 2 1 [[1]; [1]] /\ (1 < 2)%nat.
Proof. split; [split; [reflexivity|repeat constructor]|lia]. Qed.
Example C33_example_from_first : rect 2 2 [[1; 1]; [1; 1]] /\ 0 < entry [[1; 1]; [1; 1]] 1 0 /\ 0 < entry [[1; 1]; [1; 1]] 1 1.
Proof. split; [split; [reflexivity|repeat constructor]|]. split; unfold entry; cbn; lra. Qed.
