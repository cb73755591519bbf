(** * Properties C01 to C05: the CCD well (arcticpy/ccd.py). *)
From Coq Require Import ZArith List Bool Reals Lra Lia.
From Verif Require Import Num Py RFacts CCDModel Spec CCDFacts.
Import ListNotations.
Open Scope R_scope.

(** C01. *)
Theorem C01_volume_in_unit_interval (c : ccd R) phase notch beta full n :
  phase_params c phase notch beta full -> 0 <= beta -> full <> notch ->
  exists v, cloud_fractional_volume c n phase false = Ok v /\ 0 <= v <= 1.
Proof. exact (volume_bounds c phase notch beta full n). Qed.
Print Assumptions C01_volume_in_unit_interval.

(** A CCD with two phases meets the hypotheses. *)
Definition example_ccd : ccd R :=
  mkCCD [1/2; 1/2] 2 [84700; 1000] [1/2; 1] [100; 0] [BNum 84700; BNum 1000].
Example C01_example : phase_params example_ccd 0 100 (1/2) 84700 /\ 0 <= 1/2 /\ 84700 <> 100 /\
  phase_params example_ccd 1 0 1 1000.
Proof. repeat split; lra. Qed.

(** C02. *)
Theorem C02_volume_by_cases (c : ccd R) phase notch beta full n v :
  phase_params c phase notch beta full -> 0 < beta -> 0 <= notch < full ->
  cloud_fractional_volume c n phase false = Ok v ->
  (n <= notch -> v = 0) /\ (full <= n -> v = 1) /\
  (notch < n < full -> v = Rpower ((n - notch) / (full - notch)) beta /\ 0 < v < 1).
Proof. exact (volume_cases c phase notch beta full n v). Qed.
Print Assumptions C02_volume_by_cases.

Theorem C02_volume_monotone (c : ccd R) phase notch beta full n n' v v' :
  phase_params c phase notch beta full -> 0 < beta -> 0 <= notch < full ->
  cloud_fractional_volume c n phase false = Ok v ->
  cloud_fractional_volume c n' phase false = Ok v' ->
  n <= n' -> v <= v'.
Proof. exact (volume_mono c phase notch beta full n n' v v'). Qed.
Print Assumptions C02_volume_monotone.

Example C02_example : exists v v',
  cloud_fractional_volume example_ccd 50 0 false = Ok v /\
  cloud_fractional_volume example_ccd 84701 0 false = Ok v' /\ v = 0 /\ v' = 1.
Proof.
  destruct (volume_bounds example_ccd 0 100 (1/2) 84700 50) as (v & E & _); [apply C01_example|lra|lra|].
  destruct (volume_bounds example_ccd 0 100 (1/2) 84700 84701) as (v' & E' & _); [apply C01_example|lra|lra|].
  exists v, v'. split; [auto|]. split; [auto|].
  destruct (volume_cases example_ccd 0 100 (1/2) 84700 50 v) as (A & _); [apply C01_example|lra|lra|auto|].
  destruct (volume_cases example_ccd 0 100 (1/2) 84700 84701 v') as (_ & B & _); [apply C01_example|lra|lra|auto|].
  split; [apply A; lra|apply B; lra].
Qed.

(** C03. *)
Theorem C03_constructor_accepts_exactly {F} {num : Num F} (fr fw no fp : param F) bl :
  let n := n_phases_of fr in
  (exists c, ccd_init fr fw no fp bl = Ok c) <->
  (fits n fw /\ fits n no /\ fits n fp /\ (forall b, bl = Some b -> fits n b)).
Proof. exact (ccd_init_iff fr fw no fp bl). Qed.
Print Assumptions C03_constructor_accepts_exactly.

Theorem C03_constructor_rejects_with_ValueError {F} {num : Num F} (fr fw no fp : param F) bl e :
  ccd_init fr fw no fp bl = Err e -> e = ValueError.
Proof. exact (ccd_init_err fr fw no fp bl e). Qed.
Print Assumptions C03_constructor_rejects_with_ValueError.

Theorem C03_constructor_result {F} {num : Num F} (fr fw no fp : param F) bl c :
  ccd_init fr fw no fp bl = Ok c ->
  let n := n_phases_of fr in
  ccd_n_phases c = n /\ length (ccd_fractions c) = n /\ length (ccd_full_well c) = n /\
  length (ccd_notch c) = n /\ length (ccd_fill_power c) = n /\ length (ccd_bloom c) = n /\
  forall i, (i < n)%nat ->
    nth_error (ccd_fractions c) i = value_at fr i /\
    nth_error (ccd_full_well c) i = value_at fw i /\
    nth_error (ccd_notch c) i = value_at no i /\
    nth_error (ccd_fill_power c) i = value_at fp i.
Proof. exact (fun E => proj2 (ccd_init_ok fr fw no fp bl c E)). Qed.
Print Assumptions C03_constructor_result.

Theorem C03_no_IndexError_after_construction fr fw no fp bl (c : ccd R) phase surface n :
  ccd_init fr fw no fp bl = Ok c -> (phase < ccd_n_phases c)%nat ->
  cloud_fractional_volume c n phase surface <> Err IndexError.
Proof. exact (well_fill_not_index_error fr fw no fp bl c phase surface n). Qed.
Print Assumptions C03_no_IndexError_after_construction.

Example C03_example :
  (exists c : ccd R, ccd_init (PList [1/2; 1/2]) (Scalar 1000) (PList [0; 1]) (Scalar 1) None = Ok c
     /\ ccd_full_well c = [1000; 1000]) /\
  ccd_init (PList [1/2; 1/2]) (PList [1000]) (PList [0; 1]) (Scalar 1) None = Err ValueError.
Proof. split; [eexists; split; reflexivity|reflexivity]. Qed.

(** C04 (violated): a freshly built one-phase CCD whose fractions are re-assigned to two
    phases fails for the second phase; more generally any CCD given more phases does. *)
Theorem C04_reassigned_fractions_refuted :
  exists (c : ccd R) l phase n,
    ccd_init (Scalar 1) (Scalar 1000) (Scalar 0) (Scalar 1) None = Ok c /\
    (phase < ccd_n_phases (set_fractions c (PList l)))%nat /\
    cloud_fractional_volume (set_fractions c (PList l)) n phase false = Err IndexError.
Proof. exact reassigned_refuted. Qed.
Print Assumptions C04_reassigned_fractions_refuted.

Theorem C04_more_phases_always_fail (c : ccd R) l phase n : n <> 0 ->
  (length (ccd_notch c) <= phase < length l)%nat ->
  let c' := set_fractions c (PList l) in
  (phase < ccd_n_phases c')%nat /\ cloud_fractional_volume c' n phase false = Err IndexError.
Proof. exact (refraction_breaks c l phase n). Qed.
Print Assumptions C04_more_phases_always_fail.

(** C05 (violated): a surface query fails for EVERY CCD and every non-zero charge. *)
Theorem C05_surface_query_refuted (c : ccd R) phase n : n <> 0 ->
  cloud_fractional_volume c n phase true = Err AttributeError.
Proof. exact (surface_fails c phase n). Qed.
Print Assumptions C05_surface_query_refuted.
