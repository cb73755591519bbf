(** * Specification: readouts past traps of any class with settings that differ a little. *)
From Coq Require Import List Reals.
From Verif Require Import Num Py CCDModel TrapsModel ManagerModel ROEModel ClockModel MainModel Spec SpecImage SpecReadout SpecTime SpecSlow SpecHistory SpecHold SpecRecovery SpecWindowOrder SpecFlatten SpecCalibration SpecZeroCapture ContinuumModel.
Import ListNotations.
Open Scope R_scope.

(** Two lists of trap species, taken in pairs: how much the occupancies differ that a trap reaches
    inside the cloud, from full and from empty. *)
Fixpoint capture_error (dwell dwell' : R) (l l' : list (trap R)) : R :=
  match l, l' with
  | t :: r, t' :: r' => t_density t * (Rabs (if_full t dwell - if_full t' dwell') + Rabs (if_empty t dwell - if_empty t' dwell')) + capture_error dwell dwell' r r'
  | _, _ => 0
  end.
(** All errors together, in electrons per pixel and transfer. *)
Definition slow_error (dwell dwell' eps : R) (l l' : list (trap R)) : R :=
  setting_error dwell dwell' eps l l' + capture_error dwell dwell' l l'.
(** The ratio of capture to emission, of which infinity is the highest, is at most that of the other trap. *)
Definition no_greedier (t' t : trap R) : Prop :=
  match t_capture_rate t, t_capture_rate t' with
  | RInf, _ => True
  | RFin _, RInf => False
  | RFin c, RFin c' => c' * t_emission_rate t <= c * t_emission_rate t'
  end.

(** One direction of readout past such traps, every transfer computed, in wells of a power of at
    least one: an electron more reaches less than one trap more. *)
Record patient_setting (d : direction R) (n : nat) (c : ccd R) (fraction : R) (group : list (trap R)) (dwell full beta : R) : Prop := {
  ps_phase : single_phase d n c fraction group dwell false;
  ps_class : Forall (fun t => t_class t = CTrap) group;
  ps_capture : Forall capturing group;
  ps_well : phase_params c 0 0 beta full;
  ps_full : 0 < full;
  ps_power : 1 <= beta;
  ps_few : fraction * full_traps group * beta < full
}.
(** The same past instant-capture traps, in one of the calls of C106. *)
Record instant_setting (d : direction R) (n : nat) (c : ccd R) (fraction : R) (group : list (trap R)) (dwell full beta : R) : Prop := {
  is_phase : single_phase d n c fraction group dwell false;
  is_class : instant_group group;
  is_well : phase_params c 0 0 beta full;
  is_full : 0 < full;
  is_power : 1 <= beta;
  is_few : fraction * full_traps group * beta < full;
  is_call : gentle_call d n
}.
(** Traps that record times. *)
Record timed_setting (d : direction R) (n : nat) (c : ccd R) (fraction : R) (group : list (trap R)) (dwell full beta : R) : Prop := {
  ts_phase : single_phase d n c fraction group dwell false;
  ts_class : kind_for group = KTime;
  ts_curves : Forall flattening group;
  ts_well : phase_params c 0 0 beta full;
  ts_full : 0 < full;
  ts_power : 1 <= beta;
  ts_few : fraction * filled_traps group * beta < full
}.
(** Two lists of such species, taken in pairs: after any number of transfers since the traps were filled,
    they hold numbers of electrons that differ, in total, by at most [e]. *)
Inductive curves_near (dwell dwell' : R) : list (trap R) -> list (trap R) -> R -> Prop :=
| curves_none : curves_near dwell dwell' [] [] 0
| curves_more t t' e l l' rest : (forall k, 0 <= k ->
      Rabs (t_density t * fill_fraction_from_time_elapsed t (k * dwell) - t_density t' * fill_fraction_from_time_elapsed t' (k * dwell')) <= e) ->
    curves_near dwell dwell' l l' rest -> curves_near dwell dwell' (t :: l) (t' :: l') (e + rest).
(** How far apart two settings move a column of [n] pixels, in electrons. *)
Inductive settings_apart (d d' : direction R) (n : nat) : R -> Prop :=
| apart_idle : d_traps d = None -> d_window d = WNone -> d_traps d' = None -> d_window d' = WNone -> settings_apart d d' n 0
| apart_slow c fraction group dwell full beta c' fraction' group' dwell' full' beta' eps :
    patient_setting d n c fraction group dwell full beta -> patient_setting d' n c' fraction' group' dwell' full' beta' ->
    d_offset d' = d_offset d -> Forall2 no_greedier group' group -> depth_error 0 full beta full' beta' eps ->
    settings_apart d d' n (9 * INR n * INR (d_offset d + n) * slow_error dwell dwell' eps (map (thinned fraction) group) (map (thinned fraction') group'))
| apart_instant c fraction group dwell full beta c' fraction' group' dwell' full' beta' eps :
    instant_setting d n c fraction group dwell full beta -> instant_setting d' n c' fraction' group' dwell' full' beta' ->
    d_offset d' = d_offset d -> length group' = length group -> depth_error 0 full beta full' beta' eps ->
    settings_apart d d' n (6 * INR n * INR (d_offset d + n) * setting_error dwell dwell' eps (map (thinned fraction) group) (map (thinned fraction') group'))
| apart_timed c fraction group dwell full beta c' fraction' group' dwell' full' beta' eps e :
    timed_setting d n c fraction group dwell full beta -> timed_setting d' n c' fraction' group' dwell' full' beta' ->
    d_offset d' = d_offset d -> curves_near dwell dwell' (map (thinned fraction) group) (map (thinned fraction') group') e -> depth_error 0 full beta full' beta' eps ->
    settings_apart d d' n (8 * INR n * INR (d_offset d + n) * (e + filled_traps (map (thinned fraction) group) * eps))
| apart_mixed c fraction group dwell full beta c' fraction' group' dwell' full' beta' eps e :
    timed_setting d n c fraction group dwell full beta -> instant_setting d' n c' fraction' group' dwell' full' beta' ->
    d_offset d' = d_offset d -> curves_near dwell dwell' (map (thinned fraction) group) (map (thinned fraction') group') e -> depth_error 0 full beta full' beta' eps ->
    settings_apart d d' n (8 * INR n * INR (d_offset d + n) * (e + filled_traps (map (thinned fraction) group) * eps)).

(** In either order. *)
Definition settings_near (d d' : direction R) (n : nat) (x : R) : Prop := settings_apart d d' n x \/ settings_apart d' d n x.

(** The same trap, but with a capture timescale of [tau]. *)
Definition with_capture (tau : R) (t : trap R) : trap R :=
  mkTrap (t_density t) (t_release_timescale t) (RFin (1 / tau)) (t_emission_rate t) (t_surface t) (t_class t).
(** In electrons per pixel and transfer, and per unit of the capture timescale: a bound on
    how far the occupancies inside the cloud are from those of capture in no time. *)
Definition haste (dwell : R) (t : trap R) : R := t_density t * (2 / t_release_timescale t + 1 / dwell).
(** Two directions that differ in the capture timescale only: 0 in the first, [tau] in the second;
    and a bound on what this changes in a column of [n] pixels, per unit of [tau]. *)
Inductive slowed (tau : R) (d d' : direction R) (n : nat) : R -> Prop :=
| slowed_idle : d_traps d = None -> d_window d = WNone -> d_traps d' = None -> d_window d' = WNone -> slowed tau d d' n 0
| slowed_traps c fraction group dwell full beta : patient_setting d n c fraction group dwell full beta -> Forall zero_capture group ->
    single_phase d' n c fraction (map (with_capture tau) group) dwell false -> d_offset d' = d_offset d ->
    slowed tau d d' n (9 * INR n * INR (d_offset d + n) * (fraction * fold_right Rplus 0 (map (haste dwell) group))).

(** A log-normal continuum around the lifetime of a trap. *)
Definition smeared (sigma : R) (t t' : trap R) : Prop :=
  exists root, log_normal_trap root (t_density t) (t_release_timescale t) sigma = Ok t'.
(** Two directions that differ in the lifetimes only: one for each species in the first, continua of width [sigma]
    in the second; and a bound on what this changes in a column of [n] pixels, per unit of [sigma]. *)
Inductive spread_out (sigma : R) (d d' : direction R) (n : nat) : R -> Prop :=
| spread_idle : d_traps d = None -> d_window d = WNone -> d_traps d' = None -> d_window d' = WNone -> spread_out sigma d d' n 0
| spread_traps c fraction group group' dwell full beta : instant_setting d n c fraction group dwell full beta -> Forall2 (smeared sigma) group group' ->
    single_phase d' n c fraction group' dwell false -> d_offset d' = d_offset d ->
    spread_out sigma d d' n (8 * INR n * INR (d_offset d + n) * (fraction * full_traps group)).
