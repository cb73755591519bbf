(** * Specification: readouts with settings that differ a little. *)
From Coq Require Import List Reals.
From Verif Require Import Num TrapsModel Spec SpecReadout SpecRecovery.
Import ListNotations.
Open Scope R_scope.

(** Two lists of trap species, taken in pairs: how much the densities differ ... *)
Fixpoint density_error (l l' : list (trap R)) : R :=
  match l, l' with
  | t :: r, t' :: r' => Rabs (t_density t - t_density t') + density_error r r'
  | _, _ => 0
  end.
(** ... and the share of the electrons that stay trapped during a transfer. *)
Definition share_kept (dwell : R) (t : trap R) : R := exp (- dwell / t_release_timescale t).
Fixpoint release_error (dwell dwell' : R) (l l' : list (trap R)) : R :=
  match l, l' with
  | t :: r, t' :: r' => t_density t * Rabs (share_kept dwell t - share_kept dwell' t') + release_error dwell dwell' r r'
  | _, _ => 0
  end.
(** Clouds of at least [floor] electrons reach depths that differ by at most [eps]. *)
Definition depth_error (floor full beta full' beta' eps : R) : Prop :=
  forall a, floor <= a -> Rabs (depth full beta a - depth full' beta' a) <= eps.
(** All three together, in electrons per pixel and transfer. *)
Definition setting_error (dwell dwell' eps : R) (l l' : list (trap R)) : R :=
  density_error l l' + release_error dwell dwell' l l' + traps_per_pixel l * eps.
