(** * Specification: the trail behind a bright pixel, in a CCD with a notch. *)
From Coq Require Import List Reals.
From Verif Require Import Num TrapsModel Spec.
Import ListNotations.
Open Scope R_scope.

(** The fraction of a pixel reached by [n] electrons: none that the notch can hold. *)
Definition above_notch (notch full beta n : R) : R :=
  if Rle_dec n notch then 0 else Rpower (Rmin 1 ((n - notch) / (full - notch))) beta.
(** The traps of a pixel, and those still full [k] transfers after they were filled, when each
    takes the given time. *)
Definition traps_of (group : list (trap R)) : R := Rsum (map (@t_density R) group).
Definition still_full (group : list (trap R)) (dwell : R) (k : nat) : R :=
  Rsum (map (fun t => t_density t * exp (- dwell / t_release_timescale t) ^ k) group).
(** The pixel volumes swept in [k] transfers by a packet of [n] electrons that fills all
    the traps that it reaches, every time. *)
Fixpoint swept (well : R -> R) (traps : R) (k : nat) (n : R) : R :=
  match k with
  | O => 0
  | S k' => well n + swept well traps k' (n - traps * well n)
  end.
(** The pixel that was [old] in row [i], when only the pixel in row [hot], with [n] electrons,
    is brighter than the notch: nothing happens ahead of it, it loses the traps of the volume it
    sweeps, and those behind it get what is released while they pass. *)
Definition with_trail (group : list (trap R)) (fraction dwell loss : R) (hot i : nat) (old : R) : R :=
  if Nat.ltb i hot then old
  else if Nat.eqb i hot then old - fraction * traps_of group * loss
  else old + loss * (fraction * (still_full group dwell (i - hot - 1) - still_full group dwell (i - hot))).
