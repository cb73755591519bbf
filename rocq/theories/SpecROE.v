(** * Specification vocabulary for the readout electronics: geometry of the clocking
    sequence, and bookkeeping of transfers.  Uses no function of the model. *)
From Coq Require Import ZArith List Bool Reals Lia.
From Verif Require Import Num ROEModel.
Import ListNotations.

(** ** Geometry

    Each pixel has [n] phases; phase [k] of pixel [p] lies [p * n - k] phases away from the
    readout register (up to a constant).  During the forward half of the clocking
    sequence every charge cloud moves by one phase per step towards the readout, during the
    backward half (trap pumping only) back again. *)
Definition moved (n step : nat) : Z :=
  if Nat.leb step n then Z.of_nat step else (2 * Z.of_nat n - Z.of_nat step)%Z.
Definition position (n : nat) (pixel : Z) (phase : nat) : Z :=
  (pixel * Z.of_nat n - Z.of_nat phase)%Z.
(** Where the charge cloud of a pixel is after [step] steps: it started in phase 0. *)
Definition cloud_position (n step : nat) (pixel : Z) : Z :=
  (pixel * Z.of_nat n - moved n step)%Z.

(** The cloud of pixel [p + d] is as close as any other to phase [phase] of pixel [p]. *)
Definition nearest (n step phase : nat) (d : Z) : Prop :=
  forall p d' : Z,
    (Z.abs (position n p phase - cloud_position n step (p + d))
     <= Z.abs (position n p phase - cloud_position n step (p + d')))%Z.
(** The cloud of pixel [p + d] is in phase [phase] of pixel [p]. *)
Definition holds_cloud (n step phase : nat) (d : Z) : Prop :=
  forall p : Z, position n p phase = cloud_position n step (p + d).
(** A phase closer to the readout than the phase that holds the pixel's own cloud. *)
Definition ahead_of_cloud (n step phase : nat) : Prop :=
  (moved n step mod Z.of_nat n < Z.of_nat phase)%Z.

(** ** Matrices of transfers *)
Open Scope R_scope.
Definition rect (rows cols : nat) {A} (m : list (list A)) : Prop :=
  length m = rows /\ Forall (fun r => length r = cols) m.
Definition entry (m : matrix R) (i j : nat) : R := nth j (nth i m []) 0.
Definition bentry (m : list (list bool)) (i j : nat) : bool := nth j (nth i m []) false.
(** Transfers of column [j] in the first [i] rows, and in all rows. *)
Fixpoint transfers_before (m : matrix R) (i j : nat) : R :=
  match i with
  | O => 0
  | S i' => transfers_before m i' j + entry m i' j
  end.
Definition transfers (m : matrix R) (j : nat) : R := transfers_before m (length m) j.

(** The part of the interval [a, b] inside the time window [lo, hi]. *)
Definition overlap (a b lo hi : R) : R := Rmax 0 (Rmin b hi - Rmax a lo).

(** The pixels to process: a non-empty list of image rows, the largest being [n_pixels - 1]. *)
Open Scope nat_scope.
Definition window_ok (window : list Z) (n_pixels : nat) : Prop :=
  Forall (fun w => (0 <= w < Z.of_nat n_pixels)%Z) window /\ In (Z.of_nat n_pixels - 1)%Z window.

(** Consecutive time windows [a, b1), [b1, b2), ... *)
Fixpoint windows_from (a : Z) (ends : list Z) : list (Z * Z) :=
  match ends with [] => [] | b :: l => (a, b) :: windows_from b l end.
Fixpoint increasing_from (a : Z) (ends : list Z) : Prop :=
  match ends with [] => True | b :: l => (a < b)%Z /\ increasing_from b l end.

(** The number of transfers every pixel undergoes in a charge-injection readout. *)
Definition injection_transfers (n_pixel_transfers : option nat) (n_pixels offset : nat) : nat :=
  match n_pixel_transfers with Some n => n | None => n_pixels + offset end.

(** [n] is the integer nearest to [x]; if there are two, the even one. *)
Definition nearest_even (x : R) (n : nat) : Prop :=
  (Rabs (INR n - x) <= 1/2 /\ (Rabs (INR n - x) = 1/2 -> Nat.even n = true))%R.
