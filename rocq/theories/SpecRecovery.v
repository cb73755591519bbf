(** * Specification: readout of columns in which pixels may be negative, and the recovery of an
    image by repeated readout. *)
From Coq Require Import List Reals.
From Verif Require Import Num CCDModel TrapsModel ManagerModel Spec SpecReadout.
Import ListNotations.
Open Scope R_scope.

Section Clouds.
Context (traps : list (trap R)) (well : R -> R) (dwell : R).
(** Traps of one pixel that hold instantly captured electrons: what they release joins the packet,
    a cloud of electrons is what is then above zero, and the cloud fills the traps it reaches. *)
Definition cloud (n : R) (P : profile) : R := Rmax 0 (n + released traps dwell P).
Definition left_over (n : R) (P : profile) : R :=
  cloud n P - captured traps (cloud n P) (well (cloud n P)) (after_release traps dwell P).
Definition then_traps (n : R) (P : profile) : profile :=
  after_capture traps (cloud n P) (well (cloud n P)) (after_release traps dwell P).
Fixpoint past_clouds (P : profile) (packets : list R) : list R :=
  match packets with
  | [] => []
  | n :: l => left_over n P :: past_clouds (then_traps n P) l
  end.
(** The packets of a column pass through [offset] pixels of traps; from then on, the first packet
    leaves after every transfer. *)
Fixpoint read_clouds (rows : nat) (packets : list R) : list R :=
  match rows with
  | O => []
  | S k => match past_clouds empty_profile packets with
           | [] => []
           | first :: rest => first :: read_clouds k rest
           end
  end.
Fixpoint through_clouds (offset : nat) (packets : list R) : list R :=
  match offset with
  | O => packets
  | S k => through_clouds k (past_clouds empty_profile packets)
  end.
Definition column_clouds (offset : nat) (packets : list R) : list R :=
  read_clouds (length packets) (through_clouds offset packets).
End Clouds.

(** The traps in a pixel. *)
Definition traps_per_pixel (traps : list (trap R)) : R := Rsum (map (@t_density R) traps).
(** Clouds of at least [floor] electrons whose depth grows slowly enough: more electrons in the
    cloud always leave more electrons to it. *)
Record gradual (traps : list (trap R)) (well : R -> R) (floor slope : R) : Prop := {
  gr_floor : 0 <= floor;
  gr_slope : 0 <= slope;
  gr_grows : forall a b, floor <= a <= b -> 0 <= well b - well a <= slope * (b - a);
  gr_enough : forall a, floor <= a -> traps_per_pixel traps * well a <= a
}.

(** The total absolute difference of two columns. *)
Fixpoint apart (l l' : list R) : R :=
  match l, l' with
  | x :: r, y :: r' => Rabs (x - y) + apart r r'
  | _, _ => 0
  end.

(** ** Conditions on wells and images *)
(** Traps with [rho] per pixel, in wells of the given size and power, seen by clouds of at least
    [floor] electrons: each electron added to a cloud leads to less than one more being
    captured, and clouds have enough electrons for the traps they reach. *)
Definition mild (rho full beta floor : R) : Prop :=
  (floor = 0 /\ 1 <= beta /\ rho * beta < full) \/ (0 < floor /\ rho <= floor /\ rho * beta < floor).
(** Pixels that stay above [floor] while they pass the traps of [passes] pixels. *)
Definition stays_above (rho floor : R) (passes : nat) (x : R) : Prop :=
  floor = 0 \/ floor + INR passes * rho <= x.
(** A pixel well above zero, or above what stays above a floor. *)
Definition well_above (rho floor : R) (passes : nat) (x : R) : Prop :=
  (floor = 0 /\ 0 < x) \/ (0 < floor /\ floor + 3 * INR passes * rho < x).
