(** * Specification: charge that leaves its own pixel first.

    roe.py:360-372 says what happens in the detector: the pixel in which a charge cloud starts has
    empty traps, and every further pixel on its way to the readout register has traps that earlier
    clouds may have filled.  So the packets of a column pass the pixel furthest from the readout
    register first. *)
From Coq Require Import List Reals.
From Verif Require Import Num TrapsModel ManagerModel ClockModel MainModel Spec SpecImage SpecRecovery.
Import ListNotations.
Open Scope R_scope.

Section Detector.
Context (traps : list (trap R)) (well : R -> R) (dwell : R).
(** The packets in the rows behind have left their pixels when they come to the pixel of the first. *)
Fixpoint leave_pixels (packets : list R) : list R :=
  match packets with
  | [] => []
  | first :: behind => past_clouds traps well dwell empty_profile (first :: leave_pixels behind)
  end.
(** Then all pass the pixels before the image. *)
Definition detector_clouds (offset : nat) (packets : list R) : list R :=
  through_clouds traps well dwell offset (leave_pixels packets).
End Detector.

(** All the charge of a column is in one pixel. *)
Definition lone (im : image R) (i j : nat) : Prop := forall k, k <> i -> pixel im k j = 0.
