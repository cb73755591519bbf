(** * Specification: how much a readout may change a pixel. *)
From Coq Require Import ZArith List Bool Reals.
From Verif Require Import Num CCDModel TrapsModel MainModel Spec SpecReadout.
Import ListNotations.
Open Scope R_scope.

(** The number of traps of all species in a pixel, of which a share is in the phases
    listed. *)
Definition traps_per_pixel (groups : list (list (trap R))) : R :=
  Rsum (map (fun g => Rsum (map (@t_density R) g)) groups).
Definition all_shares (c : ccd R) : R := Rsum (map (share c) (seq 0 (ccd_n_phases c))).

(** What the traps can do to the pixel in row [i] of a column of [n] pixels, when everything is
    instant and without windows: no more than all the traps it passes on its way, full or
    empty.  With a single clocking step, the pixel passes [i + 1 + offset] times the traps of
    a pixel; with several steps, the traps of every step, and those passed by the pixel in
    front of it, which may release into it. *)
Inductive change_limit (d : direction R) (n i : nat) : R -> Prop :=
| limit_no_traps : d_traps d = None -> change_limit d n i 0
| limit_one_step c traps dwell dt : plain_setting d n c traps [dwell] dt ->
    change_limit d n i (INR (i + 1 + d_offset d) * (all_shares c * traps_per_pixel (groups_in traps)))
| limit_steps c traps dwell dt : plain_setting d n c traps dwell dt ->
    change_limit d n i ((INR (i + 1 + d_offset d) + match i with O => 0 | S _ => INR (i + d_offset d) end)
                        * (INR (length dwell) * (all_shares c * traps_per_pixel (groups_in traps)))).
