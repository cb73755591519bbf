(** * Vocabulary for the ways in which add_cti can be called. *)
From Coq Require Import ZArith List Bool Reals.
From Verif Require Import Num Py CCDModel TrapsModel ManagerModel ROEModel ClockModel MainModel.
Import ListNotations.

Section Directions.
Context {F : Type} {num : Num F}.
(** The same arguments for one direction, with another ROE, or without traps. *)
Definition with_roe (d : direction F) (r : roe F) : direction F := mkDir (d_ccd d) (Some r) (d_traps d) (d_express d) (d_offset d) (d_window d).
Definition without_traps (d : direction F) : direction F := mkDir (d_ccd d) (d_roe d) None (d_express d) (d_offset d) (d_window d).
End Directions.

(** ** Fractions of traps, and densities, in other units. *)
Open Scope R_scope.
Definition scaled_fractions (k : R) (c : ccd R) : ccd R :=
  mkCCD (map (Rmult k) (ccd_fractions c)) (ccd_n_phases c) (ccd_full_well c) (ccd_fill_power c) (ccd_notch c) (ccd_bloom c).
Definition times_density (k : R) (t : trap R) : trap R :=
  mkTrap (k * t_density t) (t_release_timescale t) (t_capture_rate t) (t_emission_rate t) (t_surface t) (t_class t).
Definition map_traps (f : trap R -> trap R) (a : traps_arg R) : traps_arg R :=
  match a with TOne t => TOne (f t) | TFlat l => TFlat (map f l) | TNested l => TNested (map (map f) l) end.

Definition fractions_times (k : R) (d : direction R) : direction R :=
  mkDir (option_map (scaled_fractions k) (d_ccd d)) (d_roe d) (d_traps d) (d_express d) (d_offset d) (d_window d).
Definition densities_times (k : R) (d : direction R) : direction R :=
  mkDir (d_ccd d) (d_roe d) (option_map (map_traps (times_density k)) (d_traps d)) (d_express d) (d_offset d) (d_window d).
