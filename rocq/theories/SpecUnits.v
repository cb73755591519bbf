(** * The same call in other units of charge and of time, and with other surface flags. *)
From Coq Require Import ZArith List Bool Reals.
From Verif Require Import Num Py CCDModel TrapsModel ManagerModel ROEModel ClockModel MainModel SpecCalls.
Import ListNotations.
Open Scope R_scope.

(** [q]: how many new units of charge make one old unit (1000 for electrons instead of
    thousands of electrons).  [s]: the same for time.  [flag] rewrites the surface flag. *)
Definition rate_units (s : R) (r : rate R) : rate R :=
  match r with RInf => RInf | RFin x => RFin (x / s) end.
(** The distribution of lifetimes of a continuum trap, read in the new unit of time. *)
Definition class_units (s : R) (k : trap_class R) : trap_class R :=
  match k with
  | CTrap => CTrap
  | CInstant => CInstant
  | CContinuum fill released solve =>
      CContinuum (fun t => fill (t / s)) (fun t dt => released (t / s) (dt / s)) (fun f => s * solve f)
  end.
Definition trap_units (q s : R) (flag : bool -> bool) (t : trap R) : trap R :=
  mkTrap (q * t_density t) (s * t_release_timescale t) (rate_units s (t_capture_rate t))
         (t_emission_rate t / s) (flag (t_surface t)) (class_units s (t_class t)).
Definition bloom_units (q : R) (b : bloom_elt R) : bloom_elt R :=
  match b with BNum x => BNum (q * x) | BList l => BList (map (Rmult q) l) end.
Definition ccd_units (q : R) (c : ccd R) : ccd R :=
  mkCCD (ccd_fractions c) (ccd_n_phases c) (map (Rmult q) (ccd_full_well c)) (ccd_fill_power c)
        (map (Rmult q) (ccd_notch c)) (map (bloom_units q) (ccd_bloom c)).
Definition roe_units (s : R) (r : roe R) : roe R := set_dwell_times r (map (Rmult s) (roe_dwell_times r)).
Definition image_units (q : R) (im : image R) : image R := map (map (Rmult q)) im.

(** All the arguments of one direction.  (With no ROE the default one, of one second per
    transfer, has to be spelt out before its unit can be changed.) *)
Definition direction_units (q s : R) (flag : bool -> bool) (d : direction R) : direction R :=
  mkDir (option_map (ccd_units q) (d_ccd d)) (Some (roe_units s (the_roe d)))
        (option_map (map_traps (trap_units q s flag)) (d_traps d)) (d_express d) (d_offset d) (d_window d).
Definition output_units (q s : R) (out : result (image R * roe R * roe R)) : result (image R * roe R * roe R) :=
  do '(im, pr, sr) <- out; Ok (image_units q im, roe_units s pr, roe_units s sr).

(** Only the flags. *)
Definition with_flag (flag : bool -> bool) (t : trap R) : trap R :=
  mkTrap (t_density t) (t_release_timescale t) (t_capture_rate t) (t_emission_rate t) (flag (t_surface t)) (t_class t).
Definition direction_flags (flag : bool -> bool) (d : direction R) : direction R :=
  mkDir (d_ccd d) (d_roe d) (option_map (map_traps (with_flag flag)) (d_traps d)) (d_express d) (d_offset d) (d_window d).

(** Some group of traps starts with a lifetime continuum: its manager records times, not
    fractions (trap_managers.py:98-100). *)
Definition continuum (t : trap R) : Prop := match t_class t with CContinuum _ _ _ => True | _ => False end.
Definition starts_with_continuum (g : list (trap R)) : Prop := match g with [] => False | t :: _ => continuum t end.
Definition records_times (d : direction R) : Prop :=
  match d_traps d with
  | None => False
  | Some (TOne t) => continuum t
  | Some (TFlat l) => starts_with_continuum l
  | Some (TNested l) => Exists starts_with_continuum l
  end.

(** The same direction with another blooming level. *)
Definition with_blooming_level (level : list (bloom_elt R)) (d : direction R) : direction R :=
  mkDir (option_map (fun c => mkCCD (ccd_fractions c) (ccd_n_phases c) (ccd_full_well c) (ccd_fill_power c) (ccd_notch c) level) (d_ccd d))
        (d_roe d) (d_traps d) (d_express d) (d_offset d) (d_window d).
