(** * What MainModel.v leaves out of Python's calling conventions: arrays of integers, one ROE
    object for both directions, lists that mix traps and lists of traps, and negative phases. *)
From Coq Require Import ZArith List Bool.
From Verif Require Import Num Py CCDModel TrapsModel ManagerModel ROEModel ClockModel MainModel.
Import ListNotations.
Open Scope num_scope.

Section Calls.
Context {F : Type} {num : Num F}.

(** ** The number type of an array.  Integers are unbounded here; other numpy types
    (float32, complex, objects) are not modelled. *)
Inductive array :=
| Ints (im : list (list Z))
| Floats (im : image F).
(** main_utils.pyx:167-169: [np.concatenate] with an array of float64 converts integers. *)
Definition as_floats (a : array) : image F :=
  match a with Ints im => map (map nofZ) im | Floats im => im end.
Definition array_rows (a : array) : nat :=
  match a with Ints im => length im | Floats im => length im end.
Definition array_columns (a : array) : nat :=
  match a with
  | Ints im => match im with [] => 0%nat | row :: _ => length row end
  | Floats im => n_columns im
  end.
(** [.T.copy()] and [.T] (main.py:203, 220). *)
Definition array_transpose (a : array) : array :=
  match a with
  | Ints im => Ints (map (fun j => map (fun row => nth j row 0%Z) im) (seq 0 (array_columns a)))
  | Floats im => Floats (transpose im)
  end.

(** main.py:36-233, add_cti, on an array of either type.  The clocking function always returns
    floats (main_utils.pyx:259). *)
Definition add_cti_array (a : array) (parallel serial : direction F) (time_window : option (list Z))
    : result (array * roe F * roe F) :=
  let n_rows := array_rows a in
  let n_cols := array_columns a in
  let parallel_window := resolve_window (d_window parallel) n_rows in
  let serial_window := resolve_window (d_window serial) n_cols in
  do '(time_window, serial_columns) <-
     resolve_time_window time_window parallel_window n_rows (d_offset parallel);
  do '(a1, parallel_roe) <-
     match d_traps parallel with
     | None => Ok (a, the_roe parallel)
     | Some traps =>
         do '(im, r) <- clock_direction (as_floats a) parallel (the_roe parallel) traps
                          parallel_window serial_window (Some time_window);
         Ok (Floats im, r)
     end;
  do '(a2, serial_roe) <-
     match d_traps serial with
     | None => Ok (a1, the_roe serial)
     | Some traps =>
         do '(im, r) <- clock_direction (as_floats (array_transpose a1)) serial (the_roe serial) traps
                          serial_window serial_columns None;
         Ok (array_transpose (Floats im), r)
     end;
  Ok (a2, parallel_roe, serial_roe).

(** [a - b] (main.py:301): integers only if both are. *)
Definition array_sub (a b : array) : array :=
  match a, b with
  | Ints x, Ints y => Ints (map (fun '(p, q) => map (fun '(m, n) => (m - n)%Z) (combine p q)) (combine x y))
  | _, _ => Floats (image_zip nsub (as_floats a) (as_floats b))
  end.
(** [a += b] (main.py:301) in place: an array of integers cannot take floats
    (UFuncTypeError, a TypeError). *)
Definition array_iadd (a b : array) : result array :=
  match a, b with
  | Ints x, Ints y => Ok (Ints (map (fun '(p, q) => map (fun '(m, n) => (m + n)%Z) (combine p q)) (combine x y)))
  | Ints _, Floats _ => Err TypeError
  | Floats x, _ => Ok (Floats (image_zip nadd x (as_floats b)))
  end.
(** main.py:236-313, remove_cti, on an array of either type. *)
Fixpoint remove_cti_array_loop (a : array) (iterations : nat) (parallel serial : direction F)
    (time_window : option (list Z)) (estimate : array) : result array :=
  match iterations with
  | O => Ok estimate
  | S n =>
      do '(added, pr, sr) <- add_cti_array estimate parallel serial time_window;
      do estimate' <- array_iadd estimate (array_sub a added);
      remove_cti_array_loop a n (keep_roe parallel pr) (keep_roe serial sr) time_window estimate'
  end.
Definition remove_cti_array (a : array) (iterations : nat) (parallel serial : direction F)
    (time_window : option (list Z)) : result array :=
  remove_cti_array_loop a iterations parallel serial time_window a.

(** ** main.py:36-233, add_cti, called with one ROE object as parallel_roe and serial_roe:
    what parallel clocking stores in it (roe.py:692) is there in serial clocking. *)
Definition add_cti_one_roe (im : image F) (r : roe F) (parallel serial : direction F)
    (time_window : option (list Z)) : result (image F * roe F) :=
  let n_rows := length im in
  let n_cols := n_columns im in
  let parallel_window := resolve_window (d_window parallel) n_rows in
  let serial_window := resolve_window (d_window serial) n_cols in
  do '(time_window, serial_columns) <-
     resolve_time_window time_window parallel_window n_rows (d_offset parallel);
  do '(im1, r1) <-
     match d_traps parallel with
     | None => Ok (im, r)
     | Some traps => clock_direction im parallel r traps parallel_window serial_window (Some time_window)
     end;
  match d_traps serial with
  | None => Ok (im1, r1)
  | Some traps =>
      do '(im2, r2) <- clock_direction (transpose im1) serial r1 traps serial_window serial_columns None;
      Ok (transpose im2, r2)
  end.

(** ** trap_managers.py:79-115, AllTrapManager.__init__, for any list of traps and lists. *)
Inductive traps_elt :=
| ETrap (t : trap F)
| EList (l : list (trap F)).
(** :79-82: a list that starts with a list is a list of groups; any other is one group.
    [trap_group[0]] of a trap that is not in a list is a TypeError (:93), and a list in a
    group has no [capture_rate] (AttributeError, :213). *)
Definition groups_of_elts (l : list traps_elt) : result (list (result (list (trap F)))) :=
  match l with
  | [] => Err IndexError
  | EList _ :: _ => Ok (map (fun e => match e with EList g => Ok g | ETrap _ => Err TypeError end) l)
  | ETrap _ :: _ => Ok [mapM (fun e => match e with ETrap t => Ok t | EList _ => Err AttributeError end) l]
  end.
Definition atm_init_list (l : list traps_elt) (max_n_transfers : nat) (c : ccd F) : result (all_managers F) :=
  do groups <- groups_of_elts l;
  do data <- mapM (fun phase =>
      mapM (fun group =>
          do g <- group;
          do k <- kind_of_group g;
          do frac <- of_option IndexError (nth_error (ccd_fractions c) phase);
          let m := manager_init k g max_n_transfers in
          Ok (mkManager (m_kind m) (map (scale_density frac) (m_traps m)) (m_wm m)))
        groups) (seq 0 (ccd_n_phases c));
  Ok (mkATM data None n0 n0).

(** ** ccd.py:230-263 and 268-277 with any integer as [phase]: Python's indexing of lists. *)
Definition well_fill_at (c : ccd F) (phase : Z) (surface : bool) (n : F) : result F :=
  if n =? n0 then Ok n0
  else if surface then Err AttributeError
  else
    do empty <- py_index (ccd_notch c) phase;
    do beta <- py_index (ccd_fill_power c) phase;
    do full <- py_index (ccd_full_well c) phase;
    let well_range := full - empty in
    if well_range =? n0 then Err ZeroDivisionError
    else
      let v := set_min_max ((n - empty) / well_range) n0 n1 in
      if ((v =? n0) && (beta <? n0))%bool then Err ZeroDivisionError else Ok (npow v beta).
Definition ccd_phase_at (c : ccd F) (phase : Z) : result (ccd_phase F) :=
  do fr <- py_index (ccd_fractions c) phase;
  do fw <- py_index (ccd_full_well c) phase;
  do fp <- py_index (ccd_fill_power c) phase;
  do no <- py_index (ccd_notch c) phase;
  do bl <- py_index (ccd_bloom c) phase;
  Ok (mkCCDPhase fr fw fp no bl (fun n surface => well_fill_at c phase surface n)).

End Calls.
Arguments array : clear implicits.
Arguments traps_elt : clear implicits.
