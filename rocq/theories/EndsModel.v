(** * Time windows given by times that need not be whole numbers of transfers.

    [time_window_range] is documented as a range, but the code only takes its first and last
    element, and test_main.py:804-819 passes lists of fractions, [0, 0.25] and [0.25, 1].
    These are the functions of ROEModel and MainModel with a list of real times in place of the
    elements of a range.  Real numbers stand for Python's floats. *)
From Coq Require Import ZArith List Bool Reals.
From Verif Require Import Num Py CCDModel TrapsModel ManagerModel ROEModel ClockModel MainModel SignedModel.
Import ListNotations.
Open Scope R_scope.

(** roe.py:430-458, [restrict_time_span_of_express_matrix].  (numpy keeps the dtype of an
    integer matrix only if the times are integers: with float times the result is float, as
    here.) *)
Definition restrict_times (m : matrix R) (times : list R) : result (matrix R) :=
  do first <- py_index times 0;
  do last <- py_index times (-1);
  let span := last - first + 1 in
  Ok (diff0 (map (map (fun x => clip span (x - first))) (cumsum0 m))).

(** roe.py:460-583. *)
Definition standard_express_times (empty_first : bool) (dt : dtype) (window : list Z)
    (express offset : nat) (times : list R) : result (matrix R * bmatrix) :=
  do n_pixels <- n_pixels_of_window window;
  let m := standard_full_matrix empty_first dt n_pixels express offset in
  do monitor <- select_columns offset window (positive_mask m);
  do restricted <- restrict_times m times;
  do em <- select_columns offset window restricted;
  Ok (em, monitor).

(** roe.py:673-722. *)
Definition injection_express_times (n_pixel_transfers : option nat) (dt : dtype) (window : list Z)
    (express offset : nat) (times : list R) : result (nat * matrix R * bmatrix) :=
  do n_pixels <- n_pixels_of_window window;
  let n_transfers := match n_pixel_transfers with Some n => n | None => (n_pixels + offset)%nat end in
  let express := express_used n_transfers express in
  if Nat.eqb express 0 then Err ZeroDivisionError
  else
    match dt with
    | DInt => Err NameError
    | DFloat =>
        let m := repeat (repeat (nofN n_transfers / nofN express) n_pixels) express in
        do restricted <- restrict_times m times;
        Ok (n_transfers, restricted, positive_mask m)
    end.

(** main_utils.pyx:119-130. *)
Definition express_and_monitor_times (r : roe R) (window : list Z) (express offset : nat)
    (times : list R) : result (roe R * matrix R * bmatrix) :=
  match roe_kind_of r with
  | Standard ef =>
      do '(em, mon) <- standard_express_times ef (roe_dtype r) window express offset times;
      Ok (r, em, mon)
  | Injection npt =>
      do '(n, em, mon) <- injection_express_times npt (roe_dtype r) window express offset times;
      Ok (mkROE (Injection (Some n)) (roe_dwell_times r) (roe_dtype r) (roe_empty_between r)
                (roe_force r) (roe_clock_sequence r) (roe_pixels r), em, mon)
  | Pumping n_pumps ef =>
      do '(em, mon) <- pumping_express n_pumps ef (roe_dtype r) window express;
      Ok (r, em, mon)
  end.

(** main_utils.pyx:14-264, called from main.py:186-199. *)
Definition clock_times (im : image R) (d : direction R) (r : roe R) (traps : traps_arg R)
    (window_rows window_columns : list Z) (times : list R) : result (image R * roe R) :=
  do '(r', em, mon) <- express_and_monitor_times r window_rows (d_express d) (d_offset d) times;
  do sav <- save_matrix r' em;
  match d_ccd d with
  | Some c => clock_passes im c r' traps window_rows window_columns em mon sav
  | None => Err AttributeError
  end.

(** Python's [int] of a float: the integer part, towards zero. *)
Definition int_of (x : R) : Z := if Rltb x 0 then (- Int_part (- x))%Z else Int_part x.

(** main.py:169-175. *)
Definition serial_columns_times (times : list R) (parallel_window : list Z) (parallel_offset : nat)
    : result (list Z) :=
  do p0 <- py_index parallel_window 0;
  do t0 <- py_index times 0;
  do p1 <- py_index parallel_window (-1);
  do t1 <- py_index times (-1);
  let off := INR parallel_offset in
  Ok (py_range (int_of (Rmax (IZR p0) (t0 - off))) (int_of (Rmin (IZR p1) (t1 - off)) + 1)).

(** main.py:36-233, add_cti with such a time window. *)
Definition add_cti_times (im : image R) (parallel serial : direction R) (times : list R)
    : result (image R * roe R * roe R) :=
  let parallel_window := resolve_window (d_window parallel) (length im) in
  let serial_window := resolve_window (d_window serial) (n_columns im) in
  do serial_columns <- serial_columns_times times parallel_window (d_offset parallel);
  do '(im1, parallel_roe) <-
     match d_traps parallel with
     | None => Ok (im, the_roe parallel)
     | Some traps => clock_times im parallel (the_roe parallel) traps parallel_window serial_window times
     end;
  do '(im2, serial_roe) <-
     match d_traps serial with
     | None => Ok (im1, the_roe serial)
     | Some traps =>
         do '(im2, r) <- clock_direction (transpose im1) serial (the_roe serial) traps
                           serial_window serial_columns None;
         Ok (transpose im2, r)
     end;
  Ok (im2, parallel_roe, serial_roe).
