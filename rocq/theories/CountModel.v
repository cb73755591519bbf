(** * Negative numbers of pumps and of pixel transfers in /repo/arcticpy/roe.py: the [n_pumps] and
    [n_pixel_transfers] that SignedModel.v takes to be natural numbers are any integers here. *)
From Coq Require Import ZArith List Bool.
From Verif Require Import Num Py CCDModel TrapsModel ManagerModel ROEModel ClockModel MainModel SignedModel.
Import ListNotations.
Open Scope num_scope.

Section Counts.
Context {F : Type} {num : Num F}.

(** roe.py:673-722 with [self.n_pixel_transfers = n_transfers]. *)
Definition injection_express_counted (n_transfers : Z) (dt : dtype) (window : list Z) (express : Z)
    (time_window : option (list Z)) : result (matrix F * bmatrix) :=
  do m <- py_max window;
  let n_pixels := (m + 1)%Z in
  let express := express_limited express n_transfers in
  if ((express <? 0) || (n_pixels <? 0))%Z then Err ValueError
  else if (express =? 0)%Z then Err ZeroDivisionError
  else
    match dt with
    | DInt => Err NameError
    | DFloat =>
        let em := repeat (repeat (nofZ n_transfers / nofZ express) (Z.to_nat n_pixels)) (Z.to_nat express) in
        do restricted <- restrict_time_span em time_window;
        Ok (restricted, positive_mask em)
    end.

(** roe.py:841-859: the list of multipliers.  [[x] * express] is empty for a negative express, and
    has then no last element (:859). *)
Definition pumping_multipliers_counted (n_pumps express : Z) (empty_first : bool) (dt : dtype) : result (list F) :=
  if (n_pumps <? 0)%Z then
    (* express <= n_pumps < 0, and n_pumps > 1 is false *)
    match dt with DFloat => Ok [] | DInt => Err IndexError end
  else pumping_multipliers_signed (Z.to_nat n_pumps) express empty_first dt.
(** roe.py:810-875. *)
Definition pumping_express_counted (n_pumps : Z) (empty_first : bool) (dt : dtype)
    (window : list Z) (express : Z) : result (matrix F * bmatrix) :=
  let n_pixels := length window in
  do mult <- pumping_multipliers_counted n_pumps (express_limited express n_pumps) empty_first dt;
  let m := flat_map (fun j =>
             map (fun x => map (fun c => if Nat.eqb c j then x else n0) (seq 0 n_pixels)) mult)
             (seq 0 n_pixels) in
  Ok (m, positive_mask m).

(** A readout object whose [n_pumps] or [n_pixel_transfers] is [count] (there is neither in the
    standard readout). *)
Definition express_and_monitor_counted (count : Z) (r : roe F) (window : list Z) (express offset : Z)
    (time_window : option (list Z)) : result (matrix F * bmatrix) :=
  match roe_kind_of r with
  | Standard ef => standard_express_signed ef (roe_dtype r) window express offset time_window
  | Injection _ => injection_express_counted count (roe_dtype r) window express time_window
  | Pumping _ ef => pumping_express_counted count ef (roe_dtype r) window express
  end.
(** main_utils.pyx:14-264 (the object is not changed: roe.py:691 is not taken). *)
Definition clock_counted (count : Z) (im : image F) (d : signed_direction F) (r : roe F) (traps : traps_arg F)
    (window_rows window_columns : list Z) (time_window : option (list Z)) : result (image F) :=
  do '(em, mon) <- express_and_monitor_counted count r window_rows (s_express d) (s_offset d) time_window;
  do sav <- save_matrix_signed r window_rows em;
  match d_ccd (s_rest d) with
  | Some c => do '(im', _) <- clock_passes im c r traps window_rows window_columns em mon sav; Ok im'
  | None => Err AttributeError
  end.
(** main.py:36-233. *)
Definition add_cti_counted (im : image F) (parallel serial : signed_direction F) (parallel_count serial_count : Z)
    (time_window : option (list Z)) : result (image F) :=
  let n_rows := length im in
  let n_cols := n_columns im in
  let parallel_window := resolve_window (d_window (s_rest parallel)) n_rows in
  let serial_window := resolve_window (d_window (s_rest serial)) n_cols in
  do '(time_window, serial_columns) <- time_window_signed time_window parallel_window n_rows (s_offset parallel);
  do im1 <-
     match d_traps (s_rest parallel) with
     | None => Ok im
     | Some traps => clock_counted parallel_count im parallel (the_roe (s_rest parallel)) traps parallel_window serial_window (Some time_window)
     end;
  match d_traps (s_rest serial) with
  | None => Ok im1
  | Some traps =>
      do im2 <- clock_counted serial_count (transpose im1) serial (the_roe (s_rest serial)) traps serial_window serial_columns None;
      Ok (transpose im2)
  end.
End Counts.
