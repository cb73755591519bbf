(** * Negative numbers in calls of /repo/arcticpy/roe.py and main.py: what ROEModel.v and
    MainModel.v leave out.  Express, offset and the largest element of a window are any
    integers here; n_pumps and a given n_pixel_transfers are not negative. *)
From Coq Require Import ZArith List Bool.
From Verif Require Import Num Py CCDModel TrapsModel ManagerModel ROEModel ClockModel MainModel.
Import ListNotations.
Open Scope num_scope.

Section Signed.
Context {F : Type} {num : Num F}.

(** [row[offset:]]: from the end if negative. *)
Definition py_from {A} (l : list A) (offset : Z) : list A :=
  if (offset <? 0)%Z then skipn (length l - Z.to_nat (- offset)) l else skipn (Z.to_nat offset) l.
(** roe.py:569-578. *)
Definition select_from {A} (offset : Z) (window : list Z) (m : list (list A)) : result (list (list A)) :=
  mapM (fun r => mapM (py_index (py_from r offset)) window) m.
(** roe.py:517-520, 695-698, 842-845. *)
Definition express_limited (express total : Z) : Z :=
  if (express =? 0)%Z then total else Z.min express total.

(** roe.py:460-583.  [np.ndarray] of a negative size is a ValueError (:530), and the division
    that follows a ZeroDivisionError (:535). *)
Definition standard_express_signed (empty_first : bool) (dt : dtype) (window : list Z)
    (express offset : Z) (time_window : option (list Z)) : result (matrix F * bmatrix) :=
  do m <- py_max window;
  let n_pixels := (m + 1)%Z in
  let express := express_limited express (n_pixels + offset) in
  let n_small := if (empty_first && (express <? n_pixels)%Z)%bool then (n_pixels - 1)%Z else n_pixels in
  if ((express <? 0) || (n_small + offset <? 0))%Z then Err ValueError
  else if (express =? 0)%Z then Err ZeroDivisionError
  else
    let n := Z.to_nat (n_small + offset) in
    let small := plain_matrix (max_multiplier dt n (Z.to_nat express)) (Z.to_nat express) n in
    let em := if (empty_first && (express <? n_small)%Z)%bool
              then insert_small (flipud_identity (S n)) small else small in
    do monitor <- select_from offset window (positive_mask em);
    do restricted <- restrict_time_span em time_window;
    do em <- select_from offset window restricted;
    Ok (em, monitor).

(** roe.py:673-722.  [np.zeros] of a negative size is a ValueError (:701). *)
Definition injection_express_signed (n_pixel_transfers : option nat) (dt : dtype) (window : list Z)
    (express offset : Z) (time_window : option (list Z)) : result (nat * matrix F * bmatrix) :=
  do m <- py_max window;
  let n_pixels := (m + 1)%Z in
  let n_transfers := match n_pixel_transfers with Some n => Z.of_nat n | None => (n_pixels + offset)%Z end in
  let express := express_limited express n_transfers in
  if ((express <? 0) || (n_pixels <? 0))%Z then Err ValueError
  else if (express =? 0)%Z then Err ZeroDivisionError
  else
    match dt with
    | DInt => Err NameError
    | DFloat =>
        let em := repeat (repeat (nofZ n_transfers / nofZ express) (Z.to_nat n_pixels)) (Z.to_nat express) in
        do restricted <- restrict_time_span em time_window;
        Ok (Z.to_nat n_transfers, restricted, positive_mask em)
    end.

(** roe.py:847-859.  A list times a negative number is empty, and has no last element. *)
Definition pumping_multipliers_signed (n_pumps : nat) (express : Z) (empty_first : bool) (dt : dtype)
    : result (list F) :=
  if (express <? 0)%Z then
    let special := (empty_first && Nat.ltb 1 n_pumps)%bool in
    match dt with
    | DFloat => Ok (if special then [n1] else [])
    | DInt => if special then Ok [nofN n_pumps] else Err IndexError
    end
  else if (express =? 0)%Z then Err ZeroDivisionError
  else Ok (pumping_multipliers n_pumps (Z.to_nat express) empty_first dt).
(** roe.py:835-875. *)
Definition pumping_express_signed (n_pumps : nat) (empty_first : bool) (dt : dtype)
    (window : list Z) (express : Z) : result (matrix F * bmatrix) :=
  let n_pixels := length window in
  do mult <- pumping_multipliers_signed n_pumps (express_limited express (Z.of_nat n_pumps)) empty_first dt;
  let m := flat_map (fun j =>
             map (fun x => map (fun c => if Nat.eqb c j then x else n0) (seq 0 n_pixels)) mult)
             (seq 0 n_pixels) in
  Ok (m, positive_mask m).

(** main_utils.pyx:119-130. *)
Definition express_and_monitor_signed (r : roe F) (window : list Z) (express offset : Z)
    (time_window : option (list Z)) : result (roe F * matrix F * bmatrix) :=
  match roe_kind_of r with
  | Standard ef =>
      do '(em, mon) <- standard_express_signed ef (roe_dtype r) window express offset time_window;
      Ok (r, em, mon)
  | Injection npt =>
      do '(n, em, mon) <- injection_express_signed npt (roe_dtype r) window express offset time_window;
      Ok (mkROE (Injection (Some n)) (roe_dwell_times r) (roe_dtype r) (roe_empty_between r)
                (roe_force r) (roe_clock_sequence r) (roe_pixels r), em, mon)
  | Pumping n_pumps ef =>
      do '(em, mon) <- pumping_express_signed n_pumps ef (roe_dtype r) window express;
      Ok (r, em, mon)
  end.
(** roe.py:885-896: with no row at all, but columns, [save[-1, 0]] is an IndexError. *)
Definition save_matrix_signed (r : roe F) (window : list Z) (em : matrix F) : result bmatrix :=
  match roe_kind_of r, em, window with
  | Pumping _ _, [], _ :: _ => Err IndexError
  | _, _, _ => save_matrix r em
  end.

(** main_utils.pyx:14-264, everything after the express matrix. *)
Definition clock_passes (im : image F) (c : ccd F) (r : roe F) (traps : traps_arg F)
    (window_rows window_columns : list Z) (em : matrix F) (mon sav : bmatrix) : result (image F * roe F) :=
  let n_express := length em in
  let n_rows := match em with [] => 0%nat | row :: _ => length row end in
  do a <- atm_init traps (max_n_transfers r n_express n_rows) c;
  do n <- n_padding r;
  let passes := map (fun '(e, (m, s)) => zip_cells e m s) (combine em (combine mon sav)) in
  do '(im', _) <- clock_columns c r window_rows window_columns passes (pad im n, a);
  Ok (unpad im' n, r).

(** The [parallel_*] or [serial_*] arguments of add_cti (main.py:36-51): a direction without
    its express and offset, and these. *)
Record signed_direction := mkSigned {
  s_rest : direction F;
  s_express : Z;
  s_offset : Z
}.
Definition clock_signed (im : image F) (d : signed_direction) (r : roe F) (traps : traps_arg F)
    (window_rows window_columns : list Z) (time_window : option (list Z)) : result (image F * roe F) :=
  do '(r', em, mon) <- express_and_monitor_signed r window_rows (s_express d) (s_offset d) time_window;
  do sav <- save_matrix_signed r' window_rows em;
  match d_ccd (s_rest d) with
  | Some c => clock_passes im c r' traps window_rows window_columns em mon sav
  | None => Err AttributeError
  end.
(** main.py:165-175. *)
Definition time_window_signed (time_window : option (list Z)) (parallel_window : list Z)
    (n_rows : nat) (offset : Z) : result (list Z * list Z) :=
  match time_window with
  | None => Ok (py_range 0 (Z.of_nat n_rows + offset), parallel_window)
  | Some t =>
      do p0 <- py_index parallel_window 0;
      do t0 <- py_index t 0;
      do p1 <- py_index parallel_window (-1);
      do t1 <- py_index t (-1);
      Ok (t, py_range (Z.max p0 (t0 - offset)) (Z.min p1 (t1 - offset) + 1))
  end.
(** main.py:36-233, add_cti. *)
Definition add_cti_signed (im : image F) (parallel serial : signed_direction) (time_window : option (list Z))
    : result (image F * roe F * roe F) :=
  let n_rows := length im in
  let n_cols := n_columns im in
  let parallel_window := resolve_window (d_window (s_rest parallel)) n_rows in
  let serial_window := resolve_window (d_window (s_rest serial)) n_cols in
  do '(time_window, serial_columns) <- time_window_signed time_window parallel_window n_rows (s_offset parallel);
  do '(im1, parallel_roe) <-
     match d_traps (s_rest parallel) with
     | None => Ok (im, the_roe (s_rest parallel))
     | Some traps => clock_signed im parallel (the_roe (s_rest parallel)) traps parallel_window serial_window (Some time_window)
     end;
  do '(im2, serial_roe) <-
     match d_traps (s_rest serial) with
     | None => Ok (im1, the_roe (s_rest serial))
     | Some traps =>
         do '(im2, r) <- clock_signed (transpose im1) serial (the_roe (s_rest serial)) traps serial_window serial_columns None;
         Ok (transpose im2, r)
     end;
  Ok (im2, parallel_roe, serial_roe).
(** main.py:236-313, remove_cti. *)
Definition keep_signed (d : signed_direction) (r : roe F) : signed_direction :=
  mkSigned (keep_roe (s_rest d) r) (s_express d) (s_offset d).
Fixpoint remove_cti_signed_loop (im : image F) (iterations : nat) (parallel serial : signed_direction)
    (time_window : option (list Z)) (estimate : image F) : result (image F) :=
  match iterations with
  | O => Ok estimate
  | S n =>
      do '(added, pr, sr) <- add_cti_signed estimate parallel serial time_window;
      remove_cti_signed_loop im n (keep_signed parallel pr) (keep_signed serial sr) time_window
        (image_zip nadd estimate (image_zip nsub im added))
  end.
Definition remove_cti_signed (im : image F) (iterations : nat) (parallel serial : signed_direction)
    (time_window : option (list Z)) : result (image F) :=
  remove_cti_signed_loop im iterations parallel serial time_window im.
End Signed.
Arguments signed_direction : clear implicits.
