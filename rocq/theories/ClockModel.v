(** * Model of /repo/arcticpy/main_utils.pyx. *)
From Coq Require Import ZArith List Bool.
From Verif Require Import Num Py CCDModel TrapsModel ManagerModel ROEModel.
Import ListNotations.
Open Scope num_scope.

Section Clock.
Context {F : Type} {num : Num F}.

(** An image: the list of its rows (assumed rectangular; the number of columns of an
    image with no row is not represented). *)
Definition image := list (list F).
Definition n_columns (im : image) : nat := match im with [] => 0 | r :: _ => length r end.

(** main_utils.pyx:211-221: every trap manager of the phase in turn, all of them with the
    SAME number of free electrons; returns the sum of their net releases. *)
Fixpoint step_groups (groups : list (manager F)) (n_free : F) (fill : filling F) (dwell : F)
    (acc : F) : result (F * list (manager F)) :=
  match groups with
  | [] => Ok (acc, [])
  | m :: ms =>
      do '(net, m') <- manager_step m n_free fill dwell;
      do '(total, ms') <- step_groups ms n_free fill dwell (acc + net);
      Ok (total, m' :: ms')
  end.

(** main_utils.pyx:233-247: give the electrons back to the pixel(s) they go to, never
    leaving a negative count.  [column] is one column of the (padded) image. *)
Definition write_back (column : list F) (row : Z) (net mult : F) (target : Z * F)
    : result (list F) :=
  let '(pixel, fraction) := target in
  do old <- cy_index column (row + pixel)%Z;
  let new := old + net * fraction * mult in
  cy_upd column (row + pixel)%Z (if new <? n0 then n0 else new).

(** main_utils.pyx:195-247: one phase, at one clocking step, of one pixel.
    [data] is trap_managers.data; [row] is window_row_range[row_index]. *)
Definition clock_one_phase (c : ccd F) (dwell : F) (rps : list (roe_phase F)) (row : Z)
    (mult : F) (st : list F * list (list (manager F))) (phase : nat)
    : result (list F * list (list (manager F))) :=
  let '(column, data) := st in
  (* :199, an unchecked access of a Python list *)
  do rp <- of_option OutOfBounds (nth_error rps phase);
  do charge <- cy_index column (row + rp_capture rp)%Z;
  let n_free := charge * (if rp_high rp then n1 else n0) in
  (* :213, UserList.__getitem__ is checked *)
  do groups <- of_option IndexError (nth_error data phase);
  do '(net, groups') <-
    step_groups groups n_free (fun n => well_fill c phase false n) dwell n0;
  let data' := upd data phase groups' in
  if mult =? n0 then Ok (column, data')
  else
    do column' <- foldM (fun col t => write_back col row net mult t)
                        (combine (rp_release rp) (rp_fraction rp)) column;
    Ok (column', data').

(** main_utils.pyx:134-139. *)
Definition phases_with_traps (c : ccd F) : list nat :=
  map fst (filter (fun '(_, frac) => n0 <? frac)
                  (combine (seq 0 (length (ccd_fractions c))) (ccd_fractions c))).
Definition steps_with_dwell (r : roe F) : list (nat * F) :=
  filter (fun '(_, time) => n0 <? time)
         (combine (seq 0 (length (roe_dwell_times r))) (roe_dwell_times r)).

(** main_utils.pyx:192-247: all the clocking steps and phases for one pixel. *)
Definition clock_one_row (c : ccd F) (r : roe F) (row : Z) (mult : F)
    (st : list F * list (list (manager F))) : result (list F * list (list (manager F))) :=
  foldM (fun st '(step, dwell) =>
      foldM (fun st phase =>
          do rps <- of_option OutOfBounds (nth_error (roe_clock_sequence r) step);
          clock_one_phase c dwell rps row mult st phase)
        (phases_with_traps c) st)
    (steps_with_dwell r) st.

Definition with_data (a : all_managers F) (d : list (list (manager F))) : all_managers F :=
  mkATM d (atm_saved a) (atm_in_save a) (atm_previously a).

(** main_utils.pyx:188-251: one row of one express pass.  [cell] is (multiplier,
    monitor?, save?).  [window_row_range[row_index]] of a range that is too short is an
    IndexError (:203); it is evaluated only in the loop over clocking steps and phases. *)
Definition clock_cell (c : ccd F) (r : roe F) (window : list Z)
    (st : list F * all_managers F) (cell : nat * (F * bool * bool))
    : result (list F * all_managers F) :=
  let '(column, a) := st in
  let '(row_index, (mult, monitor, save)) := cell in
  if negb monitor then Ok (column, a)
  else
    do '(column', data') <-
      match nth_error window row_index with
      | Some row => clock_one_row c r row mult (column, atm_data a)
      | None =>
          match steps_with_dwell r, phases_with_traps c with
          | _ :: _, _ :: _ => Err IndexError
          | _, _ => Ok (column, atm_data a)
          end
      end;
    let a' := with_data a data' in
    Ok (column', if save then atm_save a' else a').
(** main_utils.pyx:187-251: the rows of one express pass. *)
Definition clock_pass_rows (c : ccd F) (r : roe F) (window : list Z)
    (cells : list (F * bool * bool)) (st : list F * all_managers F)
    : result (list F * all_managers F) :=
  foldM (clock_cell c r window) (combine (seq 0 (length cells)) cells) st.

(** main_utils.pyx:177-251: the express passes over one column. *)
Definition zip_cells (em : list F) (mon sav : list bool) : list (F * bool * bool) :=
  map (fun '(m, (b, s)) => (m, b, s)) (combine em (combine mon sav)).
Definition clock_column (c : ccd F) (r : roe F) (window : list Z)
    (passes : list (list (F * bool * bool))) (st : list F * all_managers F)
    : result (list F * all_managers F) :=
  foldM (fun st cells =>
      clock_pass_rows c r window cells (fst st, atm_restore (snd st))) passes st.

(** main_utils.pyx:253-257: between columns. *)
Definition end_of_column (r : roe F) (a : all_managers F) : all_managers F :=
  atm_save (if roe_empty_between r then atm_empty a else a).

(** Column [j] of an image, and an image with column [j] replaced. *)
Definition get_column (im : image) (j : nat) : list F := map (fun row => nth j row n0) im.
Definition set_column (im : image) (j : nat) (column : list F) : image :=
  map (fun '(row, x) => upd row j x) (combine im column).

(** main_utils.pyx:173-257: the loop over columns.  Simplification: the column index is
    checked once per column instead of at every (unchecked) pixel access. *)
Definition clock_one_column (c : ccd F) (r : roe F) (window : list Z)
    (passes : list (list (F * bool * bool))) (st : image * all_managers F) (j : Z)
    : result (image * all_managers F) :=
  let '(im, a) := st in
  if ((0 <=? j) && (j <? Z.of_nat (n_columns im)))%Z then
    do '(column, a') <- clock_column c r window passes (get_column im (Z.to_nat j), a);
    Ok (set_column im (Z.to_nat j) column, end_of_column r a')
  else Err OutOfBounds.
Definition clock_columns (c : ccd F) (r : roe F) (window columns : list Z)
    (passes : list (list (F * bool * bool))) (st : image * all_managers F)
    : result (image * all_managers F) :=
  foldM (clock_one_column c r window passes) columns st.

(** main_utils.pyx:166-171 and 259-264: the rows of zeros appended during clocking. *)
Definition n_padding (r : roe F) : result nat :=
  do hi <- py_max (roe_pixels r);
  do lo <- py_min (roe_pixels r);
  Ok (Z.to_nat (hi - lo)).
Definition pad (im : image) (n : nat) : image := im ++ repeat (repeat n0 (n_columns im)) n.
Definition unpad (im : image) (n : nat) : image := firstn (length im - n) im.

(** main_utils.pyx:150-162. *)
Definition max_n_transfers (r : roe F) (n_express n_rows : nat) : nat :=
  match roe_kind_of r with
  | Pumping _ _ => n_express * length (steps_with_dwell r)
  | _ => n_rows * length (steps_with_dwell r)
  end.

(** main_utils.pyx:14-264, [cy_clock_charge_in_one_direction].  Returns also the ROE
    object, which charge injection mutates. *)
Definition clock_charge_in_one_direction (im : image) (c : ccd F) (r : roe F)
    (traps : traps_arg F) (express offset : nat) (window_rows window_columns : list Z)
    (time_window : option (list Z)) : result (image * roe F) :=
  do '(r', em, mon) <- express_and_monitor r window_rows express offset time_window;
  do sav <- save_matrix r' em;
  let n_express := length em in
  let n_rows := match em with [] => 0%nat | row :: _ => length row end in
  do a <- atm_init traps (max_n_transfers r' n_express n_rows) c;
  do n <- n_padding r';
  let passes := map (fun '(e, (m, s)) => zip_cells e m s) (combine em (combine mon sav)) in
  do '(im', _) <- clock_columns c r' window_rows window_columns passes (pad im n, a);
  Ok (unpad im' n, r').

End Clock.
Arguments image : clear implicits.
