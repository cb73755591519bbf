(** * Model of /repo/arcticpy/main.py and util.update_fits_header_info. *)
From Coq Require Import ZArith List Bool.
From Verif Require Import Num Py CCDModel TrapsModel ManagerModel ROEModel ClockModel.
Import ListNotations.
Open Scope num_scope.

Section Main.
Context {F : Type} {num : Num F}.

(** A window argument (main.py:116-125): None, a single index, or a range (the list of
    its elements). *)
Inductive window_arg :=
| WNone
| WInt (i : Z)
| WRange (l : list Z).

(** The [parallel_*] or [serial_*] arguments of add_cti (main.py:36-51). *)
Record direction := mkDir {
  d_ccd : option (ccd F);
  d_roe : option (roe F);
  d_traps : option (traps_arg F);
  d_express : nat;
  d_offset : nat;
  d_window : window_arg
}.
(** The default values of those arguments. *)
Definition no_direction : direction := mkDir None None None 0 0 WNone.

(** main.py:156-164. *)
Definition resolve_window (w : window_arg) (n : nat) : list Z :=
  match w with
  | WNone => py_range 0 (Z.of_nat n)
  | WInt i => py_range i (i + 1)
  | WRange l => l
  end.

(** main.py:165-175: the time window for parallel clocking, and the columns (of the
    transposed image) for serial clocking. *)
Definition resolve_time_window (time_window : option (list Z)) (parallel_window : list Z)
    (n_rows parallel_offset : nat) : result (list Z * list Z) :=
  match time_window with
  | None => Ok (py_range 0 (Z.of_nat (n_rows + parallel_offset)), parallel_window)
  | Some t =>
      do p0 <- py_index parallel_window 0;
      do t0 <- py_index t 0;
      do p1 <- py_index parallel_window (-1);
      do t1 <- py_index t (-1);
      let off := Z.of_nat parallel_offset in
      Ok (t, py_range (Z.max p0 (t0 - off)) (Z.min p1 (t1 - off) + 1))
  end.

(** numpy's [.T] of a rectangular image. *)
Definition transpose (im : image F) : image F :=
  map (fun j => map (fun row => nth j row n0) im) (seq 0 (n_columns im)).

(** One call of cy_clock_charge_in_one_direction from add_cti (main.py:186-217).  With no
    CCD ([ccd = None]) the attribute access of main_utils.pyx:135 raises AttributeError,
    after the express matrices have been computed. *)
Definition clock_direction (im : image F) (d : direction) (r : roe F) (traps : traps_arg F)
    (window_rows window_columns : list Z) (time_window : option (list Z))
    : result (image F * roe F) :=
  match d_ccd d with
  | Some c =>
      clock_charge_in_one_direction im c r traps (d_express d) (d_offset d)
        window_rows window_columns time_window
  | None =>
      do '(r', em, _) <- express_and_monitor r window_rows (d_express d) (d_offset d) time_window;
      do _ <- save_matrix r' em;
      Err AttributeError
  end.

(** main.py:36-233, add_cti.  The result carries the two ROE objects after the call,
    because charge injection stores n_pixel_transfers in them (roe.py:692).
    Simplifications: the two ROE objects are distinct; [frames.Frame] wrapping
    (main.py:222-231) is the identity on the array. *)
Definition the_roe (d : direction) : roe F :=
  match d_roe d with Some r => r | None => roe_default end.
Definition add_cti (im : image F) (parallel serial : direction) (time_window : option (list Z))
    : result (image F * roe F * roe F) :=
  let n_rows := length im in
  let n_cols := n_columns im in
  let parallel_window := resolve_window (d_window parallel) n_rows in
  let serial_window := resolve_window (d_window serial) n_cols in
  do '(time_window, serial_columns) <-
     resolve_time_window time_window parallel_window n_rows (d_offset parallel);
  do '(im1, parallel_roe) <-
     match d_traps parallel with
     | None => Ok (im, the_roe parallel)
     | Some traps =>
         clock_direction im parallel (the_roe parallel) traps parallel_window serial_window
                         (Some time_window)
     end;
  do '(im2, serial_roe) <-
     match d_traps serial with
     | None => Ok (im1, the_roe serial)
     | Some traps =>
         do '(im2, r) <- clock_direction (transpose im1) serial (the_roe serial) traps
                           serial_window serial_columns None;
         Ok (transpose im2, r)
     end;
  Ok (im2, parallel_roe, serial_roe).

(** What the caller's objects look like in the next call: a ROE passed by the caller is
    the same (possibly mutated) object; a default one is created afresh. *)
Definition keep_roe (d : direction) (r : roe F) : direction :=
  match d_roe d with
  | None => d
  | Some _ => mkDir (d_ccd d) (Some r) (d_traps d) (d_express d) (d_offset d) (d_window d)
  end.

(** Elementwise image arithmetic. *)
Definition image_zip (f : F -> F -> F) (a b : image F) : image F :=
  map (fun '(x, y) => map (fun '(p, q) => f p q) (combine x y)) (combine a b).

(** main.py:236-313, remove_cti: [image_remove += image - add_cti(image_remove)]. *)
Fixpoint remove_cti_loop (im : image F) (iterations : nat) (parallel serial : direction)
    (time_window : option (list Z)) (estimate : image F)
    : result (image F * direction * direction) :=
  match iterations with
  | O => Ok (estimate, parallel, serial)
  | S n =>
      do '(added, pr, sr) <- add_cti estimate parallel serial time_window;
      remove_cti_loop im n (keep_roe parallel pr) (keep_roe serial sr) time_window
        (image_zip nadd estimate (image_zip nsub im added))
  end.
Definition remove_cti (im : image F) (iterations : nat) (parallel serial : direction)
    (time_window : option (list Z)) : result (image F) :=
  do '(out, _, _) <- remove_cti_loop im iterations parallel serial time_window im;
  Ok out.

(** main.py:316-396, model_for_HST_ACS. *)
Definition launch_date : F := nq 24523345 10.
Definition temperature_change_date : F := nofZ 2453920.
Definition sm4_repair_date : F := nofZ 2454968.
Definition hst_total_trap_density (date : F) : F :=
  let '(initial, growth) :=
    if date <? sm4_repair_date
    then (nq 17845 1000000, nq 35488 100000000)
    else (- nq 246591 1000000 * nq 1011 1000, nq 558980 1000000000 * nq 1011 1000) in
  initial + growth * (date - launch_date).
Definition hst_density_weights : list F := [nq 127 100; nq 338 100; nq 285 100].
Definition hst_densities (date : F) : list F :=
  let total := nq 127 100 + nq 338 100 + nq 285 100 in
  map (fun w => w / total * hst_total_trap_density date) hst_density_weights.
Definition hst_operating_temperature (date : F) : F :=
  if date <? temperature_change_date then nq 27315 100 - nofZ 77 else nq 27315 100 - nofZ 81.
Definition hst_release_times (date : F) : list F :=
  let temperature := hst_operating_temperature date in
  let sm4_temperature := nq 27315 100 - nofZ 81 in
  let k := nq 8617343 100000000000 in
  map (fun '(t, delta_e) =>
      t * (temperature / (nq 27315 100 - nofZ 81))
      * nexp (delta_e / (k * sm4_temperature * temperature) * (temperature - sm4_temperature)))
    [(nq 74 100, nq 31 100); (nq 77 10, nq 34 100); (nofZ 37, nq 44 100)].
Definition model_for_HST_ACS (date : F) : result (list (trap F) * ccd F * roe F) :=
  if launch_date <=? date then
    do traps <- mapM (fun '(d, t) => trap_instant_init d t false)
                     (combine (hst_densities date) (hst_release_times date));
    do c <- ccd_init (PList [n1]) (Scalar (nofZ 84700)) (Scalar n0) (Scalar (nq 478 1000)) None;
    Ok (traps, c, roe_init [n1] true true true DFloat)
  else Err AssertionError.

End Main.
Arguments direction : clear implicits.

(** ** util.py:14-90, update_fits_header_info.

    [ext_header] is the list of header keys set so far, in order (the values and comment
    strings are not represented).  A "clocker" is any object with an [iterations]
    attribute (util.py:34, 41): only whether one was passed matters here.  The elements of
    a traps argument are trap objects or lists of trap objects: [for i, trap in traps]
    (util.py:46) unpacks each element into two, so
    - a Trap is not iterable: TypeError;
    - a list of length other than 2: ValueError;
    - a list of two traps: [trap.trap_density] does not exist: AttributeError.
    A CCD has no [well_fill_beta] attribute (util.py:72, 84): AttributeError, after the
    notch depth key has been set. *)
Inductive fits_trap_elt := FTrap | FList (n : nat).
Definition add_trap (traps : list fits_trap_elt) (header : list nat) : result (list nat) :=
  match traps with
  | [] => Ok header
  | FTrap :: _ => Err TypeError
  | FList n :: _ => if Nat.eqb n 2 then Err AttributeError else Err ValueError
  end.
(** Keys: 0 = cte_pite, 1 = cte_site, 2 = cte_swln, 3 = cte_pwln. *)
Definition opt_do {A} (o : option A) (k : A -> list nat -> result (list nat)) (h : list nat)
    : result (list nat) :=
  match o with None => Ok h | Some a => k a h end.
Definition update_fits_header_info (header : list nat)
    (parallel_clocker serial_clocker : bool)
    (parallel_traps serial_traps : option (list fits_trap_elt))
    (parallel_ccd serial_ccd : bool) : result (list nat) :=
  let h := if parallel_clocker then header ++ [0] else header in
  if serial_clocker then
    let h := h ++ [1] in
    do h <- opt_do parallel_traps add_trap h;
    do h <- opt_do serial_traps add_trap h;
    if serial_ccd then Err AttributeError
    else if parallel_ccd then Err AttributeError
    else Ok h
  else Ok h.
