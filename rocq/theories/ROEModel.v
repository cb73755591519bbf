(** * Model of /repo/arcticpy/roe.py. *)
From Coq Require Import ZArith List Bool.
From Verif Require Import Num Py.
Import ListNotations.
Open Scope num_scope.

Section ROE.
Context {F : Type} {num : Num F}.

(** roe.py:55-86, ROEPhase. *)
Record roe_phase := mkRP {
  rp_high : bool;               (* is_high *)
  rp_capture : Z;               (* capture_from_which_pixel *)
  rp_release : list Z;          (* release_to_which_pixels *)
  rp_fraction : list F          (* release_fraction_to_pixel *)
}.

(** roe.py:258-262: step_prime, with integration_step = 0.
    [Z.modulo] and [Z.div] are Python's floor versions for positive divisors. *)
Definition step_prime (n_phases step : Z) : Z :=
  Z.abs ((step + n_phases) mod (n_phases * 2) - n_phases)%Z.

(** roe.py:264-312: one phase of one step. *)
Definition clock_phase (force : bool) (n_phases step phase : Z) : roe_phase :=
  let sp := step_prime n_phases step in
  let high_phase := (sp mod n_phases)%Z in
  let split_release_phase :=
    if (n_phases mod 2 =? 0)%Z then Some ((high_phase + n_phases / 2) mod n_phases)%Z else None in
  let capture := ((sp - phase + (n_phases - 1) / 2) / n_phases)%Z in
  let is_split := match split_release_phase with Some s => (phase =? s)%Z | None => false end in
  let fraction := if is_split then [nq 1 2; nq 1 2] else [n1] in
  let release := if is_split then [capture; capture + 1]%Z else [capture] in
  let shift := (force && (high_phase <? phase)%Z)%bool in
  mkRP (phase =? high_phase)%Z
       (if shift then capture + 1 else capture)%Z
       (if shift then map (Z.add 1) release else release)
       fraction.

(** roe.py:142-315, [_generate_clock_sequence]. *)
Definition generate_clock_sequence (force : bool) (n_steps n_phases : nat)
    : list (list roe_phase) :=
  map (fun step =>
      map (fun phase => clock_phase force (Z.of_nat n_phases) (Z.of_nat step) (Z.of_nat phase))
          (seq 0 n_phases)) (seq 0 n_steps).

(** roe.py:317-334, [_generate_pixels_accessed_during_clocking]: only max and min of the
    result are ever used, so the sorting and deduplication of np.unique are omitted. *)
Definition generate_pixels_accessed (cs : list (list roe_phase)) : list Z :=
  0%Z :: flat_map (flat_map (fun rp => rp_capture rp :: rp_release rp)) cs.

(** roe.py:130-140: express_matrix_dtype is [int] or [float]. *)
Inductive dtype := DInt | DFloat.

Inductive roe_kind :=
| Standard (empty_traps_for_first_transfers : bool)                      (* ROE *)
| Injection (n_pixel_transfers : option nat)                             (* ROEChargeInjection *)
| Pumping (n_pumps : nat) (empty_traps_for_first_transfers : bool).      (* ROETrapPumping *)

(** An ROE object.  [clock_sequence] and [pixels_accessed] are attributes computed once,
    by the constructor (roe.py:419-422, 668-671, 784-787). *)
Record roe := mkROE {
  roe_kind_of : roe_kind;
  roe_dwell_times : list F;
  roe_dtype : dtype;
  roe_empty_between : bool;      (* empty_traps_between_columns *)
  roe_force : bool;              (* force_release_away_from_readout *)
  roe_clock_sequence : list (list roe_phase);
  roe_pixels : list Z            (* pixels_accessed_during_clocking *)
}.

(** roe.py:126-128, 426-428, 804-808. *)
Definition roe_n_steps (r : roe) : nat := length (roe_dwell_times r).
Definition roe_n_phases (r : roe) : nat :=
  match roe_kind_of r with
  | Pumping _ _ => Nat.div (roe_n_steps r) 2
  | _ => roe_n_steps r
  end.

Definition make_roe (k : roe_kind) (dwell_times : list F) (dt : dtype)
    (empty_between force : bool) (n_phases : nat) : roe :=
  let cs := generate_clock_sequence force (length dwell_times) n_phases in
  mkROE k dwell_times dt empty_between force cs (generate_pixels_accessed cs).

(** roe.py:337-422, ROE.__init__. *)
Definition roe_init (dwell_times : list F) (empty_first empty_between force : bool)
    (dt : dtype) : roe :=
  make_roe (Standard empty_first) dwell_times dt empty_between force (length dwell_times).
(** roe.py:339-345: the default arguments. *)
Definition roe_default : roe := roe_init [n1] true true true DFloat.

(** roe.py:627-671, ROEChargeInjection.__init__. *)
Definition roe_injection_init (dwell_times : list F) (n_pixel_transfers : option nat)
    (empty_between force : bool) (dt : dtype) : roe :=
  make_roe (Injection n_pixel_transfers) dwell_times dt empty_between force (length dwell_times).

(** roe.py:735-787 and 793-802, ROETrapPumping.__init__: a bare [Exception] for an odd
    number of steps. *)
Definition roe_pumping_init (dwell_times : list F) (n_pumps : nat) (empty_first : bool)
    (dt : dtype) : result roe :=
  if Nat.even (length dwell_times) then
    Ok (make_roe (Pumping n_pumps empty_first) dwell_times dt true false
                 (Nat.div (length dwell_times) 2))
  else Err OtherException.

(** roe.py:119-124, the setter of dwell_times: the clock sequence is NOT recomputed. *)
Definition set_dwell_times (r : roe) (dwell_times : list F) : roe :=
  mkROE (roe_kind_of r) dwell_times (roe_dtype r) (roe_empty_between r) (roe_force r)
        (roe_clock_sequence r) (roe_pixels r).

(** roe.py:119-124 and 793-802: the assignment roe.dwell_times = [...].  Returns the object
    afterwards and the exception, if any: the setter of ROETrapPumping stores the value
    before it complains about an odd number of steps. *)
Definition assign_dwell_times (r : roe) (dwell_times : list F) : roe * option exn :=
  (set_dwell_times r dwell_times,
   match roe_kind_of r with
   | Pumping _ _ => if Nat.even (length dwell_times) then None else Some OtherException
   | _ => None
   end).

(** ** Express matrices *)

Definition matrix := list (list F).
Definition bmatrix := list (list bool).

(** Running sum of a list of rows: [np.cumsum(m, axis=0)]. *)
Definition row_add (a b : list F) : list F := map (fun '(x, y) => x + y) (combine a b).
Definition row_sub (a b : list F) : list F := map (fun '(x, y) => x - y) (combine a b).
Fixpoint cumsum_rows (acc : list F) (m : matrix) : matrix :=
  match m with
  | [] => []
  | r :: m' => let s := row_add acc r in s :: cumsum_rows s m'
  end.
Definition cumsum0 (m : matrix) : matrix :=
  match m with [] => [] | r :: m' => r :: cumsum_rows r m' end.

(** [m[1:] -= m[:-1].copy()] (roe.py:456). *)
Fixpoint diff_rows (prev : list F) (m : matrix) : matrix :=
  match m with
  | [] => []
  | r :: m' => row_sub r prev :: diff_rows r m'
  end.
Definition diff0 (m : matrix) : matrix :=
  match m with [] => [] | r :: m' => r :: diff_rows r m' end.

(** roe.py:430-458, [restrict_time_span_of_express_matrix].  A window is the list of the
    elements of the Python range; [range[0]]/[range[-1]] of an empty one is an IndexError. *)
Definition clip (span x : F) : F :=
  let x := if x <? n0 then n0 else x in
  if span <? x then span else x.
Definition restrict_time_span (m : matrix) (time_window : option (list Z)) : result matrix :=
  match time_window with
  | None => Ok m
  | Some w =>
      do first <- py_index w 0;
      do last <- py_index w (-1);
      let span := nofZ (last - first + 1)%Z in
      Ok (diff0 (map (map (fun x => clip span (x - nofZ first))) (cumsum0 m)))
  end.

(** [ceil(a / b)] for naturals (b > 0). *)
Definition ceil_div (a b : nat) : nat := Nat.div (a + b - 1) b.

Definition nofN (n : nat) : F := nofZ (Z.of_nat n).

(** roe.py:535-546: entry (express_index, column j, counted from 0) of the plain
    matrix: [clip(j + 1 - express_index * max_multiplier, 0, max_multiplier)]. *)
Definition max_multiplier (dt : dtype) (n_transfers express : nat) : F :=
  match dt with
  | DInt => nofN (ceil_div n_transfers express)
  | DFloat => nofN n_transfers / nofN express
  end.
Definition plain_entry (mm : F) (express_index j : nat) : F :=
  clip mm (nofN (S j) - nofN express_index * mm).
Definition plain_matrix (mm : F) (express n_transfers : nat) : matrix :=
  map (fun e => map (plain_entry mm e) (seq 0 n_transfers)) (seq 0 express).

(** roe.py:556-558: [np.flipud(np.identity(n))]. *)
Definition flipud_identity (n : nat) : matrix :=
  map (fun i => map (fun j => if Nat.eqb (i + j + 1) n then n1 else n0) (seq 0 n)) (seq 0 n).

(** roe.py:560: the number of positive entries of a row. *)
Definition n_positive (r : list F) : nat := length (filter (fun x => n0 <? x) r).

(** roe.py:559-561, [express_matrix[n_nonzero, 1:] += express_matrix_small]: numpy
    computes all the sums from the OLD matrix, then assigns (for a repeated row index
    the last assignment wins).  Row indices are <= n - 1 by construction of n_nonzero. *)
Definition insert_small (big small : matrix) : matrix :=
  fold_left (fun m row =>
      let i := n_positive row in
      match nth_error big i with
      | Some (h :: t) => upd m i (h :: row_add t row)
      | _ => m
      end) small big.

(** roe.py:569-578: columns [offset:] and then [window_range] (numpy fancy indexing by
    the elements of the range: negative ones wrap, out of range is an IndexError). *)
Definition select_columns {A} (offset : nat) (window : list Z) (m : list (list A))
    : result (list (list A)) :=
  mapM (fun r => mapM (py_index (skipn offset r)) window) m.

Definition positive_mask (m : matrix) : bmatrix := map (map (fun x => n0 <? x)) m.

(** roe.py:511-561, the express matrix before any window is applied.  [n_pixels] is
    max(window_range) + 1. *)
Definition express_used (n_total express : nat) : nat :=
  if Nat.eqb express 0 then n_total else Nat.min express n_total.
Definition standard_full_matrix (empty_first : bool) (dt : dtype)
    (n_pixels express offset : nat) : matrix :=
  let express := express_used (n_pixels + offset) express in
  let n_small := if (empty_first && Nat.ltb express n_pixels)%bool then (n_pixels - 1)%nat else n_pixels in
  let n := (n_small + offset)%nat in
  let small := plain_matrix (max_multiplier dt n express) express n in
  if (empty_first && Nat.ltb express n_small)%bool
  then insert_small (flipud_identity (S n)) small
  else small.

(** roe.py:460-583, ROE.express_matrix_and_monitor_traps_matrix_from_pixels_and_express.
    Simplification: express and offset are naturals (documented as such, main.py:110);
    a window whose largest element is negative is rejected here with ValueError (numpy
    would fail on the negative array size, or Python on the division by 0). *)
Definition n_pixels_of_window (window : list Z) : result nat :=
  do m <- py_max window;
  if (m <? 0)%Z then Err ValueError else Ok (Z.to_nat (m + 1)).
Definition standard_express (empty_first : bool) (dt : dtype) (window : list Z)
    (express offset : nat) (time_window : option (list Z)) : result (matrix * bmatrix) :=
  do n_pixels <- n_pixels_of_window window;
  let m := standard_full_matrix empty_first dt n_pixels express offset in
  do monitor <- select_columns offset window (positive_mask m);
  do restricted <- restrict_time_span m time_window;
  do em <- select_columns offset window restricted;
  Ok (em, monitor).

(** roe.py:585-624.  [row_index] keeps the value it had when the inner loop ended; with a
    single column the inner loop never binds it: UnboundLocalError. *)
Fixpoint first_break (next_row : list F) (row_index : nat) (n : nat) : nat :=
  match n with
  | O => row_index                      (* unreachable: called with n >= 1 *)
  | S O => row_index
  | S n' => if n0 <? nth (S row_index) next_row n0 then row_index
            else first_break next_row (S row_index) n'
  end.
Definition standard_save (empty_first : bool) (em : matrix) : result bmatrix :=
  let n_express := length em in
  let n_pixels := match em with [] => 0 | r :: _ => length r end in
  if empty_first then Ok (map (map (fun _ => false)) em)
  else if (Nat.ltb 1 n_express && Nat.leb n_pixels 1)%bool then Err UnboundLocalError
  else
    Ok (map (fun e =>
          let row := repeat false n_pixels in
          if Nat.ltb (S e) n_express
          then upd row (first_break (nth (S e) em []) 0 (n_pixels - 1)) true
          else row) (seq 0 n_express)).

(** roe.py:673-722, charge injection.  Returns also the new value of
    self.n_pixel_transfers, which is SET when it was None (:691-692).
    dtype int: [math.ceil] with no [import math]: NameError (:704).
    n_pixel_transfers = 0: ZeroDivisionError (:702). *)
Definition injection_express (n_pixel_transfers : option nat) (dt : dtype) (window : list Z)
    (express offset : nat) (time_window : option (list Z))
    : result (nat * matrix * bmatrix) :=
  do n_pixels <- n_pixels_of_window window;
  let n_transfers := match n_pixel_transfers with Some n => n | None => (n_pixels + offset)%nat end in
  let express := express_used n_transfers express in
  if Nat.eqb express 0 then Err ZeroDivisionError
  else
    match dt with
    | DInt => Err NameError
    | DFloat =>
        let m := repeat (repeat (nofN n_transfers / nofN express) n_pixels) express in
        do restricted <- restrict_time_span m time_window;
        Ok (n_transfers, restricted, positive_mask m)
    end.
(** roe.py:724-732. *)
Definition injection_save (em : matrix) : bmatrix := map (map (fun _ => false)) em.

(** Python's [round] of the rational p / q to the nearest integer, ties to even
    (np.round, roe.py:858). *)
Definition round_half_even (p q : nat) : nat :=
  let d := Nat.div p q in
  let r := Nat.modulo p q in
  match Nat.compare (2 * r) q with
  | Lt => d
  | Gt => S d
  | Eq => if Nat.even d then d else S d
  end.

(** roe.py:835-859, the list of multipliers for trap pumping (n_pumps >= 1, 1 <= express).
    With dtype int they are rounded and the last one corrected (possibly below 0). *)
Definition pumping_multipliers (n_pumps express : nat) (empty_first : bool) (dt : dtype)
    : list F :=
  let special := (empty_first && Nat.ltb 1 n_pumps && Nat.ltb express n_pumps)%bool in
  match dt with
  | DFloat =>
      if special then n1 :: repeat (nofN (n_pumps - 1) / nofN express) express
      else repeat (nofN n_pumps / nofN express) express
  | DInt =>
      let ints := if special then 1%nat :: repeat (round_half_even (n_pumps - 1) express) express
                  else repeat (round_half_even n_pumps express) express in
      let last := (Z.of_nat (List.last ints 0%nat) + (Z.of_nat n_pumps - Z.of_nat (list_sum ints)))%Z in
      map nofN (removelast ints) ++ [nofZ last]
  end.

(** roe.py:810-875, trap pumping.  offset and time_window are ignored.
    n_pumps = 0: ZeroDivisionError (0 / 0, :852). *)
Definition pumping_express (n_pumps : nat) (empty_first : bool) (dt : dtype)
    (window : list Z) (express : nat) : result (matrix * bmatrix) :=
  let n_pixels := length window in
  let express := express_used n_pumps express in
  if Nat.eqb express 0 then Err ZeroDivisionError
  else
    let mult := pumping_multipliers n_pumps express empty_first dt in
    let m := flat_map (fun j =>
               map (fun x => map (fun c => if Nat.eqb c j then x else n0) (seq 0 n_pixels)) mult)
               (seq 0 n_pixels) in
    Ok (m, positive_mask m).

(** roe.py:877-896: row indices j * n_express + i, where n_express is already the number
    of ROWS of the matrix: for a second pixel the index is past the end (IndexError).
    With no column at all there is nothing to do; with one column every row but the
    last is flagged. *)
Definition pumping_save (em : matrix) : result bmatrix :=
  let n_express := length em in
  let n_pixels := match em with [] => 0 | r :: _ => length r end in
  if Nat.leb 2 n_pixels then Err IndexError
  else if Nat.eqb n_pixels 0 then Ok (map (fun _ => []) em)
  else Ok (map (fun i => [negb (Nat.eqb (S i) n_express)]) (seq 0 n_express)).

(** Dispatch (main_utils.pyx:119-130): the express matrix, the monitor matrix, and the
    ROE object after the call. *)
Definition express_and_monitor (r : roe) (window : list Z) (express offset : nat)
    (time_window : option (list Z)) : result (roe * matrix * bmatrix) :=
  match roe_kind_of r with
  | Standard ef =>
      do '(em, mon) <- standard_express ef (roe_dtype r) window express offset time_window;
      Ok (r, em, mon)
  | Injection npt =>
      do '(n, em, mon) <- injection_express npt (roe_dtype r) window express offset time_window;
      Ok (mkROE (Injection (Some n)) (roe_dwell_times r) (roe_dtype r) (roe_empty_between r)
                (roe_force r) (roe_clock_sequence r) (roe_pixels r), em, mon)
  | Pumping n_pumps ef =>
      do '(em, mon) <- pumping_express n_pumps ef (roe_dtype r) window express;
      Ok (r, em, mon)
  end.
Definition save_matrix (r : roe) (em : matrix) : result bmatrix :=
  match roe_kind_of r with
  | Standard ef => standard_save ef em
  | Injection _ => Ok (injection_save em)
  | Pumping _ _ => pumping_save em
  end.

End ROE.
Arguments roe_phase : clear implicits.
Arguments roe : clear implicits.
Arguments matrix : clear implicits.
