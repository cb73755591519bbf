(** * Running the model of add_cti, remove_cti and the HST model on the repository's tests.

    As in Tests.v, none of this is a proof: it checks that the model, run on IEEE doubles,
    behaves as test_main.py expects.  The rectangular variants of the tests on square
    images (test_main.py:1255-1525, 1982-2264) differ only in the size of the image and
    are not repeated. *)
From Coq Require Import ZArith List Bool PrimFloat.
From Verif Require Import Num FloatNum Py CCDModel TrapsModel ManagerModel ROEModel ClockModel MainModel Tests TestsRoe.
Import ListNotations.
Local Open Scope float_scope.
Set Warnings "-inexact-float".

Definition par (c : ccd float) (r : option (roe float)) (t : list (trap float)) (express offset : nat)
    (w : window_arg) : direction float := mkDir (Some c) r (Some (TFlat t)) express offset w.
Definition adds (im : image float) (p s : direction float) (tw : option (list Z)) : image float :=
  match add_cti im p s tw with Ok (out, _, _) => out | Err _ => [] end.
Definition column (im : image float) : list float := map (hd 99) im.
Definition at_ (im : image float) (i j : nat) : float := nth j (nth i im []) 99.
Definition region (f : float -> bool) (im : image float) (rows cols : list nat) : bool :=
  forallb (fun i => forallb (fun j => f (at_ im i j)) cols) rows.
Definition minus (a b : image float) : image float := image_zip PrimFloat.sub a b.
Definition image_le (a b : image float) : bool :=
  forallb (fun '(x, y) => forallb (fun '(u, v) => u <=? v) (combine x y)) (combine a b).
Definition image_abs (a : image float) : image float := map (map abs) a.
Definition exactly (a b : image float) : bool := approx_rows 0 a b && Nat.eqb (length a) 5.
(** approx with an absolute tolerance as well. *)
Definition near (rel tol a b : float) : bool := approx rel a b || (fabs_diff a b <=? tol).
Definition near_rows (rel tol : float) (a b : image float) : bool :=
  Nat.eqb (length a) (length b) &&
  forallb (fun '(x, y) => Nat.eqb (length x) (length y)
     && forallb (fun '(u, v) => near rel tol u v) (combine x y)) (combine a b).
Definition blank (rows cols : nat) : image float := repeat (repeat 0 cols) rows.
Definition draw (f : nat -> nat -> bool) (x : float) (rows cols : nat) : image float :=
  map (fun i => map (fun j => if f i j then x else 0) (seq 0 cols)) (seq 0 rows).
Definition rows_to (a b : nat) : list nat := seq a (b - a).
Definition all5 := seq 0 5.

(** ** test_main.py:351-527, ..._vary_express_3__compare_old_arctic *)
Goal True. check (approx_list 0.03
  (run (spike 40 2 800) (TFlat [instant 10 5]) (the_ccd 0.5 1000 0) roe1 40 0)
  [0; 0; 773.317; 5.98876; 6.13135; 6.05125; 5.81397; 5.49105; 5.11484; 4.71890; 4.32139;
   3.93756; 3.57154; 3.23464; 2.91884; 2.63640; 2.37872; 2.14545; 1.93805; 1.75299; 1.58590;
   1.43964; 1.30883; 1.19327; 1.09000; 0.996036; 0.915593; 0.841285; 0.775049; 0.718157;
   0.664892; 0.617069; 0.574792; 0.537046; 0.502112; 0.471202; 0.442614; 0.417600; 0.394439;
   0.373072]). exact I. Qed.

(** ** test_main.py:530-559, TestExpress *)
Definition nice_trap := instant 10 half_life.
Definition nice_ccd := the_ccd 1 1000 0.
Definition nice (r : roe float) (im : image float) (express offset : nat) (w : window_arg)
    (tw : option (list Z)) : image float :=
  adds im (par nice_ccd (Some r) [nice_trap] express offset w) no_direction tw.
Goal True. check (let full := nice roe_default (spike 20 2 800) 0 0 WNone None in
  forallb (fun '(e, tol) => approx_rows tol (nice roe_default (spike 20 2 800) e 0 WNone None) full)
    [(1%nat, 2.5); (2%nat, 1.8); (5%nat, 0.4); (10%nat, 0.3)]). exact I. Qed.

(** ** test_main.py:563-601, test__add_cti__single_pixel__offset *)
Definition kept := roe_std false DFloat.
Goal True. check (forallb (fun offset => forallb (fun e =>
    approx_rows 1e-6 (nice kept (spike 12 2 800) e offset WNone None)
      (skipn offset (nice kept (spike (12 + offset) (2 + offset) 800) e 0 WNone None)))
  [1; 3; 12; 0]%nat) [1; 5; 11]%nat). exact I. Qed.

(** ** test_main.py:603-676, test__add_cti__single_pixel__vary_window_over_start_of_trail *)
Definition in_window (a b : nat) : list float :=
  column (nice kept (spike 12 2 800) 0 0 (WRange (py_range (Z.of_nat a) (Z.of_nat b))) None).
Definition unwindowed := column (nice kept (spike 12 2 800) 0 0 WNone None).
Definition slice (a b : nat) (l : list float) := firstn (b - a) (skipn a l).
Goal True. check (approx_list 1e-6 (in_window 3 12) (column (spike 12 2 800))
  && forallb (fun '(a, b) => approx_list 1e-6 (slice a b (in_window a b)) (slice a b unwindowed))
     [(1, 5); (1, 9); (1, 12); (0, 12)]%nat). exact I. Qed.

(** ** test_main.py:678-723, test__split_parallel_readout_by_time *)
Goal True. check (forallb (fun e =>
    let whole := nice kept (spike 12 2 800) e 0 WNone None in
    let first := nice kept (spike 12 2 800) e 0 WNone (Some (py_range 0 5)) in
    near_rows 0.01 1 (nice kept first e 0 WNone (Some (py_range 5 12))) whole)
  [1; 3; 12]%nat). exact I. Qed.

(** ** test_main.py:725-774, test__split_serial_readout_by_time.  With no window of rows the
    serial columns are those rows that the time window reaches; the split at 7 of 4 rows
    leaves all of them to the first half. *)
Definition serial_split := par (the_ccd 0.8 100000 0) (Some kept) [slow 10 10 0] 2 0 WNone.
Definition serial_spot := draw (fun i j => Nat.eqb i 0 && Nat.eqb j 1) 10000 4 10.
Goal True. check (
  let first := adds serial_spot no_direction serial_split (Some (py_range 0 7)) in
  let split := adds first no_direction serial_split (Some (py_range 7 10)) in
  approx_rows 1e-6 (minus split serial_spot)
    (minus (adds serial_spot no_direction serial_split None) serial_spot)). exact I. Qed.

(** ** test_main.py:845-923, TestChargeInjection *)
Definition lines := column_image (map (fun i => if Nat.eqb (Nat.modulo i 4) 0 then 800 else 0) (seq 0 12)).
Definition all_lt (a b : list float) : bool :=
  Nat.eqb (length a) (length b) && forallb (fun '(x, y) => x <? y) (combine a b).
Goal True. check (
  let ci := column (nice (inject_roe (Some 12%nat)) lines 0 0 WNone None) in
  let std := column (nice roe_default lines 0 0 WNone None) in
  approx_list 0.02 (slice 0 4 ci) (slice 4 8 ci) && approx_list 0.02 (slice 4 8 ci) (slice 8 12 ci)
  && all_lt (slice 0 4 ci) (slice 4 8 ci) && all_lt (slice 4 8 ci) (slice 8 12 ci)
  && (nth 4 std 0 <? nth 0 std 0) && (nth 8 std 0 <? nth 4 std 0)
  && all_lt (slice 1 4 std) (slice 5 8 std) && all_lt (slice 5 8 std) (slice 9 12 std)). exact I. Qed.
Goal True. check (
  let whole := nice (inject_roe (Some 24%nat)) lines 0 0 WNone None in
  forallb (fun '(e, tol) => approx_rows tol (nice (inject_roe (Some 24%nat)) lines e 0 WNone None) whole)
    [(1%nat, 0.09); (3%nat, 0.05); (8%nat, 0.02); (12%nat, 0.01)]). exact I. Qed.

(** ** test_main.py:925-1053, TestTrapPumping *)
Definition level := column_image (repeat 1000 5).
Definition three_ccd (l : list float) : ccd float :=
  get dummy_ccd (ccd_init (PList l) (Scalar 2e5) (Scalar 0) (Scalar 0.5) None).
Definition pump (l : list float) (n_pumps express : nat) : list float :=
  column (adds level (par (three_ccd l) (Some (pump_roe 6 n_pumps)) [instant 100 3] express 0 (WInt 2))
    no_direction None).
Definition p_at (l : list float) (i : nat) := nth i l 99.
Definition same (l : list float) (is : list nat) : bool :=
  forallb (fun i => approx 1e-6 (p_at l i) 1000) is.
Goal True. check (let o := pump [1; 0; 0] 2 0 in
  (p_at o 2 <? 1000) && (p_at o 3 <? 1000) && approx 2e-5 (p_at o 3) 1000 && same o [0; 1; 4]%nat). exact I. Qed.
Goal True. check (let o := pump [0; 1; 0] 2 0 in
  (p_at o 2 <? 1000) && (1000 <? p_at o 3) && same o [0; 1; 4]%nat). exact I. Qed.
Goal True. check (let o := pump [0; 0; 1] 2 0 in
  (p_at o 2 <? 1000) && (1000 <? p_at o 1) && same o [0; 3; 4]%nat). exact I. Qed.
Goal True. check (let whole := pump [1; 1; 1] 20 0 in
  forallb (fun '(e, tol) => approx_list tol (pump [1; 1; 1] 20 e) whole)
    [(1%nat, 3e-3); (2%nat, 4e-4); (5%nat, 3e-4); (10%nat, 2e-4)]). exact I. Qed.

(** ** test_main.py:1056-1252, TestAddCTIParallelOnly *)
Definition square_ccd (beta : float) := the_ccd beta 84700 0.01.
Definition square (im : image float) (t : list (trap float)) (beta : float) : image float :=
  adds im (par (square_ccd beta) None t 0 0 WNone) no_direction None.
Definition h_line := draw (fun i _ => Nat.eqb i 2) 100 5 5.
Definition v_line := draw (fun _ j => Nat.eqb j 2) 100 5 5.
Definition is0 (x : float) := x =? 0.
Definition neg (x : float) := x <? 0.
Definition pos (x : float) := 0 <? x.
Goal True. check (let d := minus (square h_line [slow 0.1 1 0] 0.8) h_line in
  region is0 d [0; 1]%nat all5 && region neg d [2]%nat all5 && region pos d [3]%nat all5). exact I. Qed.
Goal True. check (let d := minus (square v_line [slow 0.1 1 0] 0.8) v_line in
  region is0 d all5 [0; 1; 3]%nat && region neg d all5 [2]%nat). exact I. Qed.
Goal True. check (let a := square h_line [slow 0.1 1 0] 0.8 in let b := square h_line [slow 0.2 1 0] 0.8 in
  region is0 a [0; 1]%nat all5 && region is0 b [0; 1]%nat all5
  && forallb (fun j => at_ b 4 j <? at_ a 2 j) all5
  && (* what the name of the test says *) forallb (fun j => (at_ b 2 j <? at_ a 2 j)
     && (at_ a 3 j <? at_ b 3 j) && (at_ a 4 j <? at_ b 4 j)) all5). exact I. Qed.
Goal True. check (let a := square h_line [slow 0.1 1 0] 0.8 in let b := square h_line [slow 0.1 2 0] 0.8 in
  region is0 a [0; 1]%nat all5 && region is0 b [0; 1]%nat all5
  && forallb (fun j => (at_ a 2 j =? at_ b 2 j) && (at_ b 3 j <? at_ a 3 j)) all5). exact I. Qed.
Goal True. check (let a := square h_line [slow 0.1 1 0] 0.8 in let b := square h_line [slow 0.1 1 0] 0.9 in
  region is0 a [0; 1]%nat all5 && region is0 b [0; 1]%nat all5
  && forallb (fun j => (at_ a 2 j <? at_ b 2 j) && (at_ b 3 j <? at_ a 3 j)) all5). exact I. Qed.
Goal True. check (exactly (square h_line [slow 0.1 1 0] 0.8)
  (square h_line [slow 0.05 1 0; slow 0.05 1 0] 0.8)). exact I. Qed.
Definition deltas := draw (fun i j => (Nat.eqb i 1 && Nat.eqb j 1) || (Nat.eqb i 3 && Nat.eqb j 3)
  || (Nat.eqb i 2 && Nat.eqb j 4))%bool 100 5 5.
Goal True. check (let d := minus (square deltas [slow 0.1 1 0] 0.8) deltas in
  region is0 d all5 [0; 2]%nat
  && region is0 d [0]%nat [1]%nat && region neg d [1]%nat [1]%nat && region pos d [2; 3; 4]%nat [1]%nat
  && region is0 d [0; 1; 2]%nat [3]%nat && region neg d [3]%nat [3]%nat && region pos d [4]%nat [3]%nat
  && region is0 d [0; 1]%nat [4]%nat && region neg d [2]%nat [4]%nat && region pos d [3; 4]%nat [4]%nat). exact I. Qed.

(** ** test_main.py:1528-1664, TestAddCTIParallelAndSerial *)
Definition both (im : image float) (notch : float) : image float :=
  adds im (par (the_ccd 0.8 84700 notch) None [slow 0.4 1 0] 5 0 WNone)
          (par (the_ccd 0.4 84700 notch) None [slow 0.2 2 0] 5 0 WNone) None.
Definition none (x : float) := abs x <=? 1e-12.
Goal True. check (let im := draw (fun i j => Nat.eqb i 2 && Nat.leb 1 j && Nat.leb j 3) 100 5 5 in
  let d := minus (both im 0.00001) im in
  region is0 d [0; 1]%nat all5 && region neg d [2]%nat [1; 2; 3]%nat && region pos d [3; 4]%nat [1; 2; 3]%nat
  && region none d [2; 3; 4]%nat [0]%nat && region pos d [2; 3; 4]%nat [4]%nat
  && forallb (fun j => at_ d 4 j <? at_ d 3 j) [1; 2; 3; 4]%nat). exact I. Qed.
Goal True. check (let im := draw (fun i j => Nat.eqb j 2 && Nat.leb 1 i && Nat.leb i 3) 100 5 5 in
  let d := minus (both im 0.000001) im in
  region is0 d [0]%nat all5 && region neg d [1; 2; 3]%nat [2]%nat && region pos d [4]%nat [2]%nat
  && region none d all5 [0; 1]%nat && region pos d [1; 2; 3; 4]%nat [3; 4]%nat
  && (at_ d 3 4 <? at_ d 3 3) && (at_ d 4 4 <? at_ d 4 3)). exact I. Qed.
Goal True. check (let im := draw (fun i j => Nat.eqb i 2 && Nat.eqb j 2) 100 5 5 in
  let d := minus (both im 0.00001) im in
  region none d [0; 1]%nat all5 && region none d all5 [0; 1]%nat && region neg d [2]%nat [2]%nat
  && region pos d [3; 4]%nat [2]%nat && region pos d [2]%nat [3; 4]%nat
  && region pos d [3; 4]%nat [3; 4]%nat). exact I. Qed.

(** ** test_main.py:1847-1879, TestAddCTIParallelMultiPhase *)
Goal True. check (let d := minus (adds h_line (par (four_ccd (Scalar 84700))
    (Some (roe_init [0.5; 0.2; 0.2; 0.1] true true true DFloat)) [instant 0.1 1] 0 0 WNone)
    no_direction None) h_line in
  region is0 d [0; 1]%nat all5 && region neg d [2]%nat all5 && region pos d [3]%nat all5). exact I. Qed.

(** ** test_main.py:1882-1980, TestCorrectCTIParallelOnly *)
Definition corrected (im : image float) (iterations : nat) : image float :=
  match remove_cti im iterations (par (square_ccd 0.8) None [slow 0.1 1 0] 0 0 WNone) no_direction None with
  | Ok out => out
  | Err _ => []
  end.
Definition difference (im : image float) (iterations : nat) : image float :=
  minus (corrected (square im [slow 0.1 1 0] 0.8) iterations) im.
Goal True. check (forallb (fun im => image_le (difference im 1)
    (image_abs (minus (square im [slow 0.1 1 0] 0.8) im)) && Nat.eqb (length (difference im 1)) 5)
  [h_line; v_line; deltas]). exact I. Qed.
Goal True. check (image_le (image_abs (difference h_line 5)) (image_abs (difference h_line 3))
  && Nat.eqb (length (difference h_line 5)) 5). exact I. Qed.

(** ** test_main.py:2267-2315, TestCorrectCTIParallelAndSerial.  The two differences compared
    there are the same but for the rounding, hence the tolerance. *)
Definition values : image float := [
  [0; 0; 0; 0; 0; 0; 0]; [0; 9; 5; 9.5; 3.2; 9; 0]; [0; 0; 0; 0; 0; 0; 0]; [0; 9; 5; 9.5; 352; 9.4; 0];
  [0; 9; 5; 9.5; 0; 9; 0]; [0; 9; 9.1; 9.3; 9.2; 9; 0]; [0; 0; 0; 0; 0; 0; 0]].
Goal True. check (
  let p := par (the_ccd 0.8 84700 0.00001) None [slow 0.4 1 0] 5 0 WNone in
  let s := par (the_ccd 0.4 84700 0.00001) None [slow 0.2 2 0] 5 0 WNone in
  match remove_cti values 1 p s None with
  | Ok out => image_le (image_abs (minus out values))
      (map (map (fun x => x * (1 + 1e-9))) (image_abs (minus (adds values p s None) values)))
  | Err _ => false
  end). exact I. Qed.

(** ** test_main.py:2318-2341, TestPresetModels *)
Goal True. check (
  match model_for_HST_ACS (2452334.5 + 10), model_for_HST_ACS (2453920 + 10),
        model_for_HST_ACS (2454968 + 10), model_for_HST_ACS (2454968 + 100) with
  | Ok (t1, _, _), Ok (t2, _, _), Ok (t3, _, _), Ok (t4, _, _) =>
      let d t := map t_density t in let r t := map t_release_timescale t in
      all_lt (d t1) (d t2) && all_lt (d t2) (d t3) && all_lt (d t3) (d t4)
      && all_lt (r t2) (r t1) && approx_list 0 (r t2) (r t3) && approx_list 0 (r t3) (r t4)
      && Nat.eqb (length t1) 3
  | _, _, _, _ => false
  end). exact I. Qed.
