(** * Running the model on inputs of the repository's own unit tests.

    None of this is a proof: it only checks that the model, run on IEEE doubles
    ([F := float]), computes what /repo/test_arcticpy expects, so that the theorems are
    about the right program.  [check] evaluates a boolean with the VM inside a tactic,
    so no proof term (and nothing for coqchk) is left behind. *)
From Coq Require Import ZArith List Bool PrimFloat.
From Verif Require Import Num FloatNum Py CCDModel TrapsModel ManagerModel ROEModel ClockModel MainModel.
Import ListNotations.

Ltac check t := let r := eval vm_compute in t in match r with true => idtac end.

Local Open Scope float_scope.
Set Warnings "-inexact-float".
Definition fabs_diff (a b : float) : float := abs (a - b).
(** pytest.approx(b, rel): |a - b| <= max(rel * |b|, 1e-12). *)
Definition approx (rel a b : float) : bool :=
  (fabs_diff a b <=? rel * abs b) || (fabs_diff a b <=? 1e-12).
Fixpoint approx_list (rel : float) (a b : list float) : bool :=
  match a, b with
  | [], [] => true
  | x :: a', y :: b' => approx rel x y && approx_list rel a' b'
  | _, _ => false
  end.
Fixpoint approx_rows (rel : float) (a b : list (list float)) : bool :=
  match a, b with
  | [], [] => true
  | x :: a', y :: b' => approx_list rel x y && approx_rows rel a' b'
  | _, _ => false
  end.
Definition rows_of (w : wmarks float) : list (list float) := map (fun r => vol r :: vals r) w.
Definition wm_of (l : list (list float)) : wmarks float :=
  map (fun r => (hd 0 r, tl r)) l.
Definition get {A} (d : A) (r : result A) : A := match r with Ok a => a | Err _ => d end.
Definition dummy_trap : trap float := mkTrap 0 1 RInf 1 false CInstant.
Definition instant (d tau : float) : trap float := get dummy_trap (trap_instant_init d tau false).
Definition slow (d tau c : float) : trap float := get dummy_trap (trap_init d tau c false).
Definition dummy_ccd : ccd float := mkCCD [] 0 [] [] [] [].
Definition the_ccd (power full notch : float) : ccd float :=
  get dummy_ccd (ccd_init (PList [1]) (Scalar full) (Scalar notch) (Scalar power) None).
Definition column_image (l : list float) : image float := map (fun x => [x]) l.
Definition spike (n k : nat) (x : float) : image float :=
  column_image (map (fun i => if Nat.eqb i k then x else 0) (seq 0 n)).
Definition half_life : float := - 1 / fln 0.5.
Definition run (im : image float) (t : traps_arg float) (c : ccd float) (r : roe float)
    (express offset : nat) : list float :=
  match add_cti im (mkDir (Some c) (Some r) (Some t) express offset WNone) no_direction None with
  | Ok (out, _, _) => map (fun row => hd 0 row) out
  | Err _ => []
  end.
Definition fill_of (c : ccd float) : filling float := fun n => well_fill c 0 false n.
Definition step_ok (rel : float) (m : manager float) (n dwell : float) (c : ccd float)
    (net : float) (w : list (list float)) : bool :=
  match manager_step m n (fill_of c) dwell with
  | Ok (x, m') => approx rel x net && approx_rows rel (rows_of (m_wm m')) w
  | Err _ => false
  end.
Definition capture_ok (rel : float) (m : manager float) (n : float) (c : ccd float)
    (net : float) (w : list (list float)) : bool :=
  match n_electrons_captured m n (fill_of c) with
  | Ok (x, m') => approx rel x net && approx_rows rel (rows_of (m_wm m')) w
  | Err _ => false
  end.
Definition express_ok (r : roe float) (pixels express offset : nat) (tw : option (list Z))
    (expected : list (list float)) : bool :=
  match express_and_monitor r (py_range 0 (Z.of_nat pixels)) express offset tw with
  | Ok (_, em, _) => approx_rows 1e-6 em expected
  | Err _ => false
  end.

(** ** test_main.py:8-185, test__add_cti__single_pixel__vary_express__compare_old_arctic *)
Definition roe1 := roe_init [1] false true true DInt.
Definition run1 (express : nat) := run (spike 20 2 800) (TFlat [instant 10 half_life])
  (the_ccd 1 1000 0) roe1 express 0.
Goal True. check (approx_list 0.05 (run1 1) [0.00000; 0.00000; 776.000; 15.3718; 9.65316; 5.81950; 3.41087; 1.95889; 1.10817; 0.619169; 0.342489; 0.187879; 0.102351; 0.0554257; 0.0298603; 0.0160170; 0.00855758; 0.00455620; 0.00241824; 0.00128579]). exact I. Qed.
Goal True. check (approx_list 0.05 (run1 2) [0.00000; 0.00000; 776.000; 15.3718; 9.65316; 5.81950; 3.41087; 1.95889; 1.10817; 0.619169; 0.348832; 0.196128; 0.109984; 0.0614910; 0.0340331; 0.0187090; 0.0102421; 0.00558406; 0.00303254; 0.00164384]). exact I. Qed.
Goal True. check (approx_list 0.05 (run1 5) [0.00000; 0.00000; 776.000; 15.3718; 9.59381; 5.80216; 3.43231; 1.99611; 1.15104; 0.658983; 0.374685; 0.211807; 0.119441; 0.0670274; 0.0373170; 0.0205845; 0.0113179; 0.00621127; 0.00341018; 0.00187955]). exact I. Qed.
Goal True. check (approx_list 0.05 (run1 10) [0.00000; 0.00000; 776.160; 15.1432; 9.51562; 5.78087; 3.43630; 2.01144; 1.16452; 0.668743; 0.381432; 0.216600; 0.122556; 0.0689036; 0.0383241; 0.0211914; 0.0116758; 0.00641045; 0.00352960; 0.00195050]). exact I. Qed.
Goal True. check (approx_list 0.05 (run1 20) [0.00000; 0.00000; 776.239; 15.0315; 9.47714; 5.77145; 3.43952; 2.01754; 1.17049; 0.673351; 0.384773; 0.218860; 0.124046; 0.0697859; 0.0388253; 0.0214799; 0.0118373; 0.00650488; 0.00358827; 0.00198517]). exact I. Qed.

(** ** test_main.py:196-300, ..._vary_express_2__compare_old_arctic (120 pixels) *)
Definition run2 (express : nat) := run (spike 120 102 800) (TFlat [instant 10 half_life])
  (the_ccd 0.5 1000 0) roe1 express 0.
Goal True. check (approx_list 0.05 (run2 2) (repeat 0 100 ++ [0.00000; 0.00000; 42.6722; 250.952; 161.782; 107.450; 73.0897; 50.6914; 35.6441; 25.3839; 18.2665; 13.2970; 9.79078; 7.30555; 5.52511; 4.24364; 3.30829; 2.61813; 2.09710; 1.70752])). exact I. Qed.
Goal True. check (approx_list 0.05 (run2 20) (repeat 0 100 ++ [0.00000; 0.00000; 134.103; 163.783; 117.887; 85.8632; 63.6406; 47.9437; 36.6625; 28.4648; 22.4259; 17.9131; 14.4976; 11.8789; 9.84568; 8.25520; 6.98939; 5.97310; 5.14856; 4.47386])). exact I. Qed.

(** ** test_roe.py, TestExpressMatrix *)
Fixpoint blist_eqb (a b : list bool) : bool :=
  match a, b with
  | [], [] => true
  | x :: a', y :: b' => Bool.eqb x y && blist_eqb a' b'
  | _, _ => false
  end.
Fixpoint blist2_eqb (a b : list (list bool)) : bool :=
  match a, b with
  | [], [] => true
  | x :: a', y :: b' => blist_eqb x y && blist2_eqb a' b'
  | _, _ => false
  end.
Definition ints (l : list (list Z)) : list (list float) := map (map float_of_Z) l.
Goal True. check (express_ok roe1 12 4 0 None (ints [
  [1; 2; 3; 3; 3; 3; 3; 3; 3; 3; 3; 3]; [0; 0; 0; 1; 2; 3; 3; 3; 3; 3; 3; 3];
  [0; 0; 0; 0; 0; 0; 1; 2; 3; 3; 3; 3]; [0; 0; 0; 0; 0; 0; 0; 0; 0; 1; 2; 3]]%Z)). exact I. Qed.
Goal True. check (express_ok (roe_init [1] true true true DFloat) 12 4 0 None [
  [0; 0; 0; 0; 0; 0; 0; 0; 0; 0; 0; 1]; [0; 0; 0; 0; 0; 0; 0; 0; 0; 0; 1; 0];
  [0; 0; 0; 0; 0; 0; 0; 0; 0; 1; 0; 0]; [0; 0; 0; 0; 0; 0; 0; 0; 1; 0.75; 1.75; 2.75];
  [0; 0; 0; 0; 0; 0; 0; 1; 0; 0; 0; 0]; [0; 0; 0; 0; 0; 0; 1; 0; 0; 0; 0; 0];
  [0; 0; 0; 0; 0; 1; 0.5; 1.5; 2.5; 2.75; 2.75; 2.75]; [0; 0; 0; 0; 1; 0; 0; 0; 0; 0; 0; 0];
  [0; 0; 0; 1; 0; 0; 0; 0; 0; 0; 0; 0];
  [0; 0; 1; 0.25; 1.25; 2.25; 2.75; 2.75; 2.75; 2.75; 2.75; 2.75];
  [0; 1; 0; 0; 0; 0; 0; 0; 0; 0; 0; 0];
  [1; 1; 2; 2.75; 2.75; 2.75; 2.75; 2.75; 2.75; 2.75; 2.75; 2.75]]). exact I. Qed.
Goal True. check (express_ok (roe_init [1] true true true DInt) 12 4 0 None (ints [
  [0; 0; 0; 0; 0; 0; 0; 0; 0; 0; 0; 1]; [0; 0; 0; 0; 0; 0; 0; 0; 0; 0; 1; 0];
  [0; 0; 0; 0; 0; 0; 0; 0; 0; 1; 1; 2]; [0; 0; 0; 0; 0; 0; 0; 0; 1; 0; 0; 0];
  [0; 0; 0; 0; 0; 0; 0; 1; 0; 0; 0; 0]; [0; 0; 0; 0; 0; 0; 1; 1; 2; 3; 3; 3];
  [0; 0; 0; 0; 0; 1; 0; 0; 0; 0; 0; 0]; [0; 0; 0; 0; 1; 0; 0; 0; 0; 0; 0; 0];
  [0; 0; 0; 1; 1; 2; 3; 3; 3; 3; 3; 3]; [0; 0; 1; 0; 0; 0; 0; 0; 0; 0; 0; 0];
  [0; 1; 0; 0; 0; 0; 0; 0; 0; 0; 0; 0]; [1; 1; 2; 3; 3; 3; 3; 3; 3; 3; 3; 3]]%Z)). exact I. Qed.
Goal True. check (match express_and_monitor (roe_init [1] false true true DFloat)
    (py_range 0 12) 4 0 None with
  | Ok (_, em, _) => match standard_save false em with
     | Ok s => blist2_eqb s
        (map (fun k => map (fun j => Nat.eqb j k) (seq 0 12)) [2; 5; 8; 100]%nat)
     | Err _ => false end
  | Err _ => false end). exact I. Qed.

(** ** test_traps.py *)
Definition ccd5 := the_ccd 0.5 10000 1e-7.
Definition z2 : list (list float) := [[0; 0]; [0; 0]; [0; 0]].
Definition z3 : list (list float) := [[0; 0; 0]; [0; 0; 0]; [0; 0; 0]].
(* single and multiple trap release *)
Goal True. check (match n_electrons_released
    (mkManager KInstant [instant 10 half_life] (wm_of ([[0.5; 0.8]; [0.2; 0.4]; [0.1; 0.2]] ++ z2))) 1 with
  (x, m) => approx 1e-6 x 2.5 &&
    approx_rows 1e-6 (rows_of (m_wm m)) ([[0.5; 0.4]; [0.2; 0.2]; [0.1; 0.1]] ++ z2) end). exact I. Qed.
(* multiple trap capture *)
Definition two := [instant 10 half_life; instant 8 (- 1 / fln 0.2)].
Goal True. check (capture_ok 1e-6
    (mkManager KInstant two (wm_of ([[0.5; 0.8; 0.7]; [0.2; 0.4; 0.3]; [0.1; 0.3; 0.2]] ++ z3)))
    3600 ccd5 (0.16 * 10 + 0.22 * 8)
    ([[0.6; 1; 1]; [0.1; 0.4; 0.3]; [0.1; 0.3; 0.2]] ++ z3)). exact I. Qed.
(* not enough, first capture *)
Goal True. check (capture_ok 1e-3
    (mkManager KInstant [instant 10 half_life] (wm_of (z2 ++ z2 ++ [[0; 0]])))
    0.0025 ccd5 0.0025 ([[4.9999e-4; 0.50001]] ++ z2 ++ z2)). exact I. Qed.
(* not enough, multiple traps *)
Goal True. check (capture_ok 1e-3
    (mkManager KInstant two (wm_of ([[0.5; 0.8; 0.7]; [0.2; 0.4; 0.3]; [0.1; 0.3; 0.2]] ++ z3)))
    4.839e-4 ccd5 (2.199545e-4 * (0.1 * 10 + 0.15 * 8))
    ([[2.199545e-4; 0.9; 0.85]; [0.5 - 2.199545e-4; 0.8; 0.7]; [0.2; 0.4; 0.3]; [0.1; 0.3; 0.2]]
     ++ [[0; 0; 0]; [0; 0; 0]])). exact I. Qed.
(* TrackTime agrees with InstantCapture *)
Definition ccd8 := the_ccd 0.8 8.47e4 1e-7.
Definition tt := instant 10 half_life.
Definition time_of f := get 0 (time_elapsed_from_fill_fraction tt f).
Goal True. check (match
    manager_step (mkManager KInstant [tt] (wm_of ([[0.5; 0.8]; [0.2; 0.4]; [0.1; 0.2]] ++ z2))) 5e4 (fill_of ccd8) 1,
    manager_step (mkManager KTime [tt] (wm_of ([[0.5; time_of 0.8]; [0.2; time_of 0.4]; [0.1; time_of 0.2]] ++ z2))) 5e4 (fill_of ccd8) 1 with
  | Ok (x, m), Ok (y, m') => approx 1e-6 x y &&
      approx_rows 1e-6 (rows_of (m_wm m)) (rows_of (to_fill_fractions [tt] (m_wm m')))
  | _, _ => false end). exact I. Qed.
(* fast TrapManager agrees with InstantCapture; slow traps capture less *)
Definition ccd0 := the_ccd 0.8 8.47e4 0.
Definition w0 := wm_of ([[0.5; 0.8]; [0.2; 0.4]; [0.1; 0.2]] ++ z2).
Definition compare_fast (c : ccd float) (w : wmarks float) (n : float) : bool :=
  match manager_step (mkManager KInstant [instant 10 1] w) n (fill_of c) 1,
        manager_step (mkManager KSlow [slow 10 1 0] w) n (fill_of c) 1,
        manager_step (mkManager KSlow [slow 10 1 0.1] w) n (fill_of c) 1 with
  | Ok (x, m), Ok (y, m'), Ok (z, _) =>
      approx 1e-3 y x && approx_rows 1e-3 (rows_of (m_wm m')) (rows_of (m_wm m)) && (y <? z)
  | _, _, _ => false end.
Goal True. check (compare_fast ccd0 (wm_of (z2 ++ z2)) 5e4). exact I. Qed.
Goal True. check (compare_fast ccd0 w0 5e3). exact I. Qed.
Goal True. check (compare_fast ccd0 w0 5e4). exact I. Qed.
Goal True. check (compare_fast ccd0 w0 7e4). exact I. Qed.
Goal True. check (compare_fast ccd5 w0 0). exact I. Qed.
(* collapse_redundant_watermarks, multiple species, with copy *)
Goal True. check (match collapse_with_copy 1 2
    (wm_of ([[0.4; 1; 1]; [0.2; 1; 1]; [0.1; 0.2; 0.3]] ++ z3))
    (wm_of ([[0.4; 0.5; 0.8]; [0.2; 0.5; 0.4]; [0.1; 0.1; 0.2]] ++ z3)) with
  | Ok (a, b) => approx_rows 1e-6 (rows_of a) ([[0.6; 1; 1]; [0.1; 0.2; 0.3]; [0; 0; 0]] ++ z3)
      && approx_rows 1e-6 (rows_of b) ([[0.6; 0.5; 2 / 3]; [0.1; 0.1; 0.2]; [0; 0; 0]] ++ z3)
  | Err _ => false end). exact I. Qed.
Goal True. check (approx_rows 1e-6 (rows_of (collapse 1 2
    (wm_of ([[0.4; 1; 1]; [0.3; 1; 1]; [0.2; 1; 0.9]; [0.1; 0.2; 0.3]] ++ z3))))
    ([[0.7; 1; 1]; [0.2; 1; 0.9]; [0.1; 0.2; 0.3]; [0; 0; 0]] ++ z3)). exact I. Qed.
