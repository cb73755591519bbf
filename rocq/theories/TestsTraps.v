(** * Running the model of the traps and their managers on the repository's tests.

    As in Tests.v, none of this is a proof: it checks that the model, run on IEEE doubles,
    computes what test_traps.py expects.  Left out are the tests that need a random number
    generator (test_traps.py:80-183) or numerical integrals (:733-1288), which the model
    takes as parameters. *)
From Coq Require Import ZArith List Bool PrimFloat.
From Verif Require Import Num FloatNum Py CCDModel TrapsModel ManagerModel ROEModel ClockModel MainModel Tests TestsRoe TestsMain.
Import ListNotations.
Local Open Scope float_scope.
Set Warnings "-inexact-float".

(** ** test_traps.py:11-29, test__electrons_released_from_electrons_and_dwell_time *)
Goal True. check (
  approx 1e-4 (electrons_released_from_electrons_and_dwell_time (slow 0.13 1 0) 1 1) 0.6321
  && approx 1e-4 (electrons_released_from_electrons_and_dwell_time (slow 0.13 1 0) 2 1) (2 * 0.6321)
  && approx 1e-4 (electrons_released_from_electrons_and_dwell_time (slow 0.13 2 0) 1 1) 0.39346
  && approx 1e-4 (electrons_released_from_electrons_and_dwell_time (slow 0.13 2 0) 2 1) (2 * 0.39346)). exact I. Qed.

(** ** test_traps.py:187-228, TestTrapManagerUtilities *)
Definition part := wm_of ([[0.5; 0.8]; [0.2; 0.4]; [0.1; 0.3]] ++ z2).
Goal True. check (let m := manager_init KSlow [slow 10 1 0] 6 in
  approx 0 (n_trapped m (m_wm m)) 0
  && approx 1e-12 (n_trapped m part) ((0.5 * 0.8 + 0.2 * 0.4 + 0.1 * 0.3) * 10)). exact I. Qed.
Definition spot := draw (fun i j => Nat.eqb i 2 && Nat.eqb j 1) 1000 6 2.
Definition grouped (t : traps_arg float) : image float :=
  adds spot (mkDir (Some ccd8) None (Some t) 0 0 WNone) no_direction None.
(* the repository's assertion is [assert (...).all], which is always true; two groups are
   stepped one after the other and so differ a little from one group *)
Goal True. check (near_rows 1e-3 1e-2 (grouped (TFlat [slow 10 half_life 0; slow 5 half_life 0]))
  (grouped (TNested [[slow 10 half_life 0]; [slow 5 half_life 0]]))
  && Nat.eqb (length (grouped (TFlat [slow 10 half_life 0; slow 5 half_life 0]))) 6). exact I. Qed.

(** ** test_traps.py:231-247, TestInitialWatermarks *)
Definition all_zero (rows columns : nat) (m : manager float) : bool :=
  approx_rows 0 (rows_of (m_wm m)) (repeat (repeat 0 columns) rows).
Definition tr := slow 0.13 0.25 0.
Goal True. check (all_zero 7 2 (manager_init KSlow [tr] 3)
  && all_zero 7 6 (manager_init KSlow [tr; tr; tr; tr; tr] 3)
  && all_zero 11 3 (manager_init KSlow [tr; tr] 5)). exact I. Qed.

(** ** test_traps.py:250-520, TestElectronsReleasedAndCapturedInstantCapture *)
Definition released_ok (m : manager float) (dwell x : float) (w : list (list float)) : bool :=
  match n_electrons_released m dwell with
  | (y, m') => approx 1e-6 y x && approx_rows 1e-6 (rows_of (m_wm m')) w
  end.
Goal True. check (released_ok (manager_init KInstant [tt] 6) 1 0 (repeat [0; 0] 7)). exact I. Qed.
Goal True. check (released_ok
  (mkManager KInstant two (wm_of ([[0.5; 0.8; 0.3]; [0.2; 0.4; 0.2]; [0.1; 0.2; 0.1]] ++ z3))) 1
  (2.5 + 1.28) ([[0.5; 0.4; 0.06]; [0.2; 0.2; 0.04]; [0.1; 0.1; 0.02]] ++ z3)). exact I. Qed.
Goal True. check (released_ok
  (mkManager KInstant [instant 10 (half_life / 2)] (wm_of ([[0.5; 0.8]; [0.2; 0.4]; [0.1; 0.2]] ++ z2))) 0.5
  2.5 ([[0.5; 0.4]; [0.2; 0.2]; [0.1; 0.1]] ++ z2)). exact I. Qed.
Goal True. check (capture_ok 1e-6 (manager_init KInstant [tt] 6) 2500 ccd5 5
  ([0.5; 1] :: repeat [0; 0] 6)). exact I. Qed.
Goal True. check (
  let m := mkManager KInstant two (wm_of ([[0.5; 0.8; 0.3]; [0.2; 0.4; 0.2]; [0.1; 0.2; 0.1]] ++ z3)) in
  match n_electrons_released m 1, manager_step m 3600 (fill_of ccd5) 1 with
  | (rel, m1), Ok (net, m2) => match n_electrons_captured m1 (3600 + rel) (fill_of ccd5) with
      | Ok (cap, m3) => (rel - cap =? net) && approx_rows 1e-6 (rows_of (m_wm m3)) (rows_of (m_wm m2))
      | Err _ => false end
  | _, Err _ => false end). exact I. Qed.

(** ** test_traps.py:523-540, TestAllTrapManagerSaveRestore *)
Definition put (a : all_managers float) (w : wmarks float) : all_managers float :=
  with_data a (map (map (fun m => with_wm m w)) (atm_data a)).
Definition raised : wmarks float := map (fun r => (vol r + 0.1, map (fun x => x + 0.1) (vals r))) part.
Goal True. check (match atm_init (TFlat [slow 10 1 0]) 6 (the_ccd 0.5 1000 0) with
  | Ok a => match atm_data (atm_restore (put (atm_save (put a part)) raised)),
                  atm_data (put (atm_save (put a part)) raised) with
      | [[m]], [[m']] => approx_rows 0 (rows_of (m_wm m)) (rows_of part)
          && negb (approx_rows 0 (rows_of (m_wm m')) (rows_of part))
      | _, _ => false end
  | Err _ => false end). exact I. Qed.

(** ** test_traps.py:544-730, TestTrapManagerTrackTime *)
Definition two_time := instant 10 2.
Definition time_at (t : trap float) f := get 99 (time_elapsed_from_fill_fraction t f).
Goal True. check (
  approx 1e-12 (fill_fraction_from_time_elapsed two_time 1) (fexp (-0.5))
  && approx 1e-12 (time_at two_time 0.5) (-2 * fln 0.5)
  && approx 1e-12 (fill_fraction_from_time_elapsed two_time (time_at two_time (fexp (-0.5)))) (fexp (-0.5))
  && approx 1e-12 (time_at two_time (fill_fraction_from_time_elapsed two_time (-2 * fln 0.5))) (-2 * fln 0.5)). exact I. Qed.
Definition by_fill := wm_of ([[0.5; 0.8]; [0.2; 0.4]; [0.1; 0.2]] ++ z2).
Definition by_time (t : trap float) :=
  wm_of ([[0.5; time_at t 0.8]; [0.2; time_at t 0.4]; [0.1; time_at t 0.2]] ++ z2).
Goal True. check (
  approx_rows 1e-6 (rows_of (to_fill_fractions [two_time] (by_time two_time))) (rows_of by_fill)
  && match to_elapsed_times [two_time] by_fill with
     | Ok w => approx_rows 1e-6 (rows_of w) (rows_of (by_time two_time))
         && approx_rows 1e-6 (rows_of (to_fill_fractions [two_time] w)) (rows_of by_fill)
     | Err _ => false end). exact I. Qed.
Goal True. check (approx 1e-12 (n_trapped (mkManager KInstant [tt] by_fill) by_fill)
  (n_trapped (mkManager KTime [tt] (by_time tt)) (by_time tt))). exact I. Qed.
Definition pair_of := [instant 10 half_life; instant 10 (2 * half_life)].
Definition pair_time (v a b : float) := [v; time_at (instant 10 half_life) a; time_at (instant 10 (2 * half_life)) b].
Goal True. check (match
    manager_step (mkManager KInstant pair_of
      (wm_of ([[0.5; 0.8; 0.6]; [0.2; 0.4; 0.2]; [0.1; 0.3; 0.1]] ++ z3))) 1e3 (fill_of ccd8) 1,
    manager_step (mkManager KTime pair_of
      (wm_of ([pair_time 0.5 0.8 0.6; pair_time 0.2 0.4 0.2; pair_time 0.1 0.3 0.1] ++ z3))) 1e3 (fill_of ccd8) 1 with
  | Ok (x, m), Ok (y, m') => approx 1e-6 x y
      && approx_rows 1e-6 (rows_of (m_wm m)) (rows_of (to_fill_fractions pair_of (m_wm m')))
  | _, _ => false end). exact I. Qed.

(** ** test_traps.py:1291-1727, TestElectronsReleasedAndCapturedIncludingSlowTraps *)
Definition collapse_ok (a b : list (list float)) : bool :=
  approx_rows 1e-6 (rows_of (collapse 1 1 (wm_of (a ++ z2)))) (b ++ z2).
Goal True. check (collapse_ok [[0.5; 0.8]; [0.2; 0.4]; [0.1; 0.2]] [[0.5; 0.8]; [0.2; 0.4]; [0.1; 0.2]]
  && collapse_ok [[0.5; 1]; [0.2; 0.4]; [0.1; 0.2]] [[0.5; 1]; [0.2; 0.4]; [0.1; 0.2]]
  && collapse_ok [[0.5; 1]; [0.2; 1]; [0.1; 0.2]] [[0.7; 1]; [0.1; 0.2]; [0; 0]]
  && collapse_ok [[0.5; 1]; [0.2; 1]; [0.1; 1]] [[0.8; 1]; [0; 0]; [0; 0]]). exact I. Qed.
Goal True. check (match collapse_with_copy 1 1
    (wm_of ([[0.5; 1]; [0.2; 1]; [0.1; 0.2]] ++ z2)) (wm_of ([[0.5; 0.5]; [0.2; 0.5]; [0.1; 0.1]] ++ z2)) with
  | Ok (a, b) => approx_rows 1e-6 (rows_of a) ([[0.7; 1]; [0.1; 0.2]; [0; 0]] ++ z2)
      && approx_rows 1e-6 (rows_of b) ([[0.7; 0.5]; [0.1; 0.1]; [0; 0]] ++ z2)
  | Err _ => false end). exact I. Qed.
(** The watermarks of slow traps after one step, and before it. *)
Definition slow_after (c : ccd float) (w : wmarks float) (n : float) : list (list float) :=
  match manager_step (mkManager KSlow [slow 10 1 0.1] w) n (fill_of c) 1 with
  | Ok (_, m) => rows_of (m_wm m)
  | Err _ => []
  end.
Definition volumes (l : list (list float)) : list float := map (hd 99) l.
Definition fills (l : list (list float)) : list float := map (fun r => nth 1 r 99) l.
Definition total (l : list float) : float := fold_right PrimFloat.add 0 l.
Definition all_le (a b : list float) : bool :=
  Nat.eqb (length a) (length b) && forallb (fun '(x, y) => x <=? y) (combine a b).
(* first capture: the same volumes as with instant capture *)
Goal True. check (match manager_step (manager_init KInstant [instant 10 1] 3) 5e4 (fill_of ccd0) 1,
    manager_step (manager_init KSlow [slow 10 1 0.1] 3) 5e4 (fill_of ccd0) 1 with
  | Ok (x, m), Ok (y, m') => approx_list 1e-6 (firstn 4 (volumes (rows_of (m_wm m'))))
        (firstn 4 (volumes (rows_of (m_wm m)))) && (x <? y)
  | _, _ => false end). exact I. Qed.
(* new lowest watermark *)
Goal True. check (let s := slow_after ccd0 w0 5e3 in
  approx 1e-12 (total (firstn 3 (volumes s))) 0.5
  && (0.8 <? nth 0 (fills s) 0) && (nth 2 (fills s) 99 <? 0.8)
  && approx_list 1e-6 (skipn 3 (volumes s)) [0.2; 0.1; 0] && all_le (skipn 3 (fills s)) [0.4; 0.2; 0]). exact I. Qed.
(* new middle watermark *)
Goal True. check (let s := slow_after ccd0 w0 5e4 in
  approx 0 (nth 0 (volumes s) 0) 0.5 && (0.8 <? nth 0 (fills s) 0)
  && approx 1e-12 (total (slice 1 4 (volumes s))) 0.2
  && forallb (fun x => 0.4 <? x) (slice 1 3 (fills s)) && (nth 3 (fills s) 99 <? 0.4)
  && approx_list 1e-6 (skipn 4 (volumes s)) [0.1; 0] && all_le (skipn 4 (fills s)) [0.2; 0]). exact I. Qed.
(* new highest watermark *)
Goal True. check (let s := slow_after ccd0 w0 7e4 in
  approx_list 0 (firstn 3 (volumes s)) [0.5; 0.2; 0.1] && all_lt [0.8; 0.4; 0.2] (firstn 3 (fills s))
  && (0 <? nth 3 (volumes s) 0) && (0 <? nth 3 (fills s) 0)). exact I. Qed.
(* no available electrons *)
Goal True. check (let s := slow_after ccd5 w0 0 in
  approx 1e-12 (total (firstn 2 (volumes s))) 0.5
  && (0.8 <? nth 0 (fills s) 0) && (nth 1 (fills s) 99 <? 0.8)
  && approx_list 1e-6 (skipn 2 (volumes s)) [0.2; 0.1; 0; 0] && all_le (skipn 2 (fills s)) [0.4; 0.2; 0; 0]). exact I. Qed.
(* not enough electrons *)
Goal True. check (
  let before := wm_of ([[0.5; 0.8]; [0.1; 0.4]; [0.1; 0.4]; [0.1; 0.2]; [0; 0]; [0; 0]]) in
  let after := wm_of ([[0.5; 0.9]; [0.1; 0.8]; [0.1; 0.4]; [0.1; 0.2]; [0; 0]; [0; 0]]) in
  let m := mkManager KSlow [slow 10 1 0.1] after in
  let held := n_trapped m before in
  let wanted := n_trapped m after - held in
  match not_enough m after before (0.5 * wanted / wanted) with
  | Ok w => approx_rows 1e-6 (rows_of w) [[0.5; 0.85]; [0.1; 0.6]; [0.1; 0.4]; [0.1; 0.2]; [0; 0]; [0; 0]]
      && approx 1e-6 (n_trapped m w - held) (0.5 * wanted)
  | Err _ => false end). exact I. Qed.
