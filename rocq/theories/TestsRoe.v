(** * Running the model of the readout electronics and of the CCD on the repository's tests.

    As in Tests.v, none of this is a proof: it checks that the model computes what
    test_roe.py and test_ccd.py expect. *)
From Coq Require Import ZArith List Bool PrimFloat.
From Verif Require Import Num FloatNum Py CCDModel TrapsModel ManagerModel ROEModel ClockModel MainModel Tests.
Import ListNotations.
Local Open Scope float_scope.
Set Warnings "-inexact-float".

Definition ones (k : nat) : list float := repeat 1 k.
Definition matrices (r : roe float) (pixels express offset : nat) (tw : option (list Z))
    : list (list float) * list (list bool) * list (list bool) :=
  match express_and_monitor r (py_range 0 (Z.of_nat pixels)) express offset tw with
  | Ok (r', em, mon) => (em, mon, match save_matrix r' em with Ok s => s | Err _ => [] end)
  | Err _ => ([], [], [])
  end.
Definition em_of (r : roe float) (pixels express offset : nat) := fst (fst (matrices r pixels express offset None)).
Definition mon_of (r : roe float) (pixels express offset : nat) := snd (fst (matrices r pixels express offset None)).
Definition sav_of (r : roe float) (pixels express offset : nat) := snd (matrices r pixels express offset None).
Definition triu (n : nat) : list (list float) :=
  map (fun i => map (fun j => if Nat.leb i j then 1 else 0) (seq 0 n)) (seq 0 n).
Definition bools (l : list (list nat)) : list (list bool) := map (map (Nat.eqb 1)) l.
Definition all_true (m : list (list bool)) : bool := forallb (forallb (fun b => b)) m.
Definition roe_std (first : bool) (dt : dtype) := roe_init [1] first true true dt.
Definition column_sums (m : list (list float)) (n : nat) : list float :=
  fold_right (@row_add float _) (repeat 0 n) m.
Fixpoint zlist_eqb (a b : list Z) : bool :=
  match a, b with
  | [], [] => true
  | x :: a', y :: b' => Z.eqb x y && zlist_eqb a' b'
  | _, _ => false
  end.

(** ** test_roe.py:8-44, test__express_matrix_from_pixels *)
Definition naturals (a n : nat) : list float := map (fun i => float_of_Z (Z.of_nat i)) (seq a n).
Goal True. check (approx_rows 1e-6 (em_of (roe_std false DInt) 12 1 0) [naturals 1 12]). exact I. Qed.
Goal True. check (approx_rows 1e-6 (em_of (roe_std false DInt) 12 12 0) (triu 12)). exact I. Qed.
(** ** test_roe.py:47-71, test__express_matrix__offset *)
Goal True. check (forallb (fun offset => forallb (fun express =>
    approx_rows 1e-6 (em_of (roe_std false DInt) 12 express offset)
      (map (skipn offset) (em_of (roe_std false DInt) (12 + offset) express 0)))
  [1; 3; 12; 0]%nat) [1; 5; 11]%nat). exact I. Qed.
(** ** test_roe.py:73-122, test__express_matrix__dtype (express = 4 is in Tests.v) *)
Goal True. check (approx_rows 1e-6 (em_of (roe_std false DFloat) 12 1 0) [naturals 1 12]). exact I. Qed.
Goal True. check (approx_rows 1e-6 (em_of (roe_std true DFloat) 12 12 0) (triu 12)). exact I. Qed.
(** ** test_roe.py:124-172, test__express_matrix__empty_traps_for_first_transfers *)
Goal True. check (approx_rows 1e-6 (em_of (roe_std true DInt) 12 1 0)
  (map (fun i => map (fun j => if Nat.eqb (i + j) 11 then
         (if Nat.eqb i 11 then float_of_Z (Z.of_nat j) + 1 else 1)
         else if Nat.eqb i 11 then float_of_Z (Z.of_nat j) else 0) (seq 0 12)) (seq 0 12))). exact I. Qed.
Goal True. check (approx_rows 1e-6 (em_of (roe_std true DInt) 12 12 0) (triu 12)). exact I. Qed.
(** ** test_roe.py:174-192, test__express_matrix_always_sums_to_n_transfers *)
Goal True. check (forallb (fun pixels => forallb (fun express => forallb (fun offset =>
    forallb (fun dt => forallb (fun first =>
      approx_list 1e-6 (column_sums (em_of (roe_std first dt) pixels express offset) pixels)
        (naturals (1 + offset) pixels))
    [true; false]) [DInt; DFloat]) [0; 1; 13]%nat) [0; 1; 2; 7]%nat) [5; 7; 17]%nat). exact I. Qed.
(** ** test_roe.py:194-236, test__monitor_traps_matrix *)
Goal True. check (blist2_eqb (mon_of (roe_std false DFloat) 12 1 0) [repeat true 12]). exact I. Qed.
Goal True. check (blist2_eqb (mon_of (roe_std false DFloat) 12 4 0) (bools [
  [1; 1; 1; 1; 1; 1; 1; 1; 1; 1; 1; 1]; [0; 0; 0; 1; 1; 1; 1; 1; 1; 1; 1; 1];
  [0; 0; 0; 0; 0; 0; 1; 1; 1; 1; 1; 1]; [0; 0; 0; 0; 0; 0; 0; 0; 0; 1; 1; 1]]%nat)). exact I. Qed.
Goal True. check (blist2_eqb (mon_of (roe_std false DFloat) 12 12 0)
  (map (map (fun x => 0 <? x)) (triu 12))). exact I. Qed.
(** ** test_roe.py:238-284, test__express_matrix_monitor_and_traps_matrix__time_window *)
Definition windowed (a b : Z) := matrices (roe_std true DInt) 8 2 2 (Some (py_range a b)).
Goal True. check (match windowed 0 6, windowed 6 9, windowed 9 10, matrices (roe_std true DInt) 8 2 2 None with
  | (ea, ma, _), (eb, mb, _), (ec, mc, _), (ed, md, _) =>
      blist2_eqb ma mb && blist2_eqb ma mc && blist2_eqb ma md
      && approx_list 1e-6 (column_sums (ea ++ eb ++ ec) 8) (naturals 3 8)
      && approx_rows 1e-6 (map (fun '(x, y) => row_add x y)
           (combine ea (map (fun '(x, y) => row_add x y) (combine eb ec)))) ed
  end). exact I. Qed.
(** ** test_roe.py:286-326, test__save_trap_states_matrix *)
Goal True. check (blist2_eqb (sav_of (roe_std true DFloat) 12 1 0) (repeat (repeat false 12) 12)). exact I. Qed.

(** ** test_roe.py:329-556, TestClockingSequences *)
Definition accessed (r : roe float) : list Z :=
  nodup Z.eq_dec (roe_pixels r).
Definition same_set (a b : list Z) : bool :=
  forallb (fun x => existsb (Z.eqb x) b) a && forallb (fun x => existsb (Z.eqb x) a) b.
Definition phase_at (r : roe float) (step phase : nat) : roe_phase float :=
  nth phase (nth step (roe_clock_sequence r) []) (mkRP false 99 [99%Z] []).
Definition releases (r : roe float) (l : list (nat * nat * list Z)) : bool :=
  forallb (fun '(s, p, e) => zlist_eqb (rp_release (phase_at r s p)) e) l.
Definition diagonal_ok (r : roe float) (n : nat) : bool :=
  forallb (fun s => rp_high (phase_at r s s) && Z.eqb (rp_capture (phase_at r s s)) 0
    && zlist_eqb (rp_release (phase_at r s s)) [0%Z]) (seq 0 n).
Definition shape_ok (r : roe float) (phases steps : nat) : bool :=
  Nat.eqb (roe_n_phases r) phases && Nat.eqb (roe_n_steps r) steps.
Definition sequence_roe (n : nat) (force : bool) := roe_init (ones n) true true force DFloat.
Goal True. check (forallb (fun n => forallb (forallb (fun p =>
    approx 0 (fold_right PrimFloat.add 0 (rp_fraction p)) 1)) (roe_clock_sequence (sequence_roe n true)))
  [1; 2; 3; 5; 8]%nat). exact I. Qed.
Goal True. check (forallb (fun force => let r := sequence_roe 1 force in
  same_set (accessed r) [0%Z] && shape_ok r 1 1 && diagonal_ok r 1) [true; false]). exact I. Qed.
Goal True. check (let r := sequence_roe 2 false in
  same_set (accessed r) [-1; 0; 1]%Z && shape_ok r 2 2 && diagonal_ok r 2
  && releases r [(0, 1, [-1; 0]%Z); (1, 0, [0; 1]%Z)]%nat). exact I. Qed.
Goal True. check (let r := sequence_roe 2 true in
  same_set (accessed r) [0; 1]%Z && shape_ok r 2 2 && diagonal_ok r 2
  && releases r [(0, 1, [0; 1]%Z); (1, 0, [0; 1]%Z)]%nat). exact I. Qed.
Goal True. check (let r := sequence_roe 3 false in
  same_set (accessed r) [-1; 0; 1]%Z && shape_ok r 3 3 && diagonal_ok r 3
  && releases r [(0, 1, [0]%Z); (0, 2, [-1]%Z); (1, 0, [0]%Z); (1, 2, [0]%Z);
                 (2, 0, [1]%Z); (2, 1, [0]%Z)]%nat). exact I. Qed.
Goal True. check (let r := sequence_roe 3 true in
  same_set (accessed r) [0; 1]%Z && shape_ok r 3 3 && diagonal_ok r 3
  && releases r [(0, 1, [1]%Z); (0, 2, [0]%Z); (1, 0, [0]%Z); (1, 2, [1]%Z);
                 (2, 0, [1]%Z); (2, 1, [0]%Z)]%nat). exact I. Qed.
Goal True. check (let r := sequence_roe 4 false in
  same_set (accessed r) [-1; 0; 1]%Z && shape_ok r 4 4 && diagonal_ok r 4
  && releases r [(0, 1, [0]%Z); (0, 2, [-1; 0]%Z); (0, 3, [-1]%Z); (1, 0, [0]%Z);
                 (1, 2, [0]%Z); (1, 3, [-1; 0]%Z); (2, 0, [0; 1]%Z); (2, 1, [0]%Z);
                 (2, 3, [0]%Z); (3, 0, [1]%Z); (3, 1, [0; 1]%Z); (3, 2, [0]%Z)]%nat). exact I. Qed.
Goal True. check (let r := sequence_roe 4 true in
  same_set (accessed r) [0; 1]%Z && shape_ok r 4 4 && diagonal_ok r 4
  && releases r [(0, 1, [1]%Z); (0, 2, [0; 1]%Z); (0, 3, [0]%Z); (1, 0, [0]%Z);
                 (1, 2, [1]%Z); (1, 3, [0; 1]%Z); (2, 0, [0; 1]%Z); (2, 1, [0]%Z);
                 (2, 3, [1]%Z); (3, 0, [1]%Z); (3, 1, [0; 1]%Z); (3, 2, [0]%Z)]%nat). exact I. Qed.
Definition pump_roe (dwells n_pumps : nat) : roe float :=
  get roe_default (roe_pumping_init (ones dwells) n_pumps true DFloat).
Definition highs (r : roe float) (l : list nat) : bool :=
  forallb (fun '(s, p) => rp_high (phase_at r s p)) (combine (seq 0 (length l)) l).
Goal True. check (let r := pump_roe 6 1 in
  same_set (accessed r) [-1; 0; 1]%Z && shape_ok r 3 6 && highs r [0; 1; 2; 0; 2; 1]%nat
  && releases r [(3, 0, [1]%Z); (3, 1, [1]%Z); (3, 2, [0]%Z)]%nat
  && forallb (fun p => zlist_eqb (rp_release (phase_at r 4 p)) (rp_release (phase_at r 2 p))
       && Z.eqb (rp_capture (phase_at r 4 p)) (rp_capture (phase_at r 2 p))
       && zlist_eqb (rp_release (phase_at r 5 p)) (rp_release (phase_at r 1 p))
       && Z.eqb (rp_capture (phase_at r 5 p)) (rp_capture (phase_at r 1 p))) [0; 1; 2]%nat). exact I. Qed.
Goal True. check (let r := pump_roe 8 1 in
  same_set (accessed r) [-1; 0; 1]%Z && shape_ok r 4 8 && highs r [0; 1; 2; 3; 0; 3; 2; 1]%nat). exact I. Qed.

(** ** test_roe.py:559-611, TestChargeInjection *)
Definition inject_roe (n : option nat) := roe_injection_init [1] n true true DFloat.
Goal True. check (approx_rows 1e-6 (em_of (inject_roe (Some 12%nat)) 12 0 0) (repeat (repeat 1 12) 12)
  && all_true (mon_of (inject_roe (Some 12%nat)) 12 0 0)). exact I. Qed.
Goal True. check (approx_rows 1e-6 (em_of (inject_roe (Some 12%nat)) 12 1 0) [repeat 12 12]
  && all_true (mon_of (inject_roe (Some 12%nat)) 12 1 0)). exact I. Qed.
Goal True. check (approx_rows 1e-6 (em_of (inject_roe (Some 24%nat)) 12 4 0) (repeat (repeat 6 12) 4)
  && all_true (mon_of (inject_roe (Some 24%nat)) 12 4 0)). exact I. Qed.
Goal True. check (approx_rows 1e-6 (em_of (inject_roe None) 12 4 6) (repeat (repeat 4.5 12) 4)
  && all_true (mon_of (inject_roe None) 12 4 6)). exact I. Qed.

(** ** test_roe.py:614-678, TestTrapPumping.  The integers passed there ([pixels=2],
    [pixels=5]) each name the one pixel with traps (roe.py:830-832). *)
Goal True. check (approx_rows 1e-6 (em_of (pump_roe 6 12) 1 0 0) (repeat [1] 12)
  && all_true (mon_of (pump_roe 6 12) 1 0 0)
  && blist2_eqb (sav_of (pump_roe 6 12) 1 0 0) (repeat [true] 11 ++ [[false]])). exact I. Qed.
Goal True. check (forallb (fun e => approx_rows 1e-6 (em_of (pump_roe 6 12) 1 e 0)
     ([1] :: repeat [11 / float_of_Z (Z.of_nat e)] e)
  && all_true (mon_of (pump_roe 6 12) 1 e 0)
  && blist2_eqb (sav_of (pump_roe 6 12) 1 e 0) (repeat [true] e ++ [[false]])) [1; 4; 7]%nat). exact I. Qed.

(** ** test_ccd.py *)
Definition volume (c : ccd float) (n : float) : float := get 99 (cloud_fractional_volume c n 0 false).
Goal True. check (let c := the_ccd 1 10000 0 in
  approx 0 (volume c 100) 0.01 && approx 0 (volume c 1000) 0.1 && approx 0 (volume c 1000000) 1). exact I. Qed.
Goal True. check (let c := the_ccd 0.5 10000 0 in
  approx 1e-9 (volume c 100) 0.1 && approx 1e-9 (volume c 1000) 0.31622776601683794). exact I. Qed.
Goal True. check (let c := the_ccd 1 100 90 in approx 0 (volume c 100) 1 && approx 0 (volume c 9) 0). exact I. Qed.
Definition four := PList [0.5; 0.2; 0.2; 0.1].
Definition four_ccd (full : param float) : ccd float :=
  get dummy_ccd (ccd_init four full (Scalar 0.01) (Scalar 0.8) None).
Goal True. check (let c := four_ccd (Scalar 84700) in
  approx_list 0 (ccd_notch c) (repeat 0.01 4) && approx_list 0 (ccd_fill_power c) (repeat 0.8 4)
  && approx_list 0 (ccd_full_well c) (repeat 84700 4)). exact I. Qed.
Goal True. check (let c := four_ccd (PList [84700; 1e5; 2e5; 3e5]) in
  approx_list 0 (ccd_notch c) (repeat 0.01 4) && approx_list 0 (ccd_fill_power c) (repeat 0.8 4)
  && approx_list 0 (ccd_full_well c) [84700; 1e5; 2e5; 3e5]
  && forallb (fun '(p, w) => match ccd_phase_init c p with
       | Ok ph => approx 0 (cp_notch ph) 0.01 && approx 0 (cp_full_well ph) w
       | Err _ => false end)
     (combine [0; 1; 2; 3]%nat [84700; 1e5; 2e5; 3e5])). exact I. Qed.
