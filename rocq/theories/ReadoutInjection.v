(** * Charge injection in terms of the readout model. *)
From Coq Require Import ZArith List Bool Reals Lra Lia FinFun.
From Coquelicot Require Import Rcomplements Rbar Hierarchy RInt.
From Verif Require Import Num Py RFacts CCDModel TrapsModel ManagerModel ROEModel ClockModel MainModel Spec SpecROE SpecImage SpecReadout
  WmFacts ArrayFacts CutFacts InstantFacts ClockFacts MainFacts ShapeFacts ColumnFacts
  ROEClockFacts ROEMatrixFacts ROEExpressFacts ROEKindFacts ReadoutFacts ReadoutImage ReadoutForced ReadoutFull.
Import ListNotations.
Open Scope R_scope.

Lemma cells_all (x : R) : forall n s (a : list R) (b f : list bool), length a = n -> length b = n -> length f = n ->
  (forall k, (k < n)%nat -> nth k b false = true) -> (forall k, (k < n)%nat -> nth k a 0 = x) -> (forall k, (k < n)%nat -> nth k f false = false) ->
  cells_of (map Z.of_nat (seq s n)) a b f = map (fun w => (Z.of_nat w, x, false)) (seq s n).
Proof.
  induction n as [|n IH]; intros s a b f La Lb Lf Hb Ha Hf; [reflexivity|].
  destruct a as [|y a], b as [|z b], f as [|u f]; cbn [length] in *; try lia.
  pose proof (Hb 0%nat ltac:(lia)) as Hb0. pose proof (Ha 0%nat ltac:(lia)) as Ha0. pose proof (Hf 0%nat ltac:(lia)) as Hf0. cbn [nth] in Hb0, Ha0, Hf0. subst.
  unfold cells_of. cbn [seq map combine flat_map]. fold (cells_of (map Z.of_nat (seq (S s) n)) a b f). rewrite (IH (S s) a b f); try lia; [reflexivity|..].
  - intros k Hk. exact (Hb (S k) ltac:(lia)).
  - intros k Hk. exact (Ha (S k) ltac:(lia)).
  - intros k Hk. exact (Hf (S k) ltac:(lia)).
Qed.

Section Injection.
Context (im : image R) (c : ccd R) (dwell : list R) (traps : traps_arg R) (groups : list (list (trap R)))
  (npt : option nat) (express offset : nat) (columns : list Z) (tw : option (Z * Z)) (rows cols : nat).
Hypothesis Hshape : shape rows cols im.
Hypothesis Hrows : (0 < rows)%nat.
Hypothesis Hpos : forall i j, 0 <= pixel im i j.
Hypothesis Hc : plain_ccd c.
Hypothesis Hph : (ccd_n_phases c <= length dwell)%nat.
Hypothesis Hgroups : normalise_traps traps = Ok groups.
Hypothesis Hinst : Forall instant_group groups.
Hypothesis Hcols : forall j, In j columns -> (0 <= j < Z.of_nat cols)%Z.
Hypothesis Hnodup : NoDup columns.
Let N := injection_transfers npt rows offset.
Hypothesis HN : (0 < N)%nat.
Hypothesis Htw : tw_ok tw.
Let E := passes_for N express.
Let x := INR N / INR E.

Lemma injection_readout : 
  let r := built (Injection npt) dwell DFloat true true in
  let r' := built (Injection (Some N)) dwell DFloat true true in exists im',
  clock_charge_in_one_direction im c r traps express offset (py_range 0 (Z.of_nat rows)) columns (tw_arg tw) = Ok (im', r') /\
  shape rows cols im' /\
  (forall i j, ~ In (Z.of_nat j) columns -> pixel im' i j = pixel im i j) /\
  forall i j, (i < rows)%nat -> In (Z.of_nat j) columns ->
    pixel im' i j = readout (site_of c groups) (trap_phases c) (timed_steps r)
                      (injection_passes rows E (fun i => tw_part tw (INR i * x) (INR (S i) * x))) (col_fun im j) (Z.of_nat i).
Proof.
  intros r r'.
  destruct (injection_at npt (py_range 0 (Z.of_nat rows)) rows express offset (window_ok_range rows Hrows) tw HN Htw) as (em & mon & E1 & R1 & R2 & HE & Hent).
  fold N in E1, HE, Hent. change (express_used N express) with E in *. cbn zeta in Hent. fold x in Hent.
  destruct (forced_readout im c (Injection npt) dwell DFloat traps groups express offset (py_range 0 (Z.of_nat rows)) columns (tw_arg tw) r' em mon E rows rows cols)
    as (im' & G1 & G2 & G3 & G4); auto.
  - exact I.
  - unfold express_and_monitor. cbn [built make_roe roe_kind_of roe_dtype]. rewrite E1. reflexivity.
  - rewrite py_range_length. lia.
  - intros w Hw. apply py_range_in in Hw. exact Hw.
  - exists im'. split; [exact G1|]. split; [exact G2|]. split; [exact G3|]. intros i j Hi Hj. rewrite (G4 i j Hi Hj). f_equal.
    rewrite py_range_0. unfold injection_passes. destruct R1 as [Le He], R2 as [Lm Hm]. unfold matrix in *. change (length em = E) in Le. change (length mon = E) in Lm.
    apply (combine_nth_eq (fun e m => cells_of (map Z.of_nat (seq 0 rows)) e m (map (fun _ => false) e)) [] []); auto.
    intros e Hlt. cbn [Nat.add]. rewrite Forall_forall in He, Hm.
    assert (L1 : length (nth e em []) = rows) by (apply He, nth_In; lia). assert (L2 : length (nth e mon []) = rows) by (apply Hm, nth_In; lia).
    apply cells_all; auto.
    + rewrite map_length. exact L1.
    + intros k Hk. apply (Hent e k Hlt Hk).
    + intros k Hk. apply (Hent e k Hlt Hk).
    + intros k Hk. clear. revert k. induction (nth e em []) as [|y l IH]; intros [|k]; try reflexivity. apply IH.
Qed.
End Injection.
