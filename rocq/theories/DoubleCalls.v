(** * Calls for the properties in double arithmetic. *)
From Coq Require Import ZArith QArith List Bool SpecFloat.
From Verif Require Import Num Py CCDModel TrapsModel ManagerModel ROEModel ClockModel MainModel DoubleNum.
Import ListNotations.

(** ** The readout of a column *)
(** A column of five pixels, a well of 100 electrons, 4 slow traps per pixel that capture and
    release a thousand times faster than the clock; default settings otherwise. *)
Definition numbers {F} {num : Num F} (l : list Z) : list (list F) := map (fun z => [nofZ z]) l.
Definition default_roe {F} {num : Num F} : roe F := roe_init [n1] true true true DFloat.
Definition slow_call {F} {num : Num F} (im : list (list F)) : result (image F * roe F * roe F) :=
  do c <- ccd_init (PList [n1]) (Scalar (nofZ 100)) (Scalar n0) (Scalar n1) None;
  do t <- trap_init (nofZ 4) (nq 1 1000) (nq 1 1000) false;
  add_cti im (mkDir (Some c) (Some default_roe) (Some (TFlat [t])) 0 0 WNone) no_direction None.
Definition five : list Z := [98; 21; 0; 3; 5]%Z.
(** Wells of 1 electron and 10 traps per pixel that capture instantly. *)
Definition instant_call {F} {num : Num F} (im : list (list F)) : result (image F * roe F * roe F) :=
  do c <- ccd_init (PList [n1]) (Scalar n1) (Scalar n0) (Scalar n1) None;
  do t <- trap_instant_init (nofZ 10) (nq 1 1000) false;
  add_cti im (mkDir (Some c) (Some default_roe) (Some (TFlat [t])) 0 0 WNone) no_direction None.

(** ** The same call without rounding *)
Section Exact.
Variable exp_q log_q : Q -> Q.
Variable pow_q : Q -> Q -> Q.
Definition exp_qguard (x : Q) : Q := if Qle_bool x (-750) then 0 else exp_q x.
Definition pow_qguard (x y : Q) : Q := if Qeq_bool y 1 then x else pow_q x y.
Definition ExactNum : Num Q := {|
  n0 := 0%Q; n1 := 1%Q;
  nadd := fun a b => Qred (a + b); nsub := fun a b => Qred (a - b); nmul := fun a b => Qred (a * b);
  ndiv := fun a b => Qred (a / b); nopp := fun a => Qred (- a);
  nltb := fun a b => negb (Qle_bool b a); nleb := Qle_bool; neqb := Qeq_bool;
  nofZ := inject_Z; nexp := exp_qguard; nln := log_q; npow := pow_qguard; nnan := None |}.
Definition rational_total (im : list (list Q)) : Q := fold_right Qplus 0 (concat im).
End Exact.

(** ** The traps themselves *)
(** What the manager of one pixel's traps is after clouds of these numbers of electrons. *)
Definition after_clouds {F} {num : Num F} (m : manager F) (fill : filling F) (dwell : F) (clouds : list F) : result (manager F) :=
  foldM (fun m n => do '(_, m') <- manager_step m n fill dwell; Ok m') clouds m.
Definition four_clouds {F} {num : Num F} : result (manager F) :=
  do c <- ccd_init (PList [n1]) (Scalar (nofZ 100)) (Scalar n0) (Scalar n1) None;
  do t <- trap_init (nofZ 4) (nq 1 1000) (nq 1 1000) false;
  after_clouds (manager_init KSlow [t] 4) (fun n => well_fill c 0 false n) n1 (map nofZ [98; 10; 12; 14]%Z).
