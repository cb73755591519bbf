(** * Specification vocabulary: the exact values of doubles, and what is assumed of the C library. *)
From Coq Require Import ZArith QArith List Bool SpecFloat.
From Verif Require Import Num CCDModel TrapsModel ROEModel MainModel DoubleNum SpecImage SpecMemory.
Import ListNotations.
Open Scope Q_scope.

(** The number that a finite double stands for. *)
Definition power_of_2 (e : Z) : Q :=
  match e with Z0 => 1 | Zpos p => inject_Z (Z.pow_pos 2 p) | Zneg p => 1 # (2 ^ p) end.
Definition exact (x : double) : option Q :=
  match x with
  | S754_zero _ => Some 0
  | S754_finite s m e => Some (inject_Z (if s then Zneg m else Zpos m) * power_of_2 e)
  | _ => None
  end.
(** The exact sum of the pixels of an image (none if a pixel is not a number). *)
Definition exact_total (im : list (list double)) : option Q :=
  fold_right (fun x t => match exact x, t with Some a, Some b => Some (Qred (a + b)) | _, _ => None end) (Some 0) (concat im).
(** The number in one pixel. *)
Definition exact_at (im : list (list double)) (i j : nat) : option Q := exact (nth j (nth i im []) S754_nan).

(** A C library whose [exp] underflows to 0 below -750 (the smallest double is about
    exp(-745)), and in which the first power of a number is the number. *)
Record usual_library (exp_c : double -> double) (pow_c : double -> double -> double) : Prop := {
  ul_exp : forall x, SFltb x (double_of_Z (-750)) = true -> exp_c x = dzero;
  ul_pow : forall x, pow_c x (double_of_Z 1) = x
}.

(** [0 ** y] and [nan ** y] are not above 0, for a power above 0. *)
Definition nothing_to_a_power (pow_c : double -> double -> double) : Prop :=
  forall x y, SFltb dzero y = true -> x = S754_nan \/ (exists s, x = S754_zero s) -> SFltb dzero (pow_c x y) = false.
(** Wells with a notch from 0 on, a depth above 0 and a power above 0, all in double arithmetic. *)
Definition double_wells_ok (c : ccd double) : Prop :=
  forall phase notch beta full,
    nth_error (ccd_notch c) phase = Some notch -> nth_error (ccd_fill_power c) phase = Some beta -> nth_error (ccd_full_well c) phase = Some full ->
    SFleb dzero notch = true /\ SFltb dzero (SFsub 53 1024 full notch) = true /\ SFltb dzero beta = true.
(** [kept_inside] (SpecMemory.v) with such wells. *)
Record double_inside {num : Num double} (d : direction double) (n : nat) : Prop := {
  di_roe : exists phases, fresh (the_roe d) phases /\ forall c, d_ccd d = Some c -> (length (ccd_fractions c) <= phases)%nat;
  di_window : forall i, In i (selected (d_window d) n) -> ((if roe_force (the_roe d) then 0 else 1) <= i < Z.of_nat n)%Z;
  di_well : forall c, d_ccd d = Some c -> double_wells_ok c;
  di_traps : forall traps t l, d_traps d = Some traps -> group_in (t :: l) traps -> t_class t <> CTrap
}.
