(** * Model of /repo/arcticpy/util.py (set_min_max) and /repo/arcticpy/ccd.py. *)
From Coq Require Import ZArith List Bool.
From Verif Require Import Num Py.
Import ListNotations.
Open Scope num_scope.

Section CCD.
Context {F : Type} {num : Num F}.

(** util.py:4-11, [set_min_max(value, min, max)]. *)
Definition set_min_max (value min max : F) : F :=
  if value <? min then min else if max <? value then max else value.

(** A constructor/setter argument that is "float or [float]" (ccd.py:45, 54, ...). *)
Inductive param :=
| Scalar (x : F)
| PList (l : list F).

(** The elements of [_well_bloom_level]: numbers, or - for the default value -
    whole lists (ccd.py:162-164 stores [[full_well_depth] * n_phases] where
    full_well_depth is itself a list). *)
Inductive bloom_elt :=
| BNum (x : F)
| BList (l : list F).

(** A CCD object (ccd.py:80-84): the private attributes behind the properties.
    [n_phases] is stored separately, as in ccd.py:98. *)
Record ccd := mkCCD {
  ccd_fractions : list F;        (* _fraction_of_traps_per_phase *)
  ccd_n_phases : nat;            (* _n_phases *)
  ccd_full_well : list F;        (* _full_well_depth *)
  ccd_fill_power : list F;       (* _well_fill_power *)
  ccd_notch : list F;            (* _well_notch_depth *)
  ccd_bloom : list bloom_elt     (* _well_bloom_level *)
}.

(** The common shape of the setters at ccd.py:108-117, 123-132, 138-147: a list must
    have length n_phases (else ValueError), a scalar is replicated. *)
Definition broadcast (n : nat) (v : param) : result (list F) :=
  match v with
  | PList l => if Nat.eqb (length l) n then Ok l else Err ValueError
  | Scalar x => Ok (repeat x n)
  end.

(** ccd.py:90-98, the setter of fraction_of_traps_per_phase: replaces the list and
    n_phases, and touches nothing else. *)
Definition set_fractions (c : ccd) (v : param) : ccd :=
  let l := match v with PList l => l | Scalar x => [x] end in
  mkCCD l (length l) (ccd_full_well c) (ccd_fill_power c) (ccd_notch c) (ccd_bloom c).

(** ccd.py:108-117. *)
Definition set_full_well (c : ccd) (v : param) : result ccd :=
  do l <- broadcast (ccd_n_phases c) v;
  Ok (mkCCD (ccd_fractions c) (ccd_n_phases c) l (ccd_fill_power c) (ccd_notch c) (ccd_bloom c)).

(** ccd.py:123-132. *)
Definition set_fill_power (c : ccd) (v : param) : result ccd :=
  do l <- broadcast (ccd_n_phases c) v;
  Ok (mkCCD (ccd_fractions c) (ccd_n_phases c) (ccd_full_well c) l (ccd_notch c) (ccd_bloom c)).

(** ccd.py:138-147. *)
Definition set_notch (c : ccd) (v : param) : result ccd :=
  do l <- broadcast (ccd_n_phases c) v;
  Ok (mkCCD (ccd_fractions c) (ccd_n_phases c) (ccd_full_well c) (ccd_fill_power c) l (ccd_bloom c)).

(** ccd.py:153-164: with None the value becomes the LIST full_well_depth, which is
    then replicated as if it were a scalar. *)
Definition set_bloom (c : ccd) (v : option param) : result ccd :=
  do l <-
    match v with
    | Some (PList l) =>
        if Nat.eqb (length l) (ccd_n_phases c) then Ok (map BNum l) else Err ValueError
    | Some (Scalar x) => Ok (repeat (BNum x) (ccd_n_phases c))
    | None => Ok (repeat (BList (ccd_full_well c)) (ccd_n_phases c))
    end;
  Ok (mkCCD (ccd_fractions c) (ccd_n_phases c) (ccd_full_well c) (ccd_fill_power c) (ccd_notch c) l).

(** ccd.py:9-16 and 79-84, CCD.__init__: the setters run in this order. *)
Definition ccd_init (fractions full_well notch fill_power : param)
    (bloom : option param) : result ccd :=
  let c0 := set_fractions (mkCCD [] 0 [] [] [] []) fractions in
  do c1 <- set_full_well c0 full_well;
  do c2 <- set_fill_power c1 fill_power;
  do c3 <- set_notch c2 notch;
  set_bloom c3 bloom.

(** ccd.py:230-263, the body of the function returned by [well_filling_function].
    - a surface trap reads [self.blooming_level], an attribute no CCD has
      (ccd.py:252): AttributeError;
    - the per-phase lists are indexed with [phase] (IndexError when too short);
    - [(n - empty) / well_range] with well_range = 0 raises ZeroDivisionError,
      and so does 0 to a negative power.
    [phase] is a nat: negative phases (Python wrap-around) are not modelled. *)
Definition well_fill (c : ccd) (phase : nat) (surface : bool) (n : F) : result F :=
  if n =? n0 then Ok n0
  else if surface then Err AttributeError
  else
    do empty <- of_option IndexError (nth_error (ccd_notch c) phase);
    do beta <- of_option IndexError (nth_error (ccd_fill_power c) phase);
    do full <- of_option IndexError (nth_error (ccd_full_well c) phase);
    let well_range := full - empty in
    if well_range =? n0 then Err ZeroDivisionError
    else
      let v := set_min_max ((n - empty) / well_range) n0 n1 in
      if ((v =? n0) && (beta <? n0))%bool then Err ZeroDivisionError else Ok (npow v beta).

(** ccd.py:192-265, [well_filling_function(phase)]: the closure itself. *)
Definition well_filling_function (c : ccd) (phase : nat) : F -> bool -> result F :=
  fun n surface => well_fill c phase surface n.

(** ccd.py:166-190, [cloud_fractional_volume_from_n_electrons_and_phase]. *)
Definition cloud_fractional_volume (c : ccd) (n : F) (phase : nat) (surface : bool)
    : result F :=
  well_filling_function c phase n surface.

(** ccd.py:268-277, CCDPhase: one phase extracted from a CCD. *)
Record ccd_phase := mkCCDPhase {
  cp_fraction : F;
  cp_full_well : F;
  cp_fill_power : F;
  cp_notch : F;
  cp_bloom : bloom_elt;
  cp_fill : F -> bool -> result F
}.
Definition ccd_phase_init (c : ccd) (phase : nat) : result ccd_phase :=
  do fr <- of_option IndexError (nth_error (ccd_fractions c) phase);
  do fw <- of_option IndexError (nth_error (ccd_full_well c) phase);
  do fp <- of_option IndexError (nth_error (ccd_fill_power c) phase);
  do no <- of_option IndexError (nth_error (ccd_notch c) phase);
  do bl <- of_option IndexError (nth_error (ccd_bloom c) phase);
  Ok (mkCCDPhase fr fw fp no bl (well_filling_function c phase)).

End CCD.
Arguments param : clear implicits.
Arguments bloom_elt : clear implicits.
Arguments ccd : clear implicits.
Arguments ccd_phase : clear implicits.
