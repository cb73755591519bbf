(** * Specification: approximate readouts, mixtures of trap species, readouts in parts. *)
From Coq Require Import ZArith List Bool Reals.
From Verif Require Import Num Py TrapsModel ClockModel MainModel Spec SpecReadout.
Import ListNotations.
Open Scope R_scope.

(** The passes of a readout in which the pixel in row [w] of pass [e] is transferred
    [nth w (nth e m)] times at once; pixels that are not transferred are left out. *)
Definition weighted_pass (mults : list R) : list (Z * R * bool) :=
  flat_map (fun '(w, x) => if Rlt_dec 0 x then [(Z.of_nat w, x, false)] else [])
    (combine (seq 0 (length mults)) mults).
Definition weighted_passes (m : list (list R)) : list (list (Z * R * bool)) := map weighted_pass m.

(** The transfers of each row spread evenly over the passes: every pass stands for the same
    number of transfers, until the pixel has left. *)
Definition even_multipliers (rows offset passes : nat) : list (list R) :=
  let most := INR (rows + offset) / INR passes in
  map (fun e => map (fun w => Rmin most (Rmax 0 (INR (w + 1 + offset) - INR e * most))) (seq 0 rows)) (seq 0 passes).

(** The density of all the traps of a list that have the given release timescale. *)
Definition density_at (tau : R) (traps : list (trap R)) : R :=
  Rsum (map (fun t => if Req_EM_T (t_release_timescale t) tau then t_density t else 0) traps).
(** Two lists of species describe the same traps. *)
Definition same_mixture (g h : list (trap R)) : Prop := forall tau, density_at tau g = density_at tau h.

(** The same settings, except that the trap species of each group are listed differently. *)
Record relisted (d d' : direction R) : Prop := {
  rl_ccd : d_ccd d' = d_ccd d;
  rl_roe : d_roe d' = d_roe d;
  rl_express : d_express d' = d_express d;
  rl_offset : d_offset d' = d_offset d;
  rl_window : d_window d' = d_window d;
  rl_traps : match d_traps d, d_traps d' with
             | None, None => True
             | Some a, Some b => instant_traps b /\ Forall2 same_mixture (groups_in a) (groups_in b)
             | _, _ => False
             end
}.

(** A readout in several calls, one for each of the given time windows; the output of a call
    is the input of the next. *)
Fixpoint in_parts (add : image R -> Z * Z -> result (image R)) (im : image R) (windows : list (Z * Z)) : result (image R) :=
  match windows with
  | [] => Ok im
  | w :: l => match add im w with Ok im' => in_parts add im' l | Err e => Err e end
  end.
