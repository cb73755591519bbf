(** * Specification vocabulary.

    The physical meaning of a watermark array, independent of how the package stores
    and updates it.  Nothing here uses a function of the model, only its data types. *)
From Coq Require Import ZArith List Bool Reals.
From Coquelicot Require Import Rcomplements Rbar Hierarchy RInt.
From Verif Require Import Num CCDModel TrapsModel ManagerModel.
Import ListNotations.
Open Scope R_scope.

(** ** Parameters of a CCD phase, and the constructor arguments. *)

Record phase_params (c : ccd R) (phase : nat) (notch beta full : R) : Prop := {
  pp_notch : nth_error (ccd_notch c) phase = Some notch;
  pp_beta : nth_error (ccd_fill_power c) phase = Some beta;
  pp_full : nth_error (ccd_full_well c) phase = Some full
}.

(** An argument of the CCD constructor is a number, or a list with one number per phase. *)
Section Arguments.
Context {F : Type}.
Definition fits (n : nat) (v : param F) : Prop :=
  match v with Scalar _ => True | PList l => length l = n end.
Definition value_at (v : param F) (phase : nat) : option F :=
  match v with Scalar x => Some x | PList l => nth_error l phase end.
Definition n_phases_of (v : param F) : nat :=
  match v with Scalar _ => 1 | PList l => length l end.
End Arguments.

(** A trap with a single release timescale. *)
Definition exponential (t : trap R) : Prop :=
  match t_class t with CContinuum _ _ _ => False | _ => True end.

(** ** Trap states *)

Definition Rsum (l : list R) : R := fold_right Rplus 0 l.

(** A profile: the fraction of the traps of species [s] at fractional depth [x] of the
    pixel that hold an electron. *)
Definition profile := nat -> R -> R.

(** The profile described by a watermark array: level 0 occupies the depths
    [0, volume), the next level the depths above it, and so on; above the last level the
    traps are empty. *)
Fixpoint occupancy (w : wmarks R) (s : nat) (x : R) : R :=
  match w with
  | [] => 0
  | (v, fs) :: w' => if Rlt_dec x v then nth s fs 0 else occupancy w' s (x - v)
  end.

(** The fraction of the pixel covered by the levels. *)
Definition volume (w : wmarks R) : R := Rsum (map fst w).

(** Electrons held by the traps between depths [a] and [b]. *)
Fixpoint electrons_from (s : nat) (traps : list (trap R)) (P : profile) (a b : R) : R :=
  match traps with
  | [] => 0
  | t :: ts => t_density t * RInt (P s) a b + electrons_from (S s) ts P a b
  end.
Definition electrons (traps : list (trap R)) (P : profile) (a b : R) : R :=
  electrons_from 0 traps P a b.

(** A watermark array for [n] species is well formed: [live] levels of positive volume
    adding up to at most the whole pixel, with occupancies between 0 and 1, followed by
    free levels that are entirely zero. *)
Definition live_level (n : nat) (r : wrow R) : Prop :=
  0 < fst r /\ length (snd r) = n /\ Forall (fun f => 0 <= f <= 1) (snd r).
Record well_formed (n : nat) (w : wmarks R) (live free : nat) : Prop := {
  wf_live : exists l, w = l ++ repeat (0, repeat 0 n) free /\ length l = live /\
                      Forall (live_level n) l;
  wf_volume : volume w <= 1
}.

(** ** Release and instant capture, as a mathematical model (Massey et al. 2014). *)

(** A physically meaningful trap species, as the constructors build it. *)
Record physical (t : trap R) : Prop := {
  ph_density : 0 <= t_density t;
  ph_timescale : 0 < t_release_timescale t;
  ph_emission : t_emission_rate t = 1 / t_release_timescale t
}.
Definition timescale (traps : list (trap R)) (s : nat) : R :=
  nth s (map (@t_release_timescale R) traps) 1.

(** Exponential release during a dwell time, at every depth. *)
Definition after_release (traps : list (trap R)) (dwell : R) (P : profile) : profile :=
  fun s x => P s x * exp (- dwell / timescale traps s).
Definition released (traps : list (trap R)) (dwell : R) (P : profile) : R :=
  electrons traps P 0 1 - electrons traps (after_release traps dwell P) 0 1.

(** The empty traps below depth [v]. *)
Definition demand (traps : list (trap R)) (v : R) (P : profile) : R :=
  electrons traps (fun s x => 1 - P s x) 0 v.
(** Instant capture from a cloud of [n] electrons that reaches depth [v]: every trap below
    [v] is filled if there are enough electrons; otherwise all the electrons are captured,
    the same fraction of the empty traps of every species below [v] being filled,
    spread evenly below [v]. *)
Definition captured (traps : list (trap R)) (n v : R) (P : profile) : R :=
  Rmin n (demand traps v P).
Definition after_capture (traps : list (trap R)) (n v : R) (P : profile) : profile :=
  fun s x =>
    if Rlt_dec x v then
      if Rle_dec (demand traps v P) n then 1
      else let enough := n / demand traps v P in
           enough + (1 - enough) * (RInt (P s) 0 v / v)
    else P s x.

(** One transfer: release, then capture from the enlarged cloud. [well n] is the
    depth reached by [n] electrons. *)
Definition transfer_net (traps : list (trap R)) (well : R -> R) (dwell n : R) (P : profile) : R :=
  let r := released traps dwell P in
  let P1 := after_release traps dwell P in
  r - captured traps (n + r) (well (n + r)) P1.
Definition transfer_after (traps : list (trap R)) (well : R -> R) (dwell n : R) (P : profile) : profile :=
  let r := released traps dwell P in
  let P1 := after_release traps dwell P in
  after_capture traps (n + r) (well (n + r)) P1.

(** A depth function that reacts to any charge. *)
Definition sensitive (well : R -> R) : Prop :=
  well 0 = 0 /\ forall n, 0 < n -> 0 < well n <= 1.

(** Two profiles that agree for the given number of species inside the pixel. *)
Definition same_profile (n : nat) (P Q : profile) : Prop :=
  forall s x, (s < n)%nat -> 0 <= x < 1 -> P s x = Q s x.
Definition empty_profile : profile := fun _ _ => 0.

(** A watermark array describes a profile, and has more than [spare] free levels. *)
Definition describes (n : nat) (w : wmarks R) (spare : nat) (P : profile) : Prop :=
  exists live free, well_formed n w live free /\ (spare < free)%nat /\
    same_profile n (occupancy w) P.

(** A history of transfers: the numbers of free electrons and the dwell times. *)
Fixpoint history_nets (traps : list (trap R)) (well : R -> R) (ops : list (R * R)) (P : profile)
    : list R :=
  match ops with
  | [] => []
  | (n, dwell) :: ops' =>
      transfer_net traps well dwell n P
      :: history_nets traps well ops' (transfer_after traps well dwell n P)
  end.
Fixpoint history_profile (traps : list (trap R)) (well : R -> R) (ops : list (R * R)) (P : profile)
    : profile :=
  match ops with
  | [] => P
  | (n, dwell) :: ops' =>
      history_profile traps well ops' (transfer_after traps well dwell n P)
  end.
