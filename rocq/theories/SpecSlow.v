(** * Specification of capture that takes time. *)
From Coq Require Import List Reals.
From Verif Require Import Num CCDModel TrapsModel ManagerModel Spec.
Import ListNotations.
Open Scope R_scope.

(** The occupancies after a time [dwell] inside the cloud, of a trap that was empty or full:
    the solutions of the rate equation (C08), or 1 for instant capture. *)
Definition if_empty (t : trap R) (dwell : R) : R :=
  match t_capture_rate t with
  | RInf => 1
  | RFin c => let e := t_emission_rate t in c / (c + e) * (1 - exp (- (c + e) * dwell))
  end.
Definition if_full (t : trap R) (dwell : R) : R :=
  match t_capture_rate t with
  | RInf => 1
  | RFin c => let e := t_emission_rate t in 1 - e / (c + e) * (1 - exp (- (c + e) * dwell))
  end.
Definition capturing (t : trap R) : Prop :=
  physical t /\ match t_capture_rate t with RInf => True | RFin c => 0 < c end.

(** Traps above the depth [v] only release; traps below it exchange charge with the cloud. *)
Definition release_above (traps : list (trap R)) (dwell v : R) (P : profile) : profile :=
  fun s x => if Rlt_dec x v then P s x else P s x * exp (- dwell / timescale traps s).
Definition exchange_below (traps : list (trap R)) (dwell v : R) (P : profile) : profile :=
  fun s x =>
    match nth_error traps s with
    | Some t => if Rlt_dec x v then P s x * if_full t dwell + (1 - P s x) * if_empty t dwell else P s x
    | None => P s x
    end.

(** One call: release above the first cloud, recompute the cloud, exchange below it. *)
Definition cloud_then (traps : list (trap R)) (well : R -> R) (dwell n : R) (P : profile) : R :=
  n + (electrons traps P 0 1 - electrons traps (release_above traps dwell (well n) P) 0 1).
Definition exchanged (traps : list (trap R)) (well : R -> R) (dwell n : R) (P : profile) : profile :=
  exchange_below traps dwell (well (cloud_then traps well dwell n P))
    (release_above traps dwell (well n) P).
(** The increase of the trapped charge that would follow. *)
Definition gain (traps : list (trap R)) (well : R -> R) (dwell n : R) (P : profile) : R :=
  electrons traps (exchanged traps well dwell n P) 0 1 - electrons traps P 0 1.

(** The cloud recomputed after the release reaches no further than the highest level, at depth
    [top], unless the first cloud was already above it. *)
Definition stays_inside (traps : list (trap R)) (well : R -> R) (dwell n top : R) (P : profile) : Prop :=
  top < well n \/ well (cloud_then traps well dwell n P) <= top.

(** Histories in which that holds at every call, and every call finds enough electrons. *)
Fixpoint orderly (traps : list (trap R)) (well : R -> R) (ops : list (R * R)) (top : R) (P : profile) : Prop :=
  match ops with
  | [] => True
  | (n, dwell) :: ops' =>
      stays_inside traps well dwell n top P /\
      gain traps well dwell n P <= cloud_then traps well dwell n P /\
      orderly traps well ops' (Rmax top (well n)) (exchanged traps well dwell n P)
  end.
Fixpoint slow_nets (traps : list (trap R)) (well : R -> R) (ops : list (R * R)) (P : profile) : list R :=
  match ops with
  | [] => []
  | (n, dwell) :: ops' =>
      - gain traps well dwell n P :: slow_nets traps well ops' (exchanged traps well dwell n P)
  end.
Fixpoint slow_profile (traps : list (trap R)) (well : R -> R) (ops : list (R * R)) (P : profile) : profile :=
  match ops with
  | [] => P
  | (n, dwell) :: ops' => slow_profile traps well ops' (exchanged traps well dwell n P)
  end.

(** Capture with a finite, positive rate. *)
Definition finite_capture (t : trap R) : Prop :=
  physical t /\ exists c, t_capture_rate t = RFin c /\ 0 < c.

(** What the code makes of a call that finds fewer electrons, in the recomputed cloud, than the
    gain: a mixture of the states before and after, with that gain (for finite capture). *)
Definition short_of (traps : list (trap R)) (well : R -> R) (dwell n : R) (P : profile) : profile :=
  let part := cloud_then traps well dwell n P / gain traps well dwell n P in
  fun s x => part * exchanged traps well dwell n P s x + (1 - part) * P s x.
(** The traps after any call, and the electrons they take. *)
Definition slow_after (traps : list (trap R)) (well : R -> R) (dwell n : R) (P : profile) : profile :=
  if Rle_dec (gain traps well dwell n P) (cloud_then traps well dwell n P)
  then exchanged traps well dwell n P else short_of traps well dwell n P.
Definition slow_taken (traps : list (trap R)) (well : R -> R) (dwell n : R) (P : profile) : R :=
  Rmin (gain traps well dwell n P) (cloud_then traps well dwell n P).
(** Histories in which the recomputed cloud stays inside at every call. *)
Fixpoint within (traps : list (trap R)) (well : R -> R) (ops : list (R * R)) (top : R) (P : profile) : Prop :=
  match ops with
  | [] => True
  | (n, dwell) :: ops' =>
      stays_inside traps well dwell n top P /\
      within traps well ops' (Rmax top (well n)) (slow_after traps well dwell n P)
  end.
Fixpoint all_taken (traps : list (trap R)) (well : R -> R) (ops : list (R * R)) (P : profile) : list R :=
  match ops with
  | [] => []
  | (n, dwell) :: ops' =>
      slow_taken traps well dwell n P :: all_taken traps well ops' (slow_after traps well dwell n P)
  end.
Fixpoint all_after (traps : list (trap R)) (well : R -> R) (ops : list (R * R)) (P : profile) : profile :=
  match ops with
  | [] => P
  | (n, dwell) :: ops' => all_after traps well ops' (slow_after traps well dwell n P)
  end.
