(** * Specification of trap states recorded as elapsed times. *)
From Coq Require Import List Reals.
From Verif Require Import Num CCDModel TrapsModel ManagerModel Spec.
Import ListNotations.
Open Scope R_scope.

(** The time since the traps of species [s] at depth [x] were filled, if they ever were. *)
Definition times := nat -> R -> option R.
Definition never : times := fun _ _ => None.

(** The times recorded by a watermark array (level 0 at the bottom, as for [occupancy]). *)
Fixpoint elapsed (w : wmarks R) (s : nat) (x : R) : option R :=
  match w with
  | [] => None
  | (v, ts) :: w' => if Rlt_dec x v then Some (nth s ts 0) else elapsed w' s (x - v)
  end.

(** The occupancy of the traps after those times, by the filling curve of each species. *)
Definition filled_by (traps : list (trap R)) (T : times) : profile :=
  fun s x =>
    match T s x, nth_error traps s with
    | Some time, Some t => fill_fraction_from_time_elapsed t time
    | _, _ => 0
    end.

(** Release: time passes.  Instant capture: every trap below depth [v] is filled now. *)
Definition wait (dwell : R) (T : times) : times := fun s x => option_map (fun t => t + dwell) (T s x).
Definition fill_now (v : R) (T : times) : times := fun s x => if Rlt_dec x v then Some 0 else T s x.

(** Electrons held, and one transfer of a cloud of [n] electrons. *)
Definition held (traps : list (trap R)) (T : times) : R := electrons traps (filled_by traps T) 0 1.
Definition cloud_after (traps : list (trap R)) (dwell n : R) (T : times) : R :=
  n + (held traps T - held traps (wait dwell T)).
Definition times_after (traps : list (trap R)) (well : R -> R) (dwell n : R) (T : times) : times :=
  fill_now (well (cloud_after traps dwell n T)) (wait dwell T).
Definition wanted (traps : list (trap R)) (well : R -> R) (dwell n : R) (T : times) : R :=
  held traps (times_after traps well dwell n T) - held traps (wait dwell T).

(** A species whose filling curve starts non-negative and never rises. *)
Record fading (t : trap R) : Prop := {
  fd_density : 0 <= t_density t;
  fd_start : 0 <= fill_fraction_from_time_elapsed t 0;
  fd_falls : forall a b, 0 <= a <= b ->
    fill_fraction_from_time_elapsed t b <= fill_fraction_from_time_elapsed t a
}.

Definition same_times (n : nat) (S T : times) : Prop :=
  forall s x, (s < n)%nat -> 0 <= x < 1 -> S s x = T s x.

(** A watermark array for [n] species that records the times [T]: levels of positive volume, at
    most the whole pixel together, with non-negative times, then more than [spare] free
    levels that are entirely zero. *)
Definition records (n : nat) (w : wmarks R) (spare : nat) (T : times) : Prop :=
  exists l free, w = l ++ repeat (0, repeat 0 n) free /\ (spare < free)%nat /\
    Forall (fun r => 0 < fst r /\ length (snd r) = n /\ Forall (fun t => 0 <= t) (snd r)) l /\
    volume w <= 1 /\ same_times n (elapsed w) T.

(** Every transfer of a history finds enough electrons to fill the empty traps it reaches. *)
Definition enough (traps : list (trap R)) (well : R -> R) (dwell n : R) (P : profile) : Prop :=
  demand traps (well (n + released traps dwell P)) (after_release traps dwell P)
  <= n + released traps dwell P.
Fixpoint plentiful (traps : list (trap R)) (well : R -> R) (ops : list (R * R)) (P : profile) : Prop :=
  match ops with
  | [] => True
  | (n, dwell) :: ops' =>
      enough traps well dwell n P /\ plentiful traps well ops' (transfer_after traps well dwell n P)
  end.
