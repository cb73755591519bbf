(** * Specification: calls with any windows and time windows in which more charge leaves more charge. *)
From Coq Require Import ZArith List Bool Reals Sorted.
From Verif Require Import Num Py CCDModel TrapsModel ManagerModel ROEModel ClockModel MainModel Spec SpecROE SpecImage SpecReadout SpecBound SpecRecovery SpecWork SpecInjectionOrder.
Import ListNotations.
Open Scope R_scope.

(** No time window, or a range of times that are not negative. *)
Inductive time_range : option (list Z) -> Prop :=
| all_times : time_range None
| some_times t0 t1 : (0 <= t0 < t1)%Z -> time_range (Some (py_range t0 t1)).

(** One direction clocked within a window: any increasing list of rows inside the image.  Only
    the rows up to the last one of the window, the one with number [b - 1], count for the
    number of transfers. *)
Definition gentle_in_window (d : direction R) (n : nat) : Prop :=
  exists b, StronglySorted Z.lt (selected (d_window d) n) /\ window_ok (selected (d_window d) n) b /\ (b <= n)%nat /\
  (d_traps d = None \/ exists c traps dwell dt group, plain_setting d b c traps dwell dt /\ groups_in traps = [group] /\
     forall k x, (k < ccd_n_phases c)%nat ->
       per_pass dt (b + d_offset d) (passes_for (b + d_offset d) (d_express d)) x ->
       exists full beta, phase_params c k 0 beta full /\
       1 <= beta /\ x * SpecRecovery.traps_per_pixel (map (thinned (share c k)) group) * beta < full).
(** Charge injection does not work with windows (C50). *)
Definition gentle_call (d : direction R) (n : nat) : Prop := gentle_in_window d n \/ gentle_injection d n.

(** What the traps can do to a pixel is no more than without windows, and nothing when neither its
    row nor the row before is in the window. *)
Inductive call_limit (d : direction R) (n i : nat) : R -> Prop :=
| limit_out : ~ In (Z.of_nat i) (selected (d_window d) n) -> ~ In (Z.of_nat i - 1)%Z (selected (d_window d) n) -> call_limit d n i 0
| limit_in b x : window_ok (selected (d_window d) n) b -> change_limit d b i x -> call_limit d n i x
| limit_injection x : injection_limit d n i x -> call_limit d n i x.
Definition enough_for_call (parallel serial : direction R) (rows cols : nat) (im : image R) : Prop :=
  forall i j, (i < rows)%nat -> (j < cols)%nat -> exists p s,
    call_limit parallel rows i p /\ call_limit serial cols j s /\ 2 * (p + s) < pixel im i j.
