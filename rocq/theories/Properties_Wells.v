(** * Property C86: wells of every shape that the constructor accepts (arcticpy/ccd.py). *)
From Coq Require Import ZArith List Bool Reals Lra Lia.
From Verif Require Import Num Py RFacts CCDModel Spec CCDFacts CCDOddFacts.
Import ListNotations.
Open Scope R_scope.

(** ** C86: when a cloud with charge has a volume, and the only error otherwise. *)
Theorem C86_volume_exists_exactly (c : ccd R) phase notch beta full n :
  phase_params c phase notch beta full -> n <> 0 ->
  ((exists v, cloud_fractional_volume c n phase false = Ok v) <->
    full <> notch /\ (beta < 0 -> 0 < (n - notch) / (full - notch))) /\
  (forall e, cloud_fractional_volume c n phase false = Err e -> e = ZeroDivisionError).
Proof. exact (volume_answers c phase notch beta full n). Qed.
Print Assumptions C86_volume_exists_exactly.

(** Violated: with a negative power, clouds up to the notch have no volume and all others up to
    the full well have one above 1. *)
Theorem C86_negative_power_refuted (c : ccd R) phase notch beta full n :
  phase_params c phase notch beta full -> beta < 0 -> notch < full -> n <> 0 ->
  (n <= notch -> cloud_fractional_volume c n phase false = Err ZeroDivisionError) /\
  (notch < n < full -> exists v, cloud_fractional_volume c n phase false = Ok v /\ 1 < v) /\
  (full <= n -> cloud_fractional_volume c n phase false = Ok 1).
Proof. exact (negative_power c phase notch beta full n). Qed.
Print Assumptions C86_negative_power_refuted.

(** With power 0 every cloud that is not empty fills the pixel, below the notch too. *)
Theorem C86_power_zero (c : ccd R) phase notch full n :
  phase_params c phase notch 0 full -> notch <> full -> n <> 0 -> cloud_fractional_volume c n phase false = Ok 1.
Proof. exact (zero_power c phase notch full n). Qed.
Print Assumptions C86_power_zero.

(** Violated: a notch deeper than the full well turns the well over: smaller clouds are larger. *)
Theorem C86_deep_notch_refuted (c : ccd R) phase notch beta full n n' v v' :
  phase_params c phase notch beta full -> 0 < beta -> full < notch -> n <> 0 -> n' <> 0 ->
  cloud_fractional_volume c n phase false = Ok v -> cloud_fractional_volume c n' phase false = Ok v' ->
  (n <= full -> v = 1) /\ (notch <= n -> v = 0) /\ (n <= n' -> v' <= v).
Proof. exact (reversed_well c phase notch beta full n n' v v'). Qed.
Print Assumptions C86_deep_notch_refuted.

(** Three phases that the constructor accepts: a negative power, power 0, a deep notch. *)
Example C86_example : exists c, ccd_init (PList [1; 1; 1]) (PList [1000; 1000; 10]) (PList [10; 10; 1000]) (PList [-1; 0; 1]) None = Ok c /\
  phase_params c 0 10 (-1) 1000 /\ phase_params c 1 10 0 1000 /\ phase_params c 2 1000 1 10 /\
  cloud_fractional_volume c 5 0 false = Err ZeroDivisionError /\ (exists v, cloud_fractional_volume c 20 0 false = Ok v /\ 1 < v) /\
  cloud_fractional_volume c 5 1 false = Ok 1 /\ cloud_fractional_volume c 5 2 false = Ok 1 /\ cloud_fractional_volume c 2000 2 false = Ok 0.
Proof.
  eexists. split; [reflexivity|]. match goal with |- phase_params ?c _ _ _ _ /\ _ => set (d := c) end.
  assert (P0 : phase_params d 0 10 (-1) 1000) by (split; reflexivity).
  assert (P1 : phase_params d 1 10 0 1000) by (split; reflexivity).
  assert (P2 : phase_params d 2 1000 1 10) by (split; reflexivity).
  split; [exact P0|]. split; [exact P1|]. split; [exact P2|].
  split; [apply (negative_power d 0 10 (-1) 1000 5 P0); lra|]. split; [apply (negative_power d 0 10 (-1) 1000 20 P0); lra|].
  split; [apply (zero_power d 1 10 1000 5 P1); lra|].
  destruct (volume_bounds d 2 1000 1 10 5 P2) as (v & E & _); [lra|lra|]. destruct (volume_bounds d 2 1000 1 10 2000 P2) as (w & E' & _); [lra|lra|].
  destruct (reversed_well d 2 1000 1 10 5 2000 v w P2) as (A & _); try lra; [exact E|exact E'|].
  destruct (reversed_well d 2 1000 1 10 2000 5 w v P2) as (_ & B & _); try lra; [exact E'|exact E|].
  rewrite E, E', A, B by lra. split; reflexivity.
Qed.
