(** * Property C91: negative numbers of pumps and of pixel transfers (arcticpy/roe.py). *)
From Coq Require Import ZArith List Bool Reals Lia Lra.
From Verif Require Import Num Py RFacts CCDModel TrapsModel ManagerModel ROEModel ClockModel MainModel SignedModel SpecSigned SpecImage CountModel SpecCount SignedFacts CountFacts MainFacts
  Spec SpecReadout ReadoutExamples.
Import ListNotations.

(** C91: with numbers that are not negative the calls are those of C84 (and with it of C34-C83). *)
Theorem C91_without_negative_numbers {F} {num : Num F} im (parallel serial : signed_direction F) cp cs time_window :
  counts (the_roe (s_rest parallel)) cp -> counts (the_roe (s_rest serial)) cs ->
  add_cti_counted im parallel serial cp cs time_window = image_of (add_cti_signed im parallel serial time_window).
Proof. exact (add_counts im parallel serial cp cs time_window). Qed.
Print Assumptions C91_without_negative_numbers.

(** A negative number of pixel transfers is a ValueError, and one of pumps an IndexError (unless the
    window is empty), whatever the image, traps, express, offset and other arguments. *)
Theorem C91_negative_transfers_are_refused {F} {num : Num F} im (parallel serial : signed_direction F) cp cs npt traps :
  d_traps (s_rest parallel) = Some traps -> roe_kind_of (the_roe (s_rest parallel)) = Injection npt -> (cp < 0)%Z ->
  add_cti_counted im parallel serial cp cs None = Err ValueError.
Proof. intros Ht Hk Hc. unfold add_cti_counted, time_window_signed. cbn [bind]. now rewrite Ht, (injection_refuses cp im parallel _ npt). Qed.
Print Assumptions C91_negative_transfers_are_refused.
Theorem C91_negative_pumps_are_refused {F} {num : Num F} im (parallel serial : signed_direction F) cp cs n ef traps i rows :
  d_traps (s_rest parallel) = Some traps -> roe_kind_of (the_roe (s_rest parallel)) = Pumping n ef -> (cp < 0)%Z ->
  selected (d_window (s_rest parallel)) (length im) = i :: rows ->
  add_cti_counted im parallel serial cp cs None = Err IndexError.
Proof.
  intros Ht Hk Hc Hw. unfold add_cti_counted, time_window_signed. cbn [bind]. rewrite Ht.
  replace (resolve_window (d_window (s_rest parallel)) (length im)) with (i :: rows) by (now rewrite MainFacts.resolve_selected).
  now rewrite (pumping_refuses cp im parallel _ n ef).
Qed.
Print Assumptions C91_negative_pumps_are_refused.

Open Scope R_scope.
Definition injection_call : direction R := mkDir (Some small_ccd) (Some (roe_injection_init [1] (Some 3%nat) true true DFloat)) (Some (TOne (small_trap 1))) 0 0 WNone.
Definition pumping_call : direction R := mkDir (Some small_ccd) (Some (make_roe (Pumping 7 true) [1; 1] DFloat true false 1)) (Some (TOne (small_trap 1))) 0 0 (WInt 1).
Example C91_example :
  counts (the_roe injection_call) 3 /\ counts (the_roe pumping_call) 7 /\
  add_cti_counted small_image (signed injection_call) (signed no_direction) (-3) 0 None = Err ValueError /\
  add_cti_counted small_image (signed pumping_call) (signed no_direction) (-7) 0 None = Err IndexError.
Proof.
  split; [reflexivity|]. split; [reflexivity|]. split.
  - eapply C91_negative_transfers_are_refused; reflexivity.
  - eapply C91_negative_pumps_are_refused; reflexivity.
Qed.
