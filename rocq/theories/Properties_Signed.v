(** * Property C84: negative numbers for express, offset and windows (arcticpy/main.py,
    roe.py, main_utils.pyx).  "offset : int (>= 0)" (roe.py:493); express and windows are
    ints without a range. *)
From Coq Require Import ZArith List Bool Reals Lia Lra.
From Verif Require Import Num Py RFacts CCDModel TrapsModel ManagerModel ROEModel ClockModel MainModel SignedModel Spec SpecImage SpecReadout SpecSigned
  SignedFacts SignedPumpFacts ReadoutExamples PumpFacts PumpPairFacts SpecPumping Properties_Pumping.
Import ListNotations.
Open Scope R_scope.

(** ** C84: without negative numbers the two models agree, for every kind of number. *)
Theorem C84_without_negative_numbers {F} {num : Num F} im (parallel serial : direction F) time_window iterations :
  window_forward (d_window parallel) -> window_forward (d_window serial) ->
  add_cti_signed im (signed parallel) (signed serial) time_window = add_cti im parallel serial time_window /\
  remove_cti_signed im iterations (signed parallel) (signed serial) time_window = remove_cti im iterations parallel serial time_window.
Proof. intros Hp Hs. split; [now apply add_agrees|now apply remove_agrees]. Qed.
Print Assumptions C84_without_negative_numbers.

(** Refused: a negative express, except in trap pumping, in either direction with traps. *)
Theorem C84_negative_express_is_refused {F} {num : Num F} im (parallel serial : signed_direction F) time_window traps :
  (d_traps (s_rest parallel) = Some traps /\ (s_express parallel < 0)%Z /\ not_pumping (s_rest parallel) \/
   d_traps (s_rest serial) = Some traps /\ (s_express serial < 0)%Z /\ not_pumping (s_rest serial)) ->
  exists e, add_cti_signed im parallel serial time_window = Err e.
Proof.
  intros [(Ht & He & Hn)|(Ht & He & Hn)]; apply add_fails.
  - left. split; [now exists traps|]. intros. exists ValueError. now apply clock_negative.
  - right. split; [now exists traps|]. intros. exists ValueError. now apply clock_negative.
Qed.
Print Assumptions C84_negative_express_is_refused.
Theorem C84_negative_express_is_a_ValueError {F} {num : Num F} im (parallel serial : signed_direction F) traps :
  d_traps (s_rest parallel) = Some traps -> (s_express parallel < 0)%Z -> not_pumping (s_rest parallel) ->
  add_cti_signed im parallel serial None = Err ValueError.
Proof.
  intros Ht He Hn. unfold add_cti_signed, time_window_signed. cbn [bind]. rewrite Ht, clock_negative by assumption. reflexivity.
Qed.
Print Assumptions C84_negative_express_is_a_ValueError.

(** Refused: a negative offset, and windows before the image, in the standard readout. *)
Theorem C84_negative_offset_is_refused {F} {num : Num F} im (parallel serial : signed_direction F) time_window traps :
  (d_traps (s_rest parallel) = Some traps /\ (s_offset parallel < 0)%Z /\ standard_readout (s_rest parallel) \/
   d_traps (s_rest serial) = Some traps /\ (s_offset serial < 0)%Z /\ standard_readout (s_rest serial)) ->
  exists e, add_cti_signed im parallel serial time_window = Err e.
Proof.
  intros [(Ht & He & Hn)|(Ht & He & Hn)]; apply add_fails.
  - left. split; [now exists traps|]. intros. now apply clock_negative_offset.
  - right. split; [now exists traps|]. intros. now apply clock_negative_offset.
Qed.
Print Assumptions C84_negative_offset_is_refused.
Theorem C84_window_before_the_image_is_refused {F} {num : Num F} im (parallel serial : signed_direction F) time_window traps :
  (d_traps (s_rest parallel) = Some traps /\ (exists i, d_window (s_rest parallel) = WInt i /\ (i < 0)%Z) /\ standard_readout (s_rest parallel) \/
   d_traps (s_rest serial) = Some traps /\ (exists i, d_window (s_rest serial) = WInt i /\ (i < 0)%Z) /\ standard_readout (s_rest serial)) ->
  exists e, add_cti_signed im parallel serial time_window = Err e.
Proof.
  assert (B : forall i k j, (i < 0)%Z -> In j (resolve_window (WInt i) k) -> (j < 0)%Z).
  { intros i k j Hi Hj. cbn in Hj. apply ROEExpressFacts.py_range_in in Hj. lia. }
  intros [(Ht & (i & Ew & Hi) & Hn)|(Ht & (i & Ew & Hi) & Hn)]; apply add_fails.
  - left. split; [now exists traps|]. intros. apply clock_behind; [|exact Hn]. rewrite Ew. intros j. exact (B i _ j Hi).
  - right. split; [now exists traps|]. intros. apply clock_behind; [|exact Hn]. rewrite Ew. intros j. exact (B i _ j Hi).
Qed.
Print Assumptions C84_window_before_the_image_is_refused.

(** Violated: trap pumping accepts a negative express.  It then computes one pump, however
    many were asked for; with integer matrices, one pump that counts for all. *)
Theorem C84_negative_express_pumps_once (n : nat) e dwell (r r1 : roe R) im d offset serial time_window : (e < 0)%Z -> (2 <= n)%nat ->
  roe_pumping_init dwell n true DFloat = Ok r -> roe_pumping_init dwell 1 true DFloat = Ok r1 ->
  image_of (add_cti_signed im (mkSigned (with_roe d r) e offset) serial time_window) =
  image_of (add_cti_signed im (mkSigned (with_roe d r1) 0 offset) serial time_window).
Proof. exact (one_pump n e dwell r r1 im d offset serial time_window). Qed.
Print Assumptions C84_negative_express_pumps_once.
Theorem C84_negative_express_integer_pumps (n : nat) e dwell (r r1 : roe R) im d offset serial time_window : (e < 0)%Z -> (2 <= n)%nat ->
  roe_pumping_init dwell n true DInt = Ok r -> roe_pumping_init dwell n false DInt = Ok r1 ->
  image_of (add_cti_signed im (mkSigned (with_roe d r) e offset) serial time_window) =
  image_of (add_cti_signed im (mkSigned (with_roe d r1) 1 offset) serial time_window).
Proof. exact (one_heap n e dwell r r1 im d offset serial time_window). Qed.
Print Assumptions C84_negative_express_integer_pumps.
Theorem C84_pumping_refuses_negative_express_refuted (n : nat) e : (2 <= n)%nat -> (e < 0)%Z ->
  exists im', image_of (add_cti_signed small_image (mkSigned (pump_direction n 0 true) e 0) (signed no_direction) None) = Ok im' /\
    pixel im' 0 0 = 1/2 /\ pixel im' 1 0 = 3/16.
Proof.
  intros Hn He. destruct C71_example as (_ & im' & E & P0 & P1). exists im'. split; [|now split].
  assert (Q : forall k, roe_pumping_init [ln 2; ln 2] k true DFloat = Ok (the_roe (pump_direction k 0 true))) by reflexivity.
  pose proof (one_pump n e _ _ _ small_image (pump_direction 1 0 true) 0 (signed no_direction) None He Hn (Q n) (Q 1%nat)) as G.
  change (with_roe (pump_direction 1 0 true) (the_roe (pump_direction n 0 true))) with (pump_direction n 0 true) in G. rewrite G.
  change (mkSigned (with_roe (pump_direction 1 0 true) (the_roe (pump_direction 1 0 true))) 0 0) with (signed (pump_direction 1 0 true)).
  rewrite add_agrees, E; [reflexivity|exact (Z.le_refl 0)|exact I].
Qed.
Print Assumptions C84_pumping_refuses_negative_express_refuted.
Definition some_call : direction R := mkDir (Some small_ccd) None (Some (TOne (small_trap 1))) 0 0 WNone.
(** Only the special pump of empty_traps_for_first_transfers is left, and without one the call
    fails by indexing an empty matrix: for a single pump, and without that option. *)
Theorem C84_negative_express_needs_a_special_pump {F} {num : Num F} (n : nat) e dwell empty_first dt (r : roe F) im d traps offset serial row rows :
  (e < 0)%Z -> (empty_first = false \/ (n < 2)%nat) -> roe_pumping_init dwell n empty_first dt = Ok r ->
  d_traps d = Some traps -> resolve_window (d_window d) (length im) = row :: rows ->
  add_cti_signed im (mkSigned (with_roe d r) e offset) serial None = Err IndexError.
Proof. exact (no_special_pump n e dwell empty_first dt r im d traps offset serial row rows). Qed.
Print Assumptions C84_negative_express_needs_a_special_pump.
Example C84_single_pump_example : add_cti_signed small_image (mkSigned (with_roe some_call (pump_roe [ln 2; ln 2] 1 true DFloat)) (-3) 0) (signed no_direction) None = Err IndexError.
Proof. apply (C84_negative_express_needs_a_special_pump 1 _ [ln 2; ln 2] true DFloat _ _ _ (TOne (small_trap 1)) _ _ 0%Z [1%Z]); try reflexivity. right. lia. Qed.

(** Violated: charge injection refuses a window before the image, or takes it from the end as
    Python does.  With the last row as -1 it processes nothing and returns the image as it
    was, whatever the traps. *)
Theorem C84_last_row_by_minus_one_refuted (n : nat) dwell im c t express offset eb fr d :
  d = mkDir (Some c) (Some (roe_injection_init dwell (Some n) eb fr DFloat)) (Some (TOne t)) 0 0 (WInt (-1)) ->
  (0 < n)%nat -> (0 <= express)%Z -> (0 < Z.of_nat (length im) + offset)%Z -> (0 < length im)%nat -> ccd_n_phases c = length (ccd_fractions c) ->
  image_of (add_cti_signed im (mkSigned d express offset) (signed no_direction) None) = Ok im.
Proof.
  intros -> Hn He Ho Hi Hp. unfold add_cti_signed, time_window_signed. cbn [bind s_rest d_traps]. 
  destruct (atm_one c t 0 Hp) as [a Ha].
  assert (K : exists k, n_padding (roe_injection_init dwell (Some n) eb fr DFloat) = Ok k) by (now eexists). destruct K as [k Hk].
  rewrite (injected_nowhere n c (TOne t) (resolve_window (WInt (-1)) (length im)) (resolve_window WNone (n_columns im)) express offset _ im _ a k); try reflexivity; try assumption.
  - right. eexists. split; [reflexivity|]. cbn [s_offset]. unfold py_range. rewrite Z.sub_0_r. destruct (Z.to_nat (Z.of_nat (length im) + offset)) eqn:E; [lia|discriminate].
  - apply Forall_forall. intros j Hj. cbn in Hj. apply ROEExpressFacts.py_range_in in Hj. lia.
Qed.
Print Assumptions C84_last_row_by_minus_one_refuted.

(** Accepted: a negative offset in charge injection.  Every pixel is transferred fewer
    times. *)
Theorem C84_negative_offset_in_injection {F} {num : Num F} im (d : direction F) dwell eb fr dt express offset serial time_window m traps :
  py_max (resolve_window (d_window d) (length im)) = Ok m -> (0 <= m + 1 + offset)%Z -> d_traps d = Some traps ->
  add_cti_signed im (mkSigned (with_roe d (roe_injection_init dwell None eb fr dt)) express offset) serial time_window =
  add_cti_signed im (mkSigned (with_roe d (roe_injection_init dwell (Some (Z.to_nat (m + 1 + offset))) eb fr dt)) express offset) serial time_window.
Proof. intros H Ho Ht. apply add_injection_offset; [exact H|exact Ho|now exists traps]. Qed.
Print Assumptions C84_negative_offset_in_injection.

(** Calls that meet the hypotheses. *)
Example C84_refused_example :
  add_cti_signed small_image (mkSigned some_call (-1) 0) (signed no_direction) None = Err ValueError /\
  (exists e, add_cti_signed small_image (mkSigned some_call 0 (-1)) (signed no_direction) None = Err e) /\
  (exists e, add_cti_signed small_image (signed (mkDir (Some small_ccd) None (Some (TOne (small_trap 1))) 0 0 (WInt (-1)))) (signed no_direction) None = Err e) /\
  window_forward (d_window some_call).
Proof.
  split; [|split; [|split]].
  - now apply C84_negative_express_is_a_ValueError with (traps := TOne (small_trap 1)).
  - apply C84_negative_offset_is_refused with (traps := TOne (small_trap 1)). left. now repeat split.
  - apply C84_window_before_the_image_is_refused with (traps := TOne (small_trap 1)). left. repeat split. now exists (-1)%Z.
  - exact I.
Qed.
Example C84_injection_example :
  image_of (add_cti_signed small_image (mkSigned (mkDir (Some small_ccd) (Some (roe_injection_init [1] (Some 3%nat) true true DFloat)) (Some (TOne (small_trap 1))) 0 0 (WInt (-1))) 0 0) (signed no_direction) None) = Ok small_image /\
  py_max (resolve_window WNone (length small_image)) = Ok 1%Z.
Proof. split; [|reflexivity]. eapply C84_last_row_by_minus_one_refuted; try reflexivity; cbn; lia. Qed.
