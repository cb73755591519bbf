(** * Properties C87 to C89: the readout in IEEE double arithmetic
    (arcticpy/main_utils.pyx, trap_managers.py, trap_managers_utils.pyx, ccd.py). *)
From Coq Require Import ZArith QArith List Bool SpecFloat Lia.
From Verif Require Import Num Py CCDModel TrapsModel ManagerModel ROEModel ClockModel MainModel DoubleNum
  SpecImage SpecMemory SpecDouble DoubleCalls DoubleFacts NanFacts DoubleMemory Properties_Memory.
Import ListNotations.
Open Scope Q_scope.

(** C87: with class Trap, rounding can create charge.  Five pixels of 98, 21, 0, 3 and 5
    electrons (127 in all) in wells of 100 electrons, with 4 fast traps per pixel and the
    default readout, come out with more than 128 electrons, in the exact sum of the returned
    doubles: whatever the C library's exp, log and pow are, if exp underflows to 0 below -750 and
    the first power of x is x.  (The rounding errors of so few operations are below 1e-12.) *)
Theorem C87_rounding_creates_no_charge_refuted exp_c log_c pow_c :
  usual_library exp_c pow_c -> let num := DoubleNum exp_c log_c pow_c in
  exists out r r' before after,
    slow_call (numbers five) = Ok (out, r, r') /\
    exact_total (numbers five) = Some before /\ exact_total out = Some after /\ before == 127 /\ before + 1 < after.
Proof. intros U. exact (with_guards creates creates_charge exp_c log_c pow_c U). Qed.
Print Assumptions C87_rounding_creates_no_charge_refuted.

(** The same call in exact arithmetic loses charge. *)
Theorem C87_without_rounding exp_q log_q pow_q :
  let num := ExactNum exp_q log_q pow_q in exists out r r', slow_call (numbers five) = Ok (out, r, r') /\ rational_total out < 127.
Proof. exact (exact_loses exp_q log_q pow_q). Qed.
Print Assumptions C87_without_rounding.

(** After four clouds such traps hold fewer than -1 electrons, and one of their watermarks has a
    volume below -4/5. *)
Theorem C87_traps_hold_no_negative_charge_refuted exp_c log_c pow_c :
  usual_library exp_c pow_c -> let num := DoubleNum exp_c log_c pow_c in
  exists m q level v, four_clouds = Ok m /\ exact (n_trapped m (m_wm m)) = Some q /\ q < -1 /\
    In level (m_wm m) /\ exact (vol level) = Some v /\ v < -4 # 5.
Proof. intros U. exact (with_guards holds_negative holds_negative_electrons exp_c log_c pow_c U). Qed.
Print Assumptions C87_traps_hold_no_negative_charge_refuted.

(** There are such libraries. *)
Example C87_a_library : usual_library (exp_guard (fun x => x)) (pow_guard (fun x _ => x)).
Proof. constructor; intros x; unfold exp_guard, pow_guard; [now intros ->|reflexivity]. Qed.

(** C88: the electrons of a pixel that is not a number, met by traps whose first watermark has a
    volume and some watermark has none: IndexError, for every class of trap, however many
    species and watermarks there are and whatever they hold. *)
Theorem C88_nan_after_charge_is_an_IndexError exp_c log_c pow_c :
  (forall y, SFltb dzero y = true -> pow_c S754_nan y = S754_nan) -> let num := DoubleNum exp_c log_c pow_c in
  forall (m : manager double) level rest c phase notch beta full dwell,
  m_wm m = level :: rest -> (vol level =? n0)%num = false -> (exists r, In r rest /\ (vol r =? n0)%num = true) ->
  (m_kind m = KSlow -> exists probs, fill_probabilities (m_traps m) dwell = Ok probs) ->
  nth_error (ccd_notch c) phase = Some notch -> nth_error (ccd_fill_power c) phase = Some beta ->
  nth_error (ccd_full_well c) phase = Some full -> SFltb dzero beta = true -> (full - notch =? n0)%num = false ->
  manager_step m S754_nan (fun n => well_fill c phase false n) dwell = Err IndexError.
Proof. intros H num. exact (nan_step exp_c log_c pow_c H). Qed.
Print Assumptions C88_nan_after_charge_is_an_IndexError.
(** Two watermarks of which the first is half full. *)
Example C88_a_manager exp_c log_c pow_c :
  let num := DoubleNum exp_c log_c pow_c in
  (forall y, SFltb dzero y = true -> pow_c S754_nan y = S754_nan) ->
  manager_step (mkManager KInstant [mkTrap n1 n1 RInf n1 false CInstant] [(nq 1 2, [n1]); (n0, [n0])])
    S754_nan (fun n => well_fill (mkCCD [n1] 1 [n1] [n1] [n0] [BList [n1]]) 0 false n) n1 = Err IndexError.
Proof.
  intros num H. eapply C88_nan_after_charge_is_an_IndexError; try exact H; try reflexivity; try discriminate. exists (n0, [n0]). split; [now left|reflexivity].
Qed.

(** So an image with one NaN cannot be read out: 1 electron in the first row, NaN in the second. *)
Theorem C88_nan_images_are_read_out_refuted exp_c log_c pow_c :
  usual_library exp_c pow_c -> let num := DoubleNum exp_c log_c pow_c in
  instant_call [[n1]; [S754_nan]; [n0]] = Err IndexError /\ slow_call [[n1]; [S754_nan]; [n0]] = Err IndexError.
Proof. intros U. exact (with_guards nan_crashes nan_crash exp_c log_c pow_c U). Qed.
Print Assumptions C88_nan_images_are_read_out_refuted.

(** In the first row it is not an error, and the other pixels come out as numbers: but not
    those of an image with an empty pixel there.  The 1000 electrons of the third row lose 29
    electrons in one and 20 in the other. *)
Theorem C88_nan_is_like_no_charge_refuted exp_c log_c pow_c :
  usual_library exp_c pow_c -> let num := DoubleNum exp_c log_c pow_c in
  exists out r r' out' s s' a b,
    instant_call [[n0]; [n1]; [nofZ 1000]] = Ok (out, r, r') /\ exact_at out 2 0 = Some a /\ a == 971 /\
    instant_call [[S754_nan]; [n1]; [nofZ 1000]] = Ok (out', s, s') /\ exact_at out' 2 0 = Some b /\ b == 980.
Proof. intros U. exact (with_guards nan_differs nan_difference exp_c log_c pow_c U). Qed.
Print Assumptions C88_nan_is_like_no_charge_refuted.

(** C89: in double arithmetic, whatever the pixels are (infinities and NaN included), no call
    reads or writes outside its arrays, under the conditions of C83 on windows, readout objects
    and classes of traps, for wells with notch >= 0, full well - notch > 0 and a power > 0. *)
Theorem C89_double_wells_need_charge exp_c log_c pow_c :
  nothing_to_a_power pow_c -> let num := DoubleNum exp_c log_c pow_c in
  forall c : ccd double, double_wells_ok c -> no_cloud_without_charge c.
Proof. intros H num. exact (double_wells exp_c log_c pow_c H). Qed.
Print Assumptions C89_double_wells_need_charge.

Theorem C89_double_accesses_stay_inside exp_c log_c pow_c :
  nothing_to_a_power pow_c -> let num := DoubleNum exp_c log_c pow_c in
  forall (im : image double) parallel serial time_window rows cols,
  shape rows cols im -> (0 < rows)%nat -> (0 < cols)%nat -> double_inside parallel rows -> double_inside serial cols ->
  add_cti im parallel serial time_window <> Err OutOfBounds.
Proof.
  intros H num im parallel serial time_window rows cols HS Hr Hc HP HQ.
  exact (C83_unchecked_accesses_stay_inside im parallel serial time_window rows cols (positive_double exp_c log_c pow_c) HS Hr Hc
    (inside exp_c log_c pow_c H parallel rows HP) (inside exp_c log_c pow_c H serial cols HQ)).
Qed.
Print Assumptions C89_double_accesses_stay_inside.

Theorem C89_double_correction_stays_inside exp_c log_c pow_c :
  nothing_to_a_power pow_c -> let num := DoubleNum exp_c log_c pow_c in
  forall (im : image double) iterations parallel serial time_window rows cols,
  shape rows cols im -> (0 < rows)%nat -> (0 < cols)%nat -> double_inside parallel rows -> double_inside serial cols ->
  remove_cti im iterations parallel serial time_window <> Err OutOfBounds.
Proof.
  intros H num im iterations parallel serial time_window rows cols HS Hr Hc HP HQ.
  exact (C83_correction_stays_inside im iterations parallel serial time_window rows cols (positive_double exp_c log_c pow_c) HS Hr Hc
    (inside exp_c log_c pow_c H parallel rows HP) (inside exp_c log_c pow_c H serial cols HQ)).
Qed.
Print Assumptions C89_double_correction_stays_inside.

(** Two rows clocked over two instant species, in double arithmetic. *)
Example C89_a_library : nothing_to_a_power (fun _ _ => dzero).
Proof. intros x y _ _. reflexivity. Qed.
Example C89_a_direction exp_c log_c pow_c :
  let num := DoubleNum exp_c log_c pow_c in
  double_inside (mkDir (Some (mkCCD [n1] 1 [nofZ 100] [nq 1 2] [nofZ 10] [BList [nofZ 100]])) (Some (roe_init [n1; n1] true true true DFloat))
    (Some (TFlat [mkTrap (nofZ 10) n1 RInf n1 false CInstant; mkTrap (nofZ 3) n1 (RFin n1) n1 false CTrap])) 2 0 (WRange [0; 1]%Z)) 2.
Proof.
  intros num. constructor.
  - exists 2%nat. split; [apply (fresh_roe [n1; n1])|]. intros c E. injection E as <-. cbn. lia.
  - intros i [<-|[<-|[]]]; cbn; lia.
  - intros c E. injection E as <-. intros [|[|ph]] e b f; cbn; intros H1 H2 H3; try discriminate; injection H1 as <-; injection H2 as <-; injection H3 as <-; repeat split; vm_compute; reflexivity.
  - intros traps t l E H. injection E as <-. inversion H; subst. discriminate.
Qed.
