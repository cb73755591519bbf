(** * Properties C44, C47, C48, C51: the other functions of main.py and util.py. *)
From Coq Require Import ZArith List Bool Reals Lra Lia.
From Coquelicot Require Import Rcomplements Rbar Hierarchy RInt.
From Verif Require Import Num Py RFacts CCDModel TrapsModel ManagerModel ROEModel ClockModel MainModel Spec SpecROE SpecImage SpecReadout SpecColumn SpecHST
  MainFacts MainReadoutFacts MainColumnFacts ReadoutExamples RemoveFacts HSTFacts.
Import ListNotations.
Open Scope R_scope.

(** ** C44: each iteration of remove_cti adds the residual.  This includes charge injection,
    whose ROE object is changed by the first iteration. *)
Theorem C44_iterations (im : image R) p s tw rows cols : shape rows cols im -> (0 < rows)%nat -> (0 < cols)%nat ->
  remove_cti im 0 p s tw = Ok im /\
  forall n out, remove_cti im (S n) p s tw = Ok out <->
    exists est added pr sr, remove_cti im n p s tw = Ok est /\ add_cti est p s tw = Ok (added, pr, sr) /\ shape rows cols out /\
      forall i j, (i < rows)%nat -> (j < cols)%nat -> pixel out i j = pixel est i j + (pixel im i j - pixel added i j).
Proof. intros H1 H2 H3. split; [reflexivity|]. intros n out. exact (remove_S im p s tw rows cols H1 H2 H3 n out). Qed.
Print Assumptions C44_iterations.

(** It fails only if add_cti fails. *)
Theorem C44_errors (im : image R) p s tw rows cols n e : shape rows cols im -> (0 < rows)%nat -> (0 < cols)%nat ->
  remove_cti im (S n) p s tw = Err e <->
  remove_cti im n p s tw = Err e \/ exists est, remove_cti im n p s tw = Ok est /\ add_cti est p s tw = Err e.
Proof. intros H1 H2 H3. exact (remove_err im p s tw rows cols H1 H2 H3 n e). Qed.
Print Assumptions C44_errors.

(** The iteration stops changing exactly at an image that add_cti turns into the input. *)
Theorem C44_fixed_points (im : image R) p s tw rows cols n est : shape rows cols im -> (0 < rows)%nat -> (0 < cols)%nat ->
  remove_cti im n p s tw = Ok est ->
  (remove_cti im (S n) p s tw = Ok est <-> exists pr sr, add_cti est p s tw = Ok (im, pr, sr)).
Proof.
  intros H1 H2 H3 E. rewrite (remove_S im p s tw rows cols H1 H2 H3 n est).
  pose proof (remove_shape im p s tw rows cols H1 H2 H3 n est E) as Hs. split.
  - intros (est' & added & pr & sr & E' & Ea & _ & Hp). rewrite E in E'. injection E' as <-. exists pr, sr. rewrite Ea. do 2 f_equal. f_equal.
    apply (image_ext _ _ rows cols); [exact (proj1 (add_cti_shape_sign _ _ _ _ _ _ _ rows cols Hs H2 H3 Ea))|exact H1|].
    intros i j Hi Hj. specialize (Hp i j Hi Hj). rnum. lra.
  - intros (pr & sr & Ea). exists est, im, pr, sr. split; [exact E|]. split; [exact Ea|]. split; [exact Hs|]. intros i j _ _. rnum. lra.
Qed.
Print Assumptions C44_fixed_points.

(** From then on it stays there. *)
Theorem C44_stays (im : image R) p s tw rows cols n k est pr sr : shape rows cols im -> (0 < rows)%nat -> (0 < cols)%nat ->
  remove_cti im n p s tw = Ok est -> add_cti est p s tw = Ok (im, pr, sr) -> remove_cti im (n + k) p s tw = Ok est.
Proof.
  intros H1 H2 H3 E Ea. induction k as [|k IH]; [rewrite Nat.add_0_r; exact E|]. rewrite Nat.add_succ_r.
  apply (C44_fixed_points im p s tw rows cols (n + k) est H1 H2 H3 IH). exists pr, sr. exact Ea.
Qed.
Print Assumptions C44_stays.

Theorem C44_no_traps (im : image R) p s rows cols n : shape rows cols im -> (0 < rows)%nat -> (0 < cols)%nat ->
  d_traps p = None -> d_traps s = None -> remove_cti im n p s None = Ok im.
Proof. intros H1 H2 H3. apply (remove_no_traps im p s rows cols n H1 H2 H3). intros x y. rnum. lra. Qed.
Print Assumptions C44_no_traps.

(** One iteration on the image of C36: 1 + (1 - 1/2) and 0 + (0 - 3/32) electrons. *)
Example C44_example : let d := small_direction small_roe (TOne (small_trap (1/2))) in
  remove_cti small_image 1 d no_direction None = Ok [[3/2]; [-3/32]].
Proof.
  intros d. assert (Hs : shape 2 1 small_image) by (repeat constructor).
  apply (C44_iterations small_image d no_direction None 2 1 Hs ltac:(lia) ltac:(lia)).
  exists small_image, [[1/2]; [3/32]], (the_roe d), (the_roe no_direction). split; [reflexivity|]. split; [exact small_readout|].
  split; [repeat constructor|]. intros i j Hi Hj. destruct j; [|lia]. destruct i as [|[|i]]; [| |lia]; unfold pixel; cbn; lra.
Qed.

(** ** C47: the HST model is physical, on every date. *)
Theorem C47_hst_model date :
  (date < launch -> model_for_HST_ACS date = Err AssertionError) /\
  (launch <= date -> exists t1 t2 t3 c r,
    model_for_HST_ACS date = Ok ([t1; t2; t3], c, r) /\
    Forall (fun t => physical t /\ 0 < t_density t /\ t_class t = CInstant) [t1; t2; t3] /\
    t_density t1 + t_density t2 + t_density t3 = traps_on date /\
    t_density t1 / 1.27 = t_density t2 / 3.38 /\ t_density t2 / 3.38 = t_density t3 / 2.85 /\
    t_release_timescale t1 < t_release_timescale t2 < t_release_timescale t3 /\
    (cooling <= date -> map (@t_release_timescale R) [t1; t2; t3] = release_times_now) /\
    plain_ccd c /\ ccd_n_phases c = 1%nat /\ r = roe_default).
Proof.
  split; [apply hst_before|]. intros H.
  destruct (hst_since date H) as (d1 & d2 & d3 & t1 & t2 & t3 & E & P1 & P2 & P3 & Es & E1 & E2 & T1 & T2 & T3 & _).
  exists (hst_trap d1 t1), (hst_trap d2 t2), (hst_trap d3 t3), hst_ccd, (roe_init [1] true true true DFloat). split; [exact E|].
  split; [repeat (constructor; [split; [apply hst_trap_physical; lra|]; split; [assumption|reflexivity]|]); constructor|].
  split; [exact Es|]. split; [exact E1|]. split; [exact E2|]. split; [cbn; lra|]. split; [exact T3|]. split; [exact hst_plain|]. split; reflexivity.
Qed.
Print Assumptions C47_hst_model.

(** The trap density grows with time, also at the change of fit. *)
Theorem C47_density_grows date date' : launch <= date -> date < date' -> traps_on date < traps_on date'.
Proof. exact (total_grows date date'). Qed.
Print Assumptions C47_density_grows.

(** The model can be passed to add_cti for parallel clocking: the readout returns, creates no
    charge, and is that of the textbook (C43). *)
Theorem C47_hst_readout date (im : image R) offset rows cols : launch <= date ->
  shape rows cols im -> (0 < rows)%nat -> (0 < cols)%nat -> (forall i j, 0 <= pixel im i j) ->
  exists traps c r, model_for_HST_ACS date = Ok (traps, c, r) /\
  let d := mkDir (Some c) (Some r) (Some (TFlat traps)) 0 offset WNone in
  exists im', add_cti im d no_direction None = Ok (im', the_roe d, the_roe no_direction) /\ charge im' <= charge im /\
  forall j, (j < cols)%nat -> column_of im' j = textbook traps (depth 84700 0.478) 1 offset (column_of im j).
Proof.
  intros H Hs Hr Hc Hp. destruct (C47_hst_model date) as (_ & G). destruct (G H) as (t1 & t2 & t3 & c & r & E & Ht & _). clear G.
  destruct (hst_since date H) as (d1 & d2 & d3 & x1 & x2 & x3 & E' & _). rewrite E in E'. injection E' as E1 E2 E3 -> ->.
  exists [t1; t2; t3], hst_ccd, (roe_init [1] true true true DFloat). split; [exact E|]. cbv zeta.
  set (d := mkDir _ _ _ _ _ _).
  assert (Hset : plain_setting d rows hst_ccd (TFlat [t1; t2; t3]) [1] DFloat).
  { split; try reflexivity; [left; reflexivity|exact hst_plain| |left; reflexivity].
    split; [discriminate|]. constructor; [|constructor]. split; [discriminate|]. eapply Forall_impl; [|exact Ht]. cbn. tauto. }
  assert (Hone : one_group_direction d rows).
  { split; [reflexivity|]. right. exists hst_ccd, (TFlat [t1; t2; t3]), [1], DFloat. split; [exact Hset|]. split; [left; reflexivity|reflexivity]. }
  destruct (charge_both im d no_direction rows cols Hs Hr Hc Hp Hone (conj eq_refl (or_introl eq_refl))) as (im' & Ea & Hle).
  exists im'. split; [exact Ea|]. split; [exact Hle|]. intros j Hj.
  assert (Hcol : columns_ok (selected (d_window (no_direction : direction R)) cols) cols).
  { cbn. split; [apply FinFun.Injective_map_NoDup; [intros a b Hab; lia|apply seq_NoDup]|]. intros z Hz. apply in_map_iff in Hz as (a & <- & Ha). apply in_seq in Ha. lia. }
  destruct (textbook_readout im d no_direction hst_ccd (TFlat [t1; t2; t3]) [t1; t2; t3] 1 DFloat rows cols j Hs Hr Hp Hset (or_introl eq_refl) eq_refl eq_refl Hcol
     ltac:(lra) eq_refl ltac:(unfold share; cbn; lra) eq_refl) as (im2 & Ea2 & Hcols).
  - cbn. apply in_map. apply in_seq. lia.
  - rewrite Ea in Ea2. injection Ea2 as <-. rewrite Hcols. f_equal.
    assert (G : forall t : trap R, thinned (share hst_ccd 0) t = t). { intros [a b cr er sf cl]. unfold thinned, share. cbn. f_equal. lra. }
    cbn [map]. rewrite !G. reflexivity.
Qed.
Print Assumptions C47_hst_readout.
(** The year 2020. *)
Example C47_example : launch <= 2458849.5 /\ shape 2 1 small_image /\ (forall i j, 0 <= pixel small_image i j) /\
  traps_on 2458849.5 = 1.011 * (-0.246591 + 0.000558980 * 6515).
Proof.
  split; [unfold launch; lra|]. split; [repeat constructor|]. split; [exact small_nonneg|]. unfold traps_on, repair, launch. destruct (Rlt_dec _ _); lra.
Qed.

(** ** C51: before the cooling, at a higher temperature, the traps release more slowly. *)
Theorem C51_warm_traps_release_slowly_refuted date : launch <= date < cooling ->
  exists t1 t2 t3 c r, model_for_HST_ACS date = Ok ([t1; t2; t3], c, r) /\
    Forall2 (fun now t => now < t_release_timescale t) release_times_now [t1; t2; t3].
Proof.
  intros (H & H'). destruct (hst_since date H) as (d1 & d2 & d3 & t1 & t2 & t3 & E & _ & _ & _ & _ & _ & _ & _ & _ & _ & T). specialize (T H').
  exists (hst_trap d1 t1), (hst_trap d2 t2), (hst_trap d3 t3), hst_ccd, (roe_init [1] true true true DFloat). split; [exact E|].
  unfold release_times_now. repeat constructor; cbn; lra.
Qed.
Print Assumptions C51_warm_traps_release_slowly_refuted.
Example C51_example : launch <= 2453000 < cooling.
Proof. unfold launch, cooling. lra. Qed.

(** ** C48: update_fits_header_info never records traps or a CCD: whenever it returns, the keys
    that it has added are those of the iterations (0: parallel, 1: serial). *)
Theorem C48_settings_are_not_recorded_refuted header pc sc pt st pccd sccd h :
  update_fits_header_info header pc sc pt st pccd sccd = Ok h ->
  h = header ++ (if pc then [0%nat] else []) ++ (if sc then [1%nat] else []).
Proof.
  assert (G : forall o k h', opt_do o add_trap k = Ok h' -> h' = k).
  { intros [[|[|n] l]|] k h'; cbn; try congruence. destruct (Nat.eqb n 2); discriminate. }
  unfold update_fits_header_info. destruct sc.
  - intros E. apply ClockFacts.bind_ok in E as (h1 & E1 & E). apply ClockFacts.bind_ok in E as (h2 & E2 & E). apply G in E1 as ->. apply G in E2 as ->.
    destruct sccd; [discriminate|]. destruct pccd; [discriminate|]. injection E as <-. destruct pc; [rewrite <- app_assoc|]; reflexivity.
  - intros E. injection E as <-. rewrite app_nil_r. destruct pc; [|rewrite app_nil_r]; reflexivity.
Qed.
Print Assumptions C48_settings_are_not_recorded_refuted.
(** With a serial clocker, any trap and any CCD makes it fail. *)
Theorem C48_settings_fail_refuted header pc pt st pccd sccd :
  (exists t l, pt = Some (t :: l)) \/ (exists t l, st = Some (t :: l)) \/ pccd = true \/ sccd = true ->
  forall h, update_fits_header_info header pc true pt st pccd sccd <> Ok h.
Proof.
  assert (G : forall t l k h', opt_do (Some (t :: l)) add_trap k <> Ok h').
  { intros [|n] l k h'; cbn; [discriminate|]. destruct (Nat.eqb n 2); discriminate. }
  intros H h E. unfold update_fits_header_info in E.
  apply ClockFacts.bind_ok in E as (h1 & E1 & E). apply ClockFacts.bind_ok in E as (h2 & E2 & E).
  destruct H as [(t & l & ->)|[(t & l & ->)|[-> | ->]]]; [exact (G _ _ _ _ E1)|exact (G _ _ _ _ E2)|destruct sccd; discriminate|discriminate].
Qed.
Print Assumptions C48_settings_fail_refuted.
(** The first setting that cannot be written decides the exception: a trap by itself cannot be
    unpacked into two, a pair of something and a trap has no lifetime, other sequences have the
    wrong length, and the CCD has no such filling power. *)
Theorem C48_kinds_of_failure header pc pt st pccd sccd e :
  update_fits_header_info header pc true pt st pccd sccd = Err e <->
  exists traps rest, (pt = Some traps /\ traps <> [] \/ (pt = None \/ pt = Some []) /\ st = Some traps /\ traps <> []) /\
    ((traps = FTrap :: rest /\ e = TypeError) \/ (traps = FList 2 :: rest /\ e = AttributeError) \/ (exists n, traps = FList n :: rest /\ n <> 2%nat /\ e = ValueError)) \/
    (pt = None \/ pt = Some []) /\ (st = None \/ st = Some []) /\ (pccd = true \/ sccd = true) /\ e = AttributeError.
Proof.
  assert (G : forall t l k e', add_trap (t :: l) k = Err e' <->
    (t = FTrap /\ e' = TypeError) \/ (t = FList 2 /\ e' = AttributeError) \/ (exists n, t = FList n /\ n <> 2%nat /\ e' = ValueError)).
  { intros [|n] l k e'; cbn.
    - split; [intros E; injection E as <-; auto|]. intros [[_ ->]|[[E _]|(n & E & _)]]; [reflexivity|discriminate E|discriminate E].
    - destruct (Nat.eqb_spec n 2) as [->|N]; (split; [intros E; injection E as <-; eauto 6|]).
      + intros [[E _]|[[_ ->]|(m & E & Hm & _)]]; [discriminate E|reflexivity|congruence].
      + intros [[E _]|[[E _]|(m & _ & _ & ->)]]; [discriminate E|congruence|reflexivity]. }
  assert (A : forall t l k, exists e', add_trap (t :: l) k = Err e') by (intros [|n] l k; cbn; [eauto|destruct (Nat.eqb n 2); eauto]).
  assert (P : forall t l k, add_trap (t :: l) k = Err e <-> exists rest,
    ((t :: l = FTrap :: rest /\ e = TypeError) \/ (t :: l = FList 2 :: rest /\ e = AttributeError) \/ (exists n, t :: l = FList n :: rest /\ n <> 2%nat /\ e = ValueError))).
  { intros t l k. rewrite G. split.
    - intros H. exists l. destruct H as [[-> H]|[[-> H]|(n & -> & H)]]; eauto 6.
    - intros [rest [[E H]|[[E H]|(n & E & H)]]]; injection E as -> _; eauto. }
  unfold update_fits_header_info. cbn [opt_do].
  assert (B : forall t l k (f : list nat -> result (list nat)), bind (add_trap (t :: l) k) f = Err e <-> add_trap (t :: l) k = Err e).
  { intros t l k f. destruct (A t l k) as [e' ->]. cbn. split; congruence. }
  destruct pt as [[|t l]|]; cbn [opt_do].
  2: { rewrite B, P. split.
       - intros [rest H]. exists (t :: l), rest. left. split; [left; split; [reflexivity|discriminate]|exact H].
       - intros (traps & rest & [[[[E N]|[[E|E] _]] H]|[[E|E] _]]); try discriminate. injection E as <-. exists rest. exact H. }
  all: change (add_trap [] ?k) with (Ok k); cbn [bind add_trap].
  all: destruct st as [[|t l]|]; cbn [opt_do].
  all: try (rewrite B, P; split;
    [intros [rest H]; exists (t :: l), rest; left; split; [right; split; [auto|split; [reflexivity|discriminate]]|exact H]
    |intros (traps & rest & [[[[E N]|[_ [E N]]] H]|[_ [[E|E] _]]]); try discriminate; injection E as <-; first [congruence|exists rest; exact H]]).
  all: cbn [bind add_trap]; split;
    [intros E; exists [], []; right; split; [auto|]; split; [auto|]; destruct sccd; [cbn in E; injection E as <-; auto|]; destruct pccd; [cbn in E; injection E as <-; auto|discriminate]
    |intros (traps & rest & [[[[E N]|[_ [E N]]] H]|(_ & _ & H & ->)]); try discriminate; try (injection E as <-; congruence); destruct sccd; [reflexivity|]; destruct pccd; [reflexivity|]; destruct H; discriminate].
Qed.
Print Assumptions C48_kinds_of_failure.
Example C48_example : update_fits_header_info [] true true (Some [FTrap]) None true false = Err TypeError /\
  update_fits_header_info [] true false (Some [FTrap]) None true false = Ok [0%nat].
Proof. split; reflexivity. Qed.
