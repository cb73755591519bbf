(** * Every successful call clocks at least one row with every step and phase
    (main_utils.pyx:173-251), so that an ROE with too short a clock sequence, or too few
    phases for the CCD, always fails. *)
From Coq Require Import ZArith List Bool Reals Lra Lia.
From Coquelicot Require Import Rcomplements Rbar Hierarchy RInt.
From Verif Require Import Num Py RFacts CCDModel TrapsModel ManagerModel ROEModel ClockModel MainModel Spec SpecROE SpecImage SpecReadout SpecColumn
  ClockFacts MainFacts ROEClockFacts ROEMatrixFacts ROEExpressFacts ROEKindFacts ReadoutFacts ReadoutImage ReadoutForced ReadoutFull MainReadoutFacts ForceFacts.
Import ListNotations.
Open Scope R_scope.

Lemma window_pos window n : window_ok window n -> (0 < n)%nat.
Proof. intros [Hall Hin]. rewrite Forall_forall in Hall. apply Hall in Hin. lia. Qed.

(** Every row of the window is transferred in some pass. *)
Lemma some_pass r window express offset rows n r' em mon sav k z :
  window_ok window n -> (n <= rows)%nat -> nth_error window k = Some z -> (k < n)%nat ->
  express_and_monitor r window express offset (Some (py_range 0 (Z.of_nat (rows + offset)))) = Ok (r', em, mon) ->
  save_matrix r' em = Ok sav ->
  exists E W e, rect E W em /\ rect E W mon /\ rect E W sav /\ (e < E)%nat /\ (k < W)%nat /\ bentry mon e k = true /\ 0 < entry em e k.
Proof.
  intros Hwin Hn Hz Hk E1 E2.
  assert (Hl : (k < length window)%nat) by (apply nth_error_Some; congruence).
  pose proof (window_pos _ _ Hwin) as Hn0.
  unfold express_and_monitor in E1. destruct (roe_kind_of r) as [ef|npt|n_pumps ef] eqn:Ek.
  - apply bind_ok in E1 as ([em' mon'] & E1 & E3). injection E3 as <- <- <-.
    rewrite (window_whole ef (roe_dtype r) window n express offset Hwin) in E1 by lia.
    destruct (column_transfers ef (roe_dtype r) _ n express offset Hwin em' mon' E1) as (E & Re & Rm & HE & G).
    destruct (G k z Hz) as [Gt Gm].
    assert (Hz0 : (0 <= z)%Z). { destruct Hwin as [Hall _]. rewrite Forall_forall in Hall. apply nth_error_In in Hz. apply Hall in Hz. lia. }
    destruct (transfers_pos em' k) as (e & He & Hpos). { rewrite Gt. pose proof (pos_INR offset). apply IZR_le in Hz0. lra. }
    rewrite (rect_len _ _ _ Re) in He. destruct (Gm e He) as [_ Gmon]. pose proof Hpos as Hpos'. apply Gmon in Hpos.
    exists E, (length window), e. repeat split; try apply Re; try apply Rm; try assumption;
    unfold save_matrix in E2; rewrite Ek in E2; apply (standard_save_rect ef em' sav E (length window) Re HE E2).
  - apply bind_ok in E1 as ([[m em'] mon'] & E1 & E3). injection E3 as <- <- <-.
    unfold save_matrix in E2. cbn [roe_kind_of] in E2. injection E2 as <-.
    assert (Hpos : (0 < injection_transfers npt n offset)%nat).
    { unfold injection_express in E1. apply bind_ok in E1 as (n' & En & E1).
      assert (n' = n) as ->. { rewrite (window_n_pixels window n Hwin) in En. congruence. }
      unfold injection_transfers. destruct (match npt with Some n0 => n0 | None => (n + offset)%nat end); [|lia].
      unfold express_used in E1. destruct (Nat.eqb express 0); [discriminate|]. rewrite Nat.min_0_r in E1. discriminate. }
    assert (Hd : roe_dtype r = DFloat).
    { destruct (roe_dtype r); [|reflexivity]. rewrite (injection_int npt window n express offset Hwin) in E1 by assumption. discriminate. }
    rewrite Hd in E1.
    destruct (injection_at npt window n express offset Hwin (Some (0%Z, Z.of_nat (rows + offset))) Hpos) as (em1 & mon1 & E1' & Re & Rm & [HE HE'] & G).
    { cbn. lia. }
    change (tw_arg (Some (0%Z, Z.of_nat (rows + offset)))) with (Some (py_range 0 (Z.of_nat (rows + offset)))) in E1'.
    rewrite E1' in E1. injection E1 as <- <- <-.
    destruct (G 0%nat k HE Hk) as [Ge Gm].
    exists (express_used (injection_transfers npt n offset) express), n, 0%nat. split; [exact Re|]. split; [exact Rm|]. split; [|split; [exact HE|split; [exact Hk|split; [exact Gm|]]]].
    + unfold injection_save. destruct Re as [Re1 Re2]. split; [rewrite map_length; exact Re1|].
      apply Forall_map. eapply Forall_impl; [|exact Re2]. intros x <-. apply map_length.
    + rewrite Ge. unfold tw_part, overlap. set (x := _ / _).
      assert (Hx : 0 < x). { unfold x. apply Rdiv_lt_0_compat; apply lt_0_INR; assumption. }
      cbn [INR]. eapply Rlt_le_trans; [|apply Rmax_r].
      assert (HT : 0 < IZR (Z.of_nat (rows + offset))). { apply IZR_lt. lia. }
      unfold Rmin, Rmax. repeat destruct (Rle_dec _ _); lra.
  - apply bind_ok in E1 as ([em' mon'] & E1 & E3). injection E3 as <- <- <-.
    assert (Hnp : (0 < n_pumps)%nat). { destruct n_pumps; [|lia]. rewrite pumping_zero in E1. discriminate. }
    unfold save_matrix in E2. rewrite Ek in E2.
    destruct (pumping_ok n_pumps express ef (roe_dtype r) window Hnp) as (em1 & mon1 & E1' & Re & Em & G & _).
    rewrite E1' in E1. injection E1 as -> ->. rename em' into em. rename mon' into mon.
    set (E := (length window * _)%nat) in *.
    destruct (transfers_pos em k) as (e & He & Hpos). { rewrite G by assumption. apply lt_0_INR. lia. }
    rewrite (rect_len _ _ _ Re) in He.
    exists E, (length window), e. subst mon. destruct Re as [Re1 Re2]. repeat split; try assumption.
    + unfold positive_mask. rewrite map_length. exact Re1.
    + unfold positive_mask. apply Forall_map. eapply Forall_impl; [|exact Re2]. intros x <-. apply map_length.
    + unfold pumping_save in E2. destruct (Nat.leb _ _); [discriminate|]. destruct (Nat.eqb _ _); injection E2 as <-; rewrite map_length; [exact Re1|rewrite seq_length; exact Re1].
    + unfold pumping_save in E2. destruct (Nat.leb_spec 2 (match em with [] => 0%nat | r :: _ => length r end)); [discriminate|].
      assert (EW : match em with [] => 0%nat | r :: _ => length r end = length window).
      { destruct em; [cbn in Re1; lia|]. inversion Re2; assumption. }
      rewrite EW in *. destruct (Nat.eqb_spec (length window) 0) as [E0|_]; [lia|].
      injection E2 as <-. apply Forall_map, Forall_forall. intros x _. cbn. lia.
    + unfold bentry, positive_mask, entry in *. change (@nil bool) with (map (fun x : R => (n0 <? x)%num) []). rewrite map_nth.
      assert (Hlk : (k < length (nth e em []))%nat). { destruct (Nat.lt_ge_cases k (length (nth e em []))); [assumption|]. rewrite nth_overflow in Hpos by assumption. lra. }
      rewrite (nth_indep _ false ((fun x : R => (n0 <? x)%num) 0)) by (rewrite map_length; exact Hlk).
      rewrite (map_nth (fun x : R => (n0 <? x)%num)). rnum. apply Rltb_true. exact Hpos.
Qed.

Lemma row_reached im c r traps express offset window columns rows n res :
  window_ok window n -> (n <= rows)%nat -> columns <> [] ->
  clock_charge_in_one_direction im c r traps express offset window columns (Some (py_range 0 (Z.of_nat (rows + offset)))) = @Ok (image R * roe R) res ->
  exists r' row mult st st', clock_one_row c r' row mult st = Ok st' /\
    roe_dwell_times r' = roe_dwell_times r /\ roe_clock_sequence r' = roe_clock_sequence r.
Proof.
  intros Hwin Hn Hcol H. pose proof H as H0. unfold clock_charge_in_one_direction in H0.
  apply bind_ok in H0 as ([[r' em] mon] & E1 & H0). apply bind_ok in H0 as (sav & E2 & _).
  assert (Hw0 : exists z, nth_error window 0 = Some z). { destruct Hwin as [_ Hin]. destruct window; [destruct Hin|]. eexists. reflexivity. }
  destruct Hw0 as [z Hz]. pose proof (express_same_clock _ _ _ _ _ _ _ _ E1) as (Es & _ & Ed & _).
  destruct (some_pass r window express offset rows n r' em mon sav 0 z Hwin Hn Hz (window_pos _ _ Hwin) E1 E2) as (E & W & e & Re & Rm & Rs & He & HW & Hb & _).
  destruct (monitored_row im c r traps express offset window columns _ r' em mon sav E W e 0%nat z res E1 E2 Re Rm Rs He HW Hb Hz Hcol H) as (mult & st & st' & H').
  exists r', z, mult, st, st'. auto.
Qed.

Lemma row_needs_phase c r row mult st st' k p :
  clock_one_row c r row mult st = @Ok (list R * list (list (manager R))) st' ->
  0 < nth k (roe_dwell_times r) 0 -> 0 < nth p (ccd_fractions c) 0 ->
  exists rps rp, nth_error (roe_clock_sequence r) k = Some rps /\ nth_error rps p = Some rp.
Proof.
  intros H Hk Hp. apply (foldM_hits _ _ _ (in_steps r k Hk)) in H as (s1 & s2 & H). cbn beta iota in H.
  apply (foldM_hits _ _ _ (in_phases c p Hp)) in H as ([col data] & s4 & H). cbn beta iota in H.
  apply bind_ok in H as (rps & H1 & H). unfold clock_one_phase in H. apply bind_ok in H as (rp & H2 & _).
  exists rps, rp. split.
  - destruct (nth_error (roe_clock_sequence r) k); [|discriminate]. cbn in H1. congruence.
  - destruct (nth_error rps p); [|discriminate]. cbn in H2. congruence.
Qed.

(** A call that returns had an ROE phase for every timed step and every phase with traps. *)
Lemma call_needs_phase im d serial rows cols c traps r n k p res :
  shape rows cols im -> (0 < rows)%nat -> selected (d_window serial) cols <> [] ->
  window_ok (selected (d_window d) rows) n -> (n <= rows)%nat ->
  d_ccd d = Some c -> d_traps d = Some traps -> d_roe d = Some r ->
  0 < nth k (roe_dwell_times r) 0 -> 0 < nth p (ccd_fractions c) 0 ->
  add_cti im d serial None = Ok res ->
  exists rps rp, nth_error (roe_clock_sequence r) k = Some rps /\ nth_error rps p = Some rp.
Proof.
  intros Hs Hr Hsel Hwin Hn Hc Ht Hroe Hk Hp H. destruct res as [[im' pr] sr].
  apply add_cti_halves in H as (tw' & columns & im1 & Etw & H & _). rewrite Ht in H. unfold clock_direction in H. rewrite Hc in H.
  cbn in Etw. injection Etw as <- _.
  assert (Ecols : n_columns im = cols). { destruct Hs as [<- Hs]. destruct im; [cbn in Hr; lia|]. inversion Hs; assumption. }
  assert (Erows : length im = rows) by apply Hs.
  rewrite Ecols, Erows in H. unfold the_roe in H. rewrite Hroe in H.
  destruct (row_reached im c r traps _ _ _ _ rows n _ Hwin Hn Hsel H) as (r' & row & mult & st & st' & H' & Ed & Es).
  rewrite <- Ed in Hk. rewrite <- Es. exact (row_needs_phase c r' row mult st st' k p H' Hk Hp).
Qed.
