(** * Facts about the pumping model: the rows that change, charge, and the case of one phase. *)
From Coq Require Import ZArith List Bool Reals Lra Lia FinFun.
From Coquelicot Require Import Rcomplements Rbar Hierarchy RInt.
From Verif Require Import Num Py RFacts CCDModel TrapsModel ManagerModel ROEModel ClockModel MainModel Spec SpecROE SpecImage SpecReadout SpecColumn SpecPumping
  WmFacts ArrayFacts CutFacts InstantFacts ClockFacts MainFacts ShapeFacts ColumnFacts
  ROEClockFacts ROEMatrixFacts ROEExpressFacts ROEKindFacts ReadoutFacts ReadoutImage ReadoutForced ReadoutFull ReadoutSpecFacts ReadoutColumnFacts MainReadoutFacts MainColumnFacts PumpFacts.
Import ListNotations.
Open Scope R_scope.

(** ** The rows that change *)
Lemma deposit_frame targets row q z : (forall t, In t (map fst targets) -> z <> (row + t)%Z) -> forall c, deposit targets row q c z = c z.
Proof.
  unfold deposit. induction targets as [|[t f] l IH]; intros H c; [reflexivity|]. cbn [fold_left]. rewrite IH by (intros t' Ht'; apply H; right; exact Ht').
  unfold give. destruct (Z.eqb_spec z (row + t)) as [E|E]; [|reflexivity]. exfalso. apply (H t); [left; reflexivity|exact E].
Qed.
Lemma in_fst_combine {A B} (a : list A) (b : list B) t : In t (map fst (combine a b)) -> In t a.
Proof. intros H. apply in_map_iff in H as ([x y] & <- & H). eapply in_combine_l, H. Qed.
Section Frame.
Context (sites : nat -> site) (phases : list nat) (steps : list (R * list (roe_phase R))) (row z : Z).
Hypothesis Hz : forall d es k, In (d, es) steps -> In k phases -> forall t, In t (rp_release (electrode es k)) -> z <> (row + t)%Z.
Lemma transfer_frame mult st : fst (transfer_pixel sites phases steps row mult st) z = fst st z.
Proof.
  unfold transfer_pixel.
  assert (G : forall l, incl l steps -> forall st, fst (fold_left (fun st '(dwell, es) => fold_left (expose sites row mult dwell es) phases st) l st) z = fst st z).
  { induction l as [|[d es] l IH]; intros Hi st0; [reflexivity|]. cbn [fold_left]. rewrite IH by (intros a Ha; apply Hi; right; exact Ha).
    assert (Hin : In (d, es) steps) by (apply Hi; left; reflexivity).
    assert (G : forall ks, incl ks phases -> forall st, fst (fold_left (expose sites row mult d es) ks st) z = fst st z).
    { induction ks as [|k ks IHk]; intros Hk [c T]; [reflexivity|]. cbn [fold_left]. rewrite IHk by (intros a Ha; apply Hk; right; exact Ha).
      cbn [expose fst]. apply deposit_frame. intros t Ht. apply (Hz d es k Hin); [apply Hk; left; reflexivity|]. eapply in_fst_combine, Ht. }
    apply G. intros a Ha; exact Ha. }
  apply G. intros a Ha; exact Ha.
Qed.
Lemma pumped_frame mults c : pumped sites phases steps row mults c z = c z.
Proof.
  unfold pumped, pumps. assert (G : forall st, fst (fold_left (fun st m => transfer_pixel sites phases steps row m st) mults st) z = fst st z).
  { induction mults as [|m l IH]; intros st; [reflexivity|]. cbn [fold_left]. rewrite IH. apply transfer_frame. }
  apply G.
Qed.
End Frame.

(** ** Nothing to exchange *)
Section Still.
Context (sites : nat -> site) (phases : list nat) (steps : list (R * list (roe_phase R))) (row : Z).
Hypothesis Hs : forall k, In k phases -> good_site (sites k).
Hypothesis Hd : forall d es, In (d, es) steps -> 0 < d.
(** Pumping is a readout with passes of a single pixel. *)
Lemma pumped_zero mults c : (forall z, c z = 0) -> same_col (pumped sites phases steps row mults c) c.
Proof. intros H. rewrite <- readout_pumped. apply readout_zero; assumption. Qed.
Lemma pumped_no_density mults c : (forall k, In k phases -> Forall (Forall (fun t => t_density t = 0)) (site_groups (sites k))) ->
  (forall z, 0 <= c z) -> same_col (pumped sites phases steps row mults c) c.
Proof. intros H Hc. rewrite <- readout_pumped. apply readout_no_density; auto. Qed.
End Still.

(** ** Charge *)
Section Charge.
Context (sites : nat -> site) (phases : list nat) (steps : list (R * list (roe_phase R))) (L : nat) (row : Z).
Hypothesis Hsites : forall k, In k phases -> good_site (sites k).
Hypothesis Hnodup : NoDup phases.
Hypothesis Hsteps : forall d es, In (d, es) steps -> 0 < d.
Hypothesis Hone : forall k, In k phases -> length (site_groups (sites k)) = 1%nat.
Hypothesis Hrow : lossless_row phases steps L row.
Lemma pumps_balance n (c : column) : (forall i, 0 <= c i) ->
  (forall i, 0 <= pumped sites phases steps row (repeat 1 n) c i) /\
  0 <= trapped_electrons sites phases (still_trapped sites phases steps row (repeat 1 n) c) /\
  total L (pumped sites phases steps row (repeat 1 n) c) + trapped_electrons sites phases (still_trapped sites phases steps row (repeat 1 n) c) = total L c.
Proof.
  intros Hc. unfold pumped, still_trapped, pumps.
  assert (G : forall c T, sound sites phases (c, T) ->
    let st := fold_left (fun st m => transfer_pixel sites phases steps row m st) (repeat 1 n) (c, T) in
    sound sites phases st /\ total L (fst st) + trapped_electrons sites phases (snd st) = total L c + trapped_electrons sites phases T).
  { clear c Hc. induction n as [|n IH]; intros c T H; [cbn; auto|]. cbn [repeat fold_left].
    pose proof (transfer_pixel_sound sites phases steps Hsites Hsteps row 1 (c, T) H) as H1.
    pose proof (transfer_pixel_balance sites phases steps L Hsites Hnodup Hsteps Hone row c T Hrow H) as H2.
    destruct (transfer_pixel sites phases steps row 1 (c, T)) as [c1 T1]. destruct (IH c1 T1 H1) as [I1 I2]. split; [exact I1|]. rewrite I2. exact H2. }
  destruct (G c (all_empty sites) (all_empty_sound sites phases c Hc)) as [[G1 G2] G3].
  split; [exact G1|]. split; [apply (trapped_nonneg_all sites phases Hsites); exact G2|]. rewrite G3, all_empty_electrons. lra.
Qed.
End Charge.
Lemma counts_all n_pumps express ef : (0 < n_pumps)%nat -> express = 0%nat \/ (n_pumps <= express)%nat -> pump_counts n_pumps express ef = repeat 1 n_pumps.
Proof.
  intros Hn H. unfold pump_counts. assert (E : passes_for n_pumps express = n_pumps) by (unfold passes_for; destruct (Nat.eqb_spec express 0); lia). rewrite E.
  rewrite Nat.ltb_irrefl, andb_false_r. replace (INR n_pumps / INR n_pumps) with 1 by (field; apply not_0_INR; lia). reflexivity.
Qed.

(** ** Electrodes during pumping *)
Section Pump.
Context (im : image R) (d serial : direction R) (c : ccd R) (traps : traps_arg R) (dwell : list R) (n_pumps : nat) (ef : bool) (rows cols p : nat).
Hypothesis Hs : shape rows cols im.
Hypothesis Hp : forall i j, 0 <= pixel im i j.
Hypothesis Hset : pumping_setting d rows p c traps dwell n_pumps ef.
Hypothesis Hser : d_traps serial = None.
Hypothesis Hcols : columns_ok (selected (d_window serial) cols) cols.
Let N := (length dwell / 2)%nat.

Lemma pump_step_electrode e es k : In (e, es) (timed_steps (the_roe d)) -> In k (trap_phases c) ->
  exists step, nth_error (@generate_clock_sequence R _ false (2 * N) N) step = Some es /\ nth_error es k = Some (electrode es k).
Proof.
  intros Hin Hk. destruct (pump_the_roe d c traps dwell n_pumps ef rows p Hset) as [Er Hev]. rewrite Er in Hin.
  destruct (timed_in _ _ _ Hin) as [_ Hes]. cbn [pump_roe make_roe roe_clock_sequence] in Hes. rewrite Hev in Hes at 1. fold N in Hes.
  apply In_nth_error in Hes as [step Hes]. exists step. split; [exact Hes|]. destruct (generate_nth _ _ _ _ _ Hes) as (_ & Hl & _).
  unfold electrode. apply nth_error_nth'. apply trap_phases_lt in Hk. pose proof (pu_phases _ _ _ _ _ _ _ _ Hset). fold N in H. lia.
Qed.
Lemma pump_release e es k t : In (e, es) (timed_steps (the_roe d)) -> In k (trap_phases c) -> In t (rp_release (electrode es k)) ->
  (-1 <= t <= 1)%Z /\ (t = (-1)%Z -> (N <= 2 * k)%nat) /\ (t = 1%Z -> (2 * k <= N)%nat).
Proof. intros H1 H2 H3. destruct (pump_step_electrode e es k H1 H2) as (step & E1 & E2). destruct (pump_electrode N step es k _ E1 E2) as (_ & _ & G & _). exact (G t H3). Qed.
Lemma pump_lossless : lossless_row (trap_phases c) (timed_steps (the_roe d)) (rows + 1) (Z.of_nat p).
Proof.
  intros e es k H1 H2. destruct (pump_step_electrode e es k H1 H2) as (step & E1 & E2). destruct (pump_electrode N step es k _ E1 E2) as (_ & Hk & G & Hc & Hf & Hl & Hsum & Hh).
  pose proof (pu_row _ _ _ _ _ _ _ _ Hset) as Hrow. pose proof (pu_neighbour _ _ _ _ _ _ _ _ Hset) as Hnb. split; [|split].
  - apply Forall_forall. intros [x f] Hx. split; [|rewrite Forall_forall in Hf; apply Hf; eapply in_combine_r, Hx].
    destruct (G x (in_combine_l _ _ _ _ Hx)) as (R1 & R2 & _). destruct Hnb as [Hnb|Hnb]; [lia|]. assert (HN : N = 1%nat) by (unfold N; rewrite Hnb; reflexivity).
    destruct (Z.eq_dec x (-1)) as [E|E]; [specialize (R2 E); lia|lia].
  - rewrite <- Hsum at 1. f_equal. clear - Hl. revert Hl. generalize (rp_release (electrode es k)) (rp_fraction (electrode es k)). induction l as [|a l IH]; intros [|b l'] H; try discriminate; [reflexivity|].
    cbn [combine map snd]. f_equal. apply IH. cbn in H. lia.
  - intros H. destruct (Hh H) as [-> ->]. reflexivity.
Qed.

(** Only the pixel pumped and its neighbours change; traps that are nearer to the middle of
    the pixel than of the one on one side do not touch the pixel on the other side. *)
Lemma pumping_rows im' : add_cti im d serial None = Ok (im', the_roe d, the_roe serial) -> forall i j, 
  ((i + 1 < p)%nat \/ (p + 1 < i)%nat -> pixel im' i j = pixel im i j) /\
  ((forall k, In k (trap_phases c) -> (2 * k < N)%nat) -> (i + 1 = p)%nat -> pixel im' i j = pixel im i j) /\
  ((forall k, In k (trap_phases c) -> (N < 2 * k)%nat) -> (i = p + 1)%nat -> pixel im' i j = pixel im i j).
Proof.
  intros E i j. destruct (pumping_readout im d serial c traps dwell n_pumps ef rows cols p Hs Hp Hset Hser Hcols) as (im2 & E2 & G1 & _ & G3 & G4).
  rewrite E in E2. injection E2 as <-. pose proof (pu_row _ _ _ _ _ _ _ _ Hset) as Hrow.
  assert (G : (forall e es k t, In (e, es) (timed_steps (the_roe d)) -> In k (trap_phases c) -> In t (rp_release (electrode es k)) -> Z.of_nat i <> (Z.of_nat p + t)%Z) ->
    pixel im' i j = pixel im i j).
  { intros H. destruct (in_dec Z.eq_dec (Z.of_nat j) (selected (d_window serial) cols)) as [Hj|Hj]; [|apply G3, Hj].
    destruct (lt_dec i rows) as [Hi|Hi]; [|rewrite !(pixel_out rows cols) by (auto; lia); reflexivity].
    rewrite (G4 i j Hi Hj). rewrite pumped_frame; [unfold col_fun; rewrite Nat2Z.id; reflexivity|].
    intros e es k H1 H2 t Ht. exact (H e es k t H1 H2 Ht). }
  repeat split; intros H; intros; apply G; intros e es k t H1 H2 Ht; destruct (pump_release e es k t H1 H2 Ht) as (T1 & T2 & T3).
  - lia.
  - intros Eq. specialize (H k H2). assert (t = (-1)%Z) by lia. specialize (T2 H3). lia.
  - intros Eq. specialize (H k H2). assert (t = 1%Z) by lia. specialize (T3 H3). lia.
Qed.

(** Balance of charge. *)
Lemma pumping_account im' : add_cti im d serial None = Ok (im', the_roe d, the_roe serial) ->
  length (groups_in traps) = 1%nat -> every_pump d n_pumps -> forall j, In (Z.of_nat j) (selected (d_window serial) cols) ->
  let sites := site_of c (groups_in traps) in
  let held := trapped_electrons sites (trap_phases c) (still_trapped sites (trap_phases c) (timed_steps (the_roe d)) (Z.of_nat p) (repeat 1 n_pumps) (col_fun im j)) in
  let beyond := pumped sites (trap_phases c) (timed_steps (the_roe d)) (Z.of_nat p) (repeat 1 n_pumps) (col_fun im j) (Z.of_nat rows) in
  0 <= held /\ 0 <= beyond /\ ((p + 1 < rows)%nat -> beyond = 0) /\
  total rows (col_fun im' j) + held + beyond = total rows (col_fun im j).
Proof.
  intros E H1 Hev j Hj sites held byd. destruct (pumping_readout im d serial c traps dwell n_pumps ef rows cols p Hs Hp Hset Hser Hcols) as (im2 & E2 & G1 & _ & G3 & G4).
  rewrite E in E2. injection E2 as <-. pose proof (pu_row _ _ _ _ _ _ _ _ Hset) as Hrow.
  rewrite (counts_all n_pumps (d_express d) ef) in G4 by (auto; apply Hset).
  destruct (pumps_balance sites (trap_phases c) (timed_steps (the_roe d)) (rows + 1) (Z.of_nat p)) with (n := n_pumps) (c := col_fun im j) as (B1 & B2 & B3).
  - intros k Hk. apply site_good; [apply Hset|apply (pu_instant _ _ _ _ _ _ _ _ Hset)|apply trap_phases_lt, Hk].
  - apply trap_phases_nodup.
  - intros e es Hin. apply (timed_in _ _ _ Hin).
  - intros k _. cbn [sites site_of site_groups]. rewrite map_length. exact H1.
  - exact pump_lossless.
  - intros i. apply Hp.
  - assert (Hb : col_fun im j (Z.of_nat rows) = 0) by (unfold col_fun; rewrite Nat2Z.id; rewrite (pixel_out rows cols im rows j) by (auto; lia); reflexivity).
    split; [exact B2|]. split; [apply B1|]. split.
    + intros Hlt. unfold byd. rewrite pumped_frame; [exact Hb|]. intros e es k I1 I2 t Ht. destruct (pump_release e es k t I1 I2 Ht). lia.
    + rewrite Nat.add_1_r in B3. rewrite !total_S, Hb in B3. fold held byd in B3.
      replace (total rows (col_fun im' j)) with (total rows (pumped sites (trap_phases c) (timed_steps (the_roe d)) (Z.of_nat p) (repeat 1 n_pumps) (col_fun im j))); [lra|].
      apply total_ext. intros i Hi. unfold col_fun at 2. rewrite G4 by (try lia; exact Hj). rewrite Z2Nat.id by lia. reflexivity.
Qed.
Lemma pumping_charge im' : add_cti im d serial None = Ok (im', the_roe d, the_roe serial) ->
  length (groups_in traps) = 1%nat -> every_pump d n_pumps -> charge im' <= charge im.
Proof.
  intros E H1 Hev. destruct (pumping_readout im d serial c traps dwell n_pumps ef rows cols p Hs Hp Hset Hser Hcols) as (im2 & E2 & G1 & _ & G3 & _).
  rewrite E in E2. injection E2 as <-. rewrite (charge_columns rows cols im' G1), (charge_columns rows cols im Hs). apply Rsum_le. intros j _.
  destruct (in_dec Z.eq_dec (Z.of_nat j) (selected (d_window serial) cols)) as [Hj|Hj].
  - destruct (pumping_account im' E H1 Hev j Hj) as (A & B & _ & C). lra.
  - apply Req_le, total_ext. intros i _. unfold col_fun. apply G3, Hj.
Qed.

(** Nothing to exchange. *)
Lemma pumping_unchanged : no_density traps \/ (forall i j, pixel im i j = 0) -> add_cti im d serial None = Ok (im, the_roe d, the_roe serial).
Proof.
  intros H. destruct (pumping_readout im d serial c traps dwell n_pumps ef rows cols p Hs Hp Hset Hser Hcols) as (im' & E & G1 & _ & G3 & G4).
  rewrite E. do 3 f_equal. pose proof (pu_row _ _ _ _ _ _ _ _ Hset) as Hrow.
  assert (Hall : forall i j, pixel im' i j = pixel im i j).
  { intros i j. destruct (in_dec Z.eq_dec (Z.of_nat j) (selected (d_window serial) cols)) as [Hj|Hj]; [|apply G3, Hj].
    destruct (lt_dec i rows) as [Hi|Hi]; [|rewrite !(pixel_out rows cols) by (auto; lia); reflexivity].
    rewrite (G4 i j Hi Hj).
    assert (Hg : forall k, In k (trap_phases c) -> good_site (site_of c (groups_in traps) k)) by (intros k Hk; apply site_good; [apply Hset|apply (pu_instant _ _ _ _ _ _ _ _ Hset)|apply trap_phases_lt, Hk]).
    assert (Ht : forall e es, In (e, es) (timed_steps (the_roe d)) -> 0 < e) by (intros e es Hin; apply (timed_in _ _ _ Hin)).
    assert (Esame : col_fun im j (Z.of_nat i) = pixel im i j) by (unfold col_fun; rewrite Nat2Z.id; reflexivity). rewrite <- Esame.
    destruct H as [H|H].
    - apply pumped_no_density; auto; [|intros z; apply Hp]. intros k _. cbn [site_of site_groups]. unfold no_density in H. apply Forall_forall. intros g Hgi.
      apply in_map_iff in Hgi as (g0 & <- & Hg0). rewrite Forall_forall in H. specialize (H g0 Hg0). apply Forall_map. eapply Forall_impl; [|exact H].
      intros t Hz. cbn. rewrite Hz. lra.
    - apply pumped_zero; auto. intros z. apply H. }
  apply (image_ext rows cols); auto. 
Qed.
End Pump.
