(** * Trap pumping in terms of the pumping model. *)
From Coq Require Import ZArith List Bool Reals Lra Lia FinFun.
From Coquelicot Require Import Rcomplements Rbar Hierarchy RInt.
From Verif Require Import Num Py RFacts CCDModel TrapsModel ManagerModel ROEModel ClockModel MainModel Spec SpecROE SpecImage SpecReadout SpecColumn SpecPumping
  WmFacts ArrayFacts CutFacts InstantFacts ClockFacts MainFacts ShapeFacts ColumnFacts
  ROEClockFacts ROEMatrixFacts ROEExpressFacts ROEKindFacts ReadoutFacts ReadoutImage ReadoutForced ReadoutFull ReadoutSpecFacts ReadoutColumnFacts MainReadoutFacts.
Import ListNotations.
Open Scope R_scope.

(** ** The clock sequence of trap pumping *)
Definition pump_roe (dwell : list R) (n_pumps : nat) (ef : bool) (dt : dtype) : roe R :=
  make_roe (Pumping n_pumps ef) dwell dt true false (length dwell / 2).
Lemma pump_init dwell n_pumps ef dt r : roe_pumping_init dwell n_pumps ef dt = Ok r ->
  r = pump_roe dwell n_pumps ef dt /\ length dwell = (2 * (length dwell / 2))%nat.
Proof.
  unfold roe_pumping_init. destruct (Nat.even (length dwell)) eqn:E; [|discriminate]. intros H. injection H as <-. split; [reflexivity|].
  apply Nat.even_spec in E as [m Hm]. rewrite Hm at 2. rewrite (Nat.mul_comm 2 m), Nat.div_mul by lia. lia.
Qed.
Lemma pump_electrode N step rps phase rp : nth_error (@generate_clock_sequence R _ false (2 * N) N) step = Some rps -> nth_error rps phase = Some rp ->
  length rps = N /\ (phase < N)%nat /\
  (forall d, In d (rp_release rp) -> (-1 <= d <= 1)%Z /\ (d = (-1)%Z -> (N <= 2 * phase)%nat) /\ (d = 1%Z -> (2 * phase <= N)%nat)) /\
  In (rp_capture rp) (rp_release rp) /\
  Forall (Rle 0) (rp_fraction rp) /\ length (rp_release rp) = length (rp_fraction rp) /\ Rsum (rp_fraction rp) = 1 /\
  (rp_high rp = true -> rp_release rp = [rp_capture rp] /\ rp_fraction rp = [1]).
Proof.
  intros H1 H2. destruct (generate_nth false (2 * N) N step rps H1) as (Hs & Hl & G). destruct (G phase rp H2) as [Hp ->].
  split; [exact Hl|]. split; [exact Hp|]. assert (HN : (0 < N)%nat) by lia.
  pose proof (capture_in_release false N step phase HN Hs) as Hcap. set (rp := clock_phase _ _ _ _) in *.
  assert (Hfr : rp_fraction rp = repeat (1 / INR (length (rp_release rp))) (length (rp_release rp))) by exact (fraction_eq false N step phase HN Hs).
  assert (Hlen : (0 < length (rp_release rp))%nat) by (destruct (rp_release rp); [contradiction|cbn; lia]).
  assert (HL : 0 < INR (length (rp_release rp))) by (apply lt_0_INR, Hlen).
  split; [|split; [exact Hcap|split; [|split; [|split]]]].
  - intros d Hd. apply (release_nearest false N step phase HN Hs Hp) in Hd. apply nearest_iff, closest_iff in Hd; [|lia].
    pose proof (moved_range N step HN Hs) as Hm. unfold the_shift in Hd. cbn [andb] in Hd. rewrite Z.sub_0_r in Hd.
    assert (Hr : (-1 <= d <= 1)%Z) by nia. split; [exact Hr|]. split; intros ->; lia.
  - rewrite Hfr. apply Forall_forall. intros x Hx. apply repeat_spec in Hx. subst x. apply Rlt_le, Rdiv_lt_0_compat; lra.
  - rewrite Hfr, repeat_length. reflexivity.
  - rewrite Hfr, Rsum_repeat. field. lra.
  - intros Hh. apply (high_iff false N step phase HN Hs Hp) in Hh as [d Hd].
    destruct (high_targets false N step phase HN Hs Hp d Hd) as (_ & E1 & E2 & E3). fold rp in E1, E2, E3. rewrite E1. auto.
Qed.
Lemma pump_one step rps phase rp d : nth_error (@generate_clock_sequence R _ false 2 1) step = Some rps -> nth_error rps phase = Some rp ->
  In d (rp_release rp) -> (0 <= d)%Z.
Proof.
  intros H1 H2 Hd. destruct (pump_electrode 1 step rps phase rp H1 H2) as (_ & Hp & G & _). destruct (G d Hd) as (Hr & Hm & _).
  destruct (Z.eq_dec d (-1)) as [E|E]; [specialize (Hm E); lia|lia].
Qed.

(** Rows of padding. *)
Lemma padding_covers (r : roe R) : roe_pixels r = generate_pixels_accessed (roe_clock_sequence r) -> exists n, n_padding r = Ok n /\
  forall d, In d (roe_pixels r) -> (d <= Z.of_nat n)%Z.
Proof.
  intros Hpx. unfold n_padding. remember (roe_pixels r) as px eqn:Epx.
  assert (H0 : exists l, px = 0%Z :: l) by (subst px; rewrite Hpx; eexists; reflexivity). destruct H0 as [l ->].
  cbn [py_max py_min bind]. pose proof (list_max_ge l 0) as [M1 M2]. pose proof (list_min_le l 0) as [m1 m2].
  eexists. split; [reflexivity|]. intros d Hd. destruct Hd as [<-|Hd]; [lia|]. specialize (M2 d Hd). lia.
Qed.
Lemma pump_safe dwell n_pumps ef dt n rows (p : nat) es k e : length dwell = (2 * (length dwell / 2))%nat ->
  n_padding (pump_roe dwell n_pumps ef dt) = Ok n -> (p < rows)%nat -> (1 <= p)%nat \/ length dwell = 2%nat ->
  In es (roe_clock_sequence (pump_roe dwell n_pumps ef dt)) -> nth_error es k = Some e -> safe (rows + n) (Z.of_nat p) e.
Proof.
  intros Hev Hn Hp Hnb Hes He. destruct (padding_covers (pump_roe dwell n_pumps ef dt) eq_refl) as (n' & Hn' & Hmax). rewrite Hn in Hn'. injection Hn' as <-.
  apply In_nth_error in Hes as [step Hes].
  pose proof Hes as Hes'. cbn [pump_roe make_roe roe_clock_sequence] in Hes'. rewrite Hev in Hes' at 1.
  destruct (pump_electrode _ _ _ _ _ Hes' He) as (_ & Hk & G & Hc & _).
  assert (Hin : forall d, In d (rp_release e) -> inside (rows + n) (Z.of_nat p + d)).
  { intros d Hd. pose proof (Hmax d (in_pixels _ _ _ _ _ d Hes He (or_intror Hd))). destruct (G d Hd) as (Hr & _ & _). unfold inside.
    assert ((0 <= Z.of_nat p + d)%Z); [|lia]. destruct Hnb as [Hnb|Hnb]; [lia|].
    rewrite Hnb in Hes'. change (2 * (2 / 2))%nat with 2%nat in Hes'. change (2 / 2)%nat with 1%nat in Hes'. pose proof (pump_one _ _ _ _ d Hes' He Hd). lia. }
  split; [apply Hin, Hc|exact Hin].
Qed.

(** ** The matrices of trap pumping of one pixel *)
Lemma counts_eq n_pumps express ef : @pumping_multipliers R _ n_pumps (express_used n_pumps express) ef DFloat = pump_counts n_pumps express ef.
Proof. unfold pumping_multipliers, pump_counts. rewrite !nofN_INR. change (express_used n_pumps express) with (passes_for n_pumps express). reflexivity. Qed.
Lemma counts_pos n_pumps express ef : (0 < n_pumps)%nat -> Forall (Rlt 0) (pump_counts n_pumps express ef).
Proof. intros H. rewrite <- counts_eq. apply multipliers_pos. apply express_used_pos, H. Qed.
Lemma one_pixel_express n_pumps express ef p : (0 < n_pumps)%nat ->
  pumping_express n_pumps ef DFloat [p] express = Ok (map (fun x => [x]) (pump_counts n_pumps express ef), map (fun _ => [true]) (pump_counts n_pumps express ef)).
Proof.
  intros H. unfold pumping_express. pose proof (express_used_pos n_pumps express H) as HE. destruct (Nat.eqb_spec (express_used n_pumps express) 0); [lia|].
  rewrite counts_eq. cbn [length seq flat_map]. rewrite app_nil_r. cbn [map Nat.eqb]. do 2 f_equal. unfold positive_mask. rewrite map_map. apply map_ext_in. intros x Hx.
  cbn [map]. rnum. pose proof (counts_pos n_pumps express ef H) as HP. rewrite Forall_forall in HP. rewrite (proj2 (Rltb_true 0 x)) by (apply HP, Hx). reflexivity.
Qed.
Lemma one_pixel_save (mults : list R) : mults <> [] ->
  pumping_save (map (fun x => [x]) mults) = Ok (map (fun i => [negb (Nat.eqb (S i) (length mults))]) (seq 0 (length mults))).
Proof. intros H. unfold pumping_save. destruct mults as [|x l]; [congruence|]. cbn [map length Nat.leb Nat.eqb]. rewrite map_length. reflexivity. Qed.

(** The passes: one pump each, saving the trap states after every pump but the last. *)
Definition pump_passes (p : Z) (mults : list R) : list (list (Z * R * bool)) :=
  map (fun '(x, i) => [(p, x, negb (Nat.eqb (S i) (length mults)))]) (combine mults (seq 0 (length mults))).
Lemma combine_pump p (mults : list R) :
  map (fun '(e, (m, s)) => cells_of [p] e m s) (combine (map (fun x => [x]) mults) (combine (map (fun _ => [true]) mults) (map (fun i => [negb (Nat.eqb (S i) (length mults))]) (seq 0 (length mults)))))
  = pump_passes p mults.
Proof.
  unfold pump_passes. generalize (length mults) at 1 3 as n. generalize 0%nat as s. induction mults as [|x l IH]; intros s n; [reflexivity|].
  cbn [length seq map combine]. f_equal. apply IH.
Qed.
(** Saving or not, the pumps follow each other with the traps as they are. *)
Lemma readout_pumped sites phases steps p mults c : readout sites phases steps (pump_passes p mults) c = pumped sites phases steps p mults c.
Proof.
  unfold readout, pumped, pumps, pump_passes.
  assert (G : forall l s c T, (s + length l = length mults)%nat ->
    fst (fold_left (transfer_pass sites phases steps) (map (fun '(x, i) => [(p, x, negb (Nat.eqb (S i) (length mults)))]) (combine l (seq s (length l)))) (c, T)) =
    fst (fold_left (fun st m => transfer_pixel sites phases steps p m st) l (c, T))).
  { clear c. induction l as [|x l IH]; intros s c T Hl; [reflexivity|]. cbn [length seq combine map fold_left] in *.
    unfold transfer_pass at 2. cbn [fold_left]. unfold pass_cell. destruct (transfer_pixel sites phases steps p x (c, T)) as [c' T'].
    destruct (Nat.eqb_spec (S s) (length mults)) as [E|E]; cbn [negb].
    - assert (l = []) by (destruct l; [reflexivity|cbn in Hl; lia]). subst l. reflexivity.
    - apply IH. lia. }
  apply G. lia.
Qed.
(** Enough free levels. *)
Lemma pump_rooms (steps : list (R * list (roe_phase R))) (mults : list R) : exists us,
  rooms steps (map (fun '(e, (m, s)) => zip_cells e m s) (combine (map (fun x => [x]) mults) (combine (map (fun _ => [true]) mults) (map (fun i => [negb (Nat.eqb (S i) (length mults))]) (seq 0 (length mults))))))
    (length mults * length steps) = Some us.
Proof.
  assert (G : forall l s u, (s + length l = length mults)%nat -> (length l * length steps <= u)%nat ->
    exists us, rooms steps (map (fun '(e, (m, s)) => zip_cells e m s) (combine (map (fun x => [x]) l) (combine (map (fun _ => [true]) l) (map (fun i => [negb (Nat.eqb (S i) (length mults))]) (seq s (length l)))))) u = Some us).
  { induction l as [|x l IH]; intros s u Hl Hu; [eexists; reflexivity|]. cbn [length seq map combine rooms] in *.
    unfold zip_cells at 1. cbn [combine map room negb]. destruct (Nat.leb_spec (length steps) u) as [_|Hc]; [|nia].
    destruct (Nat.eqb_spec (S s) (length mults)) as [E|E]; cbn [negb]; apply IH; lia. }
  apply (G mults 0%nat); lia.
Qed.
Lemma counts_ne n_pumps express ef : (0 < n_pumps)%nat -> pump_counts n_pumps express ef <> [].
Proof.
  intros H. unfold pump_counts. pose proof (express_used_pos n_pumps express H) as HE. change (express_used n_pumps express) with (passes_for n_pumps express) in HE.
  destruct (_ && _)%bool; [discriminate|]. destruct (passes_for n_pumps express); [lia|discriminate].
Qed.

(** ** Clocking *)
Section Pump.
Context (im : image R) (d serial : direction R) (c : ccd R) (traps : traps_arg R) (dwell : list R) (n_pumps : nat) (ef : bool) (rows cols p : nat).
Hypothesis Hs : shape rows cols im.
Hypothesis Hp : forall i j, 0 <= pixel im i j.
Hypothesis Hset : pumping_setting d rows p c traps dwell n_pumps ef.
Hypothesis Hser : d_traps serial = None.
Hypothesis Hcols : columns_ok (selected (d_window serial) cols) cols.

Lemma pump_the_roe : the_roe d = pump_roe dwell n_pumps ef DFloat /\ length dwell = (2 * (length dwell / 2))%nat.
Proof. destruct (pu_roe _ _ _ _ _ _ _ _ Hset) as (r & Er & Ed). unfold the_roe. rewrite Ed. exact (pump_init _ _ _ _ _ Er). Qed.

Lemma pumping_readout : exists im', add_cti im d serial None = Ok (im', the_roe d, the_roe serial) /\
  shape rows cols im' /\ (forall i j, 0 <= pixel im' i j) /\
  (forall i j, ~ In (Z.of_nat j) (selected (d_window serial) cols) -> pixel im' i j = pixel im i j) /\
  forall i j, (i < rows)%nat -> In (Z.of_nat j) (selected (d_window serial) cols) ->
    pixel im' i j = pumped (site_of c (groups_in traps)) (trap_phases c) (timed_steps (the_roe d)) (Z.of_nat p)
                      (pump_counts n_pumps (d_express d) ef) (col_fun im j) (Z.of_nat i).
Proof.
  destruct Hset as [Ec Et _ Ew Hrow Hnb Hn Hc Hph Hi]. destruct pump_the_roe as [Er Hev]. destruct Hcols as [Hnd Hrange].
  assert (Hr : (0 < rows)%nat) by lia. set (mults := pump_counts n_pumps (d_express d) ef).
  rewrite (add_cti_only_parallel im d serial traps Et Hser). rewrite (shape_columns rows cols im Hs Hr), !resolve_selected, Ew. pose proof (proj1 Hs) as ->.
  cbn [selected]. unfold clock_direction. rewrite Ec, Er. set (r := pump_roe dwell n_pumps ef DFloat).
  destruct (padding_covers r eq_refl) as (n & Hpad & _).
  destruct (pump_rooms (timed_steps r) mults) as (us & Hus).
  assert (Hseq : length (roe_clock_sequence r) = length (roe_dwell_times r)) by (cbn; unfold generate_clock_sequence; rewrite map_length, seq_length; reflexivity).
  destruct (clocking_readout im c r r traps (groups_in traps) (d_express d) (d_offset d) [Z.of_nat p] (selected (d_window serial) cols) (whole rows (d_offset d))
    (map (fun x => [x]) mults) (map (fun _ => [true]) mults) (map (fun i => [negb (Nat.eqb (S i) (length mults))]) (seq 0 (length mults))) rows cols n us)
    as (im' & G1 & G2 & G3 & G4); auto.
  - apply groups_normalised, Hi.
  - apply Hi.
  - unfold express_and_monitor. cbn [r pump_roe make_roe roe_kind_of roe_dtype]. rewrite (one_pixel_express n_pumps (d_express d) ef (Z.of_nat p) Hn). reflexivity.
  - unfold save_matrix. cbn [r pump_roe make_roe roe_kind_of]. apply one_pixel_save, counts_ne, Hn.
  - rewrite <- Hus. f_equal. unfold max_n_transfers. cbn [r pump_roe make_roe roe_kind_of]. fold r. rewrite map_length, (steps_length r Hseq). reflexivity.
  - apply Forall_forall. intros cells Hin. apply in_map_iff in Hin as ([e [m s]] & <- & Hin). apply in_combine3 in Hin as (H1 & H2 & H3).
    apply in_map_iff in H1 as (? & <- & _), H2 as (? & <- & _), H3 as (? & <- & _). cbn. lia.
  - intros row es k e [<-|[]] Hes _ He. exact (pump_safe dwell n_pumps ef DFloat n rows p es k e Hev Hpad Hrow Hnb Hes He).
  - intros es Hes. apply In_nth_error in Hes as [step Hes]. cbn [r pump_roe make_roe roe_clock_sequence] in Hes. rewrite Hev in Hes at 1.
    destruct (generate_nth _ _ _ _ _ Hes) as (_ & -> & _). exact Hph.
  - exists im'. rewrite G1. split; [reflexivity|]. split; [exact G2|]. split; [|split; [exact G3|]].
    + apply nonneg_iff. destruct (clocking_ok _ _ _ _ _ _ _ _ _ _ _ _ _ Hs Hr G1) as [_ _ _ HS]. intros i0 j0. apply HS; [|apply nonneg_iff, Hp]. rnum. apply Rltb_false. lra.
    + intros i j Hi' Hj. rewrite (G4 i j Hi' Hj), combine_pump, readout_pumped. reflexivity.
Qed.
End Pump.
