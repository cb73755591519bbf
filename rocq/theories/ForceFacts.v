(** * Without force_release_away_from_readout the first row is exchanged with row -1. *)
From Coq Require Import ZArith List Bool Reals Lra Lia.
From Coquelicot Require Import Rcomplements Rbar Hierarchy RInt.
From Verif Require Import Num Py RFacts CCDModel TrapsModel ManagerModel ROEModel ClockModel MainModel Spec SpecROE SpecImage SpecReadout SpecColumn
  ClockFacts MainFacts ROEClockFacts ROEMatrixFacts ROEExpressFacts ROEKindFacts ReadoutFacts ReadoutImage ReadoutForced ReadoutFull MainReadoutFacts.
Import ListNotations.
Open Scope R_scope.

Lemma foldM_hits {A St} (f : St -> A -> result St) l x : In x l -> forall s s', foldM f l s = Ok s' ->
  exists s1 s2, f s1 x = Ok s2.
Proof.
  induction l as [|a l IH]; intros Hin s s' H; [destruct Hin|]. cbn in H.
  apply bind_ok in H as (s1 & H1 & H2). destruct Hin as [->|Hin]; [eauto|]. exact (IH Hin s1 s' H2).
Qed.

Lemma row_access c r row mult st st' step dw phase rps rp : clock_one_row c r row mult st = @Ok (list R * list (list (manager R))) st' ->
  In (step, dw) (steps_with_dwell r) -> In phase (phases_with_traps c) ->
  nth_error (roe_clock_sequence r) step = Some rps -> nth_error rps phase = Some rp ->
  (0 <= row + rp_capture rp)%Z.
Proof.
  intros H Hs Hp E1 E2. apply (foldM_hits _ _ _ Hs) in H as (s1 & s2 & H). cbn beta iota in H.
  apply (foldM_hits _ _ _ Hp) in H as ([col data] & s4 & H). cbn beta iota in H. rewrite E1 in H. cbn in H. rewrite E2 in H. cbn in H.
  apply bind_ok in H as (charge & H & _). unfold cy_index in H.
  destruct (Z.leb_spec 0 (row + rp_capture rp)); [assumption|discriminate].
Qed.

Lemma nth_error_nth0 {A} (l : list A) k d : (k < length l)%nat -> nth_error l k = Some (nth k l d).
Proof. revert k. induction l; intros [|k] H; cbn in *; try lia; [reflexivity|]. apply IHl. lia. Qed.

Lemma in_combine_nth {A B} (a : list A) (b : list B) k x y : nth_error a k = Some x -> nth_error b k = Some y -> In (x, y) (combine a b).
Proof.
  revert b k. induction a as [|a0 a IH]; intros [|b0 b] [|k] E1 E2; try discriminate; cbn in *.
  - injection E1 as ->. injection E2 as ->. auto.
  - right. eauto.
Qed.

Lemma nth_zip_cells' (a : list R) b s n k : length a = n -> length b = n -> length s = n -> (k < n)%nat ->
  nth k (zip_cells a b s) (0, false, false) = (nth k a 0, nth k b false, nth k s false).
Proof.
  revert b s n k. induction a as [|x a IH]; intros [|y b] [|z s] n k Ha Hb Hs Hk; cbn in *; try lia.
  destruct k; [reflexivity|]. destruct n; [lia|]. cbn. apply (IH b s n); lia.
Qed.

Lemma monitored_row im c r traps express offset window columns tw r' em mon sav E W e k row res :
  express_and_monitor r window express offset tw = Ok (r', em, mon) -> save_matrix r' em = Ok sav ->
  rect E W em -> rect E W mon -> rect E W sav -> (e < E)%nat -> (k < W)%nat ->
  bentry mon e k = true -> nth_error window k = Some row -> columns <> [] ->
  clock_charge_in_one_direction im c r traps express offset window columns tw = @Ok (image R * roe R) res ->
  exists mult st st', clock_one_row c r' row mult st = Ok st'.
Proof.
  intros E1 E2 He Hm Hs Hle Hlk Hb Hw Hc H. unfold clock_charge_in_one_direction in H.
  rewrite E1 in H. cbn [bind] in H. rewrite E2 in H. cbn [bind] in H.
  apply bind_ok in H as (a & _ & H). apply bind_ok in H as (n & _ & H). apply bind_ok in H as ([im' a'] & H & _).
  destruct columns as [|j columns]; [congruence|]. unfold clock_columns in H.
  apply (foldM_hits _ (j :: columns) j (or_introl eq_refl)) in H as ([im1 a1] & s2 & H). unfold clock_one_column in H.
  destruct (_ && _)%bool; [|discriminate]. apply bind_ok in H as ([col' a2] & H & _). unfold clock_column in H.
  assert (Hin : In (zip_cells (nth e em []) (nth e mon []) (nth e sav [])) (map (fun '(e, (m, s)) => zip_cells e m s) (combine em (combine mon sav)))).
  { apply in_map_iff. exists (nth e em [], (nth e mon [], nth e sav [])). split; [reflexivity|].
    destruct He as [He _], Hm as [Hm _], Hs as [Hs _].
    apply (in_combine_nth _ _ e). { apply nth_error_nth0. congruence. }
    rewrite (nth_error_nth0 _ e ([], [])) by (rewrite combine_length; lia). f_equal. apply combine_nth. congruence. }
  apply (foldM_hits _ _ _ Hin) in H as (st1 & st2 & H). unfold clock_pass_rows in H.
  assert (Le : length (nth e em []) = W) by (apply (Forall_rect E W em); [assumption|apply nth_In; destruct He; congruence]).
  assert (Lm : length (nth e mon []) = W) by (apply (Forall_rect E W mon); [assumption|apply nth_In; destruct Hm; congruence]).
  assert (Ls : length (nth e sav []) = W) by (apply (Forall_rect E W sav); [assumption|apply nth_In; destruct Hs; congruence]).
  assert (Hin2 : In (k, (nth k (nth e em []) 0, true, nth k (nth e sav []) false)) (combine (seq 0 (length (zip_cells (nth e em []) (nth e mon []) (nth e sav []))))
     (zip_cells (nth e em []) (nth e mon []) (nth e sav [])))).
  { pose proof (zip_cells_length _ _ _ W Le Lm Ls) as Lz. apply (in_combine_nth _ _ k).
    - rewrite (nth_error_nth0 _ k 0%nat) by (rewrite seq_length; lia). rewrite seq_nth by lia. reflexivity.
    - rewrite (nth_error_nth0 _ k (0, false, false)) by lia. rewrite (nth_zip_cells' _ _ _ W) by auto. unfold bentry in Hb. rewrite Hb. reflexivity. }
  apply (foldM_hits _ _ _ Hin2) in H as ([col3 a3] & s4 & H). unfold clock_cell in H. cbn [negb] in H. rewrite Hw in H.
  apply bind_ok in H as ([col4 d4] & H & _). eauto.
Qed.

(** The first clocking step, last phase. *)
Lemma back_step n_steps N : (2 <= N)%nat -> (0 < n_steps)%nat -> exists rps rp,
  nth_error (@generate_clock_sequence R _ false n_steps N) 0 = Some rps /\ nth_error rps (N - 1) = Some rp /\ rp_capture rp = (-1)%Z.
Proof.
  intros HN Hs. unfold generate_clock_sequence.
  exists (map (fun phase => clock_phase false (Z.of_nat N) 0 (Z.of_nat phase)) (seq 0 N)), (clock_phase false (Z.of_nat N) 0 (Z.of_nat (N - 1))).
  split; [|split].
  - destruct n_steps; [lia|]. reflexivity.
  - rewrite nth_error_map. rewrite (nth_error_nth0 _ _ 0%nat) by (rewrite seq_length; lia). rewrite seq_nth by lia. reflexivity.
  - unfold clock_phase. cbn [rp_capture andb].
    replace (step_prime (Z.of_nat N) 0) with 0%Z by (pose proof (step_prime_moved N 0 ltac:(lia) ltac:(lia)) as G; cbn in G; rewrite G; reflexivity).
    set (n := Z.of_nat N). assert (Hn : (2 <= n)%Z) by lia. replace (Z.of_nat (N - 1)) with (n - 1)%Z by lia.
    pose proof (Z.div_mod (n - 1) 2 ltac:(lia)). pose proof (Z.mod_pos_bound (n - 1) 2 ltac:(lia)).
    symmetry. apply (Z.div_unique _ _ _ (n + (0 - (n - 1) + (n - 1) / 2))); lia.
Qed.

Lemma in_phases (c : ccd R) k : 0 < nth k (ccd_fractions c) 0 -> In k (phases_with_traps c).
Proof.
  intros H. assert (Hk : (k < length (ccd_fractions c))%nat). { destruct (Nat.lt_ge_cases k (length (ccd_fractions c))); [assumption|]. rewrite nth_overflow in H by assumption. lra. }
  unfold phases_with_traps. apply in_map_iff. exists (k, nth k (ccd_fractions c) 0). split; [reflexivity|].
  apply filter_In. split; [|rnum; apply Rltb_true; exact H].
  apply (in_combine_nth _ _ k); [|apply nth_error_nth0; assumption].
  rewrite (nth_error_nth0 _ k 0%nat) by (rewrite seq_length; lia). rewrite seq_nth by lia. reflexivity.
Qed.
Lemma in_steps (r : roe R) k : 0 < nth k (roe_dwell_times r) 0 -> In (k, nth k (roe_dwell_times r) 0) (steps_with_dwell r).
Proof.
  intros H. assert (Hk : (k < length (roe_dwell_times r))%nat). { destruct (Nat.lt_ge_cases k (length (roe_dwell_times r))); [assumption|]. rewrite nth_overflow in H by assumption. lra. }
  unfold steps_with_dwell. apply filter_In. split; [|rnum; apply Rltb_true; exact H].
  apply (in_combine_nth _ _ k); [|apply nth_error_nth0; assumption].
  rewrite (nth_error_nth0 _ k 0%nat) by (rewrite seq_length; lia). rewrite seq_nth by lia. reflexivity.
Qed.

(** A monitored row 0 is never read out. *)
Lemma row_zero_fails im c r traps express offset window columns tw r' em mon sav E W e k res N :
  express_and_monitor r window express offset tw = Ok (r', em, mon) -> save_matrix r' em = Ok sav ->
  rect E W em -> rect E W mon -> rect E W sav -> (e < E)%nat -> (k < W)%nat ->
  bentry mon e k = true -> nth_error window k = Some 0%Z -> columns <> [] ->
  roe_clock_sequence r' = generate_clock_sequence false (length (roe_dwell_times r')) N -> (2 <= N)%nat ->
  0 < nth 0 (roe_dwell_times r') 0 -> 0 < nth (N - 1) (ccd_fractions c) 0 ->
  clock_charge_in_one_direction im c r traps express offset window columns tw <> @Ok (image R * roe R) res.
Proof.
  intros E1 E2 He Hm Hs Hle Hlk Hb Hw Hc Hcs HN Hd Hf H.
  destruct (monitored_row im c r traps express offset window columns tw r' em mon sav E W e k 0%Z res E1 E2 He Hm Hs Hle Hlk Hb Hw Hc H) as (mult & st & st' & H').
  assert (Hlen : (0 < length (roe_dwell_times r'))%nat) by (destruct (roe_dwell_times r'); cbn in *; [lra|lia]).
  destruct (back_step (length (roe_dwell_times r')) N HN Hlen) as (rps & rp & F1 & F2 & F3).
  pose proof (row_access c r' 0%Z mult st st' 0%nat _ (N - 1)%nat rps rp H' (in_steps r' 0 Hd) (in_phases c (N - 1) Hf)) as G.
  rewrite Hcs in G. specialize (G F1 F2). rewrite F3 in G. lia.
Qed.

Lemma transfers_pos (m : matrix R) k : 0 < transfers m k -> exists e, (e < length m)%nat /\ 0 < entry m e k.
Proof.
  unfold transfers. generalize (length m). intros n. induction n as [|n IH]; cbn; intros H; [lra|].
  destruct (Rlt_dec 0 (entry m n k)); [exists n; auto with arith|].
  destruct IH as (e & He & G); [lra|]. exists e. split; [lia|assumption].
Qed.

Lemma standard_save_rect ef (em : matrix R) sav E W : rect E W em -> (0 < E)%nat -> standard_save ef em = Ok sav -> rect E W sav.
Proof.
  intros [He Hf] HE H. unfold standard_save in H. destruct ef.
  - injection H as <-. split; [rewrite map_length; assumption|]. apply Forall_map. eapply Forall_impl; [|exact Hf]. intros r <-. apply map_length.
  - destruct (_ && _)%bool; [discriminate|]. injection H as <-.
    split; [rewrite map_length, seq_length; assumption|]. apply Forall_map, Forall_forall. intros e _.
    assert (EW : match em with [] => 0%nat | r :: _ => length r end = W). { destruct em; [cbn in He; lia|]. inversion Hf; assumption. }
    rewrite EW. destruct (Nat.ltb _ _); [|apply repeat_length].
    rewrite upd_length. apply repeat_length.
Qed.

(** add_cti, default windows, standard ROE. *)
Lemma force_false_fails im d serial rows cols c traps dwell ef eb dt res :
  shape rows cols im -> (0 < rows)%nat -> d_window d = WNone -> selected (d_window serial) cols <> [] ->
  d_ccd d = Some c -> d_traps d = Some traps -> d_roe d = Some (roe_init dwell ef eb false dt) ->
  (2 <= length dwell)%nat -> 0 < nth 0 dwell 0 -> 0 < nth (length dwell - 1) (ccd_fractions c) 0 ->
  add_cti im d serial None <> Ok res.
Proof.
  intros Hs Hr Hw Hsel Hc Ht Hroe HN Hd Hf H. destruct res as [[im' pr] sr].
  apply add_cti_halves in H as (tw' & columns & im1 & Etw & H & _). rewrite Ht in H. unfold clock_direction in H. rewrite Hc in H.
  cbn in Etw. injection Etw as <- _.
  assert (Ecols : n_columns im = cols). { destruct Hs as [<- Hs]. destruct im; [cbn in Hr; lia|]. inversion Hs; assumption. }
  assert (Erows : length im = rows) by apply Hs.
  rewrite Hw, Ecols, Erows in H. cbn [selected] in H. unfold the_roe in H. rewrite Hroe in H.
  pose proof H as H0. unfold clock_charge_in_one_direction in H0. apply bind_ok in H0 as ([[r' em] mon] & E1 & H0).
  apply bind_ok in H0 as (sav & E2 & _). pose proof E1 as E1'. cbn in E1. apply bind_ok in E1 as ([em' mon'] & E1 & E3). injection E3 as <- <- <-.
  assert (Hwin : window_ok (map Z.of_nat (seq 0 rows)) rows).
  { split; [apply Forall_map, Forall_forall; intros x Hx; apply in_seq in Hx; lia|]. apply in_map_iff. exists (rows - 1)%nat. rewrite in_seq. lia. }
  rewrite (window_whole ef dt _ rows (d_express d) (d_offset d) Hwin _ (Z.le_refl _)) in E1.
  destruct (column_transfers ef dt _ rows (d_express d) (d_offset d) Hwin em' mon' E1) as (E & Re & Rm & HE & G).
  rewrite map_length, seq_length in Re, Rm.
  assert (Hn0 : nth_error (map Z.of_nat (seq 0 rows)) 0 = Some 0%Z) by (destruct rows; [lia|reflexivity]).
  destruct (G 0%nat 0%Z Hn0) as [Gt Gm].
  destruct (transfers_pos em' 0) as (e & He & Hpos). { rewrite Gt. pose proof (pos_INR (d_offset d)). lra. }
  rewrite (rect_len _ _ _ Re) in He. destruct (Gm e He) as [_ Gmon]. apply Gmon in Hpos.
  eapply (row_zero_fails im c _ traps _ _ _ _ _ _ em' mon' sav E rows e 0%nat (im1, pr) (length dwell) E1' E2 Re Rm); try eassumption.
  - cbn in E2. exact (standard_save_rect ef em' sav E rows Re HE E2).
  - reflexivity.
Qed.

(** The same for charge injection. *)
Lemma force_false_injection im d serial rows cols c traps dwell npt eb res :
  shape rows cols im -> (0 < rows)%nat -> d_window d = WNone -> selected (d_window serial) cols <> [] ->
  d_ccd d = Some c -> d_traps d = Some traps -> d_roe d = Some (roe_injection_init dwell npt eb false DFloat) ->
  (2 <= length dwell)%nat -> 0 < nth 0 dwell 0 -> 0 < nth (length dwell - 1) (ccd_fractions c) 0 ->
  (0 < injection_transfers npt rows (d_offset d))%nat ->
  add_cti im d serial None <> Ok res.
Proof.
  intros Hs Hr Hw Hsel Hc Ht Hroe HN Hd Hf Hnpt H. destruct res as [[im' pr] sr].
  apply add_cti_halves in H as (tw' & columns & im1 & Etw & H & _). rewrite Ht in H. unfold clock_direction in H. rewrite Hc in H.
  cbn in Etw. injection Etw as <- _.
  assert (Ecols : n_columns im = cols). { destruct Hs as [<- Hs]. destruct im; [cbn in Hr; lia|]. inversion Hs; assumption. }
  assert (Erows : length im = rows) by apply Hs.
  rewrite Hw, Ecols, Erows in H. cbn [selected] in H. unfold the_roe in H. rewrite Hroe in H.
  assert (Hwin : window_ok (map Z.of_nat (seq 0 rows)) rows).
  { split; [apply Forall_map, Forall_forall; intros x Hx; apply in_seq in Hx; lia|]. apply in_map_iff. exists (rows - 1)%nat. rewrite in_seq. lia. }
  destruct (injection_at npt (map Z.of_nat (seq 0 rows)) rows (d_express d) (d_offset d) Hwin
              (Some (0%Z, Z.of_nat (rows + d_offset d))) Hnpt) as (em & mon & E1 & Re & Rm & [HE _] & G).
  { cbn. lia. }
  change (tw_arg (Some (0%Z, Z.of_nat (rows + d_offset d)))) with (Some (py_range 0 (Z.of_nat (rows + d_offset d)))) in E1.
  eapply (row_zero_fails im c _ traps _ _ _ _ _ _ em mon (injection_save em) _ rows 0%nat 0%nat (im1, pr) (length dwell)); try eassumption.
  - unfold express_and_monitor. cbn [roe_kind_of roe_injection_init make_roe roe_dtype]. rewrite E1. cbn [bind]. reflexivity.
  - reflexivity.
  - destruct Re as [Re1 Re2]. unfold injection_save. split; [rewrite map_length; exact Re1|].
    apply Forall_map. eapply Forall_impl; [|exact Re2]. intros x <-. apply map_length.
  - apply (G 0%nat 0%nat); assumption.
  - destruct rows; [lia|reflexivity].
  - reflexivity.
  - exact Hd.
Qed.

(** Trap pumping of row 0. *)
Lemma pumping_row_zero im d serial rows cols c traps dwell n_pumps ef dt r res :
  shape rows cols im -> (0 < rows)%nat -> d_window d = WInt 0 -> selected (d_window serial) cols <> [] ->
  d_ccd d = Some c -> d_traps d = Some traps -> roe_pumping_init dwell n_pumps ef dt = Ok r -> d_roe d = Some r ->
  (4 <= length dwell)%nat -> 0 < nth 0 dwell 0 -> 0 < nth (length dwell / 2 - 1) (ccd_fractions c) 0 ->
  (0 < n_pumps)%nat ->
  add_cti im d serial None <> Ok res.
Proof.
  intros Hs Hr Hw Hsel Hc Ht Er Hroe HN Hd Hf Hnp H. destruct res as [[im' pr] sr].
  apply add_cti_halves in H as (tw' & columns & im1 & Etw & H & _). rewrite Ht in H. unfold clock_direction in H. rewrite Hc in H.
  cbn in Etw. injection Etw as <- _.
  assert (Ecols : n_columns im = cols). { destruct Hs as [<- Hs]. destruct im; [cbn in Hr; lia|]. inversion Hs; assumption. }
  assert (Erows : length im = rows) by apply Hs.
  rewrite Hw, Ecols, Erows in H. cbn [selected] in H. unfold the_roe in H. rewrite Hroe in H.
  unfold roe_pumping_init in Er. destruct (Nat.even _); [|discriminate]. injection Er as <-.
  destruct (pumping_ok n_pumps (d_express d) ef dt [0%Z] Hnp) as (em & mon & E1 & Re & Em & G & _).
  set (E := (length [0%Z] * length (@pumping_multipliers R _ n_pumps (express_used n_pumps (d_express d)) ef dt))%nat) in *. cbn [length] in Re.
  destruct (transfers_pos em 0) as (e & He & Hpos). { rewrite G by (cbn; lia). apply lt_0_INR. lia. }
  rewrite (rect_len _ _ _ Re) in He.
  destruct (pumping_save_one n_pumps (d_express d) ef dt [0%Z] Hnp em mon eq_refl E1) as (sav & E2 & _).
  assert (Rm : rect E 1 mon).
  { subst mon. destruct Re as [Re1 Re2]. unfold positive_mask. split; [rewrite map_length; exact Re1|]. apply Forall_map. eapply Forall_impl; [|exact Re2]. intros x <-. apply map_length. }
  assert (Rs : rect E 1 sav).
  { unfold pumping_save in E2. destruct (Nat.leb _ _); [discriminate|]. destruct (Nat.eqb_spec (match em with [] => 0%nat | r :: _ => length r end) 0) as [E0|_].
    { exfalso. destruct em as [|r0 em]; [destruct Re as [Re _]; cbn in Re; lia|]. destruct Re as [_ Re]. inversion Re. lia. }
    injection E2 as <-. split; [rewrite map_length, seq_length; apply Re|]. apply Forall_map, Forall_forall. reflexivity. }
  set (r0 := make_roe _ _ _ _ _ _) in *.
  refine (row_zero_fails im c r0 traps _ _ [0%Z] _ _ r0 em mon sav E 1%nat e 0%nat (im1, pr) (length dwell / 2) _ _ Re Rm Rs He (le_n 1) _ eq_refl Hsel _ _ Hd Hf H).
  - unfold express_and_monitor. cbn [roe_kind_of r0 make_roe roe_dtype]. rewrite E1. reflexivity.
  - exact E2.
  - subst mon. unfold bentry, positive_mask, entry in *.
    change (@nil bool) with (map (fun x : R => (n0 <? x)%num) []). rewrite map_nth.
    destruct (nth e em []) as [|x row]; cbn in *; [lra|]. rnum. apply Rltb_true. exact Hpos.
  - reflexivity.
  - apply (Nat.div_le_mono 4 _ 2) in HN; [exact HN|lia].
Qed.

(** ** Charge injection on a window of rows (C50) *)
Lemma unmonitored_row im c r traps express offset window columns tw r' em mon sav E W e k res :
  express_and_monitor r window express offset tw = Ok (r', em, mon) -> save_matrix r' em = Ok sav ->
  rect E W em -> rect E W mon -> rect E W sav -> (e < E)%nat -> (k < W)%nat ->
  bentry mon e k = true -> nth_error window k = None -> columns <> [] ->
  steps_with_dwell r' <> [] -> phases_with_traps c <> [] ->
  clock_charge_in_one_direction im c r traps express offset window columns tw <> @Ok (image R * roe R) res.
Proof.
  intros E1 E2 He Hm Hs Hle Hlk Hb Hw Hc Hst Hph H. unfold clock_charge_in_one_direction in H.
  rewrite E1 in H. cbn [bind] in H. rewrite E2 in H. cbn [bind] in H.
  apply bind_ok in H as (a & _ & H). apply bind_ok in H as (n & _ & H). apply bind_ok in H as ([im' a'] & H & _).
  destruct columns as [|j columns]; [congruence|]. unfold clock_columns in H.
  apply (foldM_hits _ (j :: columns) j (or_introl eq_refl)) in H as ([im1 a1] & s2 & H). unfold clock_one_column in H.
  destruct (_ && _)%bool; [|discriminate]. apply bind_ok in H as ([col' a2] & H & _). unfold clock_column in H.
  assert (Hin : In (zip_cells (nth e em []) (nth e mon []) (nth e sav [])) (map (fun '(e, (m, s)) => zip_cells e m s) (combine em (combine mon sav)))).
  { apply in_map_iff. exists (nth e em [], (nth e mon [], nth e sav [])). split; [reflexivity|].
    destruct He as [He _], Hm as [Hm _], Hs as [Hs _].
    apply (in_combine_nth _ _ e). { apply nth_error_nth0. congruence. }
    rewrite (nth_error_nth0 _ e ([], [])) by (rewrite combine_length; lia). f_equal. apply combine_nth. congruence. }
  apply (foldM_hits _ _ _ Hin) in H as (st1 & st2 & H). unfold clock_pass_rows in H.
  assert (Le : length (nth e em []) = W) by (apply (Forall_rect E W em); [assumption|apply nth_In; destruct He; congruence]).
  assert (Lm : length (nth e mon []) = W) by (apply (Forall_rect E W mon); [assumption|apply nth_In; destruct Hm; congruence]).
  assert (Ls : length (nth e sav []) = W) by (apply (Forall_rect E W sav); [assumption|apply nth_In; destruct Hs; congruence]).
  assert (Hin2 : In (k, (nth k (nth e em []) 0, true, nth k (nth e sav []) false)) (combine (seq 0 (length (zip_cells (nth e em []) (nth e mon []) (nth e sav []))))
     (zip_cells (nth e em []) (nth e mon []) (nth e sav [])))).
  { pose proof (zip_cells_length _ _ _ W Le Lm Ls) as Lz. apply (in_combine_nth _ _ k).
    - rewrite (nth_error_nth0 _ k 0%nat) by (rewrite seq_length; lia). rewrite seq_nth by lia. reflexivity.
    - rewrite (nth_error_nth0 _ k (0, false, false)) by lia. rewrite (nth_zip_cells' _ _ _ W) by auto. unfold bentry in Hb. rewrite Hb. reflexivity. }
  apply (foldM_hits _ _ _ Hin2) in H as ([col3 a3] & s4 & H). unfold clock_cell in H. cbn [negb] in H. rewrite Hw in H.
  destruct (steps_with_dwell r') as [|s0 ss]; [congruence|]. destruct (phases_with_traps c) as [|p0 ps]; [congruence|]. discriminate.
Qed.

Lemma injection_window_fails im d serial rows cols c traps dwell npt eb force n k res :
  shape rows cols im -> (0 < rows)%nat -> selected (d_window serial) cols <> [] ->
  window_ok (selected (d_window d) rows) n -> (length (selected (d_window d) rows) < n)%nat ->
  d_ccd d = Some c -> d_traps d = Some traps -> d_roe d = Some (roe_injection_init dwell npt eb force DFloat) ->
  Exists (Rlt 0) dwell -> 0 < nth k (ccd_fractions c) 0 -> (0 < injection_transfers npt n (d_offset d))%nat ->
  add_cti im d serial None <> Ok res.
Proof.
  intros Hs Hr Hsel Hwin Hlen Hc Ht Hroe Hd Hf Hnpt H. destruct res as [[im' pr] sr].
  apply add_cti_halves in H as (tw' & columns & im1 & Etw & H & _). rewrite Ht in H. unfold clock_direction in H. rewrite Hc in H.
  cbn in Etw. injection Etw as <- _.
  assert (Ecols : n_columns im = cols). { destruct Hs as [<- Hs]. destruct im; [cbn in Hr; lia|]. inversion Hs; assumption. }
  assert (Erows : length im = rows) by apply Hs.
  rewrite Ecols, Erows in H. unfold the_roe in H. rewrite Hroe in H. set (window := selected (d_window d) rows) in *.
  destruct (injection_at npt window n (d_express d) (d_offset d) Hwin
              (Some (0%Z, Z.of_nat (rows + d_offset d))) Hnpt) as (em & mon & E1 & Re & Rm & [HE _] & G).
  { cbn. lia. }
  change (tw_arg (Some (0%Z, Z.of_nat (rows + d_offset d)))) with (Some (py_range 0 (Z.of_nat (rows + d_offset d)))) in E1.
  eapply (unmonitored_row im c _ traps _ _ _ _ _ _ em mon (injection_save em) _ n 0%nat (length window) (im1, pr)); try eassumption.
  - unfold express_and_monitor. cbn [roe_kind_of roe_injection_init make_roe roe_dtype]. rewrite E1. cbn [bind]. reflexivity.
  - reflexivity.
  - destruct Re as [Re1 Re2]. unfold injection_save. split; [rewrite map_length; exact Re1|].
    apply Forall_map. eapply Forall_impl; [|exact Re2]. intros x <-. apply map_length.
  - apply (G 0%nat (length window)); assumption.
  - apply nth_error_None. lia.
  - apply Exists_exists in Hd as (x & Hx & Hpos). apply (In_nth _ _ 0) in Hx as (i & Hi & <-).
    assert (Hin := in_steps (roe_injection_init dwell npt eb force DFloat) i Hpos). intros E0.
    revert Hin E0. unfold steps_with_dwell. cbn [roe_dwell_times roe_injection_init make_roe]. intros Hin E0. rewrite E0 in Hin. destruct Hin.
  - intros E0. pose proof (in_phases c k Hf) as Hin. rewrite E0 in Hin. destruct Hin.
Qed.
