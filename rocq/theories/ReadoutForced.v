(** * Readouts that only release away from the readout register stay inside the arrays. *)
From Coq Require Import ZArith List Bool Reals Lra Lia.
From Coquelicot Require Import Rcomplements Rbar Hierarchy RInt.
From Verif Require Import Num Py RFacts CCDModel TrapsModel ManagerModel ROEModel ClockModel MainModel Spec SpecROE SpecImage SpecReadout
  WmFacts ArrayFacts CutFacts InstantFacts ClockFacts MainFacts ShapeFacts ColumnFacts
  ROEClockFacts ROEMatrixFacts ROEExpressFacts ROEKindFacts ReadoutFacts ReadoutImage.
Import ListNotations.
Open Scope R_scope.

(** A ROE with as many steps as phases, as built by the constructors of ROE and
    ROEChargeInjection. *)
Definition built (k : roe_kind) (dwell : list R) (dt : dtype) (between force : bool) : roe R :=
  make_roe k dwell dt between force (length dwell).

Lemma pixels_range k dwell dt b force d : In d (roe_pixels (built k dwell dt b force)) -> ((if force then 0 else -1) <= d <= 1)%Z.
Proof.
  intros H. apply pixels_in in H as [->|(step & rps & phase & rp & E1 & E2 & H)]; [destruct force; lia|].
  destruct (standard_sequence_spec force (length dwell) step rps E1) as [_ G]. destruct (G phase rp E2) as (_ & _ & G' & _). exact (G' d H).
Qed.

Lemma forced_padding k dwell dt b : exists n, n_padding (built k dwell dt b true) = Ok n /\
  (n <= 1)%nat /\ forall d, In d (roe_pixels (built k dwell dt b true)) -> (0 <= d <= Z.of_nat n)%Z.
Proof.
  unfold n_padding. pose proof (pixels_range k dwell dt b true) as HR. 
  remember (roe_pixels (built k dwell dt b true)) as px eqn:Epx.
  assert (H0 : exists l, px = 0%Z :: l) by (subst px; eexists; reflexivity). destruct H0 as [l ->].
  cbn [py_max py_min bind]. pose proof (list_max_ge l 0) as [M1 M2]. pose proof (list_min_le l 0) as [m1 m2].
  assert (Hm : list_min_Z 0 l = 0%Z). { destruct (list_min_in l 0) as [E|E]; [exact E|]. pose proof (HR _ (or_intror E)). lia. }
  rewrite Hm. eexists. split; [reflexivity|]. split.
  - destruct (list_max_in l 0) as [E|E]; [rewrite E; lia|]. pose proof (HR _ (or_intror E)). lia.
  - intros d Hd. pose proof (HR d Hd). destruct Hd as [<-|Hd]; [lia|]. specialize (M2 d Hd). lia.
Qed.

Lemma forced_safe k dwell dt b n rows row es ph e : n_padding (built k dwell dt b true) = Ok n ->
  (0 <= row < Z.of_nat rows)%Z -> In es (roe_clock_sequence (built k dwell dt b true)) -> nth_error es ph = Some e ->
  safe (rows + n) row e.
Proof.
  intros Hn Hrow Hes He. destruct (forced_padding k dwell dt b) as (n' & Hn' & _ & HR). rewrite Hn in Hn'. injection Hn' as <-.
  apply In_nth_error in Hes as [step Hes].
  assert (G : forall d, In d (rp_capture e :: rp_release e) -> inside (rows + n) (row + d)).
  { intros d Hd. pose proof (HR d (in_pixels _ _ _ _ _ _ Hes He Hd)). unfold inside. lia. }
  split; [apply G; left; reflexivity|]. intros d Hd. apply G. right. exact Hd.
Qed.

Lemma built_phases k dwell dt b force es : In es (roe_clock_sequence (built k dwell dt b force)) -> length es = length dwell.
Proof.
  intros Hes. apply In_nth_error in Hes as [step Hes].
  exact (proj1 (standard_sequence_spec force (length dwell) step es Hes)).
Qed.
Lemma built_seq k dwell dt b force : length (roe_clock_sequence (built k dwell dt b force)) = length (roe_dwell_times (built k dwell dt b force)).
Proof. cbn. unfold generate_clock_sequence. rewrite map_length, seq_length. reflexivity. Qed.

(** ** Without saving, the arrays are always large enough. *)
Lemma zip_cells_length (a : list R) b s W : length a = W -> length b = W -> length s = W -> length (zip_cells a b s) = W.
Proof. intros Ha Hb Hs. unfold zip_cells. rewrite map_length, !combine_length. lia. Qed.
Lemma in_combine3 {A B C} (a : list A) (b : list B) (c : list C) x y z : In (x, (y, z)) (combine a (combine b c)) -> In x a /\ In y b /\ In z c.
Proof. intros H. split; [eapply in_combine_l; exact H|]. apply in_combine_r in H. split; [eapply in_combine_l|eapply in_combine_r]; exact H. Qed.
Lemma Forall_rect {A} E W (m : list (list A)) r : rect E W m -> In r m -> length r = W.
Proof. intros [_ H] Hr. rewrite Forall_forall in H. exact (H r Hr). Qed.
Lemma no_saves (em : matrix R) mon E W : rect E W em -> rect E W mon ->
  Forall (fun cells => Forall (fun '(_, _, save) => save = false) cells /\ length cells = W)
    (map (fun '(e, (m, s)) => zip_cells e m s) (combine em (combine mon (map (map (fun _ => false)) em)))).
Proof.
  intros He Hm. apply Forall_forall. intros cells Hc. apply in_map_iff in Hc as ([e [m s]] & <- & Hin).
  apply in_combine3 in Hin as (H1 & H2 & H3). apply in_map_iff in H3 as (e' & <- & H3).
  split.
  - unfold zip_cells. apply Forall_forall. intros [[x y] z] Hx. apply in_map_iff in Hx as ([x' [y' z']] & Eq & Hx). injection Eq as _ _ <-.
    apply in_combine3 in Hx as (_ & _ & Hz). apply in_map_iff in Hz as (? & Eq & _). congruence.
  - apply zip_cells_length; [eapply Forall_rect|eapply Forall_rect|rewrite map_length; eapply Forall_rect]; eassumption.
Qed.

(** The kinds of readout without saving: charge injection, and the standard ones with
    empty_traps_for_first_transfers. *)
Definition saves_nothing (k : roe_kind) : Prop :=
  match k with Standard ef => ef = true | Injection _ => True | Pumping _ _ => False end.

Lemma forced_readout im c k dwell dt traps groups express offset window columns tw r' em mon E W rows cols :
  let r := built k dwell dt true true in
  shape rows cols im -> (0 < rows)%nat -> (forall i j, 0 <= pixel im i j) ->
  plain_ccd c -> (ccd_n_phases c <= length dwell)%nat ->
  normalise_traps traps = Ok groups -> Forall instant_group groups -> saves_nothing k ->
  express_and_monitor r window express offset tw = Ok (r', em, mon) ->
  rect E W em -> rect E W mon -> (W <= length window)%nat ->
  (forall w, In w window -> (0 <= w < Z.of_nat rows)%Z) ->
  (forall j, In j columns -> (0 <= j < Z.of_nat cols)%Z) -> NoDup columns ->
  exists im',
  clock_charge_in_one_direction im c r traps express offset window columns tw = Ok (im', r') /\
  shape rows cols im' /\
  (forall i j, ~ In (Z.of_nat j) columns -> pixel im' i j = pixel im i j) /\
  forall i j, (i < rows)%nat -> In (Z.of_nat j) columns ->
    pixel im' i j = readout (site_of c groups) (trap_phases c) (timed_steps r)
                      (map (fun '(e, m) => cells_of window e m (map (fun _ => false) e)) (combine em mon))
                      (col_fun im j) (Z.of_nat i).
Proof.
  intros r Hshape Hrows Hpos Hc Hph Hg Hinst Hk Hexp He Hm HW Hwin Hcols Hnd.
  destruct (express_same_clock _ _ _ _ _ _ _ _ Hexp) as (Ecs & Epx & Edw & Eeb).
  destruct (forced_padding k dwell dt true) as (n & Hn & _).
  assert (Hsav : save_matrix r' em = Ok (map (map (fun _ => false)) em)).
  { unfold express_and_monitor in Hexp. unfold r in Hexp at 1. cbn [built make_roe roe_kind_of] in Hexp. destruct k as [ef|npt|]; [| |contradiction].
    - cbn in Hk. subst ef. apply bind_ok in Hexp as ([em' mon'] & _ & Hexp). injection Hexp as <- <- <-. apply save_none.
    - apply bind_ok in Hexp as ([[n' em'] mon'] & _ & Hexp). injection Hexp as <- <- <-. reflexivity. }
  pose proof (no_saves em mon E W He Hm) as HNS.
  set (N := max_n_transfers r' (length em) match em with [] => 0%nat | row :: _ => length row end).
  assert (Hts : length (timed_steps r) = length (steps_with_dwell r')).
  { rewrite (steps_length r) by apply built_seq. unfold steps_with_dwell. rewrite Edw. reflexivity. }
  assert (HN : em = [] \/ N = (W * length (timed_steps r))%nat).
  { destruct em as [|row em2]; [left; reflexivity|right]. unfold N, max_n_transfers. rewrite Hts.
    rewrite (Forall_rect _ _ _ row He) by (left; reflexivity).
    destruct (roe_kind_of r') eqn:Ek; try reflexivity. exfalso. unfold express_and_monitor in Hexp. unfold r in Hexp at 1. cbn [built make_roe roe_kind_of] in Hexp.
    destruct k as [ef|npt|]; [| |contradiction]; apply bind_ok in Hexp as (x & _ & Hexp); [destruct x as [? ?]|destruct x as [[? ?] ?]]; injection Hexp as <- _ _; discriminate. }
  destruct (clocking_readout im c r r' traps groups express offset window columns tw em mon (map (map (fun _ => false)) em) rows cols n N)
    as (im' & E1 & E2 & E3 & E4); auto.
  - apply built_seq.
  - apply rooms_no_save. destruct HN as [->|HN]; [constructor|]. eapply Forall_impl; [|exact HNS]. intros cells [H1 H2]. split; [exact H1|]. fold N. rewrite H2, HN. lia.
  - eapply Forall_impl; [|exact HNS]. intros cells [_ H2]. lia.
  - intros row es ph e Hrow Hes _ He'. apply (forced_safe k dwell dt true n rows row es ph e); auto.
  - intros es Hes. rewrite (built_phases k dwell dt true true es Hes). exact Hph.
  - exists im'. split; [exact E1|]. split; [exact E2|]. split; [exact E3|]. intros i j Hi Hj. rewrite (E4 i j Hi Hj). f_equal.
    clear. revert mon. induction em as [|e em IH]; intros mon; [reflexivity|]. destruct mon as [|m mon]; [reflexivity|]. cbn [map combine]. f_equal. apply IH.
Qed.

(** ** Standard readouts with empty_traps_for_first_transfers. *)
Lemma rect_len {A} E W (m : list (list A)) : rect E W m -> length m = E.
Proof. intros [H _]. exact H. Qed.

Lemma standard_readout im c dwell dt traps groups express offset window n_pixels columns tw rows cols :
  let r := built (Standard true) dwell dt true true in
  shape rows cols im -> (0 < rows)%nat -> (forall i j, 0 <= pixel im i j) ->
  plain_ccd c -> (ccd_n_phases c <= length dwell)%nat ->
  normalise_traps traps = Ok groups -> Forall instant_group groups ->
  window_ok window n_pixels -> (n_pixels <= rows)%nat -> tw_ok tw -> (express = 0%nat \/ S express <> n_pixels) ->
  (forall j, In j columns -> (0 <= j < Z.of_nat cols)%Z) -> NoDup columns ->
  exists im' em mon,
  standard_express true dt window express offset (tw_arg tw) = Ok (em, mon) /\
  clock_charge_in_one_direction im c r traps express offset window columns (tw_arg tw) = Ok (im', r) /\
  shape rows cols im' /\
  (forall i j, ~ In (Z.of_nat j) columns -> pixel im' i j = pixel im i j) /\
  forall i j, (i < rows)%nat -> In (Z.of_nat j) columns ->
    pixel im' i j = readout (site_of c groups) (trap_phases c) (timed_steps r)
                      (map (fun '(e, m) => cells_of window e m (map (fun _ => false) e)) (combine em mon))
                      (col_fun im j) (Z.of_nat i).
Proof.
  intros r Hs Hr Hp Hc Hph Hg Hi Hw Hnp Htw He Hcols Hnd.
  destruct (standard_express_ok true dt window n_pixels express offset Hw tw) as (E & em & mon & Eex & Hem & Hmon & _); auto.
  { intros (_ & H1 & H2). destruct He; contradiction. }
  destruct (forced_readout im c (Standard true) dwell dt traps groups express offset window columns (tw_arg tw) r em mon E (length window) rows cols)
    as (im' & H1 & H2 & H3 & H4); auto.
  - reflexivity.
  - unfold express_and_monitor. fold r. cbn [r built make_roe roe_kind_of roe_dtype]. rewrite Eex. reflexivity.
  - intros w Hin. destruct Hw as [Hw _]. rewrite Forall_forall in Hw. specialize (Hw w Hin). lia.
  - exists im', em, mon. auto.
Qed.
