(** * The clocking loops refine a readout past any traps that the trap managers represent. *)
From Coq Require Import ZArith List Bool Reals Lra Lia.
From Coquelicot Require Import Rcomplements Rbar Hierarchy RInt.
From Verif Require Import Num Py RFacts CCDModel TrapsModel ManagerModel ROEModel ClockModel MainModel Spec SpecROE SpecImage SpecReadout SpecHistory SpecMeet
  WmFacts ArrayFacts CutFacts InstantFacts ClockFacts MainFacts ShapeFacts ColumnFacts ROEClockFacts ROEMatrixFacts ROEExpressFacts ROEKindFacts ReadoutFacts ReadoutImage ReadoutForced ReadoutFull ReadoutInjection.
Import ListNotations.
Open Scope R_scope.

Section Sim.
Context {St : Type} (net : nat -> R -> R -> St -> R) (after : nat -> R -> R -> St -> St) (start : nat -> St).
(** [rep k u ms s]: the managers [ms] of phase [k] are in the state [s], with room for [u] calls. *)
Context (rep : nat -> nat -> list (manager R) -> St -> Prop).
Context (c : ccd R) (r : roe R) (L : nat).
Let phases := phases_with_traps c.
Hypothesis Hstep : forall k u ms s n dwell, In k phases -> rep k (S u) ms s -> 0 <= n -> 0 < dwell ->
  exists ms', step_groups ms n (fun n => well_fill c k false n) dwell 0 = Ok (net k dwell n s, ms') /\ rep k u ms' (after k dwell n s).
Hypothesis Hnodup : NoDup phases.
Notation rel_col := (rel_col L).
Notation inside := (inside L).
Definition rel_at (u : nat) (data : list (list (manager R))) (T : nat -> St) (k : nat) : Prop :=
  exists ms, nth_error data k = Some ms /\ rep k u ms (T k).
Definition rel_data (u : nat) data T : Prop := forall k, In k phases -> rel_at u data T k.
Lemma one_phase_sim u dwell es row mult col f data T k e : 0 < dwell ->
  In k phases -> nth_error es k = Some e -> safe L row e ->
  rel_col col f -> rel_at (S u) data T k ->
  exists col' data', clock_one_phase c dwell es row mult (col, data) k = Ok (col', data') /\
    let '(f', T') := meet net after row mult dwell es (f, T) k in
    rel_col col' f' /\ rel_at u data' T' k /\
    (forall k' u', k' <> k -> rel_at u' data T k' -> rel_at u' data' T' k').
Proof.
  intros Hd Hk He [Hs1 Hs2] HC (ms & Hms & Hrep).
  unfold meet. rewrite (nth_error_nth es k no_electrode He : electrode es k = e).
  set (n := if rp_high e then f (row + rp_capture e)%Z else 0).
  destruct HC as [Hl HC]. pose proof (HC _ Hs1) as [Ec Pc].
  assert (Hn : 0 <= n) by (unfold n; destruct (rp_high e); lra).
  destruct (Hstep k u ms (T k) n dwell Hk Hrep Hn Hd) as (ms' & Es & Hrep').
  set (q := net k dwell n (T k)) in *.
  assert (Hts : Forall (fun t => inside (row + fst t)%Z) (combine (rp_release e) (rp_fraction e))).
  { apply Forall_forall. intros [d fr] Hin. cbn [fst]. apply Hs2. eapply in_combine_l; exact Hin. }
  assert (Hdata : rel_at u (upd data k ms') (set_phase T k (after k dwell n (T k))) k).
  { exists ms'. rewrite nth_error_upd, Nat.eqb_refl. replace (Nat.ltb k (length data)) with true.
    2: { symmetry. apply Nat.ltb_lt. apply nth_error_Some. congruence. }
    cbn [andb]. split; [reflexivity|]. unfold set_phase. rewrite Nat.eqb_refl. exact Hrep'. }
  assert (Hother : forall k' u', k' <> k -> rel_at u' data T k' -> rel_at u' (upd data k ms') (set_phase T k (after k dwell n (T k))) k').
  { intros k' u' Hne (m2 & Hm2 & Hr2). exists m2. rewrite nth_error_upd. replace (Nat.eqb k k') with false by (symmetry; apply Nat.eqb_neq; lia).
    cbn [andb]. split; [exact Hm2|]. unfold set_phase. replace (Nat.eqb k' k) with false by (symmetry; apply Nat.eqb_neq; lia). exact Hr2. }
  assert (Eread : clock_one_phase c dwell es row mult (col, data) k =
    (if Reqb mult 0 then Ok (col, upd data k ms') else
     bind (foldM (fun col t => write_back col row q mult t) (combine (rp_release e) (rp_fraction e)) col) (fun col' => Ok (col', upd data k ms')))).
  { unfold clock_one_phase. rewrite He. cbn [of_option bind]. rewrite (cy_index_get col _ 0) by (rewrite Hl; exact Hs1). cbn [bind].
    rewrite Hms. cbn [of_option bind]. rnum. rewrite Ec.
    replace (f (row + rp_capture e)%Z * (if rp_high e then 1 else 0)) with n by (unfold n; destruct (rp_high e); lra).
    rewrite Es. reflexivity. }
  rewrite Eread. destruct (Reqb_spec mult 0) as [->|Hm].
  - exists col, (upd data k ms'). split; [reflexivity|]. split; [|split; assumption].
    replace (q * 0) with 0 by lra. apply deposit_zero; [split; assumption|exact Hts].
  - destruct (deposit_sim L _ col f row q mult (conj Hl HC) Hts) as (col' & Ed & HR').
    exists col', (upd data k ms'). rewrite Ed. split; [reflexivity|]. split; [exact HR'|split; assumption].
Qed.
Lemma one_step_sim u dwell es row mult : 0 < dwell -> forall ks done col f data T,
  NoDup ks -> (forall k, In k ks -> In k phases /\ ~ In k done) ->
  (forall k, In k ks -> exists e, nth_error es k = Some e /\ safe L row e) ->
  rel_col col f -> (forall k, In k ks -> rel_at (S u) data T k) -> (forall k, In k done -> rel_at u data T k) ->
  exists col' data', foldM (fun st phase => clock_one_phase c dwell es row mult st phase) ks (col, data) = Ok (col', data') /\
    let '(f', T') := fold_left (meet net after row mult dwell es) ks (f, T) in
    rel_col col' f' /\ (forall k, In k ks \/ In k done -> rel_at u data' T' k).
Proof.
  intros Hd. induction ks as [|k ks IH]; intros dn col f data T Hnd Hks Hes HC HK HD.
  - exists col, data. split; [reflexivity|]. cbn. split; [exact HC|]. intros k [[]|Hk]. auto.
  - inversion Hnd as [|? ? Hni Hnd']; subst. destruct (Hks k (or_introl eq_refl)) as [Hkp Hkd]. destruct (Hes k (or_introl eq_refl)) as (e & He & Hs).
    destruct (one_phase_sim u dwell es row mult col f data T k e Hd Hkp He Hs HC (HK k (or_introl eq_refl))) as (col1 & data1 & E1 & H1).
    cbn [fold_left]. destruct (meet net after row mult dwell es (f, T) k) as [f1 T1]. destruct H1 as (HC1 & Hk1 & Ho1).
    destruct (IH (k :: dn) col1 f1 data1 T1) as (col2 & data2 & E2 & H2).
    + exact Hnd'.
    + intros k' Hk'. destruct (Hks k' (or_intror Hk')) as [A B]. split; [exact A|]. intros [->|Hin]; [exact (Hni Hk')|exact (B Hin)].
    + intros k' Hk'. apply Hes. right; exact Hk'.
    + exact HC1.
    + intros k' Hk'. apply Ho1; [|apply HK; right; exact Hk']. intros ->. exact (Hni Hk').
    + intros k' [->|Hk']; [exact Hk1|]. apply Ho1; [|apply HD; exact Hk']. intros ->. exact (Hkd Hk').
    + exists col2, data2. cbn [foldM]. rewrite E1. cbn [bind]. split; [exact E2|].
      destruct (fold_left (meet net after row mult dwell es) ks (f1, T1)) as [f2 T2]. destruct H2 as [HC2 HK2]. split; [exact HC2|].
      intros k' [[->|Hk']|Hk']; apply HK2; cbn; auto.
Qed.
Context (steps : list (R * list (roe_phase R))).
Hypothesis Hsteps : Forall2 (fun '(i, d) '(d', es) => d = d' /\ 0 < d /\ nth_error (roe_clock_sequence r) i = Some es) (steps_with_dwell r) steps.
Definition safe_at (row : Z) : Prop :=
  forall d es, In (d, es) steps -> forall k, In k phases -> exists e, nth_error es k = Some e /\ safe L row e.
Lemma one_row_sim u row mult col f data T : safe_at row ->
  rel_col col f -> rel_data (length steps + u) data T ->
  exists col' data', clock_one_row c r row mult (col, data) = Ok (col', data') /\
    let '(f', T') := meet_pixel net after phases steps row mult (f, T) in rel_col col' f' /\ rel_data u data' T'.
Proof.
  intros Hsafe. unfold clock_one_row, meet_pixel, safe_at in *. revert col f data T.
  induction Hsteps as [|[i d] [d' es] ss ss' (-> & Hd & Hes) H IH]; intros col f data T HC HD.
  - exists col, data. split; [reflexivity|]. cbn. split; assumption.
  - cbn [foldM fold_left length] in *.
    destruct (one_step_sim (length ss' + u) d' es row mult Hd phases [] col f data T) as (col1 & data1 & E1 & H1); auto.
    + intros k Hk. apply (Hsafe d' es); [left; reflexivity|exact Hk].
    + intros k [].
    + rewrite Hes. cbn [of_option bind]. fold phases. rewrite E1. cbn [bind].
      destruct (fold_left (meet net after row mult d' es) phases (f, T)) as [f1 T1]. destruct H1 as [HC1 HD1].
      apply IH; [exact H|intros d2 es2 Hin; apply (Hsafe d2 es2); right; exact Hin|exact HC1|]. intros k Hk. apply HD1. left; exact Hk.
Qed.
Context (d0 : list (list (manager R))) (N : nat).
Hypothesis Hd0 : Forall (Forall mshape) d0.
Definition rel_atm (a : all_managers R) : Prop := aok d0 a /\ rel_data N (restored a) start.
Lemma cells_sim window : forall cells u col f a T,
  Forall (fun '(i, (_, monitor, save)) => (monitor = true -> exists row, nth_error window i = Some row /\ safe_at row) /\ save = false) cells ->
  rel_col col f -> rel_atm a -> rel_data u (atm_data a) T -> (length cells * length steps <= u)%nat ->
  exists col' a', foldM (clock_cell c r window) cells (col, a) = Ok (col', a') /\
    rel_col col' (fst (meet_cells net after phases steps (cell_rows window cells) (f, T))) /\ rel_atm a'.
Proof.
  induction cells as [|[i [[m mo] sv]] cells IH]; intros u col f a T HW HC HA HD Hu.
  - exists col, a. auto.
  - inversion HW as [|? ? Hw0 HW']; subst. cbn beta iota in Hw0. destruct Hw0 as [Hw Hsv]. subst sv. cbn [length] in Hu. destruct mo.
    + destruct (Hw eq_refl) as (row & Erow & Hsafe). destruct HA as ([A1 A2] & HS).
      destruct (one_row_sim (u - length steps) row m col f (atm_data a) T Hsafe HC) as (col1 & data1 & E1 & H1).
      { replace (length steps + (u - length steps))%nat with u by lia. exact HD. }
      pose proof (clock_one_row_keeps c r row m d0 (col, atm_data a) (col1, data1) A1 E1) as Hkeep. cbn [snd] in Hkeep.
      cbn [cell_rows flat_map]. rewrite Erow. cbn [app]. unfold meet_cells. cbn [fold_left]. fold (cell_rows window cells).
      destruct (meet_pixel net after phases steps row m (f, T)) as [f1 T1]. destruct H1 as [HC1 HD1].
      cbn [foldM]. unfold clock_cell at 1. cbn [negb]. rewrite Erow, E1. cbn [bind].
      apply (IH (u - length steps)%nat col1 f1 (with_data a data1) T1 HW' HC1); [|exact HD1|lia].
      split; [split; [exact Hkeep|exact A2]|]. unfold restored in *. cbn. destruct (atm_saved a) as [d|]; [exact HS|].
      change (rel_data N (emptied data1) start). rewrite (emptied_keeps d0 data1) by assumption.
      rewrite (emptied_keeps d0 (atm_data a)) in HS by assumption. exact HS.
    + cbn [foldM cell_rows flat_map app]. unfold clock_cell at 1. cbn [negb bind].
      apply (IH u col f a T HW' HC HA HD). lia.
Qed.
Lemma column_sim window : forall passes col f a,
  Forall (fun cells => Forall (fun '(i, (_, monitor, save)) => (monitor = true -> exists row, nth_error window i = Some row /\ safe_at row) /\ save = false) (combine (seq 0 (length cells)) cells) /\ (length cells * length steps <= N)%nat) passes ->
  rel_col col f -> rel_atm a ->
  exists col' a', clock_column c r window passes (col, a) = Ok (col', a') /\
    rel_col col' (meet_all net after phases steps start (map (fun cells => cell_rows window (combine (seq 0 (length cells)) cells)) passes) f).
Proof.
  induction passes as [|cells passes IH]; intros col f a HW HC HA.
  - exists col, a. auto.
  - inversion HW as [|? ? [Hw Hl] HW']; subst.
    destruct (cells_sim window (combine (seq 0 (length cells)) cells) N col f (atm_restore a) start Hw HC) as (col1 & a1 & E1 & H1 & H2).
    + destruct HA as [A1 A2]. split; [apply restore_ok; assumption|]. rewrite restore_restored. exact A2.
    + rewrite restore_data. apply HA.
    + rewrite combine_length, seq_length, Nat.min_id. exact Hl.
    + unfold clock_column. cbn [foldM fst snd map]. unfold clock_pass_rows at 1. rewrite E1. cbn [bind].
      exact (IH col1 _ a1 HW' H1 H2).
Qed.
End Sim.

(** ** The whole image *)
Section Image.
Context (im : image R) (c : ccd R) (k0 : roe_kind) (dwell : list R) (dt : dtype) (traps : traps_arg R) (groups : list (list (trap R))) (rows cols : nat).
Context {St : Type} (net : nat -> R -> R -> St -> R) (after : nat -> R -> R -> St -> St) (start : nat -> St) (rep : nat -> nat -> list (manager R) -> St -> Prop).
Notation r := (built k0 dwell dt true true).
Hypothesis Hshape : shape rows cols im.
Hypothesis Hrows : (0 < rows)%nat.
Hypothesis Hpos : forall i j, 0 <= pixel im i j.
Hypothesis Hc : plain_ccd c.
Hypothesis Hph : (ccd_n_phases c <= length dwell)%nat.
Hypothesis Hgroups : normalise_traps traps = Ok groups.
Hypothesis Hsome : Forall (fun g => g <> []) groups.
Hypothesis Hstep : forall k u ms s n dwell, In k (trap_phases c) -> rep k (S u) ms s -> 0 <= n -> 0 < dwell ->
  exists ms', step_groups ms n (fun n => well_fill c k false n) dwell 0 = Ok (net k dwell n s, ms') /\ rep k u ms' (after k dwell n s).
Hypothesis Hinit : forall k N, In k (trap_phases c) -> rep k N (map (fun g => manager_init (kind_for g) (map (thinned (share c k)) g) N) groups) (start k).
Lemma atm_init_kinds N : exists a, atm_init traps N c = Ok a /\ atm_saved a = None /\
  rel_data rep c N (atm_data a) start /\ rel_data rep c N (emptied (atm_data a)) start.
Proof.
  set (mk := fun phase g => manager_init (kind_for g) (map (thinned (share c phase)) g) N : manager R).
  exists (mkATM (map (fun phase => map (mk phase) groups) (seq 0 (ccd_n_phases c))) None 0 0).
  split.
  { unfold atm_init. rewrite Hgroups. cbn [bind]. rewrite (mapM_map _ (fun phase => map (mk phase) groups)); [reflexivity|].
    intros phase Hp. apply in_seq in Hp. apply mapM_map. intros g Hin. rewrite Forall_forall in Hsome. specialize (Hsome g Hin). destruct g as [|t g]; [congruence|].
    cbn [kind_of_group bind]. rewrite (nth_error_nth' _ 0) by (rewrite (pc_fractions c Hc); lia). cbn [of_option bind]. unfold mk, manager_init. cbn [m_kind m_traps m_wm kind_for].
    rewrite map_length. destruct (t_class t); reflexivity. }
  split; [reflexivity|]. cbn [atm_data].
  assert (Hem : emptied (map (fun phase => map (mk phase) groups) (seq 0 (ccd_n_phases c))) = map (fun phase => map (mk phase) groups) (seq 0 (ccd_n_phases c))).
  { unfold emptied. rewrite map_map. apply map_ext. intros phase. rewrite map_map. apply map_ext. intros g. apply empty_init. }
  rewrite Hem.
  assert (H : rel_data rep c N (map (fun phase => map (mk phase) groups) (seq 0 (ccd_n_phases c))) start).
  { intros k Hk. rewrite (phases_eq c Hc) in Hk. pose proof (trap_phases_lt _ _ Hk) as Hk'. exists (map (mk k) groups).
    split; [rewrite (nth_error_map_seq (fun phase => map (mk phase) groups)) by exact Hk'; reflexivity|]. apply Hinit, Hk. }
  split; exact H.
Qed.
Lemma forced_meeting express offset window columns tw r' em mon E W : saves_nothing k0 ->
  express_and_monitor r window express offset tw = Ok (r', em, mon) ->
  rect E W em -> rect E W mon -> (W <= length window)%nat ->
  (forall w, In w window -> (0 <= w < Z.of_nat rows)%Z) ->
  (forall j, In j columns -> (0 <= j < Z.of_nat cols)%Z) -> NoDup columns ->
  exists im',
  clock_charge_in_one_direction im c r traps express offset window columns tw = Ok (im', r') /\
  shape rows cols im' /\
  (forall i j, ~ In (Z.of_nat j) columns -> pixel im' i j = pixel im i j) /\
  forall i j, (i < rows)%nat -> In (Z.of_nat j) columns ->
    pixel im' i j = meet_all net after (trap_phases c) (timed_steps r) start
                      (map (fun '(e, m) => cells_of window e m (map (fun _ => false) e)) (combine em mon))
                      (col_fun im j) (Z.of_nat i).
Proof.
  intros Hk Hexp He Hm HW Hwin Hcols Hnd.
  destruct (express_same_clock _ _ _ _ _ _ _ _ Hexp) as (Ecs & Epx & Edw & Eeb).
  destruct (forced_padding k0 dwell dt true) as (n & Hn & _).
  assert (Hsav : save_matrix r' em = Ok (map (map (fun _ => false)) em)).
  { unfold express_and_monitor in Hexp. cbn [built make_roe roe_kind_of] in Hexp. destruct k0 as [ef|npt|]; [| |contradiction].
    - cbn in Hk. subst ef. apply bind_ok in Hexp as ([em' mon'] & _ & Hexp). injection Hexp as <- <- <-. apply save_none.
    - apply bind_ok in Hexp as ([[n' em'] mon'] & _ & Hexp). injection Hexp as <- <- <-. reflexivity. }
  pose proof (no_saves em mon E W He Hm) as HNS.
  set (passes := map (fun '(e, (m, s)) => zip_cells e m s) (combine em (combine mon (map (map (fun _ => false)) em)))) in *.
  set (N := max_n_transfers r' (length em) match em with [] => 0%nat | row :: _ => length row end).
  assert (Hts : length (timed_steps r) = length (steps_with_dwell r')).
  { rewrite (steps_length r) by apply built_seq. unfold steps_with_dwell. rewrite Edw. reflexivity. }
  assert (HN : em = [] \/ N = (W * length (timed_steps r))%nat).
  { destruct em as [|row em2]; [left; reflexivity|right]. unfold N, max_n_transfers. rewrite Hts.
    rewrite (Forall_rect _ _ _ row He) by (left; reflexivity).
    destruct (roe_kind_of r') eqn:Ek; try reflexivity. exfalso. unfold express_and_monitor in Hexp. cbn [built make_roe roe_kind_of] in Hexp.
    destruct k0 as [ef|npt|]; [| |contradiction]; apply bind_ok in Hexp as (x & _ & Hexp); [destruct x as [? ?]|destruct x as [[? ?] ?]]; injection Hexp as <- _ _; discriminate. }
  destruct (atm_init_kinds N) as (a & Ea & Esv & HD & HE).
  destruct (atm_init_fresh _ _ _ _ Ea) as [Hs Hf].
  pose proof (pad_shape rows cols im n Hshape Hrows) as Hps.
  assert (Hseq' : length (roe_clock_sequence r') = length (roe_dwell_times r')) by (pose proof (built_seq k0 dwell dt true true); congruence).
  assert (Hts' : timed_steps r' = timed_steps r) by (unfold timed_steps; rewrite Ecs, Edw; reflexivity).
  assert (Hpad' : n_padding r' = Ok n) by (unfold n_padding in *; rewrite Epx; exact Hn).
  assert (PE : map (fun cells => cell_rows window (combine (seq 0 (length cells)) cells)) passes = map (fun '(e, m) => cells_of window e m (map (fun _ => false) e)) (combine em mon)).
  { unfold passes. rewrite map_map. transitivity (map (fun '(e, (m, s)) => cells_of window e m s) (combine em (combine mon (map (map (fun _ => false)) em)))).
    - apply map_ext. intros [e [m s]]. apply cell_rows_cells.
    - clear. revert mon. induction em as [|e em IH]; intros mon; [reflexivity|]. destruct mon as [|m mon]; [reflexivity|]. cbn [map combine]. f_equal. apply IH. }
  assert (Hcol : forall j, (j < cols)%nat -> exists col' a', clock_column c r' window passes (column_of (pad im n) j, a) = Ok (col', a') /\
    rel_col (rows + n) col' (meet_all net after (trap_phases c) (timed_steps r) start (map (fun '(e, m) => cells_of window e m (map (fun _ => false) e)) (combine em mon)) (col_fun im j))).
  { intros j Hj.
    destruct (column_sim net after start rep c r' (rows + n)) with (steps := timed_steps r) (d0 := atm_data a) (N := N) (window := window) (passes := passes)
      (col := column_of (pad im n) j) (f := col_fun im j) (a := a) as (col' & a' & E1 & H1).
    - intros k u ms s x dw Hk1. rewrite (phases_eq c Hc) in Hk1. now apply Hstep.
    - rewrite (phases_eq c Hc). apply trap_phases_nodup.
    - rewrite <- Hts'. apply steps_rel. exact Hseq'.
    - exact Hs.
    - apply Forall_forall. intros cells Hin. pose proof HNS as HNS'. rewrite Forall_forall in HNS'. destruct (HNS' cells Hin) as [Hno Hlen]. split.
      + apply Forall_forall. intros [i [[m mo] sv]] Hi. split.
        * intros Hmo. assert (Hil : (i < length cells)%nat) by (apply in_combine_l in Hi; apply in_seq in Hi; lia).
          destruct (nth_error window i) as [row|] eqn:Er; [|apply nth_error_None in Er; lia].
          exists row. split; [reflexivity|]. intros d es Hd k Hk1. rewrite (phases_eq c Hc) in Hk1. apply trap_phases_lt in Hk1.
          unfold timed_steps in Hd. apply filter_In in Hd as [Hd _]. apply in_combine_r in Hd. pose proof (built_phases k0 dwell dt true true es Hd) as Les.
          destruct (nth_error es k) as [e|] eqn:Ee; [|apply nth_error_None in Ee; lia].
          exists e. split; [reflexivity|]. apply (forced_safe k0 dwell dt true n rows row es k e); auto. apply Hwin. eapply nth_error_In; exact Er.
        * apply in_combine_r in Hi. rewrite Forall_forall in Hno. apply (Hno _ Hi).
      + destruct HN as [->|HN]; [destruct Hin|]. rewrite Hlen, HN. lia.
    - split; [rewrite column_length; apply Hps|]. intros i Hi. change 0 with (n0 : R) at 1. rewrite column_nth, (pad_pixel rows cols im n) by assumption.
      unfold col_fun. split; [reflexivity|apply Hpos].
    - split; [apply Hf|]. unfold restored. rewrite Esv. exact HE.
    - exists col', a'. split; [exact E1|]. rewrite PE, (phases_eq c Hc) in H1. exact H1. }
  assert (Hem : roe_empty_between r' = true) by (rewrite Eeb; reflexivity).
  destruct (clock_columns_all c r' window passes (atm_data a) (rows + n) cols columns (pad im n) a Hs) as ([im1 a1] & E5); auto; [lia| |].
  { intros j Hj. split; [apply Hcols, Hj|]. specialize (Hcols j Hj). destruct (Hcol (Z.to_nat j) ltac:(lia)) as (col' & a' & E1 & _). exists a, (col', a'). auto. }
  pose proof (clock_columns_ok _ _ _ _ _ _ _ _ _ _ _ Hps ltac:(lia) E5) as Hio.
  exists (unpad im1 n). split.
  { unfold clock_charge_in_one_direction. rewrite Hexp. cbn [bind]. rewrite Hsav. cbn [bind]. fold N. rewrite Ea. cbn [bind]. rewrite Hpad'. cbn [bind].
    fold passes. rewrite E5. reflexivity. }
  split; [apply unpad_shape, (io_shape _ _ _ _ _ _ _ Hio)|]. split.
  - intros i j Hj. destruct (lt_dec i rows) as [Hi|Hi].
    + rewrite (unpad_pixel rows cols) by (auto; apply (io_shape _ _ _ _ _ _ _ Hio)). rewrite (io_columns _ _ _ _ _ _ _ Hio) by exact Hj. apply (pad_pixel rows cols); assumption.
    + rewrite (pixel_out rows cols im) by (auto; lia). apply (pixel_out rows cols); [apply unpad_shape, (io_shape _ _ _ _ _ _ _ Hio)|lia].
  - intros i j Hi Hj. assert (Hjc : (j < cols)%nat) by (specialize (Hcols _ Hj); lia).
    rewrite (unpad_pixel rows cols) by (auto; apply (io_shape _ _ _ _ _ _ _ Hio)).
    destruct (clock_columns_each c r' window passes (atm_data a) (rows + n) cols columns (pad im n) a im1 a1 Hs Hem Hps ltac:(lia) Hf Hnd E5 j a Hj Hf) as (_ & b' & Eb).
    destruct (Hcol j Hjc) as (col' & a' & E1 & [_ HR]). rewrite E1 in Eb. injection Eb as Eb _.
    rewrite <- column_nth, <- Eb. destruct (HR (Z.of_nat i)) as [H1 _]; [unfold inside; lia|]. rewrite Nat2Z.id in H1. exact H1.
Qed.
End Image.
