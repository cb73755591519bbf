(** * Changing the units of charge and time: clocking and add_cti. *)
From Coq Require Import ZArith List Bool Reals Lra Lia.
From Verif Require Import Num Py RFacts CCDModel TrapsModel ManagerModel ROEModel ClockModel MainModel SpecCalls SpecUnits CallFacts ClockFacts UnitFacts.
Import ListNotations.
Open Scope R_scope.

Lemma rmap_bind {A B C D} (g : A -> B) (h : C -> D) (m : result A) (k : A -> result C) (k' : B -> result D) :
  (forall a, m = Ok a -> k' (g a) = rmap h (k a)) -> bind (rmap g m) k' = rmap h (bind m k).
Proof. destruct m as [a|e]; cbn; auto. Qed.
Lemma foldM_units {A B S T} (g : S -> T) (h : A -> B) (P : S -> Prop) (f : S -> A -> result S) (f' : T -> B -> result T) l :
  (forall st a, P st -> f' (g st) (h a) = rmap g (f st a)) -> (forall st a st', P st -> f st a = Ok st' -> P st') ->
  forall st, P st -> foldM f' (map h l) (g st) = rmap g (foldM f l st).
Proof.
  intros H HP. induction l as [|a l IH]; intros st Hst; [reflexivity|]. cbn [map foldM]. rewrite H by exact Hst. apply rmap_bind. intros st' E. apply IH, (HP st a); auto.
Qed.
Lemma foldM_units_id {A S T} (g : S -> T) (P : S -> Prop) (f : S -> A -> result S) (f' : T -> A -> result T) l :
  (forall st a, P st -> f' (g st) a = rmap g (f st a)) -> (forall st a st', P st -> f st a = Ok st' -> P st') ->
  forall st, P st -> foldM f' l (g st) = rmap g (foldM f l st).
Proof. intros H HP st Hst. rewrite <- (map_id l) at 1. apply (foldM_units g (fun x => x) P); auto. Qed.
Lemma nth_map0 q i (l : list R) : nth i (map (Rmult q) l) 0 = q * nth i l 0.
Proof. rewrite <- (map_nth (Rmult q) l 0 i). rewrite Rmult_0_r. reflexivity. Qed.
Lemma upd_map {A B} (f : A -> B) l i x : upd (map f l) i (f x) = map f (upd l i x).
Proof. revert i. induction l as [|a l IH]; intros [|i]; cbn; [reflexivity..|]. rewrite IH. reflexivity. Qed.
Lemma cy_index_map {A B} (f : A -> B) l i : cy_index (map f l) i = rmap f (cy_index l i).
Proof. unfold cy_index. rewrite map_length. destruct (_ && _)%bool; [|reflexivity]. rewrite nth_error_map. destruct (nth_error l _); reflexivity. Qed.
Lemma cy_upd_map {A B} (f : A -> B) l i x : cy_upd (map f l) i (f x) = rmap (map f) (cy_upd l i x).
Proof. unfold cy_upd. rewrite map_length. destruct (_ && _)%bool; [|reflexivity]. cbn [rmap]. rewrite upd_map. reflexivity. Qed.

(** A step never changes the class of a manager. *)
Ltac crush_binds E :=
  repeat (match type of E with
  | bind ?a _ = _ => let E' := fresh in apply bind_ok in E as (? & E' & E); clear E'
  | (let '(_, _) := ?p in _) = _ => destruct p
  | (if ?b then _ else _) = _ => destruct b
  | Ok _ = Ok _ => injection E as <- <-
  end; cbv beta zeta in * ).
Lemma slow_kind {F} `{Num F} (m m' : manager F) n fill d x : slow_step m n fill d = Ok (x, m') -> m_kind m' = m_kind m.
Proof. unfold slow_step. intros E. crush_binds E; reflexivity. Qed.
Lemma captured_kind {F} `{Num F} (m m' : manager F) n fill x : n_electrons_captured m n fill = Ok (x, m') -> m_kind m' = m_kind m.
Proof. unfold n_electrons_captured. intros E. crush_binds E; reflexivity. Qed.
Lemma step_kind {F} `{Num F} (m m' : manager F) n fill d x : manager_step m n fill d = Ok (x, m') -> m_kind m' = m_kind m.
Proof.
  unfold manager_step. assert (I : instant_step m n fill d = Ok (x, m') -> m_kind m' = m_kind m).
  { unfold instant_step. destruct (n_electrons_released m d) as [y m1] eqn:E1. assert (K : m_kind m1 = m_kind m) by (unfold n_electrons_released in E1; injection E1 as <- <-; reflexivity).
    intros E. apply bind_ok in E as ([z m2] & E2 & E). injection E as _ <-. apply captured_kind in E2. congruence. }
  destruct (m_kind m) eqn:K; [intros E; apply slow_kind in E; congruence|auto..].
Qed.

Section Units.
Variables q s : R.
Hypothesis Hq : 0 < q.
Hypothesis Hs : 0 < s.
Variable flag : bool -> bool.
Notation U := (trap_units q s flag).
Notation mu := (manager_units q s flag).
Definition free (m : manager R) : Prop := unit_free s (m_kind m).
Definition data_units (data : list (list (manager R))) : list (list (manager R)) := map (map mu) data.
Definition data_free (data : list (list (manager R))) : Prop := Forall (Forall free) data.
Definition column_units (col : list R) : list R := map (Rmult q) col.

Lemma groups_units gs : forall n fill fill' d acc, Forall free gs -> fill_units q fill fill' ->
  step_groups (map mu gs) (q * n) fill' (s * d) (q * acc) = rmap (fun '(x, ms) => (q * x, map mu ms)) (step_groups gs n fill d acc).
Proof.
  induction gs as [|m gs IH]; intros n fill fill' d acc HG HF; [reflexivity|]. inversion HG as [|? ? Hm HG']; subst. cbn [map step_groups].
  rewrite (manager_step_units q s Hq Hs flag m n fill fill' d Hm HF). apply rmap_bind. intros [x m'] _. rnum. rewrite <- Rmult_plus_distr_l. rewrite (IH n fill fill' d (acc + x) HG' HF).
  apply rmap_bind. intros [y ms] _. reflexivity.
Qed.
Lemma groups_free gs : forall n fill d acc x ms, Forall free gs -> step_groups gs n fill d acc = Ok (x, ms) -> Forall free ms.
Proof.
  induction gs as [|m gs IH]; intros n fill d acc x ms HG E; cbn [step_groups] in E; [injection E as _ <-; constructor|].
  apply bind_ok in E as ([y m'] & E1 & E). apply bind_ok in E as ([z ms'] & E2 & E). injection E as _ <-. inversion HG; subst.
  constructor; [unfold free; rewrite (step_kind _ _ _ _ _ _ E1); assumption|]. exact (IH _ _ _ _ _ _ H2 E2).
Qed.
Lemma fill_units_ccd c phase : fill_units q (fun n => well_fill c phase false n) (fun n => well_fill (ccd_units q c) phase false n).
Proof.
  intros n. unfold well_fill. cbn [ccd_units ccd_notch ccd_fill_power ccd_full_well]. rnum. rewrite eqb0_scale by exact Hq. destruct (Reqb n 0); [reflexivity|].
  rewrite !nth_error_map. destruct (nth_error (ccd_notch c) phase) as [e|]; [|reflexivity]. cbn [option_map of_option bind]. destruct (nth_error (ccd_fill_power c) phase) as [b|]; [|reflexivity]. cbn [of_option bind].
  destruct (nth_error (ccd_full_well c) phase) as [f|]; [|reflexivity]. cbn [option_map of_option bind].
  rewrite <- !Rmult_minus_distr_l, eqb0_scale by exact Hq. destruct (Reqb (f - e) 0); [reflexivity|]. rewrite div_scale by exact Hq. reflexivity.
Qed.
Lemma write_units col row net mult t : write_back (column_units col) row (q * net) mult t = rmap column_units (write_back col row net mult t).
Proof.
  unfold write_back. destruct t as [pixel fraction]. unfold column_units. rewrite cy_index_map. apply rmap_bind. intros old _. rnum.
  replace (q * old + q * net * fraction * mult) with (q * (old + net * fraction * mult)) by ring. rewrite ltb0r_scale by exact Hq.
  destruct (Rltb _ 0); [|apply cy_upd_map]. rewrite <- cy_upd_map, Rmult_0_r. reflexivity.
Qed.
Definition state_units (st : list R * list (list (manager R))) := (column_units (fst st), data_units (snd st)).
Lemma upd_Forall {A} (P : A -> Prop) l i x : Forall P l -> P x -> Forall P (upd l i x).
Proof. intros Hl Hx. revert i. induction Hl as [|a l Ha Hl IH]; intros [|i]; cbn; constructor; auto. Qed.
Lemma nth_error_Forall {A} (P : A -> Prop) l i x : Forall P l -> nth_error l i = Some x -> P x.
Proof. intros Hl E. rewrite Forall_forall in Hl. exact (Hl x (nth_error_In _ _ E)). Qed.
Lemma phase_units c d rps row mult st phase : data_free (snd st) ->
  clock_one_phase (ccd_units q c) (s * d) rps row mult (state_units st) phase = rmap state_units (clock_one_phase c d rps row mult st phase).
Proof.
  destruct st as [col data]. cbn [snd]. intros HD. unfold clock_one_phase, state_units. cbn [fst snd].
  destruct (nth_error rps phase) as [rp|]; [|reflexivity]. cbn [of_option bind]. unfold column_units at 1. rewrite cy_index_map. apply rmap_bind. intros charge _.
  unfold data_units. rewrite nth_error_map. destruct (nth_error data phase) as [gs|] eqn:G; [|reflexivity]. cbn [option_map of_option bind].
  pose proof (nth_error_Forall _ _ _ _ HD G) as HG. rnum. rewrite Rmult_assoc.
  pose proof (groups_units gs (charge * (if rp_high rp then 1 else 0)) _ _ d 0 HG (fill_units_ccd c phase)) as GU. rewrite Rmult_0_r in GU. rewrite GU. clear GU. apply rmap_bind. intros [net gs'] _.
  rewrite upd_map. destruct (Reqb mult 0); [reflexivity|].
  rewrite (foldM_units_id column_units (fun _ => True) (fun col t => write_back col row net mult t)); auto; [|intros; apply write_units].
  destruct (foldM _ _ col); reflexivity.
Qed.
Lemma phase_free c d rps row mult st phase st' : data_free (snd st) -> clock_one_phase c d rps row mult st phase = Ok st' -> data_free (snd st').
Proof.
  destruct st as [col data]. cbn [snd]. intros HD E. unfold clock_one_phase in E.
  apply bind_ok in E as (rp & _ & E). apply bind_ok in E as (charge & _ & E). apply bind_ok in E as (gs & G & E). apply bind_ok in E as ([net gs'] & S & E).
  destruct (nth_error data phase) as [gs0|] eqn:G0; [|discriminate]. injection G as ->.
  assert (D : data_free (upd data phase gs')) by (apply upd_Forall; [exact HD|]; exact (groups_free _ _ _ _ _ _ _ (nth_error_Forall _ _ _ _ HD G0) S)).
  destruct (_ =? _)%num; [injection E as <-; exact D|]. apply bind_ok in E as (col' & _ & E). injection E as <-. exact D.
Qed.
Lemma combine_map_r' {A B C} (f : B -> C) (l : list A) m : combine l (map f m) = map (fun p => (fst p, f (snd p))) (combine l m).
Proof. revert m. induction l as [|a l IH]; intros [|b m]; cbn; [reflexivity..|]. rewrite IH. reflexivity. Qed.
Definition dwell_units (p : nat * R) : nat * R := (fst p, s * snd p).
Lemma dwells_units r : steps_with_dwell (roe_units s r) = map dwell_units (steps_with_dwell r).
Proof.
  unfold steps_with_dwell. cbn [roe_units set_dwell_times roe_dwell_times]. rewrite map_length, combine_map_r'. generalize (combine (seq 0 (length (roe_dwell_times r))) (roe_dwell_times r)).
  induction l as [|[i d] l IH]; [reflexivity|]. cbn [map filter fst snd].
  assert (EN : (n0 <? Rmult s d)%num = (n0 <? d)%num) by (rnum; apply ltb0_scale, Hs). rewrite EN. destruct (n0 <? d)%num; cbn [map]; rewrite IH; reflexivity.
Qed.
Lemma row_free c r row mult st st' : data_free (snd st) -> clock_one_row c r row mult st = Ok st' -> data_free (snd st').
Proof.
  intros HD E. refine (foldM_inv (fun st => data_free (snd st)) _ _ _ st st' HD E). intros s0 [step d] s1 _ H0 E0.
  refine (foldM_inv (fun st => data_free (snd st)) _ _ _ s0 s1 H0 E0). intros s2 phase s3 _ H2 E2. apply bind_ok in E2 as (rps & _ & E2). exact (phase_free _ _ _ _ _ _ _ _ H2 E2).
Qed.
Lemma row_units c r row mult st : data_free (snd st) ->
  clock_one_row (ccd_units q c) (roe_units s r) row mult (state_units st) = rmap state_units (clock_one_row c r row mult st).
Proof.
  intros HD. unfold clock_one_row. rewrite dwells_units. change (phases_with_traps (ccd_units q c)) with (phases_with_traps c). change (roe_clock_sequence (roe_units s r)) with (roe_clock_sequence r).
  apply (foldM_units state_units dwell_units (fun st => data_free (snd st))); [| |exact HD].
  - intros st0 [step d] H0. cbn [dwell_units fst snd]. apply (foldM_units_id state_units (fun st => data_free (snd st))); [| |exact H0].
    + intros st1 phase H1. destruct (nth_error _ step) as [rps|]; [|reflexivity]. cbn [of_option bind]. apply phase_units, H1.
    + intros st1 phase st2 H1 E. apply bind_ok in E as (rps & _ & E). exact (phase_free _ _ _ _ _ _ _ _ H1 E).
  - intros st0 [step d] st1 H0 E. refine (foldM_inv (fun st => data_free (snd st)) _ _ _ st0 st1 H0 E). intros s2 phase s3 _ H2 E2. apply bind_ok in E2 as (rps & _ & E2). exact (phase_free _ _ _ _ _ _ _ _ H2 E2).
Qed.

(** ** All the managers. *)
Definition atm_units (a : all_managers R) : all_managers R := mkATM (data_units (atm_data a)) (option_map data_units (atm_saved a)) (q * atm_in_save a) (q * atm_previously a).
Definition atm_free (a : all_managers R) : Prop := data_free (atm_data a) /\ match atm_saved a with None => True | Some d => data_free d end.
Lemma group_currently ms : forall acc, Forall free ms ->
  fold_left (fun acc m => acc + n_trapped m (m_wm m)) (map mu ms) (q * acc) = q * fold_left (fun acc m => acc + n_trapped m (m_wm m)) ms acc.
Proof.
  induction ms as [|m ms IH]; intros acc H; [reflexivity|]. inversion H; subst. cbn [map fold_left]. rewrite (n_trapped_units q s Hs flag m) by assumption. rewrite <- Rmult_plus_distr_l. apply IH; assumption.
Qed.
Lemma currently_units d : data_free d -> trapped_currently (data_units d) = q * trapped_currently d.
Proof.
  unfold trapped_currently. rnum. intros H. rewrite <- (Rmult_0_r q) at 1. revert H. generalize 0. induction d as [|ms d IH]; intros acc H; [reflexivity|]. inversion H; subst.
  cbn [data_units map fold_left]. rewrite group_currently by assumption. apply IH; assumption.
Qed.
Lemma save_units a : atm_free a -> atm_save (atm_units a) = atm_units (atm_save a).
Proof. intros [H _]. unfold atm_save, atm_units. cbn [atm_data atm_saved atm_in_save atm_previously option_map]. rewrite currently_units by exact H. reflexivity. Qed.
Lemma save_free a : atm_free a -> atm_free (atm_save a).
Proof. intros [H _]. split; exact H. Qed.
Lemma empty_data d : map (map empty_all_traps) (data_units d) = data_units (map (map empty_all_traps) d).
Proof. unfold data_units. rewrite !map_map. apply map_ext. intros ms. rewrite !map_map. reflexivity. Qed.
Lemma empty_data_free d : data_free d -> data_free (map (map empty_all_traps) d).
Proof. intros H. induction H as [|ms d Hm H IH]; constructor; auto. clear -Hm. induction Hm; constructor; auto. Qed.
Lemma empty_units a : atm_empty (atm_units a) = atm_units (atm_empty a).
Proof. unfold atm_empty, atm_units. cbn [atm_data atm_saved atm_in_save atm_previously]. rewrite empty_data. reflexivity. Qed.
Lemma empty_free a : atm_free a -> atm_free (atm_empty a).
Proof. intros [H1 H2]. split; [apply empty_data_free, H1|exact H2]. Qed.
Lemma restore_units a : atm_free a -> atm_restore (atm_units a) = atm_units (atm_restore a).
Proof.
  intros [H _]. unfold atm_restore, atm_units. cbn [atm_data atm_saved atm_in_save atm_previously]. rewrite currently_units by exact H. rnum.
  replace (q * atm_previously a + (q * trapped_currently (atm_data a) - q * atm_in_save a)) with (q * (atm_previously a + (trapped_currently (atm_data a) - atm_in_save a))) by ring.
  destruct (atm_saved a) as [d|]; cbn [option_map atm_data atm_saved atm_in_save atm_previously]; [reflexivity|]. rewrite empty_data. reflexivity.
Qed.
Lemma restore_free a : atm_free a -> atm_free (atm_restore a).
Proof. intros [H1 H2]. unfold atm_restore. destruct (atm_saved a) as [d|]; split; cbn; auto. apply empty_data_free, H1. Qed.

Definition both_units (st : list R * all_managers R) := (column_units (fst st), atm_units (snd st)).
Lemma cell_units c r window st cell : atm_free (snd st) ->
  clock_cell (ccd_units q c) (roe_units s r) window (both_units st) cell = rmap both_units (clock_cell c r window st cell).
Proof.
  destruct st as [col a]. cbn [snd]. intros HA. destruct cell as [ri [[mult monitor] save]]. unfold clock_cell, both_units. cbn [fst snd]. destruct (negb monitor); [reflexivity|].
  assert (E : match nth_error window ri with
      | Some row => clock_one_row (ccd_units q c) (roe_units s r) row mult (column_units col, atm_data (atm_units a))
      | None => match steps_with_dwell (roe_units s r), phases_with_traps (ccd_units q c) with
        | _ :: _, _ :: _ => Err IndexError | _, _ => Ok (column_units col, atm_data (atm_units a)) end end =
    rmap state_units (match nth_error window ri with
      | Some row => clock_one_row c r row mult (col, atm_data a)
      | None => match steps_with_dwell r, phases_with_traps c with
        | _ :: _, _ :: _ => Err IndexError | _, _ => Ok (col, atm_data a) end end)).
  { destruct (nth_error window ri) as [row|].
    - apply (row_units c r row mult (col, atm_data a)). exact (proj1 HA).
    - rewrite dwells_units. change (phases_with_traps (ccd_units q c)) with (phases_with_traps c). destruct (steps_with_dwell r), (phases_with_traps c); reflexivity. }
  rewrite E. clear E. apply rmap_bind. intros [col' data'] E. unfold state_units. cbn [fst snd].
  assert (D : data_free data').
  { destruct (nth_error window ri) as [row|]; [exact (row_free _ _ _ _ _ _ (proj1 HA : data_free (snd (col, atm_data a))) E)|].
    destruct (steps_with_dwell r), (phases_with_traps c); try discriminate; injection E as _ <-; exact (proj1 HA). }
  destruct save; [|reflexivity]. cbn [rmap fst snd]. rewrite <- save_units; [reflexivity|]. split; [exact D|exact (proj2 HA)].
Qed.
Lemma cell_free c r window st cell st' : atm_free (snd st) -> clock_cell c r window st cell = Ok st' -> atm_free (snd st').
Proof.
  destruct st as [col a]. cbn [snd]. intros HA. destruct cell as [ri [[mult monitor] save]]. unfold clock_cell. destruct (negb monitor); [intros [= <-]; exact HA|].
  intros E. apply bind_ok in E as ([col' data'] & E1 & E). injection E as <-. cbn [snd].
  assert (D : data_free data').
  { destruct (nth_error window ri) as [row|]; [exact (row_free _ _ _ _ _ _ (proj1 HA : data_free (snd (col, atm_data a))) E1)|].
    destruct (steps_with_dwell r), (phases_with_traps c); try discriminate; injection E1 as _ <-; exact (proj1 HA). }
  destruct save; [apply save_free|]; (split; [exact D|exact (proj2 HA)]).
Qed.
Lemma column_sim c r window passes st : atm_free (snd st) ->
  clock_column (ccd_units q c) (roe_units s r) window passes (both_units st) = rmap both_units (clock_column c r window passes st).
Proof.
  intros HA. unfold clock_column. apply (foldM_units_id both_units (fun st => atm_free (snd st))); [| |exact HA].
  - intros st0 cells H0. unfold clock_pass_rows. cbn [both_units fst snd]. rewrite restore_units by exact H0.
    change (column_units (fst st0), atm_units (atm_restore (snd st0))) with (both_units (fst st0, atm_restore (snd st0))).
    apply (foldM_units_id both_units (fun st => atm_free (snd st))); [intros; apply cell_units; assumption|intros; eapply cell_free; eassumption|apply restore_free, H0].
  - intros st0 cells st1 H0 E. refine (foldM_inv (fun st => atm_free (snd st)) _ _ _ _ st1 (restore_free _ H0 : atm_free (snd (fst st0, atm_restore (snd st0)))) E). intros; eapply cell_free; eassumption.
Qed.
Lemma column_free c r window passes st st' : atm_free (snd st) -> clock_column c r window passes st = Ok st' -> atm_free (snd st').
Proof.
  intros HA E. refine (foldM_inv (fun st => atm_free (snd st)) _ _ _ st st' HA E). intros st0 cells st1 _ H0 E0.
  refine (foldM_inv (fun st => atm_free (snd st)) _ _ _ _ st1 (restore_free _ H0 : atm_free (snd (fst st0, atm_restore (snd st0)))) E0). intros; eapply cell_free; eassumption.
Qed.

(** ** Images. *)
Lemma units_columns (im : image R) : n_columns (image_units q im) = n_columns im.
Proof. destruct im as [|row im]; [reflexivity|]. apply map_length. Qed.
Lemma units_get im j : get_column (image_units q im) j = column_units (get_column im j).
Proof. unfold get_column, image_units, column_units. rewrite !map_map. apply map_ext. intros row. rnum. apply nth_map0. Qed.
Lemma units_set im j col : set_column (image_units q im) j (column_units col) = image_units q (set_column im j col).
Proof.
  unfold set_column, image_units, column_units. revert col. induction im as [|row im IH]; intros [|x col]; cbn; [reflexivity..|]. rewrite upd_map. f_equal. apply IH.
Qed.
Lemma units_end r a : atm_free a -> end_of_column (roe_units s r) (atm_units a) = atm_units (end_of_column r a).
Proof.
  intros H. unfold end_of_column. change (roe_empty_between (roe_units s r)) with (roe_empty_between r). destruct (roe_empty_between r); [rewrite empty_units|]; apply save_units; [apply empty_free|]; exact H.
Qed.
Definition picture_units (st : image R * all_managers R) := (image_units q (fst st), atm_units (snd st)).
Lemma columns_units c r window cols passes st : atm_free (snd st) ->
  clock_columns (ccd_units q c) (roe_units s r) window cols passes (picture_units st) = rmap picture_units (clock_columns c r window cols passes st).
Proof.
  intros HA. unfold clock_columns. apply (foldM_units_id picture_units (fun st => atm_free (snd st))); [| |exact HA].
  - intros [im a] j H0. unfold clock_one_column, picture_units. cbn [fst snd] in *. rewrite units_columns. destruct (_ && _)%bool; [|reflexivity].
    rewrite units_get. change (column_units ?x, atm_units a) with (both_units (x, a)). rewrite column_sim by exact H0. apply rmap_bind. intros [col a'] E. unfold both_units. cbn [fst snd rmap].
    rewrite units_set, units_end; [reflexivity|]. exact (column_free _ _ _ _ _ _ (H0 : atm_free (snd (get_column im (Z.to_nat j), a))) E).
  - intros [im a] j st' H0 E. unfold clock_one_column in E. destruct (_ && _)%bool; [|discriminate]. apply bind_ok in E as ([col a'] & E & E'). injection E' as <-. cbn [snd] in *.
    pose proof (column_free _ _ _ _ _ _ (H0 : atm_free (snd (get_column im (Z.to_nat j), a))) E) as H1. unfold end_of_column. apply save_free. destruct (roe_empty_between r); [apply empty_free|]; exact H1.
Qed.
Lemma repeat_map {A B} (f : A -> B) x n : map f (repeat x n) = repeat (f x) n.
Proof. induction n; cbn; congruence. Qed.
Lemma units_pad (im : image R) n : pad (image_units q im) n = image_units q (pad im n).
Proof.
  unfold pad, image_units. rewrite map_app. f_equal. change (map (map (Rmult q)) im) with (image_units q im). rewrite units_columns.
  rewrite !repeat_map. rnum. rewrite Rmult_0_r. reflexivity.
Qed.
Lemma units_unpad (im : image R) n : unpad (image_units q im) n = image_units q (unpad im n).
Proof. unfold unpad, image_units. rewrite map_length, firstn_map. reflexivity. Qed.

(** ** Whole calls. *)
Lemma express_units r wr ex off tw :
  express_and_monitor (roe_units s r) wr ex off tw = rmap (fun '(r', em, mon) => (roe_units s r', em, mon)) (express_and_monitor r wr ex off tw).
Proof.
  unfold express_and_monitor. change (roe_kind_of (roe_units s r)) with (roe_kind_of r). change (roe_dtype (roe_units s r)) with (roe_dtype r). destruct (roe_kind_of r).
  - destruct (standard_express _ _ _ _ _ _) as [[? ?]|]; reflexivity.
  - destruct (injection_express _ _ _ _ _ _) as [[[? ?] ?]|]; reflexivity.
  - destruct (pumping_express _ _ _ _ _) as [[? ?]|]; reflexivity.
Qed.
Lemma transfers_units r a b : max_n_transfers (roe_units s r) a b = max_n_transfers r a b.
Proof. unfold max_n_transfers. rewrite dwells_units, map_length. reflexivity. Qed.
Lemma kind_units g : kind_of_group (map U g) = kind_of_group g.
Proof. destruct g as [|t g]; [reflexivity|]. cbn. destruct (t_class t); reflexivity. Qed.
Lemma mapM_rmap {A B C} (f : A -> result B) (g : A -> result C) (h : B -> C) l : (forall x, In x l -> g x = rmap h (f x)) -> mapM g l = rmap (map h) (mapM f l).
Proof. intros H. induction l as [|x l IH]; [reflexivity|]. cbn [mapM]. rewrite (H x (or_introl eq_refl)). apply rmap_bind. intros b _. rewrite IH by (intros; apply H; right; assumption). apply rmap_bind. reflexivity. Qed.
Lemma atm_init_units a n c : atm_init (map_traps U a) n (ccd_units q c) = rmap atm_units (atm_init a n c).
Proof.
  unfold atm_init. rewrite normalise_map. destruct (normalise_traps a) as [gs|]; [|reflexivity]. cbn [bind]. change (ccd_n_phases (ccd_units q c)) with (ccd_n_phases c).
  rewrite (mapM_rmap (fun phase => mapM (fun g => do k <- kind_of_group g; do frac <- of_option IndexError (nth_error (ccd_fractions c) phase);
    let m := manager_init k g n in Ok (mkManager (m_kind m) (map (scale_density frac) (m_traps m)) (m_wm m))) gs) _ (map mu)).
  - apply rmap_bind. intros data _. unfold atm_units. cbn. rnum. rewrite Rmult_0_r. reflexivity.
  - intros phase _. rewrite mapM_map. apply mapM_rmap. intros g _. rewrite kind_units. destruct (kind_of_group g) as [k|]; [|reflexivity]. cbn [bind ccd_units ccd_fractions].
    destruct (nth_error (ccd_fractions c) phase) as [x|]; [|reflexivity]. cbn [of_option bind rmap]. unfold manager_init, manager_units. cbn [m_kind m_traps m_wm]. rewrite map_length. do 2 f_equal.
    rewrite !map_map. apply map_ext. intros t. unfold scale_density, trap_units. cbn. f_equal. rnum. ring.
Qed.
Lemma atm_init_free a n c atm : (s = 1 \/ forall gs g, normalise_traps a = Ok gs -> In g gs -> kind_of_group g <> Ok KTime) -> atm_init a n c = Ok atm -> atm_free atm.
Proof.
  intros HK E. unfold atm_init in E. apply bind_ok in E as (gs & G & E). apply bind_ok in E as (data & D & E). injection E as <-. split; [|exact I]. cbn [atm_data].
  refine (mapM_Forall _ _ _ _ D _). intros phase ms _ M. refine (mapM_Forall _ _ _ _ M _). intros g m Hg Em.
  apply bind_ok in Em as (k & K & Em). apply bind_ok in Em as (x & _ & Em). injection Em as <-. unfold free, unit_free. cbn. destruct HK as [HK|HK]; [left; exact HK|right].
  specialize (HK gs g G Hg). congruence.
Qed.
Definition call_units (out : image R * roe R) := (image_units q (fst out), roe_units s (snd out)).
Lemma clock_units im c r a ex off wr wc tw : (s = 1 \/ forall gs g, normalise_traps a = Ok gs -> In g gs -> kind_of_group g <> Ok KTime) ->
  clock_charge_in_one_direction (image_units q im) (ccd_units q c) (roe_units s r) (map_traps U a) ex off wr wc tw = rmap call_units (clock_charge_in_one_direction im c r a ex off wr wc tw).
Proof.
  intros HK. unfold clock_charge_in_one_direction. rewrite express_units. apply rmap_bind. intros [[r' em] mon] _.
  change (save_matrix (roe_units s r') em) with (save_matrix r' em). destruct (save_matrix r' em) as [sav|]; [|reflexivity]. cbn [bind].
  rewrite transfers_units, atm_init_units. apply rmap_bind. intros atm EA. change (n_padding (roe_units s r')) with (n_padding r'). destruct (n_padding r') as [n|]; [|reflexivity]. cbn [bind].
  rewrite units_pad. change (image_units q ?x, atm_units atm) with (picture_units (x, atm)). rewrite columns_units by exact (atm_init_free _ _ _ _ HK EA).
  apply rmap_bind. intros [im' a'] _. unfold picture_units, call_units. cbn [fst snd rmap]. rewrite units_unpad. reflexivity.
Qed.
Lemma direction_sim im d r a wr wc tw : (s = 1 \/ forall gs g, normalise_traps a = Ok gs -> In g gs -> kind_of_group g <> Ok KTime) ->
  clock_direction (image_units q im) (direction_units q s flag d) (roe_units s r) (map_traps U a) wr wc tw = rmap call_units (clock_direction im d r a wr wc tw).
Proof.
  intros HK. unfold clock_direction. cbn [direction_units d_ccd d_express d_offset]. destruct (d_ccd d) as [c|]; cbn [option_map]; [apply clock_units, HK|].
  rewrite express_units. apply rmap_bind. intros [[r' em] mon] _. change (save_matrix (roe_units s r') em) with (save_matrix r' em). destruct (save_matrix r' em); reflexivity.
Qed.
Lemma units_transpose im : transpose (image_units q im) = image_units q (transpose im).
Proof.
  unfold transpose. rewrite units_columns. unfold image_units. rewrite !map_map. apply map_ext. intros j. rewrite !map_map. apply map_ext. intros row. rnum. apply nth_map0.
Qed.
Lemma records_kinds d a : d_traps d = Some a -> ~ records_times d -> forall gs g, normalise_traps a = Ok gs -> In g gs -> kind_of_group g <> Ok KTime.
Proof.
  unfold records_times. intros -> H gs g G Hg K.
  assert (S : starts_with_continuum g). { destruct g as [|t g]; [discriminate|]. cbn. unfold continuum. cbn in K. destruct (t_class t); try discriminate. exact I. }
  apply H. destruct a as [t|[|t l]|[|g0 l]]; cbn in G; try discriminate; injection G as <-.
  - destruct Hg as [<-|[]]. exact S.
  - destruct Hg as [<-|[]]. exact S.
  - apply Exists_exists. eauto.
Qed.
End Units.


Lemma add_cti_units q s f g im parallel serial tw : 0 < q -> 0 < s -> s = 1 \/ (~ records_times parallel /\ ~ records_times serial) ->
  add_cti (image_units q im) (direction_units q s f parallel) (direction_units q s g serial) tw = output_units q s (add_cti im parallel serial tw).
Proof.
  intros Hq Hs HK. unfold add_cti. cbn [direction_units d_window d_offset d_traps]. rewrite units_columns. replace (length (image_units q im)) with (length im) by (symmetry; apply map_length).
  change (the_roe (direction_units q s f parallel)) with (roe_units s (the_roe parallel)). change (the_roe (direction_units q s g serial)) with (roe_units s (the_roe serial)).
  destruct (resolve_time_window _ _ _ _) as [[t sc]|e]; [|reflexivity]. cbn [bind].
  assert (E : forall im1 pr, (do '(im2, serial_roe) <- match option_map (map_traps (trap_units q s g)) (d_traps serial) with
      | None => Ok (image_units q im1, roe_units s (the_roe serial))
      | Some traps => do '(im2, r) <- clock_direction (transpose (image_units q im1)) (direction_units q s g serial) (roe_units s (the_roe serial)) traps
          (resolve_window (d_window serial) (n_columns im)) sc None; Ok (transpose im2, r) end; Ok (im2, roe_units s pr, serial_roe))
    = output_units q s (do '(im2, serial_roe) <- match d_traps serial with
      | None => Ok (im1, the_roe serial)
      | Some traps => do '(im2, r) <- clock_direction (transpose im1) serial (the_roe serial) traps
          (resolve_window (d_window serial) (n_columns im)) sc None; Ok (transpose im2, r) end; Ok (im2, pr, serial_roe))).
  { intros im1 pr. destruct (d_traps serial) as [a|] eqn:T; [|reflexivity]. cbn [option_map]. rewrite units_transpose, (direction_sim q s Hq Hs g) by (destruct HK as [HK|HK]; [auto|right; exact (records_kinds _ _ T (proj2 HK))]).
    destruct (clock_direction _ serial _ _ _ _ _) as [[im2 r]|]; [|reflexivity]. cbn [rmap bind call_units output_units fst snd]. rewrite units_transpose. reflexivity. }
  destruct (d_traps parallel) as [a|] eqn:T; cbn [option_map bind]; [|apply E]. rewrite (direction_sim q s Hq Hs f) by (destruct HK as [HK|HK]; [auto|right; exact (records_kinds _ _ T (proj1 HK))]).
  destruct (clock_direction im parallel _ _ _ _ _) as [[im1 pr]|]; [|reflexivity]. cbn [rmap bind call_units fst snd]. apply E.
Qed.

(** ** remove_cti. *)
Lemma zip_add_units q (a b : image R) : image_zip nadd (image_units q a) (image_units q b) = image_units q (image_zip nadd a b).
Proof.
  unfold image_zip, image_units. revert b. induction a as [|x a IH]; intros [|y b]; cbn; [reflexivity..|]. f_equal; [|apply IH]. clear. revert y.
  induction x as [|u x IH]; intros [|v y]; cbn; [reflexivity..|]. rewrite IH. f_equal. rnum. ring.
Qed.
Lemma zip_sub_units q (a b : image R) : image_zip nsub (image_units q a) (image_units q b) = image_units q (image_zip nsub a b).
Proof.
  unfold image_zip, image_units. revert b. induction a as [|x a IH]; intros [|y b]; cbn; [reflexivity..|]. f_equal; [|apply IH]. clear. revert y.
  induction x as [|u x IH]; intros [|v y]; cbn; [reflexivity..|]. rewrite IH. f_equal. rnum. ring.
Qed.
Lemma add_cti_default im parallel serial tw im' pr sr : add_cti im parallel serial tw = Ok (im', pr, sr) ->
  (d_roe parallel = None -> pr = roe_default) /\ (d_roe serial = None -> sr = roe_default).
Proof.
  unfold add_cti. intros E. apply bind_ok in E as ([t sc] & _ & E). apply bind_ok in E as ([im1 pr1] & E1 & E). apply bind_ok in E as ([im2 sr1] & E2 & E). injection E as <- <- <-. split; intros D.
  - assert (HR : the_roe parallel = roe_default) by (unfold the_roe; rewrite D; reflexivity). rewrite HR in E1. destruct (d_traps parallel); [|congruence]. apply clock_keeps in E1; [exact E1|discriminate].
  - assert (HR : the_roe serial = roe_default) by (unfold the_roe; rewrite D; reflexivity). rewrite HR in E2. destruct (d_traps serial); [|congruence]. apply bind_ok in E2 as ([im3 r3] & E2 & E3).
    apply clock_keeps in E2; [congruence|discriminate].
Qed.
Lemma keep_units q s f d r : (d_roe d = None -> r = roe_default) -> keep_roe (direction_units q s f d) (roe_units s r) = direction_units q s f (keep_roe d r).
Proof. intros H. unfold keep_roe, direction_units, the_roe. destruct (d_roe d) eqn:D; cbn; [reflexivity|]. rewrite D, (H eq_refl). reflexivity. Qed.
Lemma keep_records d r : records_times (keep_roe d r) = records_times d.
Proof. unfold keep_roe. destruct (d_roe d); reflexivity. Qed.
Lemma remove_units q s f g im n : forall parallel serial tw est, 0 < q -> 0 < s -> s = 1 \/ (~ records_times parallel /\ ~ records_times serial) ->
  remove_cti_loop (image_units q im) n (direction_units q s f parallel) (direction_units q s g serial) tw (image_units q est) =
  rmap (fun '(out, p, sr) => (image_units q out, direction_units q s f p, direction_units q s g sr)) (remove_cti_loop im n parallel serial tw est).
Proof.
  induction n as [|n IH]; intros parallel serial tw est Hq Hs HK; [reflexivity|]. cbn [remove_cti_loop]. rewrite add_cti_units by assumption. destruct (add_cti est parallel serial tw) as [[[added pr] sr]|] eqn:E; [|reflexivity].
  cbn [output_units bind]. destruct (add_cti_default _ _ _ _ _ _ _ E) as [D1 D2]. rewrite zip_sub_units, zip_add_units, !keep_units by assumption. apply IH; [assumption..|]. rewrite !keep_records. exact HK.
Qed.
Lemma remove_cti_units q s f g im n parallel serial tw : 0 < q -> 0 < s -> s = 1 \/ (~ records_times parallel /\ ~ records_times serial) ->
  remove_cti (image_units q im) n (direction_units q s f parallel) (direction_units q s g serial) tw = rmap (image_units q) (remove_cti im n parallel serial tw).
Proof. intros Hq Hs HK. unfold remove_cti. rewrite remove_units by assumption. destruct (remove_cti_loop im n parallel serial tw im) as [[[? ?] ?]|]; reflexivity. Qed.

(** ** Units of one: only the flags. *)
Lemma map_mult_1 l : map (Rmult 1) l = l.
Proof. rewrite <- (map_id l) at 2. apply map_ext. intros x. ring. Qed.
Lemma image_units_1 im : image_units 1 im = im.
Proof. unfold image_units. rewrite <- (map_id im) at 2. apply map_ext. exact map_mult_1. Qed.
Lemma roe_units_1 r : roe_units 1 r = r.
Proof. unfold roe_units, set_dwell_times. rewrite map_mult_1. destruct r; reflexivity. Qed.
Lemma ccd_units_1 c : ccd_units 1 c = c.
Proof.
  unfold ccd_units. rewrite !map_mult_1. destruct c as [fr n fw fp no bl]. cbn. f_equal. rewrite <- (map_id bl) at 2. apply map_ext. intros [x|l]; cbn; [rewrite Rmult_1_l|rewrite map_mult_1]; reflexivity.
Qed.
Lemma trap_units_1 f t : trap_units 1 1 f t = with_flag f t.
Proof.
  unfold trap_units, with_flag. rewrite !Rmult_1_l. replace (t_emission_rate t / 1) with (t_emission_rate t) by field. f_equal.
  - destruct (t_capture_rate t); cbn; [reflexivity|]. f_equal. field.
  - destruct (t_class t) as [| |fl re so]; cbn; [reflexivity..|]. f_equal; repeat (apply FunctionalExtensionality.functional_extensionality; intros ?); unfold Rdiv; rewrite ?Rinv_1, ?Rmult_1_l, ?Rmult_1_r; reflexivity.
Qed.
Lemma map_traps_ext f g a : (forall t, f t = g t) -> map_traps f a = map_traps g a.
Proof. intros H. destruct a as [t|l|l]; cbn; f_equal; auto using map_ext. Qed.
Lemma direction_units_1 f d : direction_units 1 1 f d = mkDir (d_ccd d) (Some (the_roe d)) (option_map (map_traps (with_flag f)) (d_traps d)) (d_express d) (d_offset d) (d_window d).
Proof.
  unfold direction_units. rewrite roe_units_1. f_equal; [destruct (d_ccd d); cbn; rewrite ?ccd_units_1; reflexivity|]. destruct (d_traps d); cbn; [|reflexivity]. f_equal. apply map_traps_ext, trap_units_1.
Qed.
Lemma flags_free f g im parallel serial tw : add_cti im (direction_flags f parallel) (direction_flags g serial) tw = add_cti im parallel serial tw.
Proof.
  transitivity (add_cti (image_units 1 im) (direction_units 1 1 f parallel) (direction_units 1 1 g serial) tw).
  - rewrite image_units_1, !direction_units_1. reflexivity.
  - rewrite add_cti_units by (try lra; left; reflexivity). destruct (add_cti im parallel serial tw) as [[[im' pr] sr]|]; [|reflexivity]. cbn [output_units bind]. rewrite image_units_1, !roe_units_1. reflexivity.
Qed.
Lemma bloom_direction im d level r a wr wc tw : clock_direction im (with_blooming_level level d) r a wr wc tw = clock_direction im d r a wr wc tw.
Proof. unfold clock_direction. cbn [with_blooming_level d_ccd d_express d_offset]. destruct (d_ccd d) as [c|]; reflexivity. Qed.
Lemma bloom_free im parallel serial level level' tw :
  add_cti im (with_blooming_level level parallel) (with_blooming_level level' serial) tw = add_cti im parallel serial tw.
Proof.
  unfold add_cti. cbn [with_blooming_level d_window d_offset d_traps].
  change (the_roe (with_blooming_level level parallel)) with (the_roe parallel). change (the_roe (with_blooming_level level' serial)) with (the_roe serial).
  destruct (resolve_time_window _ _ _ _) as [[t sc]|]; [|reflexivity]. cbn [bind]. destruct (d_traps parallel) as [a|]; [rewrite bloom_direction|]; (match goal with |- bind ?x _ = _ => destruct x as [[im1 r1]|]; [|reflexivity] end);
    cbn [bind]; (destruct (d_traps serial) as [b|]; [rewrite bloom_direction|]; reflexivity).
Qed.
