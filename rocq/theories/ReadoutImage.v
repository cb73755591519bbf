(** * Clocking an image refines the readout model, column by column. *)
From Coq Require Import ZArith List Bool Reals Lra Lia.
From Coquelicot Require Import Rcomplements Rbar Hierarchy RInt.
From Verif Require Import Num Py RFacts CCDModel TrapsModel ManagerModel ROEModel ClockModel Spec SpecImage SpecROE SpecReadout
  CCDFacts WmFacts ArrayFacts CutFacts InstantFacts ClockFacts ShapeFacts ColumnFacts ReadoutFacts ROEClockFacts.
Import ListNotations.
Open Scope R_scope.

(** ** Sites *)
Lemma depth_sensitive full beta : 0 < full -> 0 < beta -> sensitive (depth full beta).
Proof.
  intros Hf Hb. unfold depth. split; [destruct (Rle_dec 0 0); [reflexivity|lra]|].
  intros n Hn. destruct (Rle_dec n 0); [lra|]. split; [apply exp_pos|].
  apply Rpower_le_1; [|lra]. assert (0 < n / full) by (apply Rdiv_lt_0_compat; lra). 
  unfold Rmin. destruct (Rle_dec 1 (n / full)); lra.
Qed.
Lemma depth_fill c k beta full n : phase_params c k 0 beta full -> 0 < full -> 0 < beta -> 0 <= n ->
  well_fill c k false n = Ok (depth full beta n).
Proof.
  intros [Hn Hb Hf] Hpf Hpb Hn0. rewrite (well_fill_ok c k n 0 beta full Hn Hb Hf) by lra. f_equal. unfold depth.
  destruct (Req_EM_T n 0) as [->|Hne]; [destruct (Rle_dec 0 0); [reflexivity|lra]|]. destruct (Rle_dec n 0); [lra|].
  replace ((n - 0) / (full - 0)) with (n / full) by (f_equal; lra).
  assert (0 < n / full) by (apply Rdiv_lt_0_compat; lra).
  assert (Hm : 0 < Rmin 1 (n / full)) by (unfold Rmin; destruct (Rle_dec 1 (n / full)); lra).
  rewrite Rmax_right by lra. unfold Rpow_py. destruct (Req_EM_T (Rmin 1 (n / full)) 0); [lra|reflexivity].
Qed.
Lemma thinned_physical f t : 0 <= f -> physical t -> physical (thinned f t).
Proof. intros Hf [H1 H2 H3]. constructor; cbn; auto. apply Rmult_le_pos; assumption. Qed.
Lemma site_of_ok c groups k : plain_ccd c -> Forall instant_group groups -> (k < ccd_n_phases c)%nat ->
  site_ok (site_of c groups k) (fun n => well_fill c k false n).
Proof.
  intros Hc Hg Hk. destruct (pc_phase c Hc k Hk) as (full & beta & HP & Hf & Hb).
  assert (E : site_well (site_of c groups k) = depth full beta).
  { cbn. destruct HP as [_ P2 P3]. rewrite (nth_error_nth _ _ 1 P2), (nth_error_nth _ _ 1 P3). reflexivity. }
  split; [rewrite E; apply depth_sensitive; assumption|]. split.
  - intros n Hn. rewrite E. apply depth_fill; assumption.
  - cbn. apply Forall_forall. intros g Hin. apply in_map_iff in Hin as (g0 & <- & Hin). rewrite Forall_forall in Hg.
    destruct (Hg g0 Hin) as [Hne Hall]. split.
    + apply Forall_forall. intros t Ht. apply in_map_iff in Ht as (t0 & <- & Ht). rewrite Forall_forall in Hall.
      apply thinned_physical; [apply (pc_share c Hc)|apply (Hall t0 Ht)].
    + rewrite map_length. destruct g0; [congruence|cbn; lia].
Qed.

(** ** Phases and steps *)
Lemma phases_eq c : plain_ccd c -> phases_with_traps c = trap_phases c.
Proof.
  intros Hc. unfold phases_with_traps, trap_phases, share. rewrite (pc_fractions c Hc).
  assert (G : forall (l : list R) n s (f : nat -> R), length l = n -> (forall i, (i < n)%nat -> f (s + i)%nat = nth i l 0) ->
    map fst (filter (fun '(_, frac) => (n0 <? frac)%num) (combine (seq s n) l)) = filter (fun k => if Rlt_dec 0 (f k) then true else false) (seq s n)).
  { clear. intros l. induction l as [|x l IH]; intros n s f Hl Hf; destruct n; cbn in Hl; try discriminate; [reflexivity|].
    cbn [seq combine filter]. pose proof (Hf 0%nat ltac:(lia)) as H0. cbn in H0. rewrite Nat.add_0_r in H0. rewrite H0. rnum.
    unfold Rltb at 1. rewrite <- (IH n (S s) f).
    - destruct (Rlt_dec 0 x); reflexivity.
    - lia.
    - intros i Hi. rewrite <- (Hf (S i) ltac:(lia) : _ = nth i l 0). f_equal. lia. }
  apply G; [apply (pc_fractions c Hc)|reflexivity].
Qed.
Lemma trap_phases_lt c k : In k (trap_phases c) -> (k < ccd_n_phases c)%nat.
Proof. intros H. apply filter_In in H as [H _]. apply in_seq in H. lia. Qed.
Lemma trap_phases_nodup c : NoDup (trap_phases c).
Proof. apply NoDup_filter, seq_NoDup. Qed.

Lemma steps_rel (r : roe R) : length (roe_clock_sequence r) = length (roe_dwell_times r) ->
  Forall2 (fun '(i, d) '(d', es) => d = d' /\ 0 < d /\ nth_error (roe_clock_sequence r) i = Some es) (steps_with_dwell r) (timed_steps r).
Proof.
  unfold steps_with_dwell, timed_steps. intros Hl.
  assert (G : forall (ds : list R) (cs pre : list (list (roe_phase R))), length cs = length ds ->
    Forall2 (fun '(i, d) '(d', es) => d = d' /\ 0 < d /\ nth_error (pre ++ cs) i = Some es)
      (filter (fun '(_, time) => (n0 <? time)%num) (combine (seq (length pre) (length ds)) ds))
      (filter (fun '(d, _) => if Rlt_dec 0 d then true else false) (combine ds cs))).
  { clear. induction ds as [|d ds IH]; intros cs pre Hl; destruct cs as [|es cs]; cbn in Hl; try discriminate; [constructor|].
    cbn [combine length seq filter]. specialize (IH cs (pre ++ [es]) ltac:(lia)).
    rewrite app_length in IH. cbn [length] in IH. rewrite Nat.add_1_r, <- app_assoc in IH. cbn [app] in IH. rnum.
    unfold Rltb at 1. destruct (Rlt_dec 0 d) as [Hd|Hd]; [|exact IH]. constructor; [|exact IH].
    split; [reflexivity|]. split; [exact Hd|]. rewrite nth_error_app2, Nat.sub_diag by lia. reflexivity. }
  exact (G _ _ [] Hl).
Qed.
Lemma steps_length (r : roe R) : length (roe_clock_sequence r) = length (roe_dwell_times r) ->
  length (timed_steps r) = length (steps_with_dwell r).
Proof. intros H. pose proof (steps_rel r H) as G. induction G as [|? ? ? ? ? ? IH]; cbn [length]; congruence. Qed.

(** ** The managers at the start *)
Lemma map_thinned_scale f (g : list (trap R)) : map (scale_density f) g = map (thinned f) g.
Proof. reflexivity. Qed.
Lemma empty_init k (traps : list (trap R)) N : empty_all_traps (manager_init k traps N) = manager_init k traps N.
Proof.
  rewrite (empty_eq _ (init_shape k traps N)). unfold manager_init. cbn [m_kind m_traps m_wm]. rewrite repeat_length. reflexivity.
Qed.
Lemma mapM_map {A B} (f : A -> result B) (g : A -> B) l : (forall a, In a l -> f a = Ok (g a)) -> mapM f l = Ok (map g l).
Proof. induction l as [|x l IH]; intros H; [reflexivity|]. cbn. rewrite (H x) by (left; reflexivity). cbn [bind]. rewrite IH; [reflexivity|]. intros a Ha. apply H. right; exact Ha. Qed.
Lemma instant_kind g : instant_group g -> kind_of_group g = Ok KInstant.
Proof. intros [Hne H]. destruct g as [|t g]; [congruence|]. inversion H as [|? ? [_ Hc] _]; subst. cbn. rewrite Hc. reflexivity. Qed.

Lemma atm_init_instant c traps groups N : plain_ccd c -> normalise_traps traps = Ok groups -> Forall instant_group groups ->
  exists a, atm_init traps N c = Ok a /\ atm_saved a = None /\
    rel_data c (site_of c groups) N (atm_data a) (all_empty (site_of c groups)) /\
    rel_data c (site_of c groups) N (emptied (atm_data a)) (all_empty (site_of c groups)).
Proof.
  intros Hc En Hg.
  set (mk := fun phase g => manager_init KInstant (map (thinned (share c phase)) g) N : manager R).
  exists (mkATM (map (fun phase => map (mk phase) groups) (seq 0 (ccd_n_phases c))) None 0 0).
  split.
  { unfold atm_init. rewrite En. cbn [bind]. rewrite (mapM_map _ (fun phase => map (mk phase) groups)); [reflexivity|].
    intros phase Hph. apply in_seq in Hph. apply mapM_map. intros g Hin. rewrite Forall_forall in Hg. rewrite (instant_kind g (Hg g Hin)). cbn [bind].
    rewrite (nth_error_nth' _ 0) by (rewrite (pc_fractions c Hc); lia). cbn [of_option bind]. unfold mk, manager_init. cbn [m_kind m_traps m_wm].
    rewrite map_length. reflexivity. }
  split; [reflexivity|]. cbn [atm_data].
  assert (Hem : emptied (map (fun phase => map (mk phase) groups) (seq 0 (ccd_n_phases c))) = map (fun phase => map (mk phase) groups) (seq 0 (ccd_n_phases c))).
  { unfold emptied. rewrite map_map. apply map_ext. intros phase. rewrite map_map. apply map_ext. intros g. apply empty_init. }
  rewrite Hem.
  assert (H : rel_data c (site_of c groups) N (map (fun phase => map (mk phase) groups) (seq 0 (ccd_n_phases c))) (all_empty (site_of c groups))).
  { intros k Hk. rewrite (phases_eq c Hc) in Hk. apply trap_phases_lt in Hk. exists (map (mk k) groups).
    split; [rewrite (nth_error_map_seq (fun phase => map (mk phase) groups)) by exact Hk; reflexivity|].
    unfold all_empty. cbn [site_of site_groups]. clear. induction groups as [|g gs IH]; [constructor|].
    cbn [map]. constructor; [apply init_represents|exact IH]. }
  split; exact H.
Qed.

(** ** Cells *)
Lemma skipn_nth {A} (l : list A) s : skipn s l = match nth_error l s with Some x => x :: skipn (S s) l | None => [] end.
Proof. revert s. induction l as [|x l IH]; intros [|s]; try reflexivity. cbn [skipn nth_error]. apply IH. Qed.
Lemma cell_rows_cells window em mon sav : cell_rows window (combine (seq 0 (length (zip_cells em mon sav))) (zip_cells em mon sav))
  = cells_of window em mon sav.
Proof.
  unfold cell_rows, cells_of, zip_cells.
  assert (G : forall l s, 
    flat_map (fun '(i, (m, monitor, save)) => if monitor : bool then match nth_error window i with Some row => [(row, m, save)] | None => [] end else [])
      (combine (seq s (length (map (fun '(m, (b, s)) => (m, b, s)) l))) (map (fun '(m, (b, s)) => (m, b, s)) l))
    = flat_map (fun '(row, (m, (monitor, save))) => if monitor : bool then [(row : Z, m : R, save : bool)] else []) (combine (skipn s window) l)).
  { clear. induction l as [|[m [b sv]] l IH]; intros s; [destruct (skipn s window); reflexivity|].
    cbn [map length seq combine flat_map]. rewrite IH. rewrite (skipn_nth window s).
    destruct (nth_error window s) as [row|] eqn:E.
    - cbn [combine flat_map]. reflexivity.
    - replace (skipn (S s) window) with (@nil Z); [destruct b; reflexivity|].
      symmetry. apply skipn_all2. apply nth_error_None in E. lia. }
  exact (G _ 0%nat).
Qed.

(** Without saving, the free levels suffice for as many monitored pixels as there are columns. *)
Lemma room_no_save steps cells : forall u us, Forall (fun '(_, _, save) => save = false) cells ->
  (length cells * length steps <= u)%nat -> room steps cells u us = Some us.
Proof.
  induction cells as [|[[m b] s] cells IH]; intros u us H Hu; [reflexivity|]. inversion H as [|? ? Hs H']; subst. cbn [room length] in *.
  destruct b; cbn [negb].
  - destruct (Nat.leb_spec (length steps) u) as [_|Hl]; [|lia]. apply IH; [exact H'|lia].
  - apply IH; [exact H'|lia].
Qed.
Lemma rooms_no_save steps passes us : Forall (fun cells => Forall (fun '(_, _, save) => save = false) cells /\ (length cells * length steps <= us)%nat) passes ->
  rooms steps passes us = Some us.
Proof. induction 1 as [|cells passes [H1 H2] H IH]; [reflexivity|]. cbn [rooms]. rewrite (room_no_save steps cells us us H1 H2). exact IH. Qed.

(** ** The whole image *)
Section Image.
Context (im : image R) (c : ccd R) (r r' : roe R) (traps : traps_arg R) (groups : list (list (trap R)))
  (express offset : nat) (window columns : list Z) (tw : option (list Z))
  (em : matrix R) (mon sav : bmatrix) (rows cols n us : nat).
Hypothesis Hshape : shape rows cols im.
Hypothesis Hrows : (0 < rows)%nat.
Hypothesis Hpos : forall i j, 0 <= pixel im i j.
Hypothesis Hc : plain_ccd c.
Hypothesis Hgroups : normalise_traps traps = Ok groups.
Hypothesis Hinst : Forall instant_group groups.
Hypothesis Hbetween : roe_empty_between r = true.
Hypothesis Hseq : length (roe_clock_sequence r) = length (roe_dwell_times r).
Hypothesis Hexp : express_and_monitor r window express offset tw = Ok (r', em, mon).
Hypothesis Hsav : save_matrix r' em = Ok sav.
Hypothesis Hpad : n_padding r = Ok n.
Let passes := map (fun '(e, (m, s)) => zip_cells e m s) (combine em (combine mon sav)).
Let N := max_n_transfers r' (length em) match em with [] => 0%nat | row :: _ => length row end.
Hypothesis Hroom : rooms (timed_steps r) passes N = Some us.
Hypothesis Hcells : Forall (fun cells => (length cells <= length window)%nat) passes.
Hypothesis Hsafe : forall row es k e, In row window -> In es (roe_clock_sequence r) -> (k < ccd_n_phases c)%nat ->
  nth_error es k = Some e -> safe (rows + n) row e.
Hypothesis Hphases : forall es, In es (roe_clock_sequence r) -> (ccd_n_phases c <= length es)%nat.
Hypothesis Hcols : forall j, In j columns -> (0 <= j < Z.of_nat cols)%Z.
Hypothesis Hnodup : NoDup columns.

Lemma clocking_readout : exists im',
  clock_charge_in_one_direction im c r traps express offset window columns tw = Ok (im', r') /\
  shape rows cols im' /\
  (forall i j, ~ In (Z.of_nat j) columns -> pixel im' i j = pixel im i j) /\
  forall i j, (i < rows)%nat -> In (Z.of_nat j) columns ->
    pixel im' i j = readout (site_of c groups) (trap_phases c) (timed_steps r)
                      (map (fun '(e, (m, s)) => cells_of window e m s) (combine em (combine mon sav)))
                      (col_fun im j) (Z.of_nat i).
Proof.
  destruct (express_same_clock _ _ _ _ _ _ _ _ Hexp) as (Ecs & Epx & Edw & Eeb).
  destruct (atm_init_instant c traps groups N Hc Hgroups Hinst) as (a & Ea & Esv & HD & HE).
  destruct (atm_init_fresh _ _ _ _ Ea) as [Hs Hf].
  pose proof (pad_shape rows cols im n Hshape Hrows) as Hps.
  assert (Hseq' : length (roe_clock_sequence r') = length (roe_dwell_times r')) by congruence.
  assert (Hts : timed_steps r' = timed_steps r) by (unfold timed_steps; rewrite Ecs, Edw; reflexivity).
  assert (Hpad' : n_padding r' = Ok n) by (unfold n_padding in *; rewrite Epx; exact Hpad).
  assert (Hcol : forall j, (j < cols)%nat -> exists col' a', clock_column c r' window passes (column_of (pad im n) j, a) = Ok (col', a') /\
    rel_col (rows + n) col' (readout (site_of c groups) (trap_phases c) (timed_steps r)
                      (map (fun '(e, (m, s)) => cells_of window e m s) (combine em (combine mon sav))) (col_fun im j))).
  { intros j Hj.
    destruct (clock_column_sim c r' (site_of c groups) (rows + n)) with (steps := timed_steps r) (d0 := atm_data a) (window := window) (passes := passes)
      (us := N) (us' := us) (col := column_of (pad im n) j) (f := col_fun im j) (a := a) (T := all_empty (site_of c groups)) (u := N) (saved := all_empty (site_of c groups))
      as (col' & a' & E & H).
    - intros k Hk. apply site_of_ok; auto. rewrite (phases_eq c Hc) in Hk. apply trap_phases_lt, Hk.
    - rewrite (phases_eq c Hc). apply trap_phases_nodup.
    - rewrite <- Hts. apply steps_rel. exact Hseq'.
    - exact Hs.
    - apply Forall_forall. intros cells Hin. apply Forall_forall. intros [i [[m mo] sv]] Hi Hmo.
      rewrite Forall_forall in Hcells. pose proof (Hcells cells Hin) as Hlen.
      assert (Hil : (i < length cells)%nat) by (apply in_combine_l in Hi; apply in_seq in Hi; lia).
      destruct (nth_error window i) as [row|] eqn:Er; [|apply nth_error_None in Er; lia].
      exists row. split; [reflexivity|]. intros d es Hd k Hk. rewrite (phases_eq c Hc) in Hk. apply trap_phases_lt in Hk.
      unfold timed_steps in Hd. apply filter_In in Hd as [Hd _]. apply in_combine_r in Hd.
      destruct (nth_error es k) as [e|] eqn:Ee; [|apply nth_error_None in Ee; specialize (Hphases es Hd); lia].
      exists e. split; [reflexivity|]. apply (Hsafe row es k e); auto. eapply nth_error_In; exact Er.
    - split; [rewrite column_length; apply Hps|]. intros i Hi. change 0 with (n0 : R) at 1. rewrite column_nth, (pad_pixel rows cols im n) by assumption.
      unfold col_fun. split; [reflexivity|apply Hpos].
    - split; [apply Hf|]. split; [exact HD|]. unfold restored. rewrite Esv. exact HE.
    - exact Hroom.
    - exists col', a'. split; [exact E|].
      replace (map (fun cells => cell_rows window (combine (seq 0 (length cells)) cells)) passes) with
        (map (fun '(e, (m, s)) => cells_of window e m s) (combine em (combine mon sav))) in H.
      2: { unfold passes. rewrite map_map. apply map_ext. intros [e [m s]]. symmetry. apply cell_rows_cells. }
      rewrite (phases_eq c Hc) in H.
      unfold readout. destruct (fold_left _ _ (col_fun im j, all_empty (site_of c groups))) as [f' s']. apply H. }
  destruct (clock_columns_all c r' window passes (atm_data a) (rows + n) cols columns (pad im n) a Hs) as ([im1 a1] & E5); auto; [congruence|lia| |].
  { intros j Hj. split; [apply Hcols, Hj|]. specialize (Hcols j Hj). destruct (Hcol (Z.to_nat j) ltac:(lia)) as (col' & a' & E & _). exists a, (col', a'). auto. }
  pose proof (clock_columns_ok _ _ _ _ _ _ _ _ _ _ _ Hps ltac:(lia) E5) as Hio.
  exists (unpad im1 n). split.
  { unfold clock_charge_in_one_direction. rewrite Hexp. cbn [bind]. rewrite Hsav. cbn [bind]. fold N. rewrite Ea. cbn [bind]. rewrite Hpad'. cbn [bind].
    fold passes. rewrite E5. reflexivity. }
  split; [apply unpad_shape, (io_shape _ _ _ _ _ _ _ Hio)|]. split.
  - intros i j Hj. destruct (lt_dec i rows) as [Hi|Hi].
    + rewrite (unpad_pixel rows cols) by (auto; apply (io_shape _ _ _ _ _ _ _ Hio)). rewrite (io_columns _ _ _ _ _ _ _ Hio) by exact Hj. apply (pad_pixel rows cols); assumption.
    + rewrite (pixel_out rows cols im) by (auto; lia). apply (pixel_out rows cols); [apply unpad_shape, (io_shape _ _ _ _ _ _ _ Hio)|lia].
  - intros i j Hi Hj. assert (Hjc : (j < cols)%nat) by (specialize (Hcols _ Hj); lia).
    rewrite (unpad_pixel rows cols) by (auto; apply (io_shape _ _ _ _ _ _ _ Hio)).
    destruct (clock_columns_each c r' window passes (atm_data a) (rows + n) cols columns (pad im n) a im1 a1 Hs ltac:(congruence) Hps ltac:(lia) Hf Hnodup E5 j a Hj Hf) as (_ & b' & Eb).
    destruct (Hcol j Hjc) as (col' & a' & E & [_ HR]). rewrite E in Eb. injection Eb as Eb _.
    rewrite <- column_nth, <- Eb. destruct (HR (Z.of_nat i)) as [H1 _]; [unfold inside; lia|]. rewrite Nat2Z.id in H1. exact H1.
Qed.
End Image.
