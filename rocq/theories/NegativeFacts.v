(** * Every processed pixel is non-negative after a call, whatever it was before
    (main_utils.pyx:233-247). *)
From Coq Require Import ZArith List Bool Reals Lra Lia.
From Coquelicot Require Import Rcomplements Rbar Hierarchy RInt.
From Verif Require Import Num Py RFacts CCDModel TrapsModel ManagerModel ROEModel ClockModel MainModel Spec SpecROE SpecImage SpecReadout SpecColumn
  ClockFacts MainFacts ROEClockFacts ROEMatrixFacts ROEExpressFacts ROEKindFacts ReadoutFacts ReadoutImage ReadoutForced ReadoutFull MainReadoutFacts ForceFacts ReachFacts.
Import ListNotations.
Open Scope R_scope.

(** A loop one of whose turns establishes [P], which the others keep. *)
Lemma foldM_establish {A St} (P : St -> Prop) (f : St -> A -> result St) l x : In x l ->
  (forall s a s', In a l -> P s -> f s a = Ok s' -> P s') -> (forall s s', f s x = Ok s' -> P s') ->
  forall s s', foldM f l s = Ok s' -> P s'.
Proof.
  induction l as [|a l IH]; intros Hin Hk Hx s s' H; [destruct Hin|]. cbn in H. apply bind_ok in H as (s1 & H1 & H2).
  destruct Hin as [->|Hin].
  - refine (foldM_inv P f l _ s1 s' (Hx s s1 H1) H2). intros s0 a0 s0' Hin. apply Hk. right; exact Hin.
  - refine (IH Hin _ Hx s1 s' H2). intros s0 a0 s0' Hin0. apply Hk. right; exact Hin0.
Qed.

Lemma zero_not_less : ((n0 : R) <? n0)%num = false.
Proof. rnum. apply Rltb_false. lra. Qed.
Lemma not_less x : ((x : R) <? n0)%num = false <-> 0 <= x.
Proof. rnum. apply Rltb_false. Qed.
Lemma keeps (r : roe R) window col col' i : column_ok r window col col' -> 0 <= nth i col 0 -> 0 <= nth i col' 0.
Proof. intros [_ _ H] Hi. apply not_less. apply (H zero_not_less). apply not_less. exact Hi. Qed.

Section Sets.
Context (c : ccd R) (r : roe R) (window : list Z) (i : nat) (row : Z) (mult : R).
Hypotheses (Hrow : In row window) (Hi : Z.of_nat i = row) (Hmult : mult <> 0).

Lemma write_back_sets net col f col' : write_back col row net mult (0%Z, f) = Ok col' -> 0 <= nth i col' 0.
Proof.
  unfold write_back. intros H. apply bind_ok in H as (old & _ & H). apply cy_upd_ok in H as [Hb ->].
  rewrite nth_upd. destruct (Nat.eqb_spec (Z.to_nat (row + 0)) i) as [_|E]; [|lia].
  destruct (Nat.ltb_spec (Z.to_nat (row + 0)) (length col)); [|lia]. cbn [andb].
  destruct (nltb (old + net * f * mult)%num n0) eqn:E; [rnum; lra|apply not_less; exact E].
Qed.

Lemma phase_sets dwell rps st phase st' rp step : nth_error (roe_clock_sequence r) step = Some rps -> nth_error rps phase = Some rp ->
  (exists f, In (0%Z, f) (combine (rp_release rp) (rp_fraction rp))) ->
  clock_one_phase c dwell rps row mult st phase = Ok st' -> 0 <= nth i (fst st') 0.
Proof.
  intros Es Ep [f Hf] H. destruct st as [col data]. unfold clock_one_phase in H. rewrite Ep in H. cbn [of_option bind] in H.
  apply bind_ok in H as (charge & _ & H). apply bind_ok in H as (groups & _ & H). apply bind_ok in H as ([net groups'] & _ & H).
  destruct (neqb mult n0) eqn:Em. { exfalso. apply Hmult. rnum. apply Reqb_true in Em. exact Em. }
  apply bind_ok in H as (col' & H & H'). injection H' as <-. cbn [fst].
  refine (foldM_establish (fun col => 0 <= nth i col 0) _ _ _ Hf _ _ _ _ H).
  - intros s [d f'] s' Hin Hs Hw. refine (keeps r window s s' i _ Hs). eapply write_back_ok; [exact Hrow| |exact Hw]. cbn [fst].
    apply in_combine_l in Hin. exists step, rps, rp. split; [exact Es|]. split; [eapply nth_error_In; exact Ep|exact Hin].
  - intros s s' Hw. exact (write_back_sets net s f s' Hw).
Qed.

Lemma row_sets st st' step dw phase rps rp : In (step, dw) (steps_with_dwell r) -> In phase (phases_with_traps c) ->
  nth_error (roe_clock_sequence r) step = Some rps -> nth_error rps phase = Some rp ->
  (exists f, In (0%Z, f) (combine (rp_release rp) (rp_fraction rp))) ->
  clock_one_row c r row mult st = Ok st' -> 0 <= nth i (fst st') 0.
Proof.
  intros Hs Hp Es Ep Hf H. unfold clock_one_row in H.
  assert (Keep : forall stp dw0 ph (s s' : list R * list (list (manager R))),
     (do rps <- of_option OutOfBounds (nth_error (roe_clock_sequence r) stp); clock_one_phase c dw0 rps row mult s ph) = Ok s' ->
     0 <= nth i (fst s) 0 -> 0 <= nth i (fst s') 0).
  { intros stp dw0 ph s s' Hok Hs0. apply bind_ok in Hok as (rps0 & E & Hok). destruct (nth_error (roe_clock_sequence r) stp) as [rps1|] eqn:E1; [|discriminate].
    cbn in E. injection E as ->. refine (keeps r window _ _ i _ Hs0). eapply clock_one_phase_ok; eassumption. }
  refine (foldM_establish (fun st => 0 <= nth i (fst st) 0) _ _ _ Hs _ _ _ _ H).
  - intros s [stp dw0] s' _ Hs0 Hok. refine (foldM_inv (fun st => 0 <= nth i (fst st) 0) _ _ _ s s' Hs0 Hok).
    intros s1 ph s1' _ H1 H2. exact (Keep stp dw0 ph s1 s1' H2 H1).
  - intros s s' Hok. refine (foldM_establish (fun st => 0 <= nth i (fst st) 0) _ _ _ Hp _ _ _ _ Hok).
    + intros s1 ph s1' _ H1 H2. exact (Keep step dw ph s1 s1' H2 H1).
    + intros s1 s1' Hok1. rewrite Es in Hok1. cbn [of_option bind] in Hok1. exact (phase_sets dw rps s1 phase s1' rp step Es Ep Hf Hok1).
Qed.
End Sets.

(** ** A column, then an image *)
Definition own_phase (c : ccd R) (r : roe R) : Prop := exists step dw phase rps rp,
  In (step, dw) (steps_with_dwell r) /\ In phase (phases_with_traps c) /\
  nth_error (roe_clock_sequence r) step = Some rps /\ nth_error rps phase = Some rp /\
  (exists f, In (0%Z, f) (combine (rp_release rp) (rp_fraction rp))).

Lemma column_sets c r window i cells k mult sv passes st st' : own_phase c r ->
  nth_error window k = Some (Z.of_nat i) -> mult <> 0 -> nth_error cells k = Some (mult, true, sv) -> In cells passes ->
  clock_column c r window passes st = Ok st' -> 0 <= nth i (fst st') 0.
Proof.
  intros (step & dw & phase & rps & rp & H1 & H2 & H3 & H4 & H5) Hk Hm Hc Hin H. unfold clock_column in H.
  refine (foldM_establish (fun st => 0 <= nth i (fst st) 0) _ _ _ Hin _ _ _ _ H).
  - intros s cl s' _ Hs Hok. unfold clock_pass_rows in Hok.
    refine (foldM_inv (fun st => 0 <= nth i (fst st) 0) _ _ _ (fst s, atm_restore (snd s)) s' Hs Hok).
    intros s1 a s1' _ Hs1 Hok1. apply clock_cell_ok in Hok1. exact (keeps r window _ _ i Hok1 Hs1).
  - intros s s' Hok. unfold clock_pass_rows in Hok.
    assert (Hlk : (k < length cells)%nat) by (apply nth_error_Some; congruence).
    assert (Hin2 : In (k, (mult, true, sv)) (combine (seq 0 (length cells)) cells)).
    { apply (in_combine_nth _ _ k); [|exact Hc]. rewrite (nth_error_nth0 _ k 0%nat) by (rewrite seq_length; lia). rewrite seq_nth by lia. reflexivity. }
    refine (foldM_establish (fun st => 0 <= nth i (fst st) 0) _ _ _ Hin2 _ _ _ _ Hok).
    + intros s1 a s1' _ Hs1 Hok1. apply clock_cell_ok in Hok1. exact (keeps r window _ _ i Hok1 Hs1).
    + intros [col a] s1' Hok1. unfold clock_cell in Hok1. cbn [negb] in Hok1. rewrite Hk in Hok1.
      apply bind_ok in Hok1 as ([col' data'] & Hok1 & E). injection E as <-. cbn [fst].
      exact (row_sets c r window i (Z.of_nat i) mult (nth_error_In _ _ Hk) eq_refl Hm _ _ step dw phase rps rp H1 H2 H3 H4 H5 Hok1).
Qed.

Lemma columns_set c r window i j cells k mult sv passes columns rows cols im a im' a' : own_phase c r ->
  nth_error window k = Some (Z.of_nat i) -> mult <> 0 -> nth_error cells k = Some (mult, true, sv) -> In cells passes ->
  shape rows cols im -> (0 < rows)%nat -> (i < rows)%nat -> (j < cols)%nat -> In (Z.of_nat j) columns ->
  clock_columns c r window columns passes (im, a) = Ok (im', a') -> 0 <= pixel im' i j.
Proof.
  intros Hown Hk Hm Hc Hin Hs Hr Hi Hj Hcol H. unfold clock_columns in H.
  assert (G : shape rows cols (fst (im', a')) /\ 0 <= pixel (fst (im', a')) i j); [|apply G].
  assert (Sh : forall s j0 s', shape rows cols (fst s) -> clock_one_column c r window passes s j0 = Ok s' ->
             image_ok r window [j0] rows cols (fst s) (fst s')).
  { intros [s1 a1] j0 [s1' a1'] Hs1 Hok. apply (clock_columns_ok c r window [j0] passes rows cols s1 a1 s1' a1' Hs1 Hr).
    unfold clock_columns. cbn [foldM]. rewrite Hok. reflexivity. }
  assert (Hs0 : shape rows cols (fst (im, a))) by exact Hs. clear Hs.
  revert H Hs0. generalize (im, a) as s. generalize (im', a') as s'. clear im a im' a'. intros s' s. revert s s'.
  induction columns as [|j0 columns IH]; intros s s' H Hs0; [destruct Hcol|]. cbn in H. apply bind_ok in H as (s1 & H1 & H2).
  pose proof (Sh _ _ _ Hs0 H1) as [S1 _ _ _].
  destruct (Z.eq_dec j0 (Z.of_nat j)) as [->|Hne].
  - apply (foldM_inv (fun st => shape rows cols (fst st) /\ 0 <= pixel (fst st) i j)) in H2; [exact H2| |].
    + intros t j1 t' _ [Ht1 Ht2] Hok. destruct (Sh _ _ _ Ht1 Hok) as [A _ _ B]. split; [exact A|].
      apply not_less. apply (B zero_not_less). apply not_less. exact Ht2.
    + split; [exact S1|]. destruct s as [im a]. unfold clock_one_column in H1. destruct (_ && _)%bool; [|discriminate].
      apply bind_ok in H1 as ([col a1] & Hcl & E). injection E as <-. cbn [fst] in *. rewrite Nat2Z.id in *.
      pose proof (clock_column_ok _ _ _ _ _ _ Hcl) as [L _ _]. cbn [fst] in L.
      apply (column_sets c r window i cells k mult sv passes _ _ Hown Hk Hm Hc Hin) in Hcl. cbn [fst] in Hcl.
      rewrite (set_column_pixel rows cols) by (try assumption; unfold get_column in L; rewrite map_length in L; destruct Hs0; lia).
      rewrite Nat.eqb_refl. exact Hcl.
  - destruct Hcol as [E|Hcol]; [congruence|]. exact (IH Hcol s1 s' H2 S1).
Qed.

Lemma clocking_sets im c r traps express offset window columns rows cols n k i j im' r' :
  own_phase c r -> shape rows cols im -> (0 < rows)%nat -> window_ok window n -> (n <= rows)%nat ->
  nth_error window k = Some (Z.of_nat i) -> (k < n)%nat -> (j < cols)%nat -> In (Z.of_nat j) columns ->
  clock_charge_in_one_direction im c r traps express offset window columns (Some (py_range 0 (Z.of_nat (rows + offset)))) = Ok (im', r') ->
  0 <= pixel im' i j.
Proof.
  intros Hown Hs Hr Hwin Hn Hk Hkn Hj Hcol H. unfold clock_charge_in_one_direction in H.
  apply bind_ok in H as ([[r1 em] mon] & E1 & H). apply bind_ok in H as (sav & E2 & H).
  apply bind_ok in H as (a & _ & H). apply bind_ok in H as (np & _ & H).
  apply bind_ok in H as ([im1 a1] & H & H'). injection H' as <- <-.
  pose proof (express_same_clock _ _ _ _ _ _ _ _ E1) as (Es & _ & Ed & _).
  assert (Hi : (i < rows)%nat). { destruct Hwin as [Hall _]. rewrite Forall_forall in Hall. apply nth_error_In in Hk. apply Hall in Hk. lia. }
  destruct (some_pass r window express offset rows n r1 em mon sav k _ Hwin Hn Hk Hkn E1 E2) as (E & W & e & Re & Rm & Rs & He & HW & Hb & Hpos).
  assert (Hin : In (zip_cells (nth e em []) (nth e mon []) (nth e sav [])) (map (fun '(e, (m, s)) => zip_cells e m s) (combine em (combine mon sav)))).
  { apply in_map_iff. exists (nth e em [], (nth e mon [], nth e sav [])). split; [reflexivity|].
    destruct Re as [Re _], Rm as [Rm _], Rs as [Rs _].
    apply (in_combine_nth _ _ e). { apply nth_error_nth0. congruence. }
    rewrite (nth_error_nth0 _ e ([], [])) by (rewrite combine_length; lia). f_equal. apply combine_nth. congruence. }
  assert (Le : length (nth e em []) = W) by (apply (Forall_rect E W em); [assumption|apply nth_In; destruct Re; congruence]).
  assert (Lm : length (nth e mon []) = W) by (apply (Forall_rect E W mon); [assumption|apply nth_In; destruct Rm; congruence]).
  assert (Ls : length (nth e sav []) = W) by (apply (Forall_rect E W sav); [assumption|apply nth_In; destruct Rs; congruence]).
  pose proof (zip_cells_length _ _ _ W Le Lm Ls) as Lz.
  assert (Hown1 : own_phase c r1).
  { unfold own_phase, steps_with_dwell in *. rewrite Es, Ed. exact Hown. }
  pose proof (pad_shape rows cols im np Hs Hr) as Sp.
  pose proof (clock_columns_ok _ _ _ _ _ _ _ _ _ _ _ Sp ltac:(lia) H) as [S1 _ _ _].
  rewrite (unpad_pixel rows cols) by assumption.
  refine (columns_set c r1 window i j _ k (nth k (nth e em []) 0) (nth k (nth e sav []) false) _ _ (rows + np) cols _ _ _ _ Hown1 Hk _ _ Hin Sp ltac:(lia) ltac:(lia) Hj Hcol H).
  - unfold entry in Hpos. lra.
  - rewrite (nth_error_nth0 _ k (0, false, false)) by lia. rewrite (nth_zip_cells' _ _ _ W) by auto. unfold bentry in Hb. rewrite Hb. reflexivity.
Qed.

(** ** The phases of constructed objects *)
Lemma first_phase force N n_steps : (0 < N)%nat -> (0 < n_steps)%nat ->
  exists rps rp, nth_error (@generate_clock_sequence R _ force n_steps N) 0 = Some rps /\ nth_error rps 0 = Some rp /\
    (exists f, In (0%Z, f) (combine (rp_release rp) (rp_fraction rp))).
Proof.
  intros HN Hs. unfold generate_clock_sequence.
  exists (map (fun phase => clock_phase force (Z.of_nat N) 0 (Z.of_nat phase)) (seq 0 N)), (clock_phase force (Z.of_nat N) 0 0).
  split; [|split].
  - destruct n_steps; [lia|]. reflexivity.
  - destruct N; [lia|]. reflexivity.
  - unfold clock_phase. cbn [rp_release rp_fraction].
    replace (step_prime (Z.of_nat N) 0) with 0%Z by (pose proof (step_prime_moved N 0 ltac:(lia) ltac:(lia)) as G; cbn in G; rewrite G; reflexivity).
    rewrite Z.mod_0_l by lia. rewrite Z.ltb_irrefl, andb_false_r.
    assert (E : ((0 - 0 + (Z.of_nat N - 1) / 2) / Z.of_nat N = 0)%Z).
    { apply Z.div_small. split; [apply Z.div_pos; lia|]. apply Z.div_lt_upper_bound; lia. }
    rewrite E. destruct (if (Z.of_nat N mod 2 =? 0)%Z then _ else _) as [s|]; [destruct (0 =? s)%Z|]; eexists; left; reflexivity.
Qed.

Lemma call_sets im d serial rows cols c traps r n i j im' pr sr :
  own_phase c r -> shape rows cols im -> (0 < rows)%nat -> (0 < cols)%nat ->
  window_ok (selected (d_window d) rows) n -> (n <= rows)%nat -> NoDup (selected (d_window d) rows) ->
  d_ccd d = Some c -> d_traps d = Some traps -> d_roe d = Some r ->
  In (Z.of_nat i) (selected (d_window d) rows) -> (j < cols)%nat -> In (Z.of_nat j) (selected (d_window serial) cols) ->
  add_cti im d serial None = Ok (im', pr, sr) -> 0 <= pixel im' i j.
Proof.
  intros Hown Hs Hr Hc0 Hwin Hn Hnd Hc Ht Hroe Hi Hj Hcol H.
  apply add_cti_halves in H as (tw' & columns & im1 & Etw & H & H2). rewrite Ht in H. unfold clock_direction in H. rewrite Hc in H.
  cbn in Etw. injection Etw as <- _.
  assert (Ecols : n_columns im = cols). { destruct Hs as [<- Hs]. destruct im; [cbn in Hr; lia|]. inversion Hs; assumption. }
  assert (Erows : length im = rows) by apply Hs.
  rewrite Ecols, Erows in *. unfold the_roe in H. rewrite Hroe in H.
  apply In_nth_error in Hi as [k Hk].
  assert (Hkn : (k < n)%nat).
  { assert (Hkl : (k < length (selected (d_window d) rows))%nat) by (apply nth_error_Some; congruence).
    assert (Hle : (length (selected (d_window d) rows) <= length (map Z.of_nat (seq 0 n)))%nat).
    { apply NoDup_incl_length; [exact Hnd|]. intros x Hx. destruct Hwin as [Hall _]. rewrite Forall_forall in Hall. apply Hall in Hx.
      apply in_map_iff. exists (Z.to_nat x). rewrite in_seq. lia. }
    rewrite map_length, seq_length in Hle. lia. }
  pose proof (clocking_sets im c r traps _ _ _ _ rows cols n k i j im1 pr Hown Hs Hr Hwin Hn Hk Hkn Hj Hcol H) as G.
  destruct (clocking_ok _ _ _ _ _ _ _ _ _ _ _ _ _ Hs Hr H) as [S1 _ _ _].
  destruct (d_traps serial) as [straps|]; [|destruct H2 as [-> _]; exact G].
  destruct H2 as (im2 & H2 & ->). pose proof (transpose_shape rows cols im1 S1 Hr) as ST.
  apply (clock_direction_ok _ _ _ _ _ _ _ _ _ cols rows) in H2 as [S2 _ _ N2]; auto.
  rewrite (transpose_pixel_all cols rows) by auto. apply not_less. apply (N2 zero_not_less).
  rewrite (transpose_pixel_all rows cols) by auto. apply not_less. exact G.
Qed.
