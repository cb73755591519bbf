(** * Time windows whose ends are not whole numbers: the express matrices and the readout. *)
From Coq Require Import ZArith List Bool Reals Lra Lia.
From Coquelicot Require Import Rcomplements Rbar Hierarchy RInt.
From Verif Require Import Num Py RFacts CCDModel TrapsModel ManagerModel ROEModel ClockModel MainModel SignedModel EndsModel Spec SpecROE SpecImage SpecReadout SpecEnds
  WmFacts ArrayFacts CutFacts InstantFacts ClockFacts MainFacts ShapeFacts ColumnFacts
  ROEClockFacts ROEMatrixFacts ROEExpressFacts ROEKindFacts ReadoutFacts ReadoutImage ReadoutForced ReadoutFull ReadoutSpecFacts MainReadoutFacts MainColumnFacts.
Import ListNotations.
Open Scope R_scope.

(** ** The matrix *)
Lemma windowed_as n g (m : matrix R) : Forall (fun r => length r = n) m ->
  windowed g m = diff_rows (repeat 0 n) (map (map g) (cumsum_rows (repeat 0 n) m)).
Proof.
  intros Hm. unfold windowed. destruct Hm as [|r m Hr Hm]; [reflexivity|].
  cbn [cumsum0 map diff0 cumsum_rows diff_rows].
  assert (Er : @row_add R _ (repeat 0 n) r = r).
  { apply (nth_ext _ _ 0 0); [rewrite row_add_length; rewrite repeat_length; lia|].
    intros k Hk. rewrite row_add_nth by (rewrite repeat_length; lia). rewrite nth_repeat. lra. }
  rewrite Er. f_equal.
  apply (nth_ext _ _ 0 0); [rewrite row_sub_length; rewrite map_length, ?repeat_length; lia|].
  intros k Hk. rewrite row_sub_nth by (rewrite map_length, repeat_length; lia). rewrite nth_repeat. lra.
Qed.
Lemma windowed_entry_any n g (m : matrix R) E i j : rect E n m -> (i < E)%nat -> (j < n)%nat ->
  entry (windowed g m) i j = g (transfers_before m (S i) j) - match i with O => 0 | _ => g (transfers_before m i j) end.
Proof.
  intros [Hl Hm] Hi Hj. rewrite (windowed_as n) by assumption.
  rewrite (diff_cumsum_entry n) by (auto; try (rewrite repeat_length; reflexivity); lia).
  rewrite nth_repeat. rewrite !Rplus_0_l. destruct i; reflexivity.
Qed.
Lemma windowed_rect_any n g (m : matrix R) E : rect E n m -> rect E n (windowed g m).
Proof.
  intros [Hl Hm]. rewrite (windowed_as n) by assumption. rewrite <- Hl.
  apply diff_cumsum_rect; auto; apply repeat_length.
Qed.



Lemma ends_two a b : from_to [a; b] a b.
Proof. exists [b]. auto. Qed.
Lemma ends_index times a b : from_to times a b -> py_index times 0 = Ok a /\ py_index times (-1) = Ok b.
Proof.
  intros (l & -> & Hb). split; [reflexivity|]. unfold py_index.
  assert (Hlen : (0 < Z.of_nat (length (a :: l)))%Z) by (cbn [length]; lia).
  set (L := a :: l) in *. clearbody L. change (-1 <? 0)%Z with true. cbn iota.
  replace ((0 <=? -1 + Z.of_nat (length L)) && (-1 + Z.of_nat (length L) <? Z.of_nat (length L)))%Z with true.
  2: { symmetry. apply andb_true_intro. split; [apply Z.leb_le; lia|apply Z.ltb_lt; lia]. }
  destruct (exists_last (l := L)) as (L' & x & E); [intros ->; cbn in Hlen; lia|]. subst L.
  rewrite last_last in Hb. subst x. rewrite app_length. cbn [length]. rewrite nth_error_app2; [|lia].
  replace (Z.to_nat (-1 + Z.of_nat (length L' + 1)) - length L')%nat with 0%nat by lia. reflexivity.
Qed.

Definition times_clip (a b x : R) : R := @clip R _ (b - a + 1) (x - a).
Lemma restrict_times_eq m times a b : from_to times a b -> restrict_times m times = Ok (windowed (times_clip a b) m).
Proof. intros H. destruct (ends_index _ _ _ H) as [E1 E2]. unfold restrict_times. rewrite E1, E2. reflexivity. Qed.
Lemma times_clip_eq a b x : a <= b + 1 -> times_clip a b x = Rmin (b + 1 - a) (Rmax 0 (x - a)).
Proof. intros H. unfold times_clip. rewrite clip_eq by lra. f_equal. lra. Qed.
Lemma times_clip_0 a b : 0 <= a -> a <= b + 1 -> times_clip a b 0 = 0.
Proof. intros H H1. rewrite times_clip_eq by lra. rewrite Rmax_left by lra. apply Rmin_right. lra. Qed.
Lemma times_clip_overlap a b x y : 0 <= a -> a <= b + 1 -> x <= y -> times_clip a b y - times_clip a b x = overlap x y a (b + 1).
Proof. intros H H1 Hxy. rewrite !times_clip_eq by lra. unfold overlap, Rmin, Rmax. rle_cases; lra. Qed.

Section Standard.
Context (ef : bool) (dt : dtype) (window : list Z) (n_pixels express offset : nat).
Hypothesis Hw : window_ok window n_pixels.
Hypothesis Hb : ~ bad_express ef n_pixels express.
(** The matrix without any time window, and with one. *)
Lemma times_matrix times a b : from_to times a b ->
  exists E em0 mon em, standard_express ef dt window express offset None = Ok (em0, mon) /\
    standard_express_times ef dt window express offset times = Ok (em, mon) /\ (0 < E)%nat /\
    rect E (length window) em0 /\ rect E (length window) mon /\ rect E (length window) em /\
    (forall k w, nth_error window k = Some w -> transfers em0 k = IZR w + 1 + INR offset) /\
    (forall i k, (i < E)%nat -> (k < length window)%nat -> transfers_before em0 i k <= transfers_before em0 (S i) k) /\
    forall i k, (i < E)%nat -> (k < length window)%nat ->
      entry em i k = times_clip a b (transfers_before em0 (S i) k) - match i with O => 0 | _ => times_clip a b (transfers_before em0 i k) end.
Proof.
  intros He. destruct (standard_full_ok ef dt n_pixels express offset (window_pos _ _ Hw) Hb) as [E Hf].
  set (m := standard_full_matrix ef dt n_pixels express offset) in *. pose proof Hf as [F1 F2 F3 F4].
  pose proof (window_in_range window n_pixels offset Hw) as Hwr.
  pose proof (windowed_rect_any _ (times_clip a b) m E F1) as Hm'.
  set (m' := windowed (times_clip a b) m) in *.
  exists E, (map (pick 0 offset window) m), (map (pick false offset window) (positive_mask m)), (map (pick 0 offset window) m').
  assert (Hcol : forall k, (k < length window)%nat -> exists w, nth_error window k = Some w /\ (0 <= w)%Z /\ (offset + Z.to_nat w < n_pixels + offset)%nat).
  { intros k Hk. destruct (nth_error window k) as [w|] eqn:Ek; [|apply nth_error_None in Ek; lia]. exists w. split; [reflexivity|].
    rewrite Forall_forall in Hwr. specialize (Hwr w (nth_error_In _ _ Ek)). lia. }
  assert (Hbefore : forall k w, nth_error window k = Some w -> forall i, (i <= E)%nat -> transfers_before (map (pick 0 offset window) m) i k = transfers_before m i (offset + Z.to_nat w)).
  { intros k w Ek. induction i as [|i IH]; intros Hi; [reflexivity|]. cbn [transfers_before]. rewrite IH by lia. f_equal. apply pick_entry; [|exact Ek]. destruct F1; lia. }
  split. { unfold standard_express. rewrite (window_n_pixels _ _ Hw). cbn [bind]. fold m.
    rewrite (select_ok false offset window E (n_pixels + offset)) by (auto; apply positive_mask_rect; exact F1).
    cbn [bind restrict_time_span]. rewrite (select_ok 0 offset window E (n_pixels + offset)) by auto. reflexivity. }
  split. { unfold standard_express_times. rewrite (window_n_pixels _ _ Hw). cbn [bind]. fold m.
    rewrite (select_ok false offset window E (n_pixels + offset)) by (auto; apply positive_mask_rect; exact F1).
    cbn [bind]. rewrite (restrict_times_eq m times a b He). cbn [bind]. fold m'. rewrite (select_ok 0 offset window E (n_pixels + offset)) by auto. reflexivity. }
  split; [exact F2|]. split; [eapply pick_rect; eauto|]. split; [eapply pick_rect; apply positive_mask_rect; eauto|]. split; [eapply pick_rect; eauto|].
  split; [|split].
  - intros k w Ek. assert (Hk : (k < length window)%nat) by (apply nth_error_Some; congruence).
    destruct (Hcol k Hk) as (w' & Ek' & Hw0 & Hlt). rewrite Ek in Ek'. injection Ek' as <-.
    unfold transfers. rewrite map_length. replace (length m) with E by (destruct F1; lia). rewrite (Hbefore k w Ek) by lia.
    specialize (F4 (offset + Z.to_nat w)%nat Hlt). unfold transfers in F4. replace (length m) with E in F4 by (destruct F1; lia). rewrite F4.
    rewrite S_INR, plus_INR. rewrite (INR_IZR_INZ (Z.to_nat w)), Z2Nat.id by lia. lra.
  - intros i k Hi Hk. destruct (Hcol k Hk) as (w & Ek & Hw0 & Hlt). rewrite !(Hbefore k w Ek) by lia. eapply before_mono; eauto.
  - intros i k Hi Hk. destruct (Hcol k Hk) as (w & Ek & Hw0 & Hlt).
    rewrite (pick_entry _ _ _ _ _ w) by (auto; destruct Hm'; lia). unfold m'. rewrite (windowed_entry_any (n_pixels + offset) _ m E) by auto.
    rewrite (Hbefore k w Ek (S i)) by lia. destruct i; [reflexivity|]. rewrite (Hbefore k w Ek (S i)) by lia. reflexivity.
Qed.
(** The number of transfers that a pixel is given, by the time window. *)
Lemma telescope g (t : nat -> R) (m : matrix R) k : forall i, (forall e, (e < i)%nat -> entry m e k = g (t (S e)) - match e with O => 0 | _ => g (t e) end) ->
  transfers_before m i k = match i with O => 0 | _ => g (t i) end.
Proof.
  induction i as [|i IH]; intros H; [reflexivity|]. cbn [transfers_before]. rewrite IH by (intros e He; apply H; lia). rewrite H by lia. destruct i; lra.
Qed.
Lemma times_transfers times a b em0 mon em : from_to times a b -> standard_express ef dt window express offset None = Ok (em0, mon) ->
  standard_express_times ef dt window express offset times = Ok (em, mon) ->
  forall k w, nth_error window k = Some w -> transfers em k = times_clip a b (IZR w + 1 + INR offset).
Proof.
  intros He H0 H1 k w Ek. destruct (times_matrix times a b He) as (E & em0' & mon' & em' & E0 & E1 & HE & R0 & Rm & R1 & Ht & _ & Hent).
  rewrite E0 in H0. injection H0 as <- <-. rewrite E1 in H1. injection H1 as <-.
  assert (Hk : (k < length window)%nat) by (apply nth_error_Some; congruence).
  unfold transfers at 1. replace (length em') with E by (destruct R1; lia).
  rewrite (telescope (times_clip a b) (fun i => transfers_before em0' i k)) by (intros e He'; apply Hent; lia).
  destruct E as [|E]; [lia|]. rewrite <- (Ht k w Ek). unfold transfers. replace (length em0') with (S E) by (destruct R0; lia). reflexivity.
Qed.
Lemma times_overlap times a b em0 mon em : from_to times a b -> 0 <= a -> a <= b + 1 -> standard_express ef dt window express offset None = Ok (em0, mon) ->
  standard_express_times ef dt window express offset times = Ok (em, mon) ->
  exists E, (0 < E)%nat /\ rect E (length window) em0 /\ rect E (length window) em /\
  (forall i k, (i < E)%nat -> (k < length window)%nat -> 0 <= transfers_before em0 i k <= transfers_before em0 (S i) k) /\
  forall i k, (i < E)%nat -> (k < length window)%nat ->
    entry em i k = overlap (transfers_before em0 i k) (transfers_before em0 (S i) k) a (b + 1).
Proof.
  intros He Ha Hab H0 H1. destruct (times_matrix times a b He) as (E & em0' & mon' & em' & E0 & E1 & HE & R0 & Rm & R1 & Ht & Hmono & Hent).
  rewrite E0 in H0. injection H0 as <- <-. rewrite E1 in H1. injection H1 as <-.
  exists E. split; [exact HE|]. split; [exact R0|]. split; [exact R1|].
  split. { intros i k Hi Hk. split; [|apply Hmono; auto]. induction i as [|i IH]; [cbn; lra|]. eapply Rle_trans; [apply IH; lia|]. apply Hmono; lia. }
  intros i k Hi Hk. rewrite Hent by auto. rewrite <- (times_clip_overlap a b) by (auto; apply Hmono; auto). f_equal. destruct i; [|reflexivity].
  cbn [transfers_before]. rewrite times_clip_0 by auto. reflexivity.
Qed.
End Standard.

(** ** The image *)
Section Image.
Context (im : image R) (c : ccd R) (r : roe R) (traps : traps_arg R) (groups : list (list (trap R)))
  (window columns : list Z) (em : matrix R) (mon sav : bmatrix) (rows cols n us : nat).
Hypothesis Hshape : shape rows cols im.
Hypothesis Hrows : (0 < rows)%nat.
Hypothesis Hpos : forall i j, 0 <= pixel im i j.
Hypothesis Hc : plain_ccd c.
Hypothesis Hgroups : normalise_traps traps = Ok groups.
Hypothesis Hinst : Forall instant_group groups.
Hypothesis Hbetween : roe_empty_between r = true.
Hypothesis Hseq : length (roe_clock_sequence r) = length (roe_dwell_times r).
Hypothesis Hpad : n_padding r = Ok n.
Let passes := map (fun '(e, (m, s)) => zip_cells e m s) (combine em (combine mon sav)).
Let N := max_n_transfers r (length em) match em with [] => 0%nat | row :: _ => length row end.
Hypothesis Hroom : rooms (timed_steps r) passes N = Some us.
Hypothesis Hcells : Forall (fun cells => (length cells <= length window)%nat) passes.
Hypothesis Hsafe : forall row es k e, In row window -> In es (roe_clock_sequence r) -> (k < ccd_n_phases c)%nat ->
  nth_error es k = Some e -> safe (rows + n) row e.
Hypothesis Hphases : forall es, In es (roe_clock_sequence r) -> (ccd_n_phases c <= length es)%nat.
Hypothesis Hcols : forall j, In j columns -> (0 <= j < Z.of_nat cols)%Z.
Hypothesis Hnodup : NoDup columns.
Lemma passes_readout : exists im',
  clock_passes im c r traps window columns em mon sav = Ok (im', r) /\
  shape rows cols im' /\
  (forall i j, ~ In (Z.of_nat j) columns -> pixel im' i j = pixel im i j) /\
  forall i j, (i < rows)%nat -> In (Z.of_nat j) columns ->
    pixel im' i j = readout (site_of c groups) (trap_phases c) (timed_steps r)
                      (map (fun '(e, (m, s)) => cells_of window e m s) (combine em (combine mon sav)))
                      (col_fun im j) (Z.of_nat i) /\ 0 <= pixel im' i j.
Proof.
  destruct (atm_init_instant c traps groups N Hc Hgroups Hinst) as (a & Ea & Esv & HD & HE).
  destruct (atm_init_fresh _ _ _ _ Ea) as [Hs Hf].
  pose proof (pad_shape rows cols im n Hshape Hrows) as Hps.
  assert (Hcol : forall j, (j < cols)%nat -> exists col' a', clock_column c r window passes (column_of (pad im n) j, a) = Ok (col', a') /\
    rel_col (rows + n) col' (readout (site_of c groups) (trap_phases c) (timed_steps r)
                      (map (fun '(e, (m, s)) => cells_of window e m s) (combine em (combine mon sav))) (col_fun im j))).
  { intros j Hj.
    destruct (clock_column_sim c r (site_of c groups) (rows + n)) with (steps := timed_steps r) (d0 := atm_data a) (window := window) (passes := passes)
      (us := N) (us' := us) (col := column_of (pad im n) j) (f := col_fun im j) (a := a) (T := all_empty (site_of c groups)) (u := N) (saved := all_empty (site_of c groups))
      as (col' & a' & E & H).
    - intros k Hk. apply site_of_ok; auto. rewrite (phases_eq c Hc) in Hk. apply trap_phases_lt, Hk.
    - rewrite (phases_eq c Hc). apply trap_phases_nodup.
    - apply steps_rel. exact Hseq.
    - exact Hs.
    - apply Forall_forall. intros cells Hin. apply Forall_forall. intros [i [[m mo] sv]] Hi Hmo.
      rewrite Forall_forall in Hcells. pose proof (Hcells cells Hin) as Hlen.
      assert (Hil : (i < length cells)%nat) by (apply in_combine_l in Hi; apply in_seq in Hi; lia).
      destruct (nth_error window i) as [row|] eqn:Er; [|apply nth_error_None in Er; lia].
      exists row. split; [reflexivity|]. intros d es Hd k Hk. rewrite (phases_eq c Hc) in Hk. apply trap_phases_lt in Hk.
      unfold timed_steps in Hd. apply filter_In in Hd as [Hd _]. apply in_combine_r in Hd.
      destruct (nth_error es k) as [e|] eqn:Ee; [|apply nth_error_None in Ee; specialize (Hphases es Hd); lia].
      exists e. split; [reflexivity|]. apply (Hsafe row es k e); auto. eapply nth_error_In; exact Er.
    - split; [rewrite column_length; apply Hps|]. intros i Hi. change 0 with (n0 : R) at 1. rewrite column_nth, (pad_pixel rows cols im n) by assumption.
      unfold col_fun. split; [reflexivity|apply Hpos].
    - split; [apply Hf|]. split; [exact HD|]. unfold restored. rewrite Esv. exact HE.
    - exact Hroom.
    - exists col', a'. split; [exact E|].
      replace (map (fun cells => cell_rows window (combine (seq 0 (length cells)) cells)) passes) with
        (map (fun '(e, (m, s)) => cells_of window e m s) (combine em (combine mon sav))) in H.
      2: { unfold passes. rewrite map_map. apply map_ext. intros [e [m s]]. symmetry. apply cell_rows_cells. }
      rewrite (phases_eq c Hc) in H.
      unfold readout. destruct (fold_left _ _ (col_fun im j, all_empty (site_of c groups))) as [f' s']. apply H. }
  destruct (clock_columns_all c r window passes (atm_data a) (rows + n) cols columns (pad im n) a Hs) as ([im1 a1] & E5); auto; try lia.
  { intros j Hj. split; [apply Hcols, Hj|]. specialize (Hcols j Hj). destruct (Hcol (Z.to_nat j) ltac:(lia)) as (col' & a' & E & _). exists a, (col', a'). auto. }
  pose proof (clock_columns_ok _ _ _ _ _ _ _ _ _ _ _ Hps ltac:(lia) E5) as Hio.
  exists (unpad im1 n). split.
  { unfold clock_passes. fold N. rewrite Ea. cbn [bind]. rewrite Hpad. cbn [bind].
    fold passes. rewrite E5. reflexivity. }
  split; [apply unpad_shape, (io_shape _ _ _ _ _ _ _ Hio)|]. split.
  - intros i j Hj. destruct (lt_dec i rows) as [Hi|Hi].
    + rewrite (unpad_pixel rows cols) by (auto; apply (io_shape _ _ _ _ _ _ _ Hio)). rewrite (io_columns _ _ _ _ _ _ _ Hio) by exact Hj. apply (pad_pixel rows cols); assumption.
    + rewrite (pixel_out rows cols im) by (auto; lia). apply (pixel_out rows cols); [apply unpad_shape, (io_shape _ _ _ _ _ _ _ Hio)|lia].
  - intros i j Hi Hj. assert (Hjc : (j < cols)%nat) by (specialize (Hcols _ Hj); lia).
    rewrite (unpad_pixel rows cols) by (auto; apply (io_shape _ _ _ _ _ _ _ Hio)).
    destruct (clock_columns_each c r window passes (atm_data a) (rows + n) cols columns (pad im n) a im1 a1 Hs ltac:(congruence) Hps ltac:(lia) Hf Hnodup E5 j a Hj Hf) as (_ & b' & Eb).
    destruct (Hcol j Hjc) as (col' & a' & E & [_ HR]). rewrite E in Eb. injection Eb as Eb _.
    rewrite <- column_nth, <- Eb. destruct (HR (Z.of_nat i)) as [H1 H2]; [unfold inside; lia|]. rewrite Nat2Z.id in H1. split; [exact H1|]. change n0 with 0. rewrite H1. exact H2.
Qed.
End Image.

(** The cells of each pass, when no state is saved. *)
Definition cells_at (window : list Z) (em : matrix R) (mon : bmatrix) : list (list (Z * R * bool)) :=
  map (fun '(e, m) => cells_of window e m (map (fun _ => false) e)) (combine em mon).
Lemma unsaved_readout im c dwell dt traps groups window columns em mon E W rows cols :
  let r := built (Standard true) dwell dt true true in
  shape rows cols im -> (0 < rows)%nat -> (forall i j, 0 <= pixel im i j) ->
  plain_ccd c -> (ccd_n_phases c <= length dwell)%nat ->
  normalise_traps traps = Ok groups -> Forall instant_group groups ->
  rect E W em -> rect E W mon -> (W <= length window)%nat ->
  (forall w, In w window -> (0 <= w < Z.of_nat rows)%Z) ->
  (forall j, In j columns -> (0 <= j < Z.of_nat cols)%Z) -> NoDup columns ->
  exists im',
  clock_passes im c r traps window columns em mon (map (map (fun _ => false)) em) = Ok (im', r) /\
  shape rows cols im' /\
  (forall i j, ~ In (Z.of_nat j) columns -> pixel im' i j = pixel im i j) /\
  forall i j, (i < rows)%nat -> In (Z.of_nat j) columns ->
    pixel im' i j = readout (site_of c groups) (trap_phases c) (timed_steps r) (cells_at window em mon) (col_fun im j) (Z.of_nat i) /\ 0 <= pixel im' i j.
Proof.
  intros r Hshape Hrows Hpos Hc Hph Hg Hinst He Hm HW Hwin Hcols Hnd.
  destruct (forced_padding (Standard true) dwell dt true) as (n & Hn & _).
  pose proof (no_saves em mon E W He Hm) as HNS.
  set (N := max_n_transfers r (length em) match em with [] => 0%nat | row :: _ => length row end).
  assert (HN : em = [] \/ N = (W * length (timed_steps r))%nat).
  { destruct em as [|row em2]; [left; reflexivity|right]. unfold N, max_n_transfers. rewrite (steps_length r) by apply built_seq.
    rewrite (Forall_rect _ _ _ row He) by (left; reflexivity). reflexivity. }
  destruct (passes_readout im c r traps groups window columns em mon (map (map (fun _ => false)) em) rows cols n N)
    as (im' & E1 & E2 & E3 & E4); auto.
  - apply built_seq.
  - apply rooms_no_save. destruct HN as [->|HN]; [constructor|]. eapply Forall_impl; [|exact HNS]. intros cells [H1 H2]. split; [exact H1|]. fold N. rewrite H2, HN. lia.
  - eapply Forall_impl; [|exact HNS]. intros cells [_ H2]. lia.
  - intros row es ph e Hrow Hes _ He'. apply (forced_safe (Standard true) dwell dt true n rows row es ph e); auto.
  - intros es Hes. rewrite (built_phases (Standard true) dwell dt true true es Hes). exact Hph.
  - exists im'. split; [exact E1|]. split; [exact E2|]. split; [exact E3|]. intros i j Hi Hj. destruct (E4 i j Hi Hj) as [G1 G2]. split; [|exact G2]. rewrite G1. f_equal. unfold cells_at.
    clear. revert mon. induction em as [|e em IH]; intros mon; [reflexivity|]. destruct mon as [|m mon]; [reflexivity|]. cbn [map combine]. f_equal. apply IH.
Qed.

(** ** Whole times *)
Lemma int_of_IZR z : int_of (IZR z) = z.
Proof.
  assert (P : forall y, Int_part (IZR y) = y) by (intros y; unfold Int_part; rewrite <- (tech_up (IZR y) (y + 1)); [lia|apply IZR_lt; lia|rewrite plus_IZR; lra]).
  unfold int_of. destruct (Rltb (IZR z) 0); [|apply P]. rewrite <- opp_IZR, P. lia.
Qed.
Lemma IZR_max a b : IZR (Z.max a b) = Rmax (IZR a) (IZR b).
Proof. destruct (Z.max_spec a b) as [[H ->]|[H ->]]; symmetry; [apply Rmax_right|apply Rmax_left]; apply IZR_le; lia. Qed.
Lemma IZR_min a b : IZR (Z.min a b) = Rmin (IZR a) (IZR b).
Proof. destruct (Z.min_spec a b) as [[H ->]|[H ->]]; symmetry; [apply Rmin_left|apply Rmin_right]; apply IZR_le; lia. Qed.
Lemma py_index_map {A B} (f : A -> B) l i : py_index (map f l) i = (do x <- py_index l i; Ok (f x)).
Proof.
  unfold py_index. rewrite map_length. destruct (_ && _)%bool; [|reflexivity]. rewrite nth_error_map. destruct (nth_error l _); reflexivity.
Qed.
Lemma restrict_whole m w : restrict_times m (map IZR w) = restrict_time_span m (Some w).
Proof.
  unfold restrict_times, restrict_time_span. rewrite !py_index_map. destruct (py_index w 0) as [a|]; [|reflexivity]. cbn [bind].
  destruct (py_index w (-1)) as [b|]; [|reflexivity]. cbn [bind]. replace (IZR b - IZR a + 1) with (IZR (b - a + 1)) by (rewrite plus_IZR, minus_IZR; lra). reflexivity.
Qed.
Lemma standard_whole ef dt window express offset w :
  standard_express_times ef dt window express offset (map IZR w) = standard_express ef dt window express offset (Some w).
Proof. unfold standard_express_times, standard_express. destruct (n_pixels_of_window window); [|reflexivity]. cbn [bind]. rewrite restrict_whole. reflexivity. Qed.
Lemma express_whole r window express offset w :
  express_and_monitor_times r window express offset (map IZR w) = express_and_monitor r window express offset (Some w).
Proof.
  unfold express_and_monitor_times, express_and_monitor. destruct (roe_kind_of r).
  - rewrite standard_whole. reflexivity.
  - unfold injection_express_times, injection_express. destruct (n_pixels_of_window window); [|reflexivity]. cbn [bind]. rewrite restrict_whole. reflexivity.
  - reflexivity.
Qed.
Lemma clock_whole im d r traps rows columns w : clock_times im d r traps rows columns (map IZR w) = clock_direction im d r traps rows columns (Some w).
Proof.
  unfold clock_times, clock_direction. rewrite express_whole. destruct (d_ccd d); [|reflexivity]. unfold clock_charge_in_one_direction.
  destruct (express_and_monitor _ _ _ _ _) as [[[r' em] mon]|]; [|reflexivity]. cbn [bind]. destruct (save_matrix r' em); reflexivity.
Qed.
Lemma columns_whole w pw off : serial_columns_times (map IZR w) pw off =
  (do p0 <- py_index pw 0; do t0 <- py_index w 0; do p1 <- py_index pw (-1); do t1 <- py_index w (-1);
   Ok (py_range (Z.max p0 (t0 - Z.of_nat off)) (Z.min p1 (t1 - Z.of_nat off) + 1))).
Proof.
  unfold serial_columns_times. rewrite !py_index_map. destruct (py_index pw 0) as [p0|]; [|reflexivity]. cbn [bind]. destruct (py_index w 0) as [t0|]; [|reflexivity]. cbn [bind].
  destruct (py_index pw (-1)) as [p1|]; [|reflexivity]. cbn [bind]. destruct (py_index w (-1)) as [t1|]; [|reflexivity]. cbn [bind].
  rewrite INR_IZR_INZ, <- !minus_IZR, <- IZR_max, <- IZR_min, !int_of_IZR. reflexivity.
Qed.
Lemma add_whole im parallel serial w : add_cti_times im parallel serial (map IZR w) = add_cti im parallel serial (Some w).
Proof.
  unfold add_cti_times, add_cti. rewrite columns_whole. cbn [resolve_time_window].
  destruct (py_index _ 0) as [p0|]; [|reflexivity]. cbn [bind]. destruct (py_index w 0) as [t0|]; [|reflexivity]. cbn [bind].
  destruct (py_index _ (-1)) as [p1|]; [|reflexivity]. cbn [bind]. destruct (py_index w (-1)) as [t1|]; [|reflexivity]. cbn [bind].
  destruct (d_traps parallel); [rewrite clock_whole|]; reflexivity.
Qed.

(** ** The call *)
Lemma times_readout im parallel serial c traps dwell dt rows cols times a b :
  shape rows cols im -> (0 < rows)%nat -> (forall i j, 0 <= pixel im i j) ->
  plain_setting parallel rows c traps dwell dt -> d_window parallel = WNone -> d_traps serial = None ->
  columns_ok (selected (d_window serial) cols) cols -> from_to times a b ->
  exists em mon im', standard_express_times true dt (py_range 0 (Z.of_nat rows)) (d_express parallel) (d_offset parallel) times = Ok (em, mon) /\
  add_cti_times im parallel serial times = Ok (im', the_roe parallel, the_roe serial) /\
  shape rows cols im' /\ (forall i j, 0 <= pixel im' i j) /\
  (forall i j, ~ In (Z.of_nat j) (selected (d_window serial) cols) -> pixel im' i j = pixel im i j) /\
  forall i j, (i < rows)%nat -> In (Z.of_nat j) (selected (d_window serial) cols) ->
    pixel im' i j = readout (site_of c (groups_in traps)) (trap_phases c) (timed_steps (the_roe parallel))
                      (cells_at (py_range 0 (Z.of_nat rows)) em mon) (col_fun im j) (Z.of_nat i).
Proof.
  intros Hs Hr Hp Hps Hw Hser [Hnd Hrange] He. set (window := py_range 0 (Z.of_nat rows)).
  destruct (times_matrix true dt window rows (d_express parallel) (d_offset parallel)) with (times := times) (a := a) (b := b)
    as (E & em0 & mon & em & E0 & E1 & HE & R0 & Rm & R1 & _); auto.
  { apply window_ok_range, Hr. } { intros (_ & H1 & H2). destruct (ps_express _ _ _ _ _ _ Hps); contradiction. }
  destruct (unsaved_readout im c dwell dt traps (groups_in traps) window (selected (d_window serial) cols) em mon E (length window) rows cols)
    as (im' & G1 & G2 & G3 & G4); auto.
  { exact (ps_plain _ _ _ _ _ _ Hps). } { exact (ps_phases _ _ _ _ _ _ Hps). } { apply groups_normalised, (ps_instant _ _ _ _ _ _ Hps). } { apply (ps_instant _ _ _ _ _ _ Hps). }
  { intros w Hin. destruct (window_ok_range rows Hr) as [Hf _]. rewrite Forall_forall in Hf. apply Hf, Hin. }
  exists em, mon, im'. split; [exact E1|]. split; [|split; [exact G2|split; [|split; [exact G3|]]]].
  - unfold add_cti_times. rewrite Hw, Hser, (ps_traps _ _ _ _ _ _ Hps), (shape_columns rows cols im Hs Hr), (resolve_selected (d_window serial)), (proj1 Hs). cbn [resolve_window]. fold window.
    destruct (ends_index _ _ _ He) as [I1 I2]. unfold serial_columns_times. rewrite I1, I2. assert (J1 : py_index window 0 = Ok 0%Z) by (apply py_range_first; lia). assert (J2 : py_index window (-1) = Ok (Z.of_nat rows - 1)%Z) by (apply py_range_last; lia). rewrite J1, J2. cbn [bind].
    unfold clock_times. rewrite (plain_roe _ _ _ _ _ _ Hps), (ps_ccd _ _ _ _ _ _ Hps). set (rr := built (Standard true) dwell dt true true) in *. unfold express_and_monitor_times.
    change (roe_kind_of rr) with (Standard true). change (roe_dtype rr) with dt. cbn iota. rewrite E1. cbn [bind].
    unfold save_matrix. change (roe_kind_of rr) with (Standard true). cbn iota. unfold standard_save. cbn [bind]. rewrite G1. reflexivity.
  - intros i j. destruct (lt_dec i rows) as [Hi|Hi]; [|rewrite (pixel_out rows cols im') by (auto; lia); apply Rle_refl].
    destruct (in_dec Z.eq_dec (Z.of_nat j) (selected (d_window serial) cols)) as [Hj|Hj]; [apply (G4 i j Hi Hj)|rewrite G3 by exact Hj; apply Hp].
  - intros i j Hi Hj. rewrite (plain_roe _ _ _ _ _ _ Hps). apply (G4 i j Hi Hj).
Qed.
