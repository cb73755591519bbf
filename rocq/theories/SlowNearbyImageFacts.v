(** * Images read out, and corrected, past traps of any class with settings that differ a little. *)
From Coq Require Import ZArith List Bool Reals Lra Lia Sorted.
From Coquelicot Require Import Rcomplements.
From Verif Require Import Num Py RFacts CCDModel TrapsModel ManagerModel ROEModel ClockModel MainModel Spec SpecROE SpecImage SpecReadout SpecTime SpecSlow SpecHistory SpecHold SpecRecovery SpecPhases SpecWindowOrder SpecAbove SpecFlatten SpecPatient SpecMild SpecCalibration SpecZeroCapture SpecSlowCalibration
  WmFacts OrderFacts TameFacts InstantFacts ReadoutImage ShapeFacts DepthFacts ClockFacts MainFacts HistoryFacts HistorySpecFacts HistoryBoundFacts MainReadoutFacts RemoveFacts RecoverImageFacts LiftFacts GridFacts SteadyFacts ContractFacts WindowFacts WindowMainFacts MaskFacts WindowGridFacts TimesGridFacts ReadoutFull SlowFacts SlowOrderFacts SlowGridFacts MildFacts RecoverFacts CalibrationFacts SlowNearbyFacts TimesOrderFacts TimesNearbyFacts InstantTimesFacts ContinuumModel SpecContinuum ContinuumFacts LogNormalFacts NarrowFacts OrderlyFacts.
Import ListNotations.
Open Scope R_scope.

(** ** Differences of images, row by row and column by column *)
Lemma image_by_rows : forall (a b : image R) rows cols, shape rows cols a -> shape rows cols b ->
  image_apart a b = Rsum (map (fun i => apart (nth i a []) (nth i b [])) (seq 0 rows)).
Proof.
  unfold image_apart. induction a as [|r a IH]; intros b rows cols [La Ha] [Lb Hb]; destruct b as [|r' b]; cbn in La, Lb; subst rows; try discriminate; [reflexivity|].
  inversion Ha; inversion Hb; subst. cbn [concat length seq map nth]. rewrite apart_app by congruence. rewrite Rsum_cons. f_equal. rewrite (IH b (length a) (length r)) by (split; (assumption || congruence || lia)).
  rewrite <- seq_shift, map_map. reflexivity.
Qed.
Lemma apart_by_pixel : forall x y n, length x = n -> length y = n -> apart x y = Rsum (map (fun j => Rabs (nth j x 0 - nth j y 0)) (seq 0 n)).
Proof.
  induction x as [|u x IH]; intros [|v y] n Hx Hy; cbn in Hx, Hy; subst n; try discriminate; [reflexivity|]. cbn [apart seq map nth]. rewrite Rsum_cons. f_equal. rewrite (IH y (length x) eq_refl) by lia. rewrite <- seq_shift, map_map. reflexivity.
Qed.
Lemma Rsum_plus {A} (f g : A -> R) : forall l, Rsum (map (fun x => f x + g x) l) = Rsum (map f l) + Rsum (map g l).
Proof. induction l as [|x l IH]; cbn [map]; [unfold Rsum; cbn; lra|]. rewrite !Rsum_cons, IH. lra. Qed.
Lemma image_by_columns : forall (a b : image R) rows cols, shape rows cols a -> shape rows cols b ->
  image_apart a b = Rsum (map (fun j => apart (column_of a j) (column_of b j)) (seq 0 cols)).
Proof.
  unfold image_apart. induction a as [|r a IH]; intros b rows cols [La Ha] [Lb Hb]; destruct b as [|r' b]; cbn in La, Lb; subst rows; try discriminate.
  - cbn. induction (seq 0 cols) as [|j l IH]; cbn [map]; [reflexivity|]. rewrite Rsum_cons, <- IH. cbn. lra.
  - inversion Ha; inversion Hb; subst. cbn [concat]. rewrite apart_app by congruence. rewrite (IH b (length a) (length r)) by (split; (assumption || congruence || lia)).
    rewrite (apart_by_pixel r r' (length r) eq_refl) by congruence. rewrite <- Rsum_plus. reflexivity.
Qed.
Lemma Rsum_at_most (f : nat -> R) e n : (forall i, (i < n)%nat -> f i <= e) -> Rsum (map f (seq 0 n)) <= INR n * e.
Proof.
  induction n as [|n IH]; intros H; [unfold Rsum; cbn; lra|]. rewrite seq_S, map_app, sum_app, S_INR. cbn [map]. rewrite Rsum_cons. specialize (H n ltac:(lia)) as Hn. specialize (IH (fun i Hi => H i ltac:(lia))). cbn [Nat.add]. unfold Rsum at 2. cbn. lra.
Qed.

(** ** Instant capture *)
Lemma instant_by d n tw c f g w full beta : (0 < n)%nat -> tw = None \/ tw = whole n (d_offset d) -> instant_setting d n c f g w full beta ->
  let traps := map (thinned f) g in let slope := slope_of full beta 0 in let G := column_reads traps w (depth full beta) 0 n (d_offset d) in
  Forall physical traps /\ 0 <= w /\ gradual traps (depth full beta) 0 slope /\ (forall a, 0 <= a -> 0 <= depth full beta a <= 1) /\ 0 < 1 - SpecRecovery.traps_per_pixel traps * slope /\
  (forall (p : nat) a, 0 <= a -> 0 <= a - SpecRecovery.traps_per_pixel traps * depth full beta a) /\
  tame ((1 - SpecRecovery.traps_per_pixel traps * slope) ^ (d_offset d + n)) 0 0 G /\ does_by G d n tw (fun _ _ => False) (the_roe d).
Proof.
  intros Hn Htw [H1 [Hne Hgr] H4 H5 H6 H7 _] traps slope G.
  pose proof (sp_share _ _ _ _ _ _ _ H1) as Hf. pose proof (sp_dwell _ _ _ _ _ _ _ H1) as Hw. assert (Hb : 0 < beta) by lra.
  assert (Ph : Forall physical traps). { apply thinned_physical; [lra|]. eapply Forall_impl; [|exact Hgr]. now intros t [Ht _]. }
  assert (Er : SpecRecovery.traps_per_pixel traps = f * full_traps g) by apply full_thinned.
  pose proof (density_nonneg traps Ph) as Hrho.
  destruct (mild_gradual traps full beta 0 H5 Hb Hrho) as [Hg Hk]; [left; split; [reflexivity|]; split; [exact H6|rewrite Er; exact H7]|].
  assert (Wr : forall a, 0 <= a -> 0 <= depth full beta a <= 1) by (intros a Ha; apply sensitive_range; [apply depth_sensitive; auto|exact Ha]).
  assert (Th : forall (p : nat) a, 0 <= a -> 0 <= a - SpecRecovery.traps_per_pixel traps * depth full beta a) by (intros _ a Ha; pose proof (gr_enough _ _ _ _ Hg a Ha); lra).
  assert (HT : tame ((1 - SpecRecovery.traps_per_pixel traps * slope) ^ (d_offset d + n)) 0 0 G).
  { apply (column_tame traps w (depth full beta) 0 slope (fun _ => 0) Ph ltac:(lra) Hg Wr ltac:(unfold slope; lra) ltac:(lra) Th ltac:(intros; lra)). }
  split; [exact Ph|]. split; [lra|]. split; [exact Hg|]. split; [exact Wr|]. split; [exact Hk|]. split; [exact Th|]. split; [exact HT|].
  intros im cols columns Hs Hp Hcols.
  assert (Hlen : (0 < length traps)%nat) by (unfold traps; rewrite map_length; destruct g; [contradiction|cbn; lia]).
  assert (Hm : empty_manager f g n = manager_init KInstant traps n).
  { unfold empty_manager, manager_init, kind_for, zero_row, traps. rewrite map_length. destruct g as [|t g]; [contradiction|].
    inversion Hgr as [|? ? [_ Ht] _]; subst. rewrite Ht. cbn [n_watermarks_per_transfer]. rnum. do 2 f_equal. lia. }
  assert (NN : forall j, Forall (Rle 0) (column_of im j)).
  { intros j. apply Forall_forall. intros x Hx. apply (In_nth _ _ 0) in Hx as (i & _ & <-). rewrite nth_column. apply Hp. }
  destruct (direction_past d n c f g w G tw im cols columns Hn H1 Htw Hs Hcols) as (tr & im' & Etr & E & Hs' & C).
  { intros z Hz. set (l := column_of im (Z.to_nat z)). assert (L : length l = n) by exact (RecoverImageFacts.column_length im n cols _ Hs).
    assert (CS : G l = column_clouds traps (depth full beta) w (d_offset d) l).
    { unfold G. rewrite <- L. symmetry. apply (column_same traps (depth full beta) w 0 slope (fun _ => 0) Ph ltac:(lra) Hg Wr ltac:(lra) Th ltac:(intros; lra)). now left. }
    rewrite Hm, CS.
    apply (column_past_clouds traps (depth full beta) w _ _ n); [|lia].
    intros k Hk'. apply (instant_follows _ _ (depth full beta) w) with (spare := (n - length k)%nat); auto.
    - apply depth_sensitive; auto.
    - intros x. apply depth_fill_any; auto.
    - replace (length k + (n - length k))%nat with n by lia. apply init_represents. }
  rewrite Etr. exists im'. split; [exact E|]. split; [exact Hs'|]. split; [|split; [exact C|contradiction]].
  assert (PX : forall i j, (i < n)%nat -> (j < cols)%nat -> 0 <= pixel im' i j).
  { intros i j Hi Hj. rewrite <- nth_column, (C j Hj). destruct (listed columns j); [|rewrite nth_column; apply Hp].
    pose proof (tame_nonneg _ G (column_of im j) HT (NN j)) as K. rewrite Forall_forall in K. apply K, nth_In. rewrite (tm_length _ _ _ _ HT), (RecoverImageFacts.column_length im n cols j Hs). exact Hi. }
  destruct cols as [|cols]; [|now apply (shape_nonneg n (S cols) Hn ltac:(lia))]. intros i j. unfold pixel. destruct Hs' as [_ Hs'].
  destruct (Nat.lt_ge_cases i (length im')) as [Hi|Hi].
  - rewrite Forall_forall in Hs'. assert (L : length (nth i im' []) = 0%nat) by (apply Hs', nth_In, Hi). destruct (nth i im' []); [|discriminate]. destruct j; cbn; rnum; lra.
  - rewrite (nth_overflow im') by exact Hi. destruct j; cbn; rnum; lra.
Qed.

(** ** A pair of directions *)
Definition alike (G G' : list R -> list R) (n : nat) (e : R) : Prop :=
  (forall x y, length x = length y -> apart (G x) (G y) <= apart x y) /\ (forall x y, length x = length y -> apart (G' x) (G' y) <= apart x y) /\ (forall x, length (G x) = length x) /\ (forall x, length (G' x) = length x) /\
  forall x, length x = n -> apart (G x) (G' x) <= e.
Lemma thinned_greed f f' : forall g g', Forall2 no_greedier g' g -> Forall2 no_greedier (map (thinned f') g') (map (thinned f) g).
Proof. intros g g' H. induction H; cbn; constructor; auto. Qed.
Lemma settings_pair d d' n tw tw' e : (0 < n)%nat -> tw = None \/ tw = whole n (d_offset d) -> tw' = None \/ tw' = whole n (d_offset d') -> settings_apart d d' n e ->
  d_window d = WNone /\ d_window d' = WNone /\
  exists G G', alike G G' n e /\ does_by G d n tw (fun _ _ => False) (the_roe d) /\ does_by G' d' n tw' (fun _ _ => False) (the_roe d').
Proof.
  intros Hn Htw Htw' [H1 H2 H3 H4|c f g w full beta c' f' g' w' full' beta' eps [A1 A2 A3 A4 A5 A6 A7] [B1 B2 B3 B4 B5 B6 B7] Ho Hg He|c f g w full beta c' f' g' w' full' beta' eps A B Ho Hg He|c f g w full beta c' f' g' w' full' beta' eps e0 [A1 A2 A3 A4 A5 A6 A7] [B1 B2 B3 B4 B5 B6 B7] Ho Hg He|c f g w full beta c' f' g' w' full' beta' eps e0 [A1 A2 A3 A4 A5 A6 A7] B Ho Hg He].
  - split; [exact H2|]. split; [exact H4|]. exists (fun x => x), (fun x => x). split; [split; [intros; lra|]; split; [intros; lra|]; split; [reflexivity|]; split; [reflexivity|]; intros x _; rewrite apart_refl; lra|].
    split; intros im cols columns Hs Hp Hc; exists im; rewrite ?H1, ?H3; (split; [reflexivity|]; split; [exact Hs|]; split; [exact Hp|]; split; [intros j _; now destruct (listed columns j)|contradiction]).
  - split; [apply (sp_window _ _ _ _ _ _ _ A1)|]. split; [apply (sp_window _ _ _ _ _ _ _ B1)|].
    destruct (mild_patient_by d n tw c f g w full beta Hn Htw A1 A2 A3 A4 A5 A6 A7) as (gn & Hgn & T & D).
    destruct (mild_patient_by d' n tw' c' f' g' w' full' beta' Hn Htw' B1 B2 B3 B4 B5 B6 B7) as (gn' & Hgn' & T' & D').
    set (P := patient_pass (map (thinned f) g) w 1 full beta) in *. set (P' := patient_pass (map (thinned f') g') w' 1 full' beta') in *.
    pose proof (column_by_tame P gn T ltac:(lra) n (d_offset d)) as K. pose proof (column_by_tame P' gn' T' ltac:(lra) n (d_offset d')) as K'.
    exists (column_by P n (d_offset d)), (column_by P' n (d_offset d')). split.
    + split; [intros x y; apply (tame_apart _ _ _ _ _ _ K)|]. split; [intros x y; apply (tame_apart _ _ _ _ _ _ K')|]. split; [apply (tm_length _ _ _ _ K)|]. split; [apply (tm_length _ _ _ _ K')|]. intros x Hx. rewrite Ho.
      set (traps := map (thinned f) g) in *. set (traps' := map (thinned f') g') in *.
      pose proof (sp_share _ _ _ _ _ _ _ A1) as Hf. pose proof (sp_dwell _ _ _ _ _ _ _ A1) as Hw. pose proof (sp_share _ _ _ _ _ _ _ B1) as Hf'. pose proof (sp_dwell _ _ _ _ _ _ _ B1) as Hw'.
      assert (C : Forall capturing traps) by now apply thinned_capturing. assert (C' : Forall capturing traps') by now apply thinned_capturing.
      assert (L : length traps' = length traps) by (unfold traps, traps'; rewrite !map_length; clear - Hg; induction Hg; cbn; congruence).
      assert (Hb : 0 < beta) by lra. assert (Hb' : 0 < beta') by lra.
      assert (Er : SpecRecovery.traps_per_pixel traps = f * full_traps g) by apply full_thinned.
      assert (SG : slow_growth 1 1 (SpecRecovery.traps_per_pixel traps) beta full) by (left; rewrite Er; lra).
      pose proof (patient_keep_range traps 1 full beta C Rlt_0_1 A5 Hb SG) as Hkeep. unfold patient_keep in Hkeep.
      set (err := slow_error w w' eps traps traps').
      assert (W : forall b full a, 1 <= b -> timed_well 1 full b a = depth full b a) by (intros b fu a Hb1; unfold timed_well; destruct (Rle_dec 1 b); [reflexivity|lra]).
      assert (N : forall y, apart (P y) (P' y) <= INR (length y) * (9 * err)).
      { intros y. unfold P, P', patient_pass.
        pose proof (slow_pass_near traps traps' w w' L C C' (thinned_greed f f' g g' Hg) ltac:(lra) ltac:(lra) (timed_well 1 full beta) (timed_well 1 full' beta') (timed_slope 1 full beta) eps
          (timed_slope_pos 1 full beta Rlt_0_1 A5 Hb) (timed_grows 1 full beta Rlt_0_1 A5 Hb) (timed_range 1 full beta Rlt_0_1 A5 Hb) (timed_range 1 full' beta' Rlt_0_1 B5 Hb') ltac:(lra)
          ltac:(intros a Ha; rewrite !W by assumption; now apply He) y empty_profile (calm_empty traps' C')) as Q.
        unfold err, slow_error, setting_error. lra. }
      assert (E0 : 0 <= 9 * err).
      { pose proof (N [1]) as Q. pose proof (apart_nonneg (P [1]) (P' [1])). change (INR (length [1])) with 1 in Q. lra. }
      pose proof (column_by_near P P' gn (9 * err) T ltac:(lra) E0 (tm_length _ _ _ _ T') N n (d_offset d) x) as Q. rewrite Hx in Q. lra.
    + split; intros im cols columns Hs Hp Hc.
      * destruct (D im cols columns Hs Hp Hc) as (im' & E & S' & P1 & C1 & _). exists im'. split; [exact E|]. split; [exact S'|]. split; [exact P1|]. split; [exact C1|contradiction].
      * destruct (D' im cols columns Hs Hp Hc) as (im' & E & S' & P1 & C1 & _). exists im'. split; [exact E|]. split; [exact S'|]. split; [exact P1|]. split; [exact C1|contradiction].
  - pose proof A as [A1 _ _ _ _ _ _]. pose proof B as [B1 _ _ _ _ _ _]. split; [apply (sp_window _ _ _ _ _ _ _ A1)|]. split; [apply (sp_window _ _ _ _ _ _ _ B1)|].
    destruct (instant_by d n tw c f g w full beta Hn Htw A) as (Ph & Hw & Gr & Wr & Hk & Th & T & D).
    destruct (instant_by d' n tw' c' f' g' w' full' beta' Hn Htw' B) as (Ph' & Hw' & Gr' & Wr' & Hk' & Th' & T' & D').
    set (traps := map (thinned f) g) in *. set (traps' := map (thinned f') g') in *.
    exists (column_reads traps w (depth full beta) 0 n (d_offset d)), (column_reads traps' w' (depth full' beta') 0 n (d_offset d')). split; [|split; assumption].
    split; [intros x y; apply (tame_apart _ _ _ _ _ _ T)|]. split; [intros x y; apply (tame_apart _ _ _ _ _ _ T')|]. split; [apply (tm_length _ _ _ _ T)|]. split; [apply (tm_length _ _ _ _ T')|].
    intros x Hx. rewrite Ho.
    assert (L : length traps' = length traps) by (unfold traps, traps'; now rewrite !map_length).
    pose proof (column_near_settings traps traps' w w' L Ph Ph' Hw Hw' (depth full beta) (depth full' beta') 0 (slope_of full beta 0) eps Gr Wr Wr' ltac:(lra) He (fun _ => 0) ltac:(lra) Th ltac:(intros; lra) n (d_offset d) x) as Q.
    rewrite Hx in Q. unfold setting_error. lra.
  - split; [apply (sp_window _ _ _ _ _ _ _ A1)|]. split; [apply (sp_window _ _ _ _ _ _ _ B1)|].
    destruct (mild_timed_by d n tw c f g w full beta Hn Htw A1 A2 A3 A4 A5 A6 A7) as (gn & Hgn & T & D).
    destruct (mild_timed_by d' n tw' c' f' g' w' full' beta' Hn Htw' B1 B2 B3 B4 B5 B6 B7) as (gn' & Hgn' & T' & D').
    set (P := timed_pass (map (thinned f) g) w 1 full beta) in *. set (P' := timed_pass (map (thinned f') g') w' 1 full' beta') in *.
    pose proof (column_by_tame P gn T ltac:(lra) n (d_offset d)) as K. pose proof (column_by_tame P' gn' T' ltac:(lra) n (d_offset d')) as K'.
    exists (column_by P n (d_offset d)), (column_by P' n (d_offset d')). split.
    + split; [intros x y; apply (tame_apart _ _ _ _ _ _ K)|]. split; [intros x y; apply (tame_apart _ _ _ _ _ _ K')|]. split; [apply (tm_length _ _ _ _ K)|]. split; [apply (tm_length _ _ _ _ K')|]. intros x Hx. rewrite Ho.
      set (traps := map (thinned f) g) in *. set (traps' := map (thinned f') g') in *.
      pose proof (sp_share _ _ _ _ _ _ _ A1) as Hf. pose proof (sp_dwell _ _ _ _ _ _ _ A1) as Hw. pose proof (sp_share _ _ _ _ _ _ _ B1) as Hf'.
      assert (C : Forall flattening traps) by now apply thinned_flattening.
      assert (Hb : 0 < beta) by lra. assert (Hb' : 0 < beta') by lra.
      assert (Er : filled_traps traps = f * filled_traps g) by apply filled_thinned.
      assert (SG : slow_growth 1 1 (filled_traps traps) beta full) by (left; rewrite Er; lra).
      pose proof (timed_gain_range traps 1 full beta C Rlt_0_1 A5 Hb SG) as Hgain. unfold timed_gain in Hgain.
      set (err := e0 + filled_traps traps * eps).
      assert (W : forall b full a, 1 <= b -> timed_well 1 full b a = depth full b a) by (intros b fu a Hb1; unfold timed_well; destruct (Rle_dec 1 b); [reflexivity|lra]).
      assert (N : forall y, apart (P y) (P' y) <= INR (length y) * (8 * err)).
      { intros y. unfold P, P', timed_pass.
        apply (t_pass_apart traps traps' w w' e0 Hw Hg C (timed_well 1 full beta) (timed_well 1 full' beta') (timed_slope 1 full beta) eps
          (timed_slope_pos 1 full beta Rlt_0_1 A5 Hb) (timed_grows 1 full beta Rlt_0_1 A5 Hb) (timed_range 1 full beta Rlt_0_1 A5 Hb) (timed_range 1 full' beta' Rlt_0_1 B5 Hb') ltac:(lra)
          ltac:(intros a Ha; rewrite !W by assumption; now apply He) y). }
      assert (E0 : 0 <= 8 * err).
      { pose proof (N [1]) as Q. pose proof (apart_nonneg (P [1]) (P' [1])). change (INR (length [1])) with 1 in Q. lra. }
      pose proof (column_by_near P P' gn (8 * err) T ltac:(lra) E0 (tm_length _ _ _ _ T') N n (d_offset d) x) as Q. rewrite Hx in Q. lra.
    + split; intros im cols columns Hs Hp Hc.
      * destruct (D im cols columns Hs Hp Hc) as (im' & E & S' & P1 & C1 & _). exists im'. split; [exact E|]. split; [exact S'|]. split; [exact P1|]. split; [exact C1|contradiction].
      * destruct (D' im cols columns Hs Hp Hc) as (im' & E & S' & P1 & C1 & _). exists im'. split; [exact E|]. split; [exact S'|]. split; [exact P1|]. split; [exact C1|contradiction].
  - pose proof B as [B1 [_ Bg] _ B5 B6 _ _]. split; [apply (sp_window _ _ _ _ _ _ _ A1)|]. split; [apply (sp_window _ _ _ _ _ _ _ B1)|].
    destruct (mild_timed_by d n tw c f g w full beta Hn Htw A1 A2 A3 A4 A5 A6 A7) as (gn & Hgn & T & D).
    destruct (instant_by d' n tw' c' f' g' w' full' beta' Hn Htw' B) as (Ph' & Hw' & Gr' & Wr' & Hk' & Th' & T' & D').
    set (P := timed_pass (map (thinned f) g) w 1 full beta) in *. set (traps' := map (thinned f') g') in *.
    pose proof (column_by_tame P gn T ltac:(lra) n (d_offset d)) as K.
    assert (Cl : Forall (fun t => t_class t = CInstant) traps'). { unfold traps'. apply Forall_map. eapply Forall_impl; [|exact Bg]. intros t [_ E]. exact E. }
    set (P' := t_pass traps' w' (depth full' beta') never).
    assert (EP : forall y, pass traps' w' (depth full' beta') 0 empty_profile y = P' y) by (intros y; now apply instant_as_times).
    exists (column_by P n (d_offset d)), (column_reads traps' w' (depth full' beta') 0 n (d_offset d')). split.
    + split; [intros x y; apply (tame_apart _ _ _ _ _ _ K)|]. split; [intros x y; apply (tame_apart _ _ _ _ _ _ T')|]. split; [apply (tm_length _ _ _ _ K)|]. split; [apply (tm_length _ _ _ _ T')|]. intros x Hx. rewrite Ho.
      set (traps := map (thinned f) g) in *.
      pose proof (sp_share _ _ _ _ _ _ _ A1) as Hf. pose proof (sp_dwell _ _ _ _ _ _ _ A1) as Hw.
      assert (C : Forall flattening traps) by now apply thinned_flattening.
      assert (Hb : 0 < beta) by lra.
      assert (Er : filled_traps traps = f * filled_traps g) by apply filled_thinned.
      assert (SG : slow_growth 1 1 (filled_traps traps) beta full) by (left; rewrite Er; lra).
      pose proof (timed_gain_range traps 1 full beta C Rlt_0_1 A5 Hb SG) as Hgain. unfold timed_gain in Hgain.
      set (err := e0 + filled_traps traps * eps).
      assert (W : forall a, timed_well 1 full beta a = depth full beta a) by (intros a; unfold timed_well; destruct (Rle_dec 1 beta); [reflexivity|lra]).
      assert (N : forall y, apart (P y) (P' y) <= INR (length y) * (8 * err)).
      { intros y. unfold P, P', timed_pass.
        apply (t_pass_apart traps traps' w w' e0 Hw Hg C (timed_well 1 full beta) (depth full' beta') (timed_slope 1 full beta) eps
          (timed_slope_pos 1 full beta Rlt_0_1 A5 Hb) (timed_grows 1 full beta Rlt_0_1 A5 Hb) (timed_range 1 full beta Rlt_0_1 A5 Hb) Wr' ltac:(lra)
          ltac:(intros a Ha; rewrite W; now apply He) y). }
      assert (E0 : 0 <= 8 * err).
      { pose proof (N [1]) as Q. pose proof (apart_nonneg (P [1]) (P' [1])). change (INR (length [1])) with 1 in Q. lra. }
      pose proof (column_by_near P P' gn (8 * err) T ltac:(lra) E0 (fun y => t_pass_length traps' w' (depth full' beta') y never) N n (d_offset d) x) as Q. rewrite Hx in Q.
      assert (EC : column_reads traps' w' (depth full' beta') 0 n (d_offset d) x = column_by P' n (d_offset d) x).
      { rewrite column_as_by. unfold column_by. 
        assert (E1 : forall k y, enters_by (pass traps' w' (depth full' beta') 0 empty_profile) k y = enters_by P' k y) by (induction k as [|k IH]; intros y; [reflexivity|]; cbn [enters_by]; now rewrite EP, IH).
        rewrite E1. generalize (enters_by P' (d_offset d) x). clear - EP. induction n as [|k IH]; intros y; [reflexivity|]. cbn [reads_by]. rewrite EP. destruct (P' y) as [|h l]; [reflexivity|]. cbn [skip]. now rewrite IH. }
      rewrite EC. lra.
    + split; intros im cols columns Hs Hp Hc.
      * destruct (D im cols columns Hs Hp Hc) as (im' & E & S' & P1 & C1 & _). exists im'. split; [exact E|]. split; [exact S'|]. split; [exact P1|]. split; [exact C1|contradiction].
      * exact (D' im cols columns Hs Hp Hc).
Qed.

Lemma settings_pair_near d d' n tw tw' e : (0 < n)%nat -> tw = None \/ tw = whole n (d_offset d) -> tw' = None \/ tw' = whole n (d_offset d') -> settings_near d d' n e ->
  d_window d = WNone /\ d_window d' = WNone /\
  exists G G', alike G G' n e /\ does_by G d n tw (fun _ _ => False) (the_roe d) /\ does_by G' d' n tw' (fun _ _ => False) (the_roe d').
Proof.
  intros Hn Ht Ht' [H|H]; [now apply (settings_pair d d' n tw tw' e)|].
  destruct (settings_pair d' d n tw' tw e Hn Ht' Ht H) as (W & W' & G & G' & (N & N' & L & L' & B) & D & D'). split; [exact W'|]. split; [exact W|].
  exists G', G. split; [|split; assumption]. split; [exact N'|]. split; [exact N|]. split; [exact L'|]. split; [exact L|]. intros x Hx. rewrite apart_sym. now apply B.
Qed.

(** ** Readout *)
Section Two.
Context (parallel serial parallel' serial' : direction R) (rows cols : nat) (ep es : R).
Hypothesis Hr : (0 < rows)%nat.
Hypothesis Hc : (0 < cols)%nat.
Hypothesis Hpar : settings_near parallel parallel' rows ep.
Hypothesis Hser : settings_near serial serial' cols es.
Lemma whole_listed n i : (i < n)%nat -> listed (selected WNone n) i = true.
Proof. intros Hi. apply listed_in. cbn. apply in_map, in_seq. lia. Qed.
Lemma slow_readouts_near im : shape rows cols im -> nonneg im ->
  exists out out', add_cti im parallel serial None = Ok (out, the_roe parallel, the_roe serial) /\ add_cti im parallel' serial' None = Ok (out', the_roe parallel', the_roe serial') /\
    shape rows cols out /\ shape rows cols out' /\ image_apart out out' <= INR cols * ep + INR rows * es.
Proof.
  intros Hs Hp.
  destruct (settings_pair_near parallel parallel' rows (whole rows (d_offset parallel)) (whole rows (d_offset parallel')) ep Hr (or_intror eq_refl) (or_intror eq_refl) Hpar) as (W1 & W1' & G1 & G1' & (N1 & _ & L1 & L1' & B1) & D1 & D1').
  destruct (settings_pair_near serial serial' cols None None es Hc (or_introl eq_refl) (or_introl eq_refl) Hser) as (W2 & W2' & G2 & G2' & (N2 & _ & L2 & L2' & B2) & D2 & D2').
  assert (OK : forall n w, (0 < n)%nat -> w = WNone -> columns_ok (selected w n) n) by (intros n w Hn ->; now apply (mild_whole no_direction n Hn)).
  destruct (mild_stages parallel serial rows cols (fun _ _ => False) (fun _ _ => False) Hr Hc (the_roe parallel) (the_roe serial) None _ (selected (d_window parallel) rows) eq_refl (OK rows _ Hr W1) (OK cols _ Hc W2) G1 G2 D1 D2 im Hs Hp) as (a & out & E & Sa & _ & So & _ & Ca & Ra).
  destruct (mild_stages parallel' serial' rows cols (fun _ _ => False) (fun _ _ => False) Hr Hc (the_roe parallel') (the_roe serial') None _ (selected (d_window parallel') rows) eq_refl (OK rows _ Hr W1') (OK cols _ Hc W2') G1' G2' D1' D2' im Hs Hp) as (a' & out' & E' & Sa' & _ & So' & _ & Ca' & Ra').
  exists out, out'. split; [exact E|]. split; [exact E'|]. split; [exact So|]. split; [exact So'|].
  assert (A : image_apart a a' <= INR cols * ep).
  { rewrite (image_by_columns a a' rows cols Sa Sa'). apply Rsum_at_most. intros j Hj. rewrite (Ca j Hj), (Ca' j Hj), W2, W2', (whole_listed cols j Hj). apply B1. exact (RecoverImageFacts.column_length im rows cols j Hs). }
  rewrite (image_by_rows out out' rows cols So So'). rewrite (image_by_rows a a' rows cols Sa Sa') in A.
  assert (B : forall i, (i < rows)%nat -> apart (nth i out []) (nth i out' []) <= apart (nth i a []) (nth i a' []) + es).
  { intros i Hi. rewrite (Ra i Hi), (Ra' i Hi), W1, W1', (whole_listed rows i Hi).
    assert (LR : forall b : image R, shape rows cols b -> length (nth i b []) = cols) by (intros b [Lb Fb]; rewrite Forall_forall in Fb; apply Fb, nth_In; lia).
    pose proof (LR a Sa) as K. pose proof (LR a' Sa') as K'.
    pose proof (apart_via (G2 (nth i a [])) (G2 (nth i a' [])) (G2' (nth i a' [])) ltac:(rewrite !L2; congruence) ltac:(now rewrite L2, L2')) as T.
    pose proof (N2 (nth i a []) (nth i a' []) ltac:(congruence)). pose proof (B2 (nth i a' []) K'). lra. }
  assert (Q : Rsum (map (fun i => apart (nth i out []) (nth i out' [])) (seq 0 rows)) <= Rsum (map (fun i => apart (nth i a []) (nth i a' [])) (seq 0 rows)) + INR rows * es).
  { clear - B. revert B. generalize rows as n. intros n. induction n as [|n IH]; intros B; [unfold Rsum; cbn; lra|]. rewrite seq_S, !map_app, !sum_app, S_INR. cbn [map Nat.add]. rewrite !Rsum_cons. specialize (IH (fun i Hi => B i ltac:(lia))). specialize (B n ltac:(lia)). lra. }
  lra.
Qed.
End Two.

(** ** Correction with other settings than those of the readout *)
Section Wrong.
Context (parallel serial : direction R) (rows cols : nat) (Bp Bs : nat -> R -> Prop).
Hypothesis Bp_pos : forall i x, Bp i x -> 0 <= x.
Hypothesis Bs_pos : forall j x, Bs j x -> 0 <= x.
Hypothesis Hr : (0 < rows)%nat.
Hypothesis Hc : (0 < cols)%nat.
Context (rp rs : roe R) (time : option (list Z)) (tw lines : list Z).
Hypothesis Htimes : resolve_time_window time (selected (d_window parallel) rows) rows (d_offset parallel) = Ok (tw, lines).
Hypothesis Hlines : columns_ok lines rows.
Hypothesis Hcolumns : columns_ok (selected (d_window serial) cols) cols.
Hypothesis Hpar : does parallel rows (Some tw) Bp rp.
Hypothesis Hser : does serial cols None Bs rs.
Lemma correct_wrong : exists K r, 0 <= K /\ 0 <= r < 1 /\ forall x im (slack : nat -> nat -> R), shape rows cols x -> shape rows cols im ->
  (forall i j, (i < rows)%nat -> (j < cols)%nat -> Rabs (pixel im i j - pixel x i j) <= slack i j) ->
  (forall i j, (i < rows)%nat -> (j < cols)%nat -> exists p s, Bp i p /\ Bs j s /\ p + s + slack i j <= pixel x i j) ->
  exists right, add_cti x parallel serial time = Ok (right, rp, rs) /\
  forall k, exists est, remove_cti im k parallel serial time = Ok est /\ shape rows cols est /\
    image_apart est x <= K * (r ^ k * image_apart im x + image_apart im right).
Proof.
  destruct (mild_map parallel serial rows cols Bp Bs Hr Hc rp rs time tw lines Htimes Hlines Hcolumns Hpar Hser) as (gain & big & F & Hg & Hbig & HT & HF).
  set (sc := scale_of gain big (rows * cols)). assert (Hsc : 0 < sc) by now apply scale_pos. assert (G2 : 0 < 2 / gain) by (apply Rdiv_lt_0_compat; lra).
  exists (sc * (1 + 2 / gain)), (1 - gain / 2). split; [apply Rmult_le_pos; lra|]. split; [lra|].
  intros x im slack Sx Si Hi Hx.
  assert (Nx : nonneg x).
  { apply (shape_nonneg rows cols Hr Hc); [exact Sx|]. intros i j Hi1 Hj. destruct (Hx i j Hi1 Hj) as (p & s & Lp & Ls & H). specialize (Hi i j Hi1 Hj). pose proof (Rabs_pos (pixel im i j - pixel x i j)). apply Bp_pos in Lp. apply Bs_pos in Ls. lra. }
  destruct (HF x Sx Nx) as (right & Er & Sr & _ & Fr & _). exists right. split; [exact Er|].
  assert (ST : forall k, exists est, remove_cti im k parallel serial time = Ok est /\ shape rows cols est /\ nonneg est /\ concat est = corrected F (concat im) k).
  { assert (ST' : forall k, exists est, remove_cti im k parallel serial time = Ok est /\ shape rows cols est /\ concat est = corrected F (concat im) k /\
      forall i j p s, (i < rows)%nat -> (j < cols)%nat -> Bp i p -> Bs j s -> Rabs (pixel est i j - pixel x i j) <= p + s + slack i j).
    { induction k as [|k (est & Ee & Se & Ke & Be)].
      - exists im. split; [reflexivity|]. split; [exact Si|]. split; [reflexivity|]. intros i j p s Hi1 Hj Lp Ls. specialize (Hi i j Hi1 Hj). apply Bp_pos in Lp. apply Bs_pos in Ls. lra.
      - assert (Ne : nonneg est).
        { apply (shape_nonneg rows cols Hr Hc); [exact Se|]. intros i j Hi1 Hj. destruct (Hx i j Hi1 Hj) as (p & s & Lp & Ls & H). specialize (Be i j p s Hi1 Hj Lp Ls). apply Rabs_le_between in Be. lra. }
        destruct (HF est Se Ne) as (added & Ea & Sa & _ & Fa & Ba).
        set (out := image_zip nadd est (image_zip nsub im added)).
        assert (So : shape rows cols out) by (unfold out; repeat (apply image_zip_shape; try assumption)).
        assert (Po : forall i j, (i < rows)%nat -> (j < cols)%nat -> pixel out i j = pixel est i j + (pixel im i j - pixel added i j)).
        { intros i j Hi1 Hj. unfold out. rewrite (image_zip_pixel _ _ _ rows cols) by (try apply image_zip_shape; assumption).
          rewrite (image_zip_pixel _ _ _ rows cols) by assumption. reflexivity. }
        exists out. split; [|split; [exact So|split]].
        + apply (remove_S im parallel serial time rows cols Si Hr Hc k out). exists est, added, rp, rs.
          split; [exact Ee|]. split; [exact Ea|]. split; [exact So|exact Po].
        + cbn [corrected]. cbv zeta. rewrite <- Ke, <- Fa.
          apply (flat_ext cols Hc rows); [exact So| |].
          * rewrite plus_list_length; rewrite ?(concat_length cols Hc est rows Se), ?(concat_length cols Hc im rows Si), ?(concat_length cols Hc added rows Sa); reflexivity.
          * intros i j Hi1 Hj. rewrite plus_list_nth by (rewrite ?(concat_length cols Hc est rows Se), ?(concat_length cols Hc im rows Si), ?(concat_length cols Hc added rows Sa); nia).
            rewrite !(concat_nth cols Hc _ rows) by assumption. symmetry. now apply Po.
        + intros i j p s Hi1 Hj Lp Ls. rewrite (Po i j Hi1 Hj). specialize (Ba i j p s Hi1 Hj Lp Ls). specialize (Hi i j Hi1 Hj).
          replace (pixel est i j + (pixel im i j - pixel added i j) - pixel x i j) with ((pixel im i j - pixel x i j) - (pixel added i j - pixel est i j)) by lra.
          apply Rabs_le_between in Ba. apply Rabs_le_between in Hi. apply Rabs_le_between. lra. }
    intros k. destruct (ST' k) as (est & Ee & Se & Ke & Be). exists est. split; [exact Ee|]. split; [exact Se|]. split; [|exact Ke].
    apply (shape_nonneg rows cols Hr Hc); [exact Se|]. intros i j Hi1 Hj. destruct (Hx i j Hi1 Hj) as (p & s & Lp & Ls & H). specialize (Be i j p s Hi1 Hj Lp Ls). apply Rabs_le_between in Be. lra. }
  intros k. destruct (ST k) as (est & Ee & Se & Ne & Ke). exists est. split; [exact Ee|]. split; [exact Se|]. unfold image_apart. rewrite Ke.
  pose proof (concat_length cols Hc x rows Sx) as Lx. pose proof (concat_length cols Hc im rows Si) as Li. pose proof (concat_length cols Hc right rows Sr) as Lr.
  assert (PP : forall k, Forall (Rle 0) (corrected F (concat im) k)).
  { intros k'. destruct (ST k') as (e & _ & Se' & Ne' & Ke'). rewrite <- Ke'. now apply flat_nonneg. }
  assert (R0 : run F (fun _ => concat x) (concat right)).
  { intros j. rewrite <- Fr. assert (G : forall a b, length a = length b -> a = plus_list a b b) by (induction a as [|u a IH]; intros [|v b] E; try discriminate; cbn; [reflexivity|]; injection E as E; rewrite <- (IH b E); f_equal; ring). apply G. congruence. }
  pose proof (runs_apart gain big F HT Hbig Hg (corrected F (concat im)) (fun _ => concat x) (concat im) (concat right) ltac:(congruence) eq_refl ltac:(congruence) (corrected_run F (concat im)) R0 PP (fun _ => flat_nonneg x Nx) k) as K.
  cbv beta in K. rewrite Li in K. fold sc in K. change (corrected F (concat im) 0) with (concat im) in K.
  set (A := (1 - gain / 2) ^ k * apart (concat im) (concat x)) in *. set (B := apart (concat im) (concat right)) in *.
  assert (HA : 0 <= A) by (apply Rmult_le_pos; [apply pow_le; lra|apply apart_nonneg]). assert (HB : 0 <= B) by apply apart_nonneg.
  eapply Rle_trans; [exact K|]. rewrite Rmult_assoc. apply Rmult_le_compat_l; [lra|]. pose proof (Rmult_le_pos _ _ (Rlt_le _ _ G2) HA). lra.
Qed.
End Wrong.

(** ** The conditions of the other claims *)
Lemma all_rows_sorted n : forall a, StronglySorted Z.lt (map Z.of_nat (seq a n)).
Proof.
  induction n as [|n IH]; intros a; cbn; constructor; [apply IH|]. apply Forall_forall. intros z Hz. apply in_map_iff in Hz. destruct Hz as (k & <- & Hk). apply in_seq in Hk. lia.
Qed.
Lemma all_rows_ok n : (0 < n)%nat -> window_ok (map Z.of_nat (seq 0 n)) n.
Proof.
  intros Hn. split; [apply Forall_forall; intros z Hz; apply in_map_iff in Hz; destruct Hz as (k & <- & Hk); apply in_seq in Hk; lia|].
  apply in_map_iff. exists (n - 1)%nat. split; [lia|]. apply in_seq. lia.
Qed.
Lemma settings_mild d d' n e : (0 < n)%nat -> settings_near d d' n e -> mild_call d n /\ mild_call d' n.
Proof.
  intros Hn H. assert (I : forall d0 : direction R, d_traps d0 = None -> d_window d0 = WNone -> mild_call d0 n).
  { intros d0 H1 H2. left. left. exists n. rewrite H2. cbn [selected].
    split; [apply (all_rows_sorted n 0)|]. split; [apply (all_rows_ok n Hn)|]. split; [lia|]. left. exact H1. }
  assert (P : forall d0 c f g w full beta, patient_setting d0 n c f g w full beta -> mild_call d0 n).
  { intros d0 c f g w full beta [A1 A2 A3 A4 A5 A6 A7]. right. right. exists c, f, g, w, full, beta. tauto. }
  assert (P' : forall d0 c f g w full beta, instant_setting d0 n c f g w full beta -> mild_call d0 n) by (intros d0 c f g w full beta A; left; apply (is_call _ _ _ _ _ _ _ _ A)).
  assert (P2 : forall d0 c f g w full beta, timed_setting d0 n c f g w full beta -> mild_call d0 n).
  { intros d0 c f g w full beta [A1 A2 A3 A4 A5 A6 A7]. right. left. exists c, f, g, w, full, beta. auto 10. }
  destruct H as [[H1 H2 H3 H4|c f g w full beta c' f' g' w' full' beta' eps A B _ _ _|c f g w full beta c' f' g' w' full' beta' eps A B _ _ _|c f g w full beta c' f' g' w' full' beta' eps e0 A B _ _ _|c f g w full beta c' f' g' w' full' beta' eps e0 A B _ _ _]|[H1 H2 H3 H4|c f g w full beta c' f' g' w' full' beta' eps A B _ _ _|c f g w full beta c' f' g' w' full' beta' eps A B _ _ _|c f g w full beta c' f' g' w' full' beta' eps e0 A B _ _ _|c f g w full beta c' f' g' w' full' beta' eps e0 A B _ _ _]]; split; eauto.
Qed.

(** ** Capture timescales that tend to 0 *)
Lemma exp_below x : 0 < x -> exp (- x) <= 1 / x.
Proof.
  intros Hx. pose proof (exp_ineq1 x ltac:(lra)). rewrite exp_Ropp. unfold Rdiv. rewrite Rmult_1_l. apply Rinv_le_contravar; lra.
Qed.
Lemma haste_bound tau f w t : 0 < tau -> 0 < f -> 0 < w -> zero_capture t ->
  t_density (thinned f t) * (Rabs (if_full (thinned f t) w - if_full (thinned f (with_capture tau t)) w) + Rabs (if_empty (thinned f t) w - if_empty (thinned f (with_capture tau t)) w))
  <= tau * (f * haste w t).
Proof.
  intros Ht Hf Hw ([Hd Hr He] & _ & Hc). unfold if_full, if_empty, haste. cbn [thinned with_capture t_capture_rate t_emission_rate t_density]. rewrite Hc. cbv zeta. rewrite He.
  set (tr := t_release_timescale t) in *. set (rho := t_density t) in *. set (e := 1 / tr). set (c := 1 / tau).
  assert (E0 : 0 < e) by (apply Rdiv_lt_0_compat; lra). assert (C0 : 0 < c) by (apply Rdiv_lt_0_compat; lra).
  assert (X : 0 < (c + e) * w) by (apply Rmult_lt_0_compat; lra).
  assert (B : exp (- (c + e) * w) <= 1 / (c * w)).
  { replace (- (c + e) * w) with (- ((c + e) * w)) by ring. eapply Rle_trans; [apply exp_below, X|]. unfold Rdiv. rewrite !Rmult_1_l. apply Rinv_le_contravar; [now apply Rmult_lt_0_compat|nra]. }
  set (E := exp (- (c + e) * w)) in *. assert (P : 0 < E) by apply exp_pos.
  assert (P1 : E < 1). { unfold E. rewrite <- exp_0. apply exp_increasing. lra. }
  assert (Q : 0 < e / (c + e) <= e / c).
  { split; [apply Rdiv_lt_0_compat; lra|]. unfold Rdiv. apply Rmult_le_compat_l; [lra|]. apply Rinv_le_contravar; lra. }
  set (q := e / (c + e)) in *. assert (S : c / (c + e) = 1 - q) by (unfold q; field; lra). rewrite S.
  assert (q1 : q < 1). { assert (0 < c / (c + e)) by (apply Rdiv_lt_0_compat; lra). lra. }
  replace (1 - (1 - q * (1 - E))) with (q * (1 - E)) by ring. replace (1 - (1 - q) * (1 - E)) with (q + (1 - q) * E) by ring.
  rewrite !Rabs_pos_eq by nra.
  assert (K1 : e / c = tau * (1 / tr)) by (unfold e, c; field; lra). assert (K2 : 1 / (c * w) = tau * (1 / w)) by (unfold c; field; lra).
  assert (K : q * (1 - E) + (q + (1 - q) * E) <= tau * (2 / tr + 1 / w)). { replace (2 / tr) with (2 * (1 / tr)) by (field; lra). nra. }
  replace (tau * (f * (rho * (2 / tr + 1 / w)))) with ((rho * f) * (tau * (2 / tr + 1 / w))) by ring. apply Rmult_le_compat_l; [nra|exact K].
Qed.
Lemma slowed_near tau d d' n e : 0 < tau -> slowed tau d d' n e -> exists x, settings_apart d d' n x /\ x <= tau * e.
Proof.
  intros Ht [H1 H2 H3 H4|c f g w full beta H Hz H' Ho]; [exists 0; split; [now constructor|lra]|].
  pose proof H as [A1 A2 A3 A4 A5 A6 A7]. pose proof (sp_share _ _ _ _ _ _ _ A1) as Hf. pose proof (sp_dwell _ _ _ _ _ _ _ A1) as Hw.
  eexists. split.
  - apply (apart_slow d d' n c f g w full beta c f (map (with_capture tau) g) w full beta 0); [exact H| |exact Ho| |].
    + constructor; try assumption.
      * apply Forall_map. eapply Forall_impl; [|exact A2]. intros t Et. exact Et.
      * apply Forall_map. eapply Forall_impl; [|exact A3]. intros t [[P1 P2 P3] _]. split; [constructor; assumption|]. cbn. apply Rdiv_lt_0_compat; lra.
      * replace (full_traps (map (with_capture tau) g)) with (full_traps g); [assumption|]. unfold full_traps. rewrite map_map. reflexivity.
    + clear - Hz. induction Hz as [|t g (_ & _ & E) Hz IH]; cbn; constructor; [|exact IH]. unfold no_greedier. now rewrite E.
    + intros a _. rewrite Rminus_eq_0, Rabs_R0. lra.
  - assert (E1 : density_error (map (thinned f) g) (map (thinned f) (map (with_capture tau) g)) = 0).
    { clear. induction g as [|t g IH]; cbn; [reflexivity|]. rewrite IH, Rminus_eq_0, Rabs_R0. lra. }
    assert (E2 : release_error w w (map (thinned f) g) (map (thinned f) (map (with_capture tau) g)) = 0).
    { clear. induction g as [|t g IH]; cbn; [reflexivity|]. rewrite IH. unfold share_kept. cbn. rewrite Rminus_eq_0, Rabs_R0. lra. }
    assert (E3 : capture_error w w (map (thinned f) g) (map (thinned f) (map (with_capture tau) g)) <= tau * (f * fold_right Rplus 0 (map (haste w) g))).
    { clear - Hz Ht Hf Hw. induction Hz as [|t g Z Hz IH]; cbn [map capture_error fold_right]; [lra|]. pose proof (haste_bound tau f w t Ht Hf Hw Z). lra. }
    unfold slow_error, setting_error. rewrite E1, E2.
    replace (tau * (9 * INR n * INR (d_offset d + n) * (f * fold_right Rplus 0 (map (haste w) g)))) with (9 * INR n * INR (d_offset d + n) * (tau * (f * fold_right Rplus 0 (map (haste w) g)))) by ring.
    apply Rmult_le_compat_l; [pose proof (pos_INR n); pose proof (pos_INR (d_offset d + n)); apply Rmult_le_pos; lra|]. lra.
Qed.

(** ** Narrow continua of lifetimes *)
Lemma smeared_facts sigma t t' : 0 < sigma -> physical t -> t_class t = CInstant -> smeared sigma t t' ->
  flattening t' /\ kind_for [t'] = KTime /\ t_density t' = t_density t /\ fill_fraction_from_time_elapsed t' 0 = 1 /\
  forall time, 0 <= time -> Rabs (fill_fraction_from_time_elapsed t' time - fill_fraction_from_time_elapsed t time) <= sigma.
Proof.
  intros Hs [Hd Hr _] Hc (root & E). pose proof E as E0. unfold log_normal_trap in E0.
  destruct (continuum_built log_normal_distribution root (t_density t) (t_release_timescale t) sigma ltac:(lra)) as (u & E' & Ed & Ec). rewrite E0 in E'. injection E' as <-.
  split; [apply (log_normal_flattens root (t_density t) (t_release_timescale t) sigma); assumption|]. split; [unfold kind_for; rewrite Ec; reflexivity|]. split; [exact Ed|].
  unfold fill_fraction_from_time_elapsed. rewrite Ec, Hc. split.
  - rewrite fill_survival. apply survival_at_0, log_normal_lifetimes; lra.
  - intros time Ht. apply (narrow_survival (t_release_timescale t) sigma Hr Hs time Ht).
Qed.
Lemma spread_near sigma d d' n e : 0 < sigma -> spread_out sigma d d' n e -> exists x, settings_apart d' d n x /\ x <= sigma * e.
Proof.
  intros Hs [H1 H2 H3 H4|c f g g' w full beta H Hz H' Ho]; [exists 0; split; [now constructor|lra]|].
  pose proof H as [A1 [An A2] A4 A5 A6 A7 _]. pose proof (sp_share _ _ _ _ _ _ _ A1) as Hf.
  assert (K : Forall flattening g' /\ filled_traps g' = full_traps g /\ curves_near w w (map (thinned f) g') (map (thinned f) g) (sigma * (f * full_traps g))).
  { clear - Hz A2 Hs Hf A1. pose proof (sp_dwell _ _ _ _ _ _ _ A1) as Hw. clear A1. revert A2. induction Hz as [|t t' g g' Ht Hz IH]; intros A2; [split; [constructor|]; split; [reflexivity|]; unfold full_traps; cbn; replace (sigma * (f * 0)) with 0 by ring; constructor|].
    inversion A2 as [|? ? [Pt Ct] A3]; subst. destruct (IH A3) as (I1 & I2 & I3). destruct (smeared_facts sigma t t' Hs Pt Ct Ht) as (F1 & _ & F3 & F4 & F5).
    split; [now constructor|]. split; [unfold filled_traps, full_traps in *; cbn [map fold_right] in *; rewrite I2, F3, F4; lra|]. cbn [map].
    replace (sigma * (f * full_traps (t :: g))) with (sigma * (f * t_density t) + sigma * (f * full_traps g)) by (unfold full_traps; cbn; ring).
    constructor; [|exact I3]. intros k Hk. pose proof (ph_density _ Pt) as Hd.
    change (fill_fraction_from_time_elapsed (thinned f t') (k * w)) with (fill_fraction_from_time_elapsed t' (k * w)). change (fill_fraction_from_time_elapsed (thinned f t) (k * w)) with (fill_fraction_from_time_elapsed t (k * w)).
    cbn [thinned t_density]. rnum. rewrite F3, <- Rmult_minus_distr_l, Rabs_mult, Rabs_right by nra. pose proof (F5 (k * w) ltac:(nra)) as Q. replace (sigma * (f * t_density t)) with (t_density t * f * sigma) by ring. apply Rmult_le_compat_l; nra. }
  destruct K as (K1 & K2 & K3). eexists. split.
  - apply (apart_mixed d' d n c f g' w full beta c f g w full beta 0 (sigma * (f * full_traps g))); [|exact H|congruence|exact K3|intros a _; rewrite Rminus_eq_0, Rabs_R0; lra].
    constructor; try assumption; [|rewrite K2; assumption].
    inversion Hz as [|t t' l l' Ht Hz']; subst; [contradiction|]. inversion A2 as [|? ? [Pt Ct] _]; subst. destruct (smeared_facts sigma t t' Hs Pt Ct Ht) as (_ & F2 & _). exact F2.
  - rewrite Ho, Rmult_0_r, Rplus_0_r. right. ring.
Qed.
