(** * Traps of any kind create no charge when every pass moves all its rows alike. *)
From Coq Require Import ZArith List Bool Reals Lra Lia Sorted.
From Coquelicot Require Import Rcomplements Rbar Hierarchy RInt.
From Verif Require Import Num Py RFacts CCDModel TrapsModel ManagerModel ROEModel ClockModel MainModel Spec SpecROE SpecImage SpecReadout SpecTime SpecSlow SpecHistory SpecHold SpecFlatten SpecColumn SpecBound SpecWork SpecWindowOrder SpecInjected SpecMeet SpecEven
  CallFacts WmFacts ArrayFacts CutFacts InstantFacts ClockFacts MainFacts ShapeFacts ColumnFacts ReadoutFacts ReadoutImage
  ROEClockFacts ROEMatrixFacts ROEExpressFacts ROEKindFacts WorkFacts ReadoutFull ReadoutForced ReadoutSpecFacts ReadoutColumnFacts OrderFacts TameFacts DepthFacts BoundFacts MainReadoutFacts RecoverImageFacts PhaseOrderFacts LiftFacts GridFacts SteadyFacts ExpressOrderFacts ReadoutInjection ExpressGridFacts InjectionGridFacts WindowFacts WindowMainFacts MaskFacts WindowGridFacts HistoryBoundFacts
  MeetFacts MeetSimFacts MeetKindFacts MeetGroupFacts MeetGridFacts InjectedGridFacts.
Import ListNotations.
Open Scope R_scope.

(** ** Any traps that respond in order *)
Section Ordered.
Context {St : Type} (net : nat -> R -> R -> St -> R) (after : nat -> R -> R -> St -> St) (phases : list nat) (steps : list (R * list (roe_phase R))) (start : nat -> St).
Context (ok : nat -> St -> Prop) (le : nat -> St -> St -> Prop) (amount : nat -> St -> R) (kap : nat -> R) (gam most : R).
Hypothesis Hnodup : NoDup phases.
Hypothesis Hstart : forall k, In k phases -> ok k (start k).
Hypothesis Hempty : forall k, In k phases -> amount k (start k) = 0.
Hypothesis Hrefl : forall k s, In k phases -> ok k s -> le k s s.
Hypothesis Hok : forall k d m s, In k phases -> 0 < d -> 0 <= m -> ok k s -> ok k (after k d m s).
Hypothesis Hle : forall k d m m' s s', In k phases -> 0 < d -> 0 <= m' <= m -> ok k s' -> ok k s -> le k s' s -> le k (after k d m' s') (after k d m s).
Hypothesis Horder : forall k d m m' s s', In k phases -> 0 < d -> 0 <= m' <= m -> ok k s' -> ok k s -> le k s' s -> - (kap k * (m - m')) <= net k d m s - net k d m' s'.
Hypothesis Halone : forall k d s, In k phases -> 0 < d -> ok k s -> 0 <= net k d 0 s.
Hypothesis Hamount : forall k d m s, In k phases -> 0 < d -> 0 <= m -> ok k s -> amount k (after k d m s) = amount k s - net k d m s.
Hypothesis Hpos : forall k s, In k phases -> ok k s -> 0 <= amount k s.
Hypothesis Hkap : forall k, In k phases -> 0 <= kap k.
Hypothesis Hgam : 0 <= gam <= 1.
Hypothesis Hmost : 1 <= most.
Hypothesis Hgain : forall k, In k phases -> most * kap k <= 1 - gam.
Hypothesis Hsteps : forall d es, In (d, es) steps -> 0 < d.
Hypothesis Hel : forall d es k, In (d, es) steps -> In k phases -> let e := electrode es k in
  Forall (fun '(d, f) => (0 <= d)%Z /\ 0 <= f) (combine (rp_release e) (rp_fraction e)) /\
  Rsum (map snd (combine (rp_release e) (rp_fraction e))) = 1 /\
  (rp_high e = true -> rp_capture e = 0%Z /\ combine (rp_release e) (rp_fraction e) = [(0%Z, 1)]).
Hypothesis Hfw : forall d es k, In (d, es) steps -> In k phases -> forward (electrode es k).
Notation run := (MeetFacts.run net after phases steps).
Notation between := (MeetFacts.between phases ok le).
(** No charge, and none in the traps. *)
Definition nothing (a : column * (nat -> St)) : Prop := (forall z, fst a z = 0) /\ forall k, In k phases -> ok k (snd a k) /\ amount k (snd a k) = 0.
Lemma deposit_zero targets row : forall (f : column), (forall z, f z = 0) -> forall z, deposit targets row 0 f z = 0.
Proof.
  unfold deposit. induction targets as [|[d w] l IH]; intros f H z; cbn [fold_left]; [apply H|]. apply IH. clear z. intros z. unfold give. rewrite Rmult_0_l, Rplus_0_r.
  destruct (_ =? _)%Z; rewrite ?H; [apply Rmax_left; lra|reflexivity].
Qed.
Lemma meet_nothing row mult dwell es k a : In (dwell, es) steps -> In k phases -> nothing a -> nothing (meet net after row mult dwell es a k).
Proof.
  intros Hin Hk [H1 H2]. destruct a as [f T]. cbn [fst snd] in *. unfold meet. set (e := electrode es k).
  assert (E0 : (if rp_high e then f (row + rp_capture e)%Z else 0) = 0) by (destruct (rp_high e); [apply H1|reflexivity]). rewrite E0.
  destruct (H2 k Hk) as [O A]. pose proof (Hsteps dwell es Hin) as Hd.
  pose proof (Halone k dwell (T k) Hk Hd O) as N0. pose proof (Hok k dwell 0 (T k) Hk Hd (Rle_refl 0) O) as O'. pose proof (Hamount k dwell 0 (T k) Hk Hd (Rle_refl 0) O) as A'. pose proof (Hpos k _ Hk O') as P'.
  assert (N : net k dwell 0 (T k) = 0) by lra. rewrite N, Rmult_0_l. split; cbn [fst snd].
  - apply deposit_zero, H1.
  - intros k' Hk'. unfold set_phase. destruct (Nat.eqb_spec k' k) as [->|]; [split; [exact O'|lra]|now apply H2].
Qed.
(** Two states move alongside. *)
Definition follows (l : list nat) (x : R) (a b a' b' : column * (nat -> St)) : Prop :=
  nothing a' /\ between a' b' /\ apart_on l a' b' + x * held_apart phases amount a' b' <= apart_on l a b + x * held_apart phases amount a b.
Lemma follows_fold {A} (F : column * (nat -> St) -> A -> column * (nat -> St)) l x : forall xs, (forall y a b, In y xs -> nothing a -> between a b -> follows l x a b (F a y) (F b y)) ->
  forall a b, nothing a -> between a b -> follows l x a b (fold_left F xs a) (fold_left F xs b).
Proof.
  induction xs as [|y xs IH]; intros H a b Ha Hb; cbn [fold_left]; [split; [exact Ha|]; split; [exact Hb|lra]|].
  destruct (H y a b (or_introl eq_refl) Ha Hb) as (F1 & F2 & F3). destruct (IH (fun y a b Hy => H y a b (or_intror Hy)) _ _ F1 F2) as (G1 & G2 & G3). split; [exact G1|]. split; [exact G2|lra].
Qed.
Lemma pixel_follows l row x a b : (0 <= row)%Z -> NoDup l -> In (Z.to_nat row) l -> 0 <= x <= most -> nothing a -> between a b ->
  follows l x a b (meet_pixel net after phases steps row x a) (meet_pixel net after phases steps row x b).
Proof.
  intros H0 Hnd Hl Hx. unfold meet_pixel. apply (follows_fold (fun st '(dwell, es) => fold_left (meet net after row x dwell es) phases st)).
  intros [dwell es] a1 b1 Hin. apply (follows_fold (meet net after row x dwell es)). intros k a2 b2 Hk Ha Hb. split; [now apply meet_nothing|].
  destruct (MeetFacts.meet_weighted net after phases steps ok le amount kap gam most Hnodup Hrefl Hok Hle Horder Halone Hamount Hkap Hgam Hmost Hgain Hsteps Hel row x dwell es k a2 b2 l H0 Hnd Hl Hx Hin Hk Hb) as (B & V & _). auto.
Qed.
Definition even_cells (x : R) (cells : list (Z * R * bool)) : Prop :=
  StronglySorted (fun c c' => (row_of c < row_of c')%Z) cells /\ Forall (fun cell => (0 <= row_of cell)%Z /\ snd (fst cell) = x) cells.
Lemma run_follows i x cells : 0 <= x <= most -> Forall (fun cell => (0 <= row_of cell < Z.of_nat i)%Z /\ snd (fst cell) = x) cells -> forall a b, nothing a -> between a b ->
  follows (seq 0 i) x a b (fold_left run cells a) (fold_left run cells b).
Proof.
  intros Hx HF. apply follows_fold. intros cell a b Hin Ha Hb. rewrite Forall_forall in HF. destruct (HF cell Hin) as [H1 H2]. unfold MeetFacts.run. rewrite H2.
  apply pixel_follows; auto; [lia|apply seq_NoDup|apply in_seq; lia].
Qed.
Lemma nothing_sum l a : nothing a -> sum_on l (fst a) = 0.
Proof. intros [H _]. induction l as [|i l IH]; [reflexivity|]. rewrite sum_on_cons, H, IH. lra. Qed.
Lemma nothing_amounts a : nothing a -> amounts phases amount (snd a) = 0.
Proof.
  intros [_ H]. unfold amounts. assert (G : forall l, incl l phases -> Rsum (map (fun k => amount k (snd a k)) l) = 0); [|apply G; intros k Hk; exact Hk].
  induction l as [|k l IH]; intros Hi; [reflexivity|]. cbn [map]. rewrite Rsum_cons, IH by (intros q Hq; apply Hi; now right). rewrite (proj2 (H k (Hi k (or_introl eq_refl)))). lra.
Qed.
Lemma pass_sheds x cells (f : column) i : 0 <= x <= most -> even_cells x cells -> (forall z, 0 <= f z) ->
  (forall z, 0 <= fst (meet_cells net after phases steps cells (f, start)) z) /\
  sum_on (seq 0 i) (fst (meet_cells net after phases steps cells (f, start))) <= sum_on (seq 0 i) f.
Proof.
  intros Hx [HS HF] Hf. rewrite meet_run.
  assert (E0 : nothing ((fun _ => 0) : column, start)) by (split; [reflexivity|intros k Hk; split; [now apply Hstart|now apply Hempty]]).
  assert (B0 : between ((fun _ => 0) : column, start) (f, start)).
  { split; [intros z; cbn [fst]; specialize (Hf z); lra|]. intros k Hk. split; [now apply Hstart|]. split; [now apply Hstart|]. apply Hrefl; [exact Hk|now apply Hstart]. }
  assert (POS : forall cells', incl cells' cells -> exists N, Forall (fun cell => (0 <= row_of cell < Z.of_nat N)%Z /\ snd (fst cell) = x) cells').
  { induction cells' as [|cell l IH]; intros Hi; [exists 0%nat; constructor|]. destruct IH as [N HN]; [intros q Hq; apply Hi; now right|]. rewrite Forall_forall in HF. destruct (HF cell (Hi cell (or_introl eq_refl))) as [H1 H2].
    exists (N + S (Z.to_nat (row_of cell)))%nat. constructor; [split; [lia|exact H2]|]. eapply Forall_impl; [|exact HN]. intros q [Q1 Q2]. split; [lia|exact Q2]. }
  split.
  - destruct (POS cells (fun q Hq => Hq)) as [N HN]. destruct (run_follows N x cells Hx HN _ _ E0 B0) as (_ & [F2 _] & _). intros z. specialize (F2 z). lra.
  - pose (p := (Z.of_nat i - 1)%Z). pose proof (sorted_cut p cells HS) as HC. unfold ReadoutColumnFacts.ordered in HC. rewrite HC, fold_left_app.
    set (c1 := filter (at_most p) cells) in *. set (c2 := filter (fun c => negb (at_most p c)) cells) in *.
    assert (H1 : Forall (fun cell => (0 <= row_of cell < Z.of_nat i)%Z /\ snd (fst cell) = x) c1).
    { apply Forall_forall. intros [[r m] s] Hin. apply filter_In in Hin as [Hin Ha]. rewrite Forall_forall in HF. destruct (HF _ Hin) as [Q1 Q2]. cbn [fst snd at_most] in *. apply Z.leb_le in Ha. unfold p in Ha. split; [lia|exact Q2]. }
    destruct (run_follows i x c1 Hx H1 _ _ E0 B0) as (F1 & F2 & F3).
    assert (H2 : Forall (fun c => at_most p c = false) c2) by (apply Forall_forall; intros q Hq; apply filter_In in Hq as [_ Hq]; destruct (at_most p q); [discriminate|reflexivity]).
    pose proof (cells_beyond net after phases steps Hfw p c2 H2) as BY.
    destruct (fold_left run c1 (f, start)) as [f1 T1] eqn:E1. specialize (BY f1 T1).
    assert (SE : sum_on (seq 0 i) (fst (fold_left run c2 (f1, T1))) = sum_on (seq 0 i) f1).
    { unfold sum_on. f_equal. apply map_ext_in. intros q Hq. apply in_seq in Hq. symmetry. apply BY. unfold p. lia. }
    rewrite SE. unfold apart_on, held_apart in F3. rewrite (nothing_sum _ _ E0), (nothing_sum _ _ F1), (nothing_amounts _ E0), (nothing_amounts _ F1) in F3. cbn [fst snd] in F3.
    assert (A0 : amounts phases amount start = 0) by exact (nothing_amounts _ E0). rewrite A0 in F3.
    assert (A1 : 0 <= amounts phases amount T1).
    { unfold amounts. apply Rsum_nonneg, Forall_map, Forall_forall. intros k Hk. apply Hpos; [exact Hk|]. apply (proj2 F2 k Hk). }
    pose proof (Rmult_le_pos _ _ (proj1 Hx) A1). lra.
Qed.
Lemma meet_sheds passes (f : column) i : Forall (fun cells => exists x, 0 <= x <= most /\ even_cells x cells) passes -> (forall z, 0 <= f z) ->
  sum_on (seq 0 i) (meet_all net after phases steps start passes f) <= sum_on (seq 0 i) f.
Proof.
  unfold meet_all. intros H. revert f. induction H as [|cells passes (x & Hx & HC) H IH]; intros f Hf; cbn [fold_left]; [lra|].
  destruct (pass_sheds x cells f i Hx HC Hf) as [P1 P2]. specialize (IH _ P1). lra.
Qed.
End Ordered.

(** ** Groups of traps of any kind *)
Lemma g_amount_start g : g_amount g (unfilled g) = 0.
Proof. unfold unfilled, g_amount. destruct (kind_for g); [apply electrons_empty|apply electrons_empty|apply held_never]. Qed.
Lemma gamounts_start gs : gamounts gs (map unfilled gs) = 0.
Proof. induction gs as [|g gs IH]; [reflexivity|]. cbn [map gamounts]. rewrite IH, g_amount_start. lra. Qed.
Section Direction.
Context (c : ccd R) (groups : list (list (trap R))) (dwell : list R) (most : R).
Hypothesis Hplain : plain_ccd c.
Hypothesis Hphases : (ccd_n_phases c <= length dwell)%nat.
Hypothesis Hkinds : Forall kind_group groups.
Hypothesis Hmost : 1 <= most.
Hypothesis Hmild : forall k, (k < ccd_n_phases c)%nat -> mild_phase c groups most k.
Let steps := timed_steps (built (Standard true) dwell DFloat true true).
Let gs k := map (map (thinned (share c k))) groups.
Let full k := nth k (ccd_full_well c) 1.
Let beta k := nth k (ccd_fill_power c) 1.
Let kap k := Rsum (map (fun g => grip (kind_for g) (group_traps g * (beta k / full k))) (gs k)).
Let facts k (Hk : In k (trap_phases c)) : 0 < full k /\ 0 < beta k /\ 1 <= beta k /\ Forall (mild_group (full k) (beta k)) (gs k) /\ Forall kind_group (gs k) /\ most * kap k < 1 :=
  phase_facts c groups most Hplain Hkinds Hmild k Hk.
Lemma kinds_sheds passes (f : column) i : Forall (fun cells => exists x, 0 <= x <= most /\ even_cells x cells) passes -> (forall z, 0 <= f z) ->
  sum_on (seq 0 i) (meeting c groups steps passes f) <= sum_on (seq 0 i) f.
Proof.
  unfold meeting.
  apply (meet_sheds (fun k => groups_net (site_of c groups k)) (fun k => groups_after (site_of c groups k)) (trap_phases c) steps (fun k => map unfilled (site_groups (site_of c groups k)))
    (fun k => oks (gs k)) (fun k => les (gs k)) (fun k => gamounts (gs k)) kap 0 most).
  - apply NoDup_filter, seq_NoDup.
  - intros k Hk. destruct (facts k Hk) as (P1 & P2 & P3 & P4 & P5 & P6). now apply oks_start.
  - intros k Hk. apply gamounts_start.
  - intros k s Hk H. now apply les_refl.
  - intros k d m s Hk Hd Hm H. destruct (facts k Hk) as (P1 & P2 & P3 & P4 & P5 & P6). now apply (oks_after (full k) (beta k)).
  - intros k d m m' s s' Hk Hd Hm H1 H2 H3. destruct (facts k Hk) as (P1 & P2 & P3 & P4 & P5 & P6). now apply (nets_order (full k) (beta k)).
  - intros k d m m' s s' Hk Hd Hm H1 H2 H3. destruct (facts k Hk) as (P1 & P2 & P3 & P4 & P5 & P6). now apply (nets_order (full k) (beta k)).
  - intros k d s Hk Hd H. destruct (facts k Hk) as (P1 & P2 & P3 & P4 & P5 & P6). now apply (nets_alone (full k) (beta k)).
  - intros k d m s Hk Hd Hm H. destruct (facts k Hk) as (P1 & P2 & P3 & P4 & P5 & P6). now apply (oks_after (full k) (beta k)).
  - intros k s Hk H. destruct (facts k Hk) as (P1 & P2 & P3 & P4 & P5 & P6). now apply (gamounts_range (gs k)).
  - intros k Hk. destruct (facts k Hk) as (P1 & P2 & P3 & P4 & P5 & P6). now apply grips_nonneg.
  - lra.
  - exact Hmost.
  - intros k Hk. destruct (facts k Hk) as (P1 & P2 & P3 & P4 & P5 & P6). lra.
  - intros e es Hin. now apply timed_in in Hin.
  - intros e es k Hin Hk. pose proof (trap_phases_lt _ _ Hk) as Hlt. destruct (electrode_ok dwell DFloat k e es ltac:(lia) Hin) as [[F1 F2] E2]. destruct (E2 1%nat 0%Z ltac:(lia)) as (L1 & L2 & L3). split; [|split].
    + eapply Forall_impl; [|exact L1]. intros [x y] [Hx Hy]. split; [lia|exact Hy].
    + exact L2.
    + intros H. rewrite (L3 H), (F1 H). auto.
  - intros e es k Hin Hk. pose proof (trap_phases_lt _ _ Hk) as Hlt. now destruct (electrode_ok dwell DFloat k e es ltac:(lia) Hin) as [F _].
Qed.
Lemma kinds_map_sheds passes x i : Forall (fun cells => exists x, 0 <= x <= most /\ even_cells x cells) passes -> Forall (Rle 0) x ->
  Rsum (firstn i (kinds_map c groups dwell passes x)) <= Rsum (firstn i x).
Proof.
  intros HP Hx. unfold kinds_map. rewrite firstn_map_seq.
  assert (E : map (Rmax 0) x = x) by (rewrite <- (map_id x) at 2; apply map_ext_in; intros y Hy; rewrite Forall_forall in Hx; apply Rmax_right, Hx, Hy). rewrite E.
  assert (P : forall z, 0 <= col_of x z).
  { intros z. unfold col_of. destruct (Nat.lt_ge_cases (Z.to_nat z) (length x)) as [L|L]; [rewrite Forall_forall in Hx; apply Hx, nth_In, L|rewrite nth_overflow by lia; lra]. }
  pose proof (kinds_sheds passes (col_of x) (length (firstn i x)) HP P) as K. rewrite firstn_length in *. unfold sum_on in K. eapply Rle_trans; [exact K|]. right.
  rewrite Rsum_firstn. assert (G : forall k, (k <= i)%nat -> (forall j, (k <= j)%nat -> nth j x 0 = 0) -> Rsum (map (fun p => nth p x 0) (seq 0 i)) = Rsum (map (fun q => col_of x (Z.of_nat q)) (seq 0 k))).
  { intros k Hk Hz. replace i with (k + (i - k))%nat by lia. rewrite seq_app, map_app, Rsum_app. cbn [Nat.add]. replace (Rsum (map (fun p => nth p x 0) (seq k (i - k)))) with 0; [rewrite Rplus_0_r; f_equal; apply map_ext; intros q; unfold col_of; now rewrite Nat2Z.id|].
    symmetry. apply Rsum_zero. intros y Hy. apply in_map_iff in Hy as (q & <- & Hq). apply in_seq in Hq. apply Hz. lia. }
  symmetry. destruct (Nat.le_ge_cases i (length x)) as [L|L].
  - replace (Nat.min i (length x)) with i by lia. f_equal. apply map_ext. intros q. unfold col_of. now rewrite Nat2Z.id.
  - replace (Nat.min i (length x)) with (length x) by lia. apply G; [exact L|]. intros j Hj. now apply nth_overflow.
Qed.
End Direction.

(** ** The passes *)
Lemma injection_even n N express tw : (0 < N)%nat -> let E := passes_for N express in let x := INR N / INR E in
  Forall (fun cells => exists y, 0 <= y <= x /\ even_cells y cells) (injection_passes n E (fun i => tw_part tw (INR i * x) (INR (S i) * x))).
Proof.
  intros HN E x. pose proof (injected_good n N express tw HN) as G. fold E in G. fold x in G. unfold injection_passes in *. rewrite Forall_map in *. rewrite Forall_forall in *. intros i Hi. specialize (G i Hi). destruct G as [G1 G2].
  exists (tw_part tw (INR i * x) (INR (S i) * x)). split; [now apply injected_part|]. split; [exact G1|]. apply Forall_map, Forall_forall. intros w Hw. cbn. split; [lia|reflexivity].
Qed.

Lemma cells_same (mults : list R) (monitors : list bool) x : forall window, length mults = length window -> length monitors = length window ->
  (forall k, (k < length window)%nat -> nth k monitors false = true -> nth k mults 0 = x) ->
  Forall (fun cell => In (row_of cell) window /\ snd (fst cell) = x) (cells_of window mults monitors (map (fun _ => false) mults)).
Proof.
  unfold cells_of. revert monitors. induction mults as [|m mults IH]; intros [|b monitors] [|w window] L1 L2 H; try discriminate; cbn [combine flat_map map]; try constructor.
  apply Forall_app. split.
  - destruct b; constructor; [|constructor]. split; [now left|]. cbn [fst snd]. exact (H 0%nat ltac:(cbn; lia) eq_refl).
  - eapply Forall_impl; [|apply (IH monitors window); [now injection L1|now injection L2|]].
    + intros cell [H1 H2]. split; [now right|exact H2].
    + intros k Hk Hm. exact (H (S k) ltac:(cbn; lia) Hm).
Qed.
Lemma plain_before n i j : (i <= j)%nat -> (j < n)%nat -> transfers_before (@plain_matrix R _ 1 n n) i j = INR i.
Proof.
  intros Hi Hj. induction i as [|i IH]; [reflexivity|]. cbn [transfers_before]. rewrite IH by lia. rewrite S_INR, plain_tab, tab_entry by lia. rewrite plain_entry_1.
  destruct (Nat.leb_spec i j); [reflexivity|lia].
Qed.
Lemma window_even window b dt express offset tw em mon : StronglySorted Z.lt window -> window_ok window b -> (express = 0%nat \/ (b + offset <= express)%nat) -> tw_ok tw ->
  standard_express true dt window express offset (tw_arg tw) = Ok (em, mon) ->
  Forall (fun cells => exists y, 0 <= y <= 1 /\ even_cells y cells) (map (fun '(e, m) => cells_of window e m (map (fun _ => false) e)) (combine em mon)).
Proof.
  intros Hs Hw He Htw EE. pose proof (window_pos window b Hw) as Hpos.
  assert (Hb : ~ bad_express true b express) by (intros (_ & ? & ?); lia). assert (Hex : express = 0%nat \/ S express <> b) by lia.
  pose proof (window_passes_good window b dt express offset tw em mon Hs Hw Hex Htw EE) as HG.
  destruct (standard_express_ok true dt window b express offset Hw tw Hb Htw) as (E & em' & mon' & H0 & R1 & R2 & Hf & Hent). rewrite EE in H0. injection H0 as <- <-.
  assert (Hfull : standard_full_matrix true dt b express offset = @plain_matrix R _ 1 (b + offset) (b + offset)).
  { destruct (standard_full_cases true dt b express offset Hpos) as [(_ & ? & ? & _)|[[? _]|[_ E2]]]; [lia|contradiction|].
    cbn zeta in E2. rewrite E2. assert (Eu : express_used (b + offset) express = (b + offset)%nat) by (unfold express_used; destruct (Nat.eqb_spec express 0); lia).
    rewrite Eu, mm_one by lia. reflexivity. }
  cbv zeta in Hf, Hent. rewrite Hfull in *.
  assert (HE : E = (b + offset)%nat).
  { destruct (fm_rect _ _ _ Hf) as [HE _]. rewrite plain_tab in HE. destruct (tab_rect (b + offset) (b + offset) (plain_entry 1)). lia. }
  subst E. destruct R1 as [L1 F1], R2 as [L2 F2]. rewrite Forall_map in *. apply Forall_forall. intros [e m] Hin. rewrite Forall_forall in HG. pose proof (HG _ Hin) as [G1 G2].
  apply (In_nth _ _ ([], [])) in Hin as (i & Hi & Ei). rewrite combine_length, L1, L2, Nat.min_id in Hi.
  assert (Lc : length em = length mon) by (transitivity (b + offset)%nat; [exact L1|symmetry; exact L2]). rewrite combine_nth in Ei by exact Lc. injection Ei as <- <-.
  exists (tw_part tw (INR i) (INR (S i))). split.
  { rewrite S_INR. unfold tw_part. destruct tw as [[t0 t1]|]; [|lra]. pose proof (overlap_bounds (INR i) (INR i + 1) (IZR t0) (IZR t1) ltac:(lra)). lra. }
  split; [exact G1|]. rewrite Forall_forall in F1, F2.
  assert (E1 : length (nth i em []) = length window) by (apply F1, nth_In; unfold matrix in *; lia). assert (E2 : length (nth i mon []) = length window) by (apply F2, nth_In; unfold matrix in *; lia).
  pose proof (proj1 Hw) as HW. rewrite Forall_forall in HW.
  eapply Forall_impl; [|apply (cells_same (nth i em []) (nth i mon []) (tw_part tw (INR i) (INR (S i))) window E1 E2)].
  - intros cell [H1 H2]. split; [specialize (HW _ H1); lia|exact H2].
  - intros k Hk Hm. destruct (nth_error window k) as [w|] eqn:Ek; [|apply nth_error_None in Ek; lia].
    destruct (Hent i k w Hi Ek) as [N1 N2]. unfold bentry in N2. rewrite Hm in N2. specialize (HW w (nth_error_In _ _ Ek)). unfold entry in N1 at 1. rewrite N1.
    assert (Hij : (i <= offset + Z.to_nat w)%nat).
    { destruct (Nat.le_gt_cases i (offset + Z.to_nat w)) as [L|L]; [exact L|]. rewrite plain_tab, tab_entry, plain_entry_1 in N2 by lia. destruct (Nat.leb_spec i (offset + Z.to_nat w)); [lia|]. symmetry in N2. apply Rltb_true in N2. lra. }
    f_equal; [apply plain_before; lia|]. cbn [transfers_before]. rewrite plain_before by lia. rewrite S_INR, plain_tab, tab_entry, plain_entry_1 by lia. destruct (Nat.leb_spec i (offset + Z.to_nat w)); [reflexivity|lia].
Qed.

(** ** One direction *)
Lemma column_plus_all (im : image R) j : nonneg im -> Forall (Rle 0) (column_of im j).
Proof. intros H. unfold column_of. apply Forall_map, Forall_forall. intros row Hin. apply (In_nth _ _ []) in Hin as (i & _ & <-). apply (H i j). Qed.
Lemma sheds_columns c groups dwell most passes n cols columns im im' : plain_ccd c -> (ccd_n_phases c <= length dwell)%nat -> Forall kind_group groups -> 1 <= most ->
  (forall k, (k < ccd_n_phases c)%nat -> mild_phase c groups most k) -> Forall (fun cells => exists y, 0 <= y <= most /\ even_cells y cells) passes ->
  shape n cols im -> shape n cols im' -> nonneg im ->
  (forall i j, ~ In (Z.of_nat j) columns -> pixel im' i j = pixel im i j) ->
  (forall i j, (i < n)%nat -> In (Z.of_nat j) columns -> pixel im' i j = meeting c groups (timed_steps (built (Standard true) dwell DFloat true true)) passes (col_fun im j) (Z.of_nat i)) ->
  forall i j, (j < cols)%nat -> Rsum (firstn i (column_of im' j)) <= Rsum (firstn i (column_of im j)).
Proof.
  intros H1 H2 H3 H4 H5 H6 Sh S' Hp U V i j Hj. rewrite (meeting_columns c groups dwell passes n cols columns im im' Sh S' Hp U V j Hj). destruct (listed columns j); [|lra].
  apply (kinds_map_sheds c groups dwell most); auto. now apply column_plus_all.
Qed.
Lemma even_sheds d n tw : (0 < n)%nat -> tw_ok tw -> even_call d n -> exists r, sheds d n (tw_arg tw) r.
Proof.
  intros Hn Htw [[(b & Hs & Hw & Hb & [Hno|(c & traps & dwell & dt & Hset & Hm)]) Hall]|(HW & c & traps & dwell & npt & Hset & Hmild)].
  - exists (the_roe d). intros im cols columns Sh Hp _. exists im. rewrite Hno. split; [reflexivity|]. split; [exact Sh|]. split; [exact Hp|]. intros i j _. lra.
  - specialize (Hall b Hw). exists (the_roe d). pose proof (window_pos _ _ Hw) as Hb0. set (window := selected (d_window d) n) in *.
    pose proof (ks_plain _ _ _ _ _ _ Hset) as Hplain. pose proof (ks_phases _ _ _ _ _ _ Hset) as Hph. pose proof (ks_kinds _ _ _ _ _ _ Hset) as Hk. pose proof (ks_express _ _ _ _ _ _ Hset) as Hex.
    assert (EP : passes_for (b + d_offset d) (d_express d) = (b + d_offset d)%nat) by (unfold passes_for; unfold computes_all in Hall; destruct (Nat.eqb_spec (d_express d) 0); lia).
    assert (Hmild : forall k, (k < ccd_n_phases c)%nat -> mild_phase c (groups_in traps) 1 k).
    { intros k Hlt. apply Hm; [exact Hlt|]. rewrite EP. rewrite <- (mm_one dt (b + d_offset d)) by lia. apply multiplier_per_pass. lia. }
    destruct (standard_express_ok true dt window b (d_express d) (d_offset d) Hw tw (window_express b (d_express d) Hex) Htw) as (E & em & mon & EE & _).
    intros im cols columns Sh Hp [Hnd Hrange]. rewrite (ks_traps _ _ _ _ _ _ Hset). unfold clock_direction. rewrite (ks_ccd _ _ _ _ _ _ Hset), (kinds_roe _ _ _ _ _ _ Hset).
    destruct (standard_meeting c traps dwell dt Hplain Hph Hk (fun k Hlt => mild_is_roomy _ _ _ _ (Hmild k Hlt)) im (d_express d) (d_offset d) window b columns tw n cols em mon Sh ltac:(lia) Hp Hw Hb Htw Hex Hrange Hnd EE) as (im' & E' & S' & U & V).
    exists im'. split; [exact E'|]. split; [exact S'|]. split; [exact (clocked_nonneg _ _ _ _ _ _ _ _ _ _ _ n cols Sh ltac:(lia) Hp E')|].
    change (timed_steps (built (Standard true) dwell dt true true)) with (timed_steps (built (Standard true) dwell DFloat true true)) in V.
    apply (sheds_columns c (groups_in traps) dwell 1 _ n cols columns im im' Hplain Hph (proj2 Hk) (Rle_refl 1) Hmild (window_even window b dt (d_express d) (d_offset d) tw em mon Hs Hw Hall Htw EE) Sh S' Hp U V).
  - cbv zeta in Hmild. pose proof (ki_plain _ _ _ _ _ _ Hset) as Hplain. pose proof (ki_phases _ _ _ _ _ _ Hset) as Hph. pose proof (ki_kinds _ _ _ _ _ _ Hset) as Hk. pose proof (ki_some _ _ _ _ _ _ Hset) as HN.
    set (N := injection_transfers npt n (d_offset d)) in *. exists (built (Injection (Some N)) dwell DFloat true true). destruct (injected_passes_x N (d_express d) HN) as [Hx _].
    intros im cols columns Sh Hp [Hnd Hrange]. rewrite (ki_traps _ _ _ _ _ _ Hset), (selected_all d n HW). unfold clock_direction. rewrite (ki_ccd _ _ _ _ _ _ Hset), (kinds_injection_roe _ _ _ _ _ _ Hset).
    destruct (injection_meeting c traps dwell Hplain Hph Hk (fun k Hlt => mild_is_roomy _ _ _ _ (Hmild k Hlt)) im npt (d_express d) (d_offset d) columns tw n cols Sh Hn Hp HN Htw Hrange Hnd) as (im' & E' & S' & U & V). fold N in E', V.
    exists im'. split; [exact E'|]. split; [exact S'|]. split; [exact (clocked_nonneg _ _ _ _ _ _ _ _ _ _ _ n cols Sh Hn Hp E')|].
    change (timed_steps (built (Injection npt) dwell DFloat true true)) with (timed_steps (built (Standard true) dwell DFloat true true)) in V.
    exact (sheds_columns c (groups_in traps) dwell _ _ n cols columns im im' Hplain Hph (proj2 Hk) Hx Hmild (injection_even n N (d_express d) tw HN) Sh S' Hp U V).
Qed.
Lemma even_kinds d n : even_call d n -> kinds_call d n.
Proof. intros [[H _]|H]; [now left|now right]. Qed.

(** ** Both directions *)
Lemma even_corners im parallel serial time rows cols : (0 < rows)%nat -> (0 < cols)%nat -> time_range time -> even_call parallel rows -> even_call serial cols -> shape rows cols im -> nonneg im ->
  exists im' pr sr, add_cti im parallel serial time = Ok (im', pr, sr) /\ shape rows cols im' /\ nonneg im' /\
    forall i j, (i <= rows)%nat -> (j <= cols)%nat -> corner im' i j <= corner im i j.
Proof.
  intros Hr Hc Ht Hp Hs Si Pi. destruct (kinds_window parallel rows Hr (even_kinds _ _ Hp)) as (b & P1 & P2 & P3). destruct (kinds_window serial cols Hc (even_kinds _ _ Hs)) as (b' & S1 & S2 & S3).
  destruct (call_times time _ b rows (d_offset parallel) Ht P2 P3 P1 Hr) as (tw & lines & E & Htw & Hlines).
  destruct (even_sheds parallel rows (Some tw) Hr Htw Hp) as [rp A1]. destruct (even_sheds serial cols None Hc I Hs) as [rs A2].
  assert (Hcolumns : columns_ok (selected (d_window serial) cols) cols) by now apply (window_columns _ b').
  destruct tw as [t0 t1]. cbn [tw_arg option_map] in A1, A2. cbn [fst snd] in E.
  pose proof Si as [Lim _]. pose proof (MainReadoutFacts.shape_columns rows cols im Si Hr) as Ncol.
  unfold add_cti. rewrite Lim, Ncol, !resolve_selected. rewrite E. cbn [bind].
  destruct (A1 im cols (selected (d_window serial) cols) Si Pi Hcolumns) as (im1 & E1 & SS1 & PP1 & C1). rewrite E1. cbn [bind].
  assert (St : shape cols rows (transpose im1)) by (apply transpose_shape; assumption).
  assert (Pt : nonneg (transpose im1)) by (intros i j; rewrite (transpose_pixel_all rows cols) by assumption; apply PP1).
  destruct (A2 (transpose im1) rows lines St Pt Hlines) as (im2 & E2 & SS2 & PP2 & C2).
  assert (SS2' : shape rows cols (transpose im2)) by (apply transpose_shape; assumption).
  assert (PP2' : nonneg (transpose im2)) by (intros i j; rewrite (transpose_pixel_all cols rows) by assumption; apply PP2).
  assert (K1 : forall i j, (j <= cols)%nat -> corner im1 i j <= corner im i j) by (intros i j Hj; apply (corner_le _ _ cols); [exact Hj|exact C1]).
  destruct (d_traps serial) as [traps|] eqn:Et.
  - rewrite E2. cbn [bind]. exists (transpose im2), rp, rs. split; [reflexivity|]. split; [exact SS2'|]. split; [exact PP2'|]. intros i j Hi Hj.
    rewrite (corner_transpose im2 cols rows) by assumption. eapply Rle_trans; [|apply K1; exact Hj]. rewrite <- (corner_transpose im1 rows cols i j) by assumption. now apply (corner_le _ _ rows).
  - cbn [bind]. exists im1, rp, (the_roe serial). split; [reflexivity|]. split; [exact SS1|]. split; [exact PP1|]. intros i j _ Hj. now apply K1.
Qed.
