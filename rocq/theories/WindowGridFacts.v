(** * Readouts of images with any windows and time windows: order, differences and recovery. *)
From Coq Require Import ZArith List Bool Reals Lra Lia Sorted.
From Coquelicot Require Import Rcomplements Rbar Hierarchy RInt.
From Verif Require Import Num Py RFacts CCDModel TrapsModel ManagerModel ROEModel ClockModel MainModel Spec SpecROE SpecImage SpecReadout SpecColumn SpecBound SpecRecovery SpecPhases SpecWork SpecExpressOrder SpecInjectionOrder SpecWindowOrder
  CallFacts   WmFacts ArrayFacts CutFacts InstantFacts ClockFacts MainFacts ShapeFacts ColumnFacts ReadoutImage RemoveFacts
  ROEClockFacts ROEMatrixFacts ROEExpressFacts WorkFacts ReadoutFull ReadoutForced ReadoutSpecFacts ReadoutColumnFacts OrderFacts TameFacts DepthFacts BoundFacts MainReadoutFacts RecoverImageFacts PhaseOrderFacts LiftFacts GridFacts SteadyFacts ExpressOrderFacts ReadoutInjection ExpressGridFacts InjectionGridFacts WindowFacts WindowMainFacts MaskFacts.
Import ListNotations.
Open Scope R_scope.

(** ** What one direction of a call does: it moves the columns listed by a steady map, within the
    limits [B]. *)
Definition listed (columns : list Z) (j : nat) : bool := existsb (Z.eqb (Z.of_nat j)) columns.
Lemma listed_in columns j : listed columns j = true <-> In (Z.of_nat j) columns.
Proof. unfold listed. rewrite existsb_exists. split; [intros (z & Hz & E); apply Z.eqb_eq in E; now subst|]. intros H. exists (Z.of_nat j). split; [exact H|apply Z.eqb_refl]. Qed.
Definition does (d : direction R) (n : nat) (tw : option (list Z)) (B : nat -> R -> Prop) (r' : roe R) : Prop := exists gain big G, 0 < gain <= 1 /\ 1 <= big /\ steady gain big G /\
  forall im cols columns, shape n cols im -> nonneg im -> columns_ok columns cols ->
  exists im', match d_traps d with None => Ok (im, the_roe d)
      | Some traps => clock_direction im d (the_roe d) traps (selected (d_window d) n) columns tw end = Ok (im', r') /\
    shape n cols im' /\ nonneg im' /\ (forall j, (j < cols)%nat -> column_of im' j = if listed columns j then G (column_of im j) else column_of im j) /\
    forall i j x, (i < n)%nat -> (j < cols)%nat -> B i x -> Rabs (pixel im' i j - pixel im i j) <= x.

(** ** The passes of a window *)
Lemma Rsum_zero l : (forall y, In y l -> y = 0) -> Rsum l = 0.
Proof. induction l as [|a l IH]; intros H; [reflexivity|]. change (a + Rsum l = 0). rewrite (H a (or_introl eq_refl)), IH by (intros y Hy; apply H; now right). lra. Qed.
Lemma own_cells_out z window : ~ In z window -> forall e m s, weight (own z) (cells_of window e m s) = 0.
Proof.
  intros Hz e m s. unfold weight. apply Rsum_zero. intros y Hy. apply in_map_iff in Hy as ([[row mult] sv] & <- & Hin). apply WindowMainFacts.cells_in in Hin. cbn in Hin. unfold own. destruct (Z.eqb_spec row z); [subst; contradiction|lra].
Qed.
Lemma own_cells_in z window : NoDup window -> forall k, nth_error window k = Some z -> forall (e : list R) m s, Forall (Rle 0) e -> weight (own z) (cells_of window e m s) <= nth k e 0.
Proof.
  induction 1 as [|w window Hw Hnd IH]; intros k Hk e m s He; [destruct k; discriminate|].
  assert (Hnn : 0 <= nth k e 0) by (destruct (nth_in_or_default k e 0) as [Hin|E]; [rewrite Forall_forall in He; now apply He|rewrite E; lra]).
  destruct e as [|x e]; [exact Hnn|]. destruct m as [|b m]; [exact Hnn|]. destruct s as [|v s]; [exact Hnn|]. inversion He as [|? ? Hx He']; subst.
  assert (EC : weight (own z) (cells_of (w :: window) (x :: e) (b :: m) (v :: s)) = (if b then x * own z w else 0) + weight (own z) (cells_of window e m s)).
  { unfold cells_of, weight. cbn [combine flat_map]. destruct b; cbn [app map]; [reflexivity|]. rewrite Rplus_0_l. reflexivity. }
  rewrite EC. destruct k as [|k].
  - injection Hk as ->. rewrite own_cells_out by exact Hw. unfold own. rewrite Z.eqb_refl. cbn [nth]. destruct b; lra.
  - assert (Hne : w <> z) by (intros ->; apply Hw; exact (nth_error_In window k Hk)). unfold own at 1. destruct (Z.eqb_spec w z); [contradiction|]. specialize (IH k Hk e m s He'). cbn [nth]. destruct b; lra.
Qed.
Lemma sorted_nodup l : StronglySorted Z.lt l -> NoDup l.
Proof. induction 1 as [|a l HS IH HF]; constructor; auto. intros Hin. rewrite Forall_forall in HF. specialize (HF a Hin). lia. Qed.
Lemma range_sorted_from a b : StronglySorted Z.lt (py_range a b).
Proof.
  unfold py_range. assert (G : forall k s, StronglySorted Z.lt (map (fun k => (a + Z.of_nat k)%Z) (seq s k))); [|apply G].
  induction k as [|k IH]; intros s; cbn [seq map]; constructor; [apply IH|]. apply Forall_forall. intros z Hz. apply in_map_iff in Hz as (x & <- & Hx). apply in_seq in Hx. lia.
Qed.
Lemma own_rows_sum M z window k (em : matrix R) : NoDup window -> nth_error window k = Some z -> Forall (Forall (fun x => 0 <= x <= M)) em -> forall mon,
  Rsum (map (weight (own z)) (map (fun '(e, m) => cells_of window e m (map (fun _ => false) e)) (combine em mon))) <= Rsum (map (fun r => nth k r 0) em).
Proof.
  intros Hnd Hk. induction em as [|e es IH]; intros HN mon'; [cbn; lra|]. inversion HN as [|? ? He HN']; subst.
  assert (Hr : 0 <= Rsum (map (fun r => nth k r 0) es)).
  { apply Rsum_nonneg, Forall_map. eapply Forall_impl; [|exact HN']. intros r Hr. cbn beta. destruct (nth_in_or_default k r 0) as [H|H]; [rewrite Forall_forall in Hr; specialize (Hr _ H); lra|rewrite H; lra]. }
  assert (He0 : Forall (Rle 0) e) by (eapply Forall_impl; [|exact He]; intros x [Hx _]; exact Hx).
  assert (Hk0 : 0 <= nth k e 0) by (destruct (nth_in_or_default k e 0) as [H|H]; [rewrite Forall_forall in He0; now apply He0|rewrite H; lra]).
  assert (ER : Rsum (map (fun r => nth k r 0) (e :: es)) = nth k e 0 + Rsum (map (fun r => nth k r 0) es)) by reflexivity. rewrite ER.
  destruct mon' as [|m' mon']; [cbn [combine map]; change (Rsum []) with 0; lra|]. specialize (IH HN' mon'). cbn [combine map]. change (Rsum (?a :: ?l)) with (a + Rsum l).
  pose proof (own_cells_in z window Hnd k Hk e m' (map (fun _ => false) e) He0) as H. apply Rplus_le_compat; [exact H|exact IH].
Qed.
Lemma window_pos window b : window_ok window b -> (0 < b)%nat.
Proof. intros [HF Hin]. rewrite Forall_forall in HF. specialize (HF _ Hin). lia. Qed.
Lemma window_express b express : express = 0%nat \/ S express <> b -> ~ bad_express true b express.
Proof. intros Hex (_ & B2 & B3). destruct Hex; contradiction. Qed.
Section Window.
Context (window : list Z) (b : nat) (dt : dtype) (express offset : nat) (tw : option (Z * Z)) (em : matrix R) (mon : list (list bool)).
Hypothesis Hsorted : StronglySorted Z.lt window.
Hypothesis Hw : window_ok window b.
Hypothesis Hex : express = 0%nat \/ S express <> b.
Hypothesis Htw : tw_ok tw.
Hypothesis HE : standard_express true dt window express offset (tw_arg tw) = Ok (em, mon).
Let passes := map (fun '(e, m) => cells_of window e m (map (fun _ => false) e)) (combine em mon).
Let M := @max_multiplier R _ dt (b + offset) (passes_for (b + offset) express).
Lemma window_entries : exists E, rect E (length window) em /\
  let m := standard_full_matrix true dt b express offset in full_matrix m E (b + offset) /\
  forall i k w, (i < E)%nat -> nth_error window k = Some w ->
    entry em i k = tw_part tw (transfers_before m i (offset + Z.to_nat w)) (transfers_before m (S i) (offset + Z.to_nat w)) /\
    0 <= entry em i k <= entry m i (offset + Z.to_nat w) /\ entry m i (offset + Z.to_nat w) <= M.
Proof.
  pose proof (window_pos window b Hw) as Hb. destruct (standard_express_ok true dt window b express offset Hw tw (window_express b express Hex) Htw) as (E & em' & mon' & E' & R1 & R2 & Hf & He).
  rewrite HE in E'. injection E' as <- <-. cbv zeta in He. exists E. split; [exact R1|]. split; [exact Hf|]. pose proof Hf as [F1 F2 F3 F4].
  intros i k w Hi Hk. destruct (He i k w Hi Hk) as [He1 _]. split; [exact He1|].
  assert (Hin : (0 <= w < Z.of_nat b)%Z) by (destruct Hw as [HF _]; rewrite Forall_forall in HF; apply HF; now apply nth_error_In in Hk).
  set (m := standard_full_matrix true dt b express offset) in *. set (j := (offset + Z.to_nat w)%nat) in *.
  pose proof (before_mono m E _ i j F1 F3 Hi) as Hbm. split.
  - rewrite He1. cbn [transfers_before] in *. unfold tw_part. destruct tw as [[t0 t1]|]; [|lra]. pose proof (overlap_bounds _ _ (IZR t0) (IZR t1) Hbm). lra.
  - apply standard_most; auto using window_express; [unfold j; lia|]. destruct F1 as [F1 _]. fold m. lia.
Qed.
Lemma window_nonneg : Forall (Forall (fun x => 0 <= x <= M)) em.
Proof.
  destruct window_entries as (E & [L1 R1] & Hf & He). cbv zeta in He. apply Forall_forall. intros r Hin. apply (In_nth _ _ []) in Hin as (i & Hi & <-). apply Forall_forall. intros x Hx. apply (In_nth _ _ 0) in Hx as (k & Hk & <-).
  rewrite Forall_forall in R1. rewrite (R1 (nth i em [])) in Hk by now apply nth_In. destruct (nth_error window k) as [w|] eqn:Ek; [|apply nth_error_None in Ek; lia].
  destruct (He i k w ltac:(lia) Ek) as (_ & H1 & H2). unfold entry in H1 at 1 2. lra.
Qed.
Lemma window_passes_good : Forall (good_cells M b) passes.
Proof.
  unfold passes. apply Forall_forall. intros cells Hin. apply in_map_iff in Hin as ((e & m) & <- & Hin). apply in_combine_l in Hin. pose proof window_nonneg as HN. rewrite Forall_forall in HN.
  apply cells_good; [exact Hsorted|exact (proj1 Hw)|now apply HN|]. apply Forall_map, Forall_forall. reflexivity.
Qed.
Lemma window_passes_pos : Forall (Forall (fun '(_, mult, _) => 0 <= mult)) passes.
Proof. eapply Forall_impl; [|exact window_passes_good]. intros cells [_ H]. eapply Forall_impl; [|exact H]. intros [[r m] s] (_ & H2 & _). cbn in H2. lra. Qed.
Lemma window_weight (i : nat) : Rsum (map (weight (own (Z.of_nat i))) passes) <= INR (i + 1 + offset).
Proof.
  destruct (in_dec Z.eq_dec (Z.of_nat i) window) as [Hin|Hout].
  - apply In_nth_error in Hin as [k Hk].
    assert (S1 : Rsum (map (weight (own (Z.of_nat i))) passes) <= Rsum (map (fun r => nth k r 0) em)) by (apply (own_rows_sum M); auto using window_nonneg, sorted_nodup).
    eapply Rle_trans; [exact S1|]. rewrite <- transfers_rows.
    destruct window_entries as (E & [L1 R1] & Hf & He). cbv zeta in He. set (m := standard_full_matrix true dt b express offset) in *. pose proof Hf as [[F1 _] F2 F3 F4].
    assert (Hi : (i < b)%nat) by (destruct Hw as [HF _]; rewrite Forall_forall in HF; specialize (HF _ (nth_error_In _ _ Hk)); lia).
    assert (T : forall t, (t <= E)%nat -> transfers_before em t k <= transfers_before m t (offset + i)).
    { induction t as [|t IH]; intros Ht; cbn [transfers_before]; [lra|]. specialize (IH ltac:(lia)). destruct (He t k _ ltac:(lia) Hk) as (_ & H1 & _). rewrite Nat2Z.id in H1. lra. }
    specialize (T E (le_n _)). unfold transfers. rewrite L1. specialize (F4 (offset + i)%nat ltac:(lia)). unfold transfers in F4. rewrite F1 in F4. rewrite F4 in T. replace (i + 1 + offset)%nat with (S (offset + i)) by lia. exact T.
  - replace (Rsum _) with 0; [apply pos_INR|]. symmetry. apply Rsum_zero. intros y Hy. apply in_map_iff in Hy as (cells & <- & Hc). unfold passes in Hc. apply in_map_iff in Hc as ((e & m) & <- & _). now apply own_cells_out.
Qed.
Lemma window_weight_before (i : nat) : Rsum (map (weight (own (Z.of_nat i - 1))) passes) <= match i with O => 0 | S _ => INR (i + offset) end.
Proof.
  destruct i as [|i].
  - replace (Rsum _) with 0; [lra|]. symmetry. apply Rsum_zero. intros y Hy. apply in_map_iff in Hy as (cells & <- & Hc). unfold passes in Hc. apply in_map_iff in Hc as ((e & m) & <- & _). apply own_cells_out.
    intros Hin. destruct Hw as [HF _]. rewrite Forall_forall in HF. specialize (HF _ Hin). lia.
  - replace (Z.of_nat (S i) - 1)%Z with (Z.of_nat i) by lia. replace (S i + offset)%nat with (i + 1 + offset)%nat by lia. apply window_weight.
Qed.
End Window.

(** ** A standard readout *)
Section Windowed.
Context (d : direction R) (n b : nat) (c : ccd R) (traps : traps_arg R) (dwell : list R) (dt : dtype) (tw : option (Z * Z)).
Let window := selected (d_window d) n.
Hypothesis Hsorted : StronglySorted Z.lt window.
Hypothesis Hw : window_ok window b.
Hypothesis Hb : (b <= n)%nat.
Hypothesis Htw : tw_ok tw.
Hypothesis Hset : plain_setting d b c traps dwell dt.
Let met := all_shares c * SpecBound.traps_per_pixel (groups_in traps).
Let passes em mon := map (fun '(e, m) => cells_of window e m (map (fun _ => false) e)) (combine em mon : list (list R * list bool)).
Lemma windowed_call : exists em mon, standard_express true dt window (d_express d) (d_offset d) (tw_arg tw) = Ok (em, mon) /\
  forall im cols columns, shape n cols im -> nonneg im -> columns_ok columns cols -> exists im',
  clock_direction im d (the_roe d) traps window columns (tw_arg tw) = Ok (im', the_roe d) /\ shape n cols im' /\ nonneg im' /\
  (forall i j, ~ In (Z.of_nat j) columns -> pixel im' i j = pixel im i j) /\
  forall i j, (i < n)%nat -> In (Z.of_nat j) columns ->
    pixel im' i j = readout (site_of c (groups_in traps)) (trap_phases c) (timed_steps (the_roe d)) (passes em mon) (col_fun im j) (Z.of_nat i).
Proof.
  pose proof (window_pos window b Hw) as Hb0.
  destruct (standard_express_ok true dt window b (d_express d) (d_offset d) Hw tw (window_express b (d_express d) (ps_express _ _ _ _ _ _ Hset)) Htw) as (E & em & mon & EE & _).
  exists em, mon. split; [exact EE|]. intros im cols columns Hs Hp [Hnd Hrange].
  assert (Hn : (0 < n)%nat) by lia. unfold clock_direction. rewrite (ps_ccd _ _ _ _ _ _ Hset), (plain_roe _ _ _ _ _ _ Hset).
  destruct (standard_readout im c dwell dt traps (groups_in traps) (d_express d) (d_offset d) window b columns tw n cols
    Hs Hn Hp (ps_plain _ _ _ _ _ _ Hset) (ps_phases _ _ _ _ _ _ Hset) (groups_normalised _ (ps_instant _ _ _ _ _ _ Hset)) (proj2 (ps_instant _ _ _ _ _ _ Hset)) Hw Hb Htw (ps_express _ _ _ _ _ _ Hset) Hrange Hnd)
    as (im' & em' & mon' & E1 & E2 & E3 & E4 & E5). rewrite EE in E1. injection E1 as <- <-.
  exists im'. split; [exact E2|]. split; [exact E3|]. split; [|split; [exact E4|exact E5]].
  assert (N' : forall i j, 0 <= pixel im' i j); [|exact N'].
  apply nonneg_iff. destruct (clocking_ok _ _ _ _ _ _ _ _ _ _ _ _ _ Hs Hn E2) as [_ _ _ HS]. intros i0 j0. apply HS; [|apply nonneg_iff, Hp]. rnum. apply Rltb_false. lra.
Qed.
Lemma windowed_change em mon : standard_express true dt window (d_express d) (d_offset d) (tw_arg tw) = Ok (em, mon) -> forall (col : column) (i : nat), (forall z, 0 <= col z) ->
  let out := readout (site_of c (groups_in traps)) (trap_phases c) (timed_steps (the_roe d)) (passes em mon) col (Z.of_nat i) in
  Rabs (out - col (Z.of_nat i)) <= (INR (i + 1 + d_offset d) + match i with O => 0 | S _ => INR (i + d_offset d) end) * (INR (length dwell) * met) /\
  (length dwell = 1%nat -> Rabs (out - col (Z.of_nat i)) <= INR (i + 1 + d_offset d) * met) /\
  (~ In (Z.of_nat i) window -> ~ In (Z.of_nat i - 1)%Z window -> Rabs (out - col (Z.of_nat i)) <= 0).
Proof.
  intros HE col i Hcol out. unfold out, met. rewrite <- all_phases_density by exact (ps_plain _ _ _ _ _ _ Hset).
  pose proof (window_pos window b Hw) as Hb0.
  assert (Hsites := plain_sites d c traps dwell dt b Hset). assert (Hsteps := plain_steps d). assert (Hk := plain_phases d c traps dwell dt b Hset Hb0).
  assert (Hr : 0 <= Rsum (map (fun k => site_density (site_of c (groups_in traps) k)) (trap_phases c))).
  { apply Rsum_nonneg, Forall_map, Forall_forall. intros k Hkin. apply site_density_nonneg, Hsites, Hkin. }
  assert (Hlen : INR (length (timed_steps (the_roe d))) <= INR (length dwell)) by (apply le_INR; rewrite (plain_roe _ _ _ _ _ _ Hset); apply steps_le).
  set (rho := Rsum _) in *.
  pose proof (window_passes_pos window b dt (d_express d) (d_offset d) tw em mon Hsorted Hw (ps_express _ _ _ _ _ _ Hset) Htw HE) as HP.
  pose proof (window_weight window b dt (d_express d) (d_offset d) tw em mon Hsorted Hw (ps_express _ _ _ _ _ _ Hset) Htw HE i) as W1.
  pose proof (window_weight_before window b dt (d_express d) (d_offset d) tw em mon Hsorted Hw (ps_express _ _ _ _ _ _ Hset) Htw HE i) as W2.
  change (map (fun '(e, m) => cells_of window e m (map (fun _ => false) e)) (combine em mon)) with (passes em mon) in *.
  assert (WP : forall B, (forall z, 0 <= B z) -> 0 <= Rsum (map (weight B) (passes em mon))).
  { intros B HB. apply Rsum_nonneg, Forall_map. eapply Forall_impl; [|exact HP]. intros cells Hcells. unfold weight. apply Rsum_nonneg, Forall_map. eapply Forall_impl; [|exact Hcells].
    intros [[row mult] sv] Hm. apply Rmult_le_pos; [exact Hm|apply HB]. }
  assert (OP : forall z y, 0 <= own z y) by (intros z y; unfold own; destruct (_ =? _)%Z; lra).
  assert (ES : Rsum (map (weight (own_or_next (Z.of_nat i))) (passes em mon)) = Rsum (map (weight (own (Z.of_nat i))) (passes em mon)) + Rsum (map (weight (own (Z.of_nat i - 1))) (passes em mon))).
  { rewrite <- Rsum_plus. apply Rsum_ext. intros cells _. apply weight_plus. }
  split; [|split].
  - pose proof (readout_change (site_of c (groups_in traps)) (trap_phases c) (timed_steps (the_roe d)) (own_or_next (Z.of_nat i)) (Z.of_nat i) Hsites Hsteps) as H.
    specialize (H ltac:(intros x es k row Hd Hkin; apply (electrode_reach dwell dt k x es row); [apply Hk, Hkin|rewrite (plain_roe _ _ _ _ _ _ Hset) in Hd; exact Hd]) (passes em mon) HP col Hcol).
    unfold within in H. fold rho in H. eapply Rle_trans; [exact H|].
    apply Rmult_le_compat; [apply WP; intros y; unfold own_or_next; pose proof (OP (Z.of_nat i) y); pose proof (OP (Z.of_nat i - 1)%Z y); lra|apply Rmult_le_pos; [apply pos_INR|exact Hr]| |apply Rmult_le_compat_r; assumption].
    rewrite ES. lra.
  - intros H1d. assert (Hd0 : exists d0, dwell = [d0]) by (destruct dwell as [|d0 [|]]; try discriminate H1d; eauto). destruct Hd0 as [d0 Hd0].
    pose proof (readout_change (site_of c (groups_in traps)) (trap_phases c) (timed_steps (the_roe d)) (own (Z.of_nat i)) (Z.of_nat i) Hsites Hsteps) as H.
    specialize (H ltac:(intros x es k row Hd Hkin; apply (single_reach d0 dt k x es row); [pose proof (Hk k Hkin); lia|rewrite (plain_roe _ _ _ _ _ _ Hset), Hd0 in Hd; exact Hd]) (passes em mon) HP col Hcol).
    unfold within in H. fold rho in H. eapply Rle_trans; [exact H|].
    apply Rmult_le_compat; [apply WP, OP|apply Rmult_le_pos; [apply pos_INR|exact Hr]|exact W1|].
    rewrite H1d in Hlen. change (INR 1) with 1 in Hlen. rewrite <- (Rmult_1_l rho) at 2. apply Rmult_le_compat_r; assumption.
  - intros O1 O2. pose proof (readout_change (site_of c (groups_in traps)) (trap_phases c) (timed_steps (the_roe d)) (own_or_next (Z.of_nat i)) (Z.of_nat i) Hsites Hsteps) as H.
    specialize (H ltac:(intros x es k row Hd Hkin; apply (electrode_reach dwell dt k x es row); [apply Hk, Hkin|rewrite (plain_roe _ _ _ _ _ _ Hset) in Hd; exact Hd]) (passes em mon) HP col Hcol).
    unfold within in H. rewrite ES in H.
    assert (Z0 : forall z, ~ In z window -> Rsum (map (weight (own z)) (passes em mon)) = 0).
    { intros z Hz. apply Rsum_zero. intros y Hy. apply in_map_iff in Hy as (cells & <- & Hc). unfold passes in Hc. apply in_map_iff in Hc as ((e & m) & <- & _). now apply own_cells_out. }
    rewrite !Z0, Rplus_0_r, Rmult_0_l in H by assumption. exact H.
Qed.
End Windowed.
Lemma plain_any_rows d b b' c traps dwell dt dwell' dt' c' traps' : plain_setting d b c traps dwell dt -> plain_setting d b' c' traps' dwell' dt' -> plain_setting d b c' traps' dwell' dt'.
Proof. intros [_ _ _ _ _ _ H] [H1 H2 H3 H4 H5 H6 _]. split; assumption. Qed.
Lemma call_limit_nonneg d n i x : call_limit d n i x -> 0 <= x.
Proof. intros [H1 H2|b y _ H|y H]; [lra|now apply limit_nonneg in H|]. apply (readout_limit_nonneg d n i y). now right. Qed.
Lemma window_bounded d n b c traps dwell dt tw : StronglySorted Z.lt (selected (d_window d) n) -> window_ok (selected (d_window d) n) b -> (b <= n)%nat -> tw_ok tw -> plain_setting d b c traps dwell dt ->
  forall im cols columns im', shape n cols im -> nonneg im -> columns_ok columns cols -> clock_direction im d (the_roe d) traps (selected (d_window d) n) columns (tw_arg tw) = Ok (im', the_roe d) ->
  forall i j x, (i < n)%nat -> (j < cols)%nat -> call_limit d n i x -> Rabs (pixel im' i j - pixel im i j) <= x.
Proof.
  intros Hs Hw Hb Htw Hset im cols columns im' Sh Hp Hc E i j x Hi Hj Hx.
  assert (U : forall i j, ~ In (Z.of_nat j) columns -> pixel im' i j = pixel im i j).
  { destruct (windowed_call d n b c traps dwell dt tw Hw Hb Htw Hset) as (em & mon & EE & HC). destruct (HC im cols columns Sh Hp Hc) as (im2 & E2 & _ & _ & U & _). rewrite E in E2. injection E2 as <-. exact U. }
  destruct (listed columns j) eqn:El.
  2: { apply call_limit_nonneg in Hx. rewrite U by (intros Hin; apply listed_in in Hin; congruence). rewrite Rminus_diag_eq, Rabs_R0 by reflexivity. exact Hx. }
  apply listed_in in El.
  assert (Hcol : forall z, 0 <= col_fun im j z) by (intros z; apply Hp).
  assert (CH : forall c' traps' dwell' dt', forall b', plain_setting d b' c' traps' dwell' dt' ->
    Rabs (pixel im' i j - pixel im i j) <= (INR (i + 1 + d_offset d) + match i with O => 0 | S _ => INR (i + d_offset d) end) * (INR (length dwell') * (all_shares c' * SpecBound.traps_per_pixel (groups_in traps'))) /\
    (length dwell' = 1%nat -> Rabs (pixel im' i j - pixel im i j) <= INR (i + 1 + d_offset d) * (all_shares c' * SpecBound.traps_per_pixel (groups_in traps'))) /\
    (~ In (Z.of_nat i) (selected (d_window d) n) -> ~ In (Z.of_nat i - 1)%Z (selected (d_window d) n) -> Rabs (pixel im' i j - pixel im i j) <= 0)).
  { intros c' traps' dwell' dt' b' H'. pose proof (plain_any_rows _ _ _ _ _ _ _ _ _ _ _ Hset H') as H2. pose proof (ps_traps _ _ _ _ _ _ H2) as Et. rewrite (ps_traps _ _ _ _ _ _ Hset) in Et. injection Et as <-.
    destruct (windowed_call d n b c' traps dwell' dt' tw Hw Hb Htw H2) as (em2 & mon2 & EE2 & HC2). destruct (HC2 im cols columns Sh Hp Hc) as (im2 & E2 & _ & _ & _ & V2). rewrite E in E2. injection E2 as <-.
    rewrite (V2 i j Hi El). replace (pixel im i j) with (col_fun im j (Z.of_nat i)) by (unfold col_fun; rewrite Nat2Z.id; reflexivity).
    apply (windowed_change d n b c' traps dwell' dt' tw); assumption. }
  destruct Hx as [O1 O2|b' x _ Hx|x Hx]; [exact (proj2 (proj2 (CH _ _ _ _ _ Hset)) O1 O2)|destruct Hx as [Hn|c' traps' dwell' dt' H'|c' traps' dwell' dt' H']|].
  - rewrite (ps_traps _ _ _ _ _ _ Hset) in Hn. discriminate.
  - exact (proj1 (proj2 (CH _ _ _ _ _ H')) eq_refl).
  - exact (proj1 (CH _ _ _ _ _ H')).
  - exfalso. destruct Hx as [c' traps' dwell' npt Hx|c' traps' dwell' npt Hx]; destruct Hset as [_ _ [Hr|[Hr _]] _ _ _ _]; rewrite (is_roe _ _ _ _ _ _ Hx) in Hr; try discriminate;
    apply (f_equal (option_map (fun r => roe_kind_of r))) in Hr; cbn in Hr; discriminate.
Qed.
Lemma does_standard d n tw : tw_ok tw -> gentle_in_window d n -> does d n (tw_arg tw) (call_limit d n) (the_roe d).
Proof.
  intros Htw (b & Hs & Hw & Hb & [Hno|(c & traps & dwell & dt & group & Hset & Hone & Hm)]).
  - exists 1, 1, (fun x => x). split; [lra|]. split; [lra|]. split; [apply steady_id|]. intros im cols columns Sh Hp Hc. exists im. rewrite Hno. split; [reflexivity|]. split; [exact Sh|]. split; [exact Hp|].
    split; [intros j _; now destruct (listed _ _)|]. intros i j x _ _ Hx. apply call_limit_nonneg in Hx. rewrite Rminus_diag_eq, Rabs_R0 by reflexivity. exact Hx.
  - destruct (windowed_call d n b c traps dwell dt tw Hw Hb Htw Hset) as (em & mon & EE & HC).
    pose proof (window_pos _ _ Hw) as Hb0.
    set (passes := map (fun '(e, m) => cells_of (selected (d_window d) n) e m (map (fun _ => false) e)) (combine em mon)) in *.
    destruct (direction_steady (timed_steps (the_roe d)) c traps dwell group (max_multiplier dt (b + d_offset d) (passes_for (b + d_offset d) (d_express d)))
      (ps_plain _ _ _ _ _ _ Hset) (ps_phases _ _ _ _ _ _ Hset) (ps_instant _ _ _ _ _ _ Hset) Hone) with (n := b) (passes := passes) as (gain & big & Hg & Hbig & HT).
    { rewrite (plain_roe _ _ _ _ _ _ Hset). reflexivity. }
    { apply mm_ge_1. apply express_used_pos. lia. }
    { intros k Hk. apply Hm; [exact Hk|]. apply multiplier_per_pass. apply express_used_pos. lia. }
    { exact (window_passes_good _ b dt (d_express d) (d_offset d) tw em mon Hs Hw (ps_express _ _ _ _ _ _ Hset) Htw EE). }
    exists gain, (Rmax 1 big), (weighted_map (timed_steps (the_roe d)) c traps passes). split; [exact Hg|]. split; [apply Rmax_l|]. split; [apply (steady_weaken gain big); [exact HT|apply Rmax_r]|].
    intros im cols columns Sh Hp Hc. destruct (HC im cols columns Sh Hp Hc) as (im' & E & S' & P' & U & V). rewrite (ps_traps _ _ _ _ _ _ Hset). exists im'. split; [exact E|]. split; [exact S'|]. split; [exact P'|]. split.
    + intros j Hj. apply (nth_ext _ _ 0 0).
      * destruct (listed columns j); [rewrite (st_length _ _ _ HT)|]; rewrite (column_length im' n cols j S'), (column_length im n cols j Sh); reflexivity.
      * intros i Hi. rewrite (column_length im' n cols j S') in Hi. rewrite nth_column. destruct (listed columns j) eqn:El.
        -- apply listed_in in El. rewrite (V i j Hi El). unfold weighted_map. rewrite (column_length im n cols j Sh), (column_plus im j Hp), <- column_fun. now rewrite nth_map_seq.
        -- rewrite nth_column. apply U. intros Hin. apply listed_in in Hin. congruence.
    + now apply (window_bounded d n b c traps dwell dt tw Hs Hw Hb Htw Hset im cols columns).
Qed.

(** ** A charge injection *)
Lemma selected_all (d : direction R) n : d_window d = WNone -> selected (d_window d) n = py_range 0 (Z.of_nat n).
Proof. intros ->. rewrite py_range_0. reflexivity. Qed.
Lemma injection_bounded (d : direction R) n c traps dwell npt tw : (0 < n)%nat -> tw_ok tw -> d_window d = WNone -> injection_setting d n c traps dwell npt ->
  let N := injection_transfers npt n (d_offset d) in let E := passes_for N (d_express d) in
  let passes := injection_passes n E (fun i => tw_part tw (INR i * (INR N / INR E)) (INR (S i) * (INR N / INR E))) in
  forall im cols columns (im' : image R), shape n cols im -> nonneg im -> columns_ok columns cols -> (forall i j, ~ In (Z.of_nat j) columns -> pixel im' i j = pixel im i j) ->
  (forall i j, (i < n)%nat -> In (Z.of_nat j) columns -> pixel im' i j = readout (site_of c (groups_in traps)) (trap_phases c) (timed_steps (the_roe d)) passes (col_fun im j) (Z.of_nat i)) ->
  forall i j x, (i < n)%nat -> (j < cols)%nat -> call_limit d n i x -> Rabs (pixel im' i j - pixel im i j) <= x.
Proof.
  intros Hn Htw HW Hset N E passes im cols columns im' Hs Hp [Hnd Hrange] G3 G4 i j y Hi Hj Hy. destruct (listed columns j) eqn:El.
    2: { apply call_limit_nonneg in Hy. rewrite G3 by (intros Hin; apply listed_in in Hin; congruence). rewrite Rminus_diag_eq, Rabs_R0 by reflexivity. exact Hy. }
    apply listed_in in El. rewrite (G4 i j Hi El). replace (pixel im i j) with (col_fun im j (Z.of_nat i)) by (unfold col_fun; rewrite Nat2Z.id; reflexivity).
    destruct (injected_change d n c traps dwell npt tw Hn Htw Hset (col_fun im j) i) as [B1 B2]; [intros z; apply Hp|exact Hi|].
    destruct Hy as [O1 O2|b y _ Hy|y Hy].
    + exfalso. apply O1. rewrite (selected_all d n HW). apply py_range_in. lia.
    + exfalso. destruct Hy as [Hy|c' traps' dwell' dt' Hy|c' traps' dwell' dt' Hy]; [rewrite (is_traps _ _ _ _ _ _ Hset) in Hy; discriminate| |];
        destruct Hy as [_ _ [Hr|[Hr _]] _ _ _ _]; rewrite (is_roe _ _ _ _ _ _ Hset) in Hr; try discriminate; apply (f_equal (option_map (fun r => roe_kind_of r))) in Hr; cbn in Hr; discriminate.
    + destruct Hy as [c' traps' dwell' npt' Hy|c' traps' dwell' npt' Hy]; destruct Hset as [S1 S2 S3 _ _ _ _]; destruct Hy as [S1' S2' S3' _ _ _ _];
        rewrite S1 in S1'; rewrite S2 in S2'; rewrite S3 in S3'; injection S1' as <-; injection S2' as <-;
        pose proof (f_equal (option_map (fun r => roe_kind_of r)) S3') as K1; pose proof (f_equal (option_map (fun r => roe_dwell_times r)) S3') as K2; cbn [option_map roe_kind_of roe_dwell_times roe_injection_init make_roe] in K1, K2; injection K1 as <-.
      * assert (K : dwell = [dwell']) by congruence. apply B2. now rewrite K.
      * assert (K : dwell = dwell') by congruence. rewrite <- K. exact B1.
Qed.
Lemma does_injection (d : direction R) n tw : (0 < n)%nat -> tw_ok tw -> gentle_injection d n -> exists r, does d n (tw_arg tw) (call_limit d n) r.
Proof.
  intros Hn Htw (HW & c & traps & dwell & npt & group & Hset & Hone & Hm). cbv zeta in Hm. set (N := injection_transfers npt n (d_offset d)) in *. set (E := passes_for N (d_express d)) in *.
  exists (roe_injection_init dwell (Some N) true true DFloat). destruct (injected_x d n c traps dwell npt Hn Hset) as [Hx _]. fold N E in Hx.
  set (passes := injection_passes n E (fun i => tw_part tw (INR i * (INR N / INR E)) (INR (S i) * (INR N / INR E)))).
  destruct (direction_steady (timed_steps (the_roe d)) c traps dwell group (INR N / INR E) (is_plain _ _ _ _ _ _ Hset) (is_phases _ _ _ _ _ _ Hset) (is_instant _ _ _ _ _ _ Hset) Hone (injected_steps _ _ _ _ _ _ Hset) Hx Hm n passes (passes_fine d n c traps dwell npt tw Hn Htw Hset))
    as (gain & big & Hg & Hb & HT).
  exists gain, (Rmax 1 big), (weighted_map (timed_steps (the_roe d)) c traps passes). split; [exact Hg|]. split; [apply Rmax_l|]. split; [apply (steady_weaken gain big); [exact HT|apply Rmax_r]|].
  intros im cols columns Hs Hp [Hnd Hrange]. rewrite (is_traps _ _ _ _ _ _ Hset), (selected_all d n HW). unfold clock_direction. rewrite (is_ccd _ _ _ _ _ _ Hset).
  destruct (injection_readout im c dwell traps (groups_in traps) npt (d_express d) (d_offset d) columns tw n cols
    Hs Hn Hp (is_plain _ _ _ _ _ _ Hset) (is_phases _ _ _ _ _ _ Hset) (groups_normalised _ (is_instant _ _ _ _ _ _ Hset)) (proj2 (is_instant _ _ _ _ _ _ Hset)) Hrange Hnd (is_some _ _ _ _ _ _ Hset) Htw)
    as (im' & G1 & G2 & G3 & G4).
  exists im'. split; [rewrite (injected_roe _ _ _ _ _ _ Hset); exact G1|]. split; [exact G2|].
  assert (N' : forall i j, 0 <= pixel im' i j).
  { apply nonneg_iff. destruct (clocking_ok _ _ _ _ _ _ _ _ _ _ _ _ _ Hs Hn G1) as [_ _ _ HS]. intros i0 j0. apply HS; [|apply nonneg_iff, Hp]. rnum. apply Rltb_false. lra. }
  split; [exact N'|]. rewrite <- (injected_roe _ _ _ _ _ _ Hset) in G4. fold N E in G4. fold passes in G4. split.
  - intros j Hj. apply (nth_ext _ _ 0 0).
    + destruct (listed columns j); [rewrite (st_length _ _ _ HT)|]; rewrite (column_length im' n cols j G2), (column_length im n cols j Hs); reflexivity.
    + intros i Hi. rewrite (column_length im' n cols j G2) in Hi. rewrite nth_column. destruct (listed columns j) eqn:El.
      * apply listed_in in El. rewrite (G4 i j Hi El). unfold weighted_map. rewrite (column_length im n cols j Hs), (column_plus im j Hp), <- column_fun. now rewrite nth_map_seq.
      * rewrite nth_column. apply G3. intros Hin. apply listed_in in Hin. congruence.
  - now apply (injection_bounded d n c traps dwell npt tw Hn Htw HW Hset im cols columns im' Hs Hp (conj Hnd Hrange) G3 G4).
Qed.
Lemma does_call d n tw : (0 < n)%nat -> tw_ok tw -> gentle_call d n -> exists r, does d n (tw_arg tw) (call_limit d n) r.
Proof. intros Hn Htw [H|H]; [exists (the_roe d); now apply does_standard|now apply does_injection]. Qed.
Lemma call_window d n : (0 < n)%nat -> gentle_call d n -> exists b, StronglySorted Z.lt (selected (d_window d) n) /\ window_ok (selected (d_window d) n) b /\ (b <= n)%nat.
Proof.
  intros Hn [(b & H1 & H2 & H3 & _)|[HW _]]; [exists b; auto|]. exists n. rewrite (selected_all d n HW). split; [apply range_sorted|]. split; [now apply window_ok_range|lia].
Qed.
Lemma window_columns window b n : StronglySorted Z.lt window -> window_ok window b -> (b <= n)%nat -> columns_ok window n.
Proof. intros H1 [H2 _] H3. split; [now apply sorted_nodup|]. intros j Hj. rewrite Forall_forall in H2. specialize (H2 j Hj). lia. Qed.
(** The times and the rows of a call. *)
Lemma call_times t window b rows offset : time_range t -> window_ok window b -> (b <= rows)%nat -> StronglySorted Z.lt window -> (0 < rows)%nat ->
  exists tw lines, resolve_time_window t window rows offset = Ok (py_range (fst tw) (snd tw), lines) /\ tw_ok (Some tw) /\ columns_ok lines rows.
Proof.
  intros Ht Hw Hb Hs Hr. destruct Ht as [|t0 t1 Ht].
  - exists (0%Z, Z.of_nat (rows + offset)), window. cbn [resolve_time_window fst snd]. split; [reflexivity|]. split; [cbn; lia|]. now apply (window_columns window b).
  - cbn [resolve_time_window]. rewrite py_range_first, py_range_last by lia.
    assert (P : exists p0 p1, py_index window 0 = Ok p0 /\ py_index window (-1) = Ok p1 /\ In p0 window /\ In p1 window).
    { assert (HL : (0 < length window)%nat) by (destruct Hw as [_ Hin]; destruct window; [destruct Hin|cbn; lia]).
      destruct (nth_error window 0) as [p0|] eqn:E0; [|apply nth_error_None in E0; lia]. destruct (nth_error window (length window - 1)) as [p1|] eqn:E1; [|apply nth_error_None in E1; lia].
      exists p0, p1. split; [|split; [|split; [now apply nth_error_In in E0|now apply nth_error_In in E1]]].
      - change 0%Z with (Z.of_nat 0). rewrite CallFacts.py_index_nonneg, E0. reflexivity.
      - replace (-1)%Z with (Z.of_nat (length window - 1) - Z.of_nat (length window))%Z by lia. rewrite CallFacts.py_index_from_end, E1 by lia. reflexivity. }
    destruct P as (p0 & p1 & -> & -> & I0 & I1). cbn [bind]. exists (t0, t1). eexists. cbn [fst snd]. split; [reflexivity|]. split; [exact Ht|].
    destruct Hw as [HF _]. rewrite Forall_forall in HF. pose proof (HF _ I0) as H0. pose proof (HF _ I1) as H1. split.
    + apply sorted_nodup. apply range_sorted_from.
    + intros j Hj. apply py_range_in in Hj. lia.
Qed.

(** Everything a call needs. *)
Record ready (parallel serial : direction R) (rows cols : nat) (time : option (list Z)) (rp rs : roe R) (tw lines : list Z) : Prop := {
  rd_times : resolve_time_window time (selected (d_window parallel) rows) rows (d_offset parallel) = Ok (tw, lines);
  rd_lines : columns_ok lines rows;
  rd_columns : columns_ok (selected (d_window serial) cols) cols;
  rd_parallel : does parallel rows (Some tw) (call_limit parallel rows) rp;
  rd_serial : does serial cols None (call_limit serial cols) rs }.
Lemma call_ready parallel serial rows cols time : (0 < rows)%nat -> (0 < cols)%nat -> time_range time -> gentle_call parallel rows -> gentle_call serial cols ->
  exists rp rs tw lines, ready parallel serial rows cols time rp rs tw lines.
Proof.
  intros Hr Hc Ht Hp Hs. destruct (call_window parallel rows Hr Hp) as (b & P1 & P2 & P3). destruct (call_window serial cols Hc Hs) as (b' & S1 & S2 & S3).
  destruct (call_times time _ b rows (d_offset parallel) Ht P2 P3 P1 Hr) as (tw & lines & E & Htw & Hl).
  destruct (does_call parallel rows (Some tw) Hr Htw Hp) as [rp Dp]. destruct (does_call serial cols None Hc I Hs) as [rs Ds].
  exists rp, rs, (py_range (fst tw) (snd tw)), lines. destruct tw as [t0 t1]. split; [exact E|exact Hl|now apply (window_columns _ b')|exact Dp|exact Ds].
Qed.

(** ** Both directions *)
Section Both.
Context (parallel serial : direction R) (rows cols : nat).
Hypothesis Hr : (0 < rows)%nat.
Hypothesis Hc : (0 < cols)%nat.
Context (rp rs : roe R) (time : option (list Z)) (tw lines : list Z).
Hypothesis Htimes : resolve_time_window time (selected (d_window parallel) rows) rows (d_offset parallel) = Ok (tw, lines).
Hypothesis Hlines : columns_ok lines rows.
Hypothesis Hcolumns : columns_ok (selected (d_window serial) cols) cols.
Hypothesis Hpar : does parallel rows (Some tw) (call_limit parallel rows) rp.
Hypothesis Hser : does serial cols None (call_limit serial cols) rs.
Lemma call_map : exists gain big F, 0 < gain <= 1 /\ 0 <= big /\ steady gain big F /\
  forall im, shape rows cols im -> nonneg im ->
  exists im', add_cti im parallel serial time = Ok (im', rp, rs) /\ shape rows cols im' /\ nonneg im' /\ concat im' = F (concat im) /\
    forall i j p s, (i < rows)%nat -> (j < cols)%nat -> call_limit parallel rows i p -> call_limit serial cols j s -> Rabs (pixel im' i j - pixel im i j) <= p + s.
Proof.
  destruct Hpar as (g1 & b1 & G1 & Hg1 & Hb1 & T1 & A1). destruct Hser as (g2 & b2 & G2 & Hg2 & Hb2 & T2 & A2).
  exists (g1 * g2), (b1 * b2), (fun x => some_rows cols G2 (listed lines) (some_columns cols G1 (listed (selected (d_window serial) cols)) x)). split; [split; [apply Rmult_lt_0_compat; lra|rewrite <- (Rmult_1_l 1); apply Rmult_le_compat; lra]|].
  split; [apply Rmult_le_pos; lra|].
  split; [apply (steady_compose g1 g2 b1 b2 (some_columns cols G1 (listed (selected (d_window serial) cols))) (some_rows cols G2 (listed lines))); [lra|lra|apply some_columns_steady; (assumption || lra)|apply some_rows_steady; (assumption || lra)]|].
  intros im Hs Hp. pose proof Hs as [Lim _]. pose proof (MainReadoutFacts.shape_columns rows cols im Hs Hr) as Ncol.
  unfold add_cti. rewrite Lim, Ncol, !resolve_selected, Htimes. cbn [bind].
  destruct (A1 im cols (selected (d_window serial) cols) Hs Hp Hcolumns) as (im1 & E1 & S1 & P1 & C1 & D1). rewrite E1. cbn [bind].
  assert (F1 : concat im1 = some_columns cols G1 (listed (selected (d_window serial) cols)) (concat im)) by (eapply (some_columns_flat cols Hc G1 g1 b1 T1); eauto).
  assert (St : shape cols rows (transpose im1)) by (apply transpose_shape; assumption).
  assert (Pt : nonneg (transpose im1)) by (intros i j; rewrite (transpose_pixel_all rows cols) by assumption; apply P1).
  destruct (A2 (transpose im1) rows lines St Pt Hlines) as (im2 & E2 & S2 & P2 & C2 & D2).
  assert (S2' : shape rows cols (transpose im2)) by (apply transpose_shape; assumption).
  assert (P2' : nonneg (transpose im2)) by (intros i j; rewrite (transpose_pixel_all cols rows) by assumption; apply P2).
  assert (F2 : concat (transpose im2) = some_rows cols G2 (listed lines) (concat im1)).
  { eapply (some_rows_flat cols Hc G2 g2 b2 T2); eauto. intros i Hi. rewrite <- (transposed_column im1 rows cols i S1 Hr Hi), <- (C2 i Hi).
    rewrite <- (transposed_column (transpose im2) rows cols i S2' Hr Hi). f_equal. apply (RemoveFacts.image_ext _ _ cols rows); [apply transpose_shape; assumption|assumption|].
    intros a b Ha Hb. rewrite (transpose_pixel_all rows cols), (transpose_pixel_all cols rows) by assumption. reflexivity. }
  assert (D : forall i j p s, (i < rows)%nat -> (j < cols)%nat -> call_limit parallel rows i p -> call_limit serial cols j s -> Rabs (pixel (transpose im2) i j - pixel im i j) <= p + s).
  { intros i j p s Hi Hj Lp Ls. specialize (D1 i j p Hi Hj Lp). specialize (D2 j i s Hj Hi Ls).
    rewrite (transpose_pixel_all cols rows) by assumption. rewrite (transpose_pixel_all rows cols im1) in D2 by assumption.
    apply Rabs_le_between in D1. apply Rabs_le_between in D2. apply Rabs_le_between. lra. }
  destruct (d_traps serial) as [traps|] eqn:Et.
  - rewrite E2. cbn [bind]. exists (transpose im2). split; [reflexivity|]. split; [exact S2'|]. split; [exact P2'|]. split; [now rewrite F2, F1|exact D].
  - assert (Eim : transpose im2 = im1).
    { injection E2 as E2 _. subst im2. apply (RemoveFacts.image_ext _ _ rows cols); [assumption|assumption|].
      intros a b Ha Hb. rewrite (transpose_pixel_all cols rows), (transpose_pixel_all rows cols) by assumption. reflexivity. }
    injection E2 as _ Ers. cbn [bind]. rewrite Ers. exists im1. split; [reflexivity|]. split; [exact S1|]. split; [exact P1|]. rewrite Eim in F2, D. split; [now rewrite F2, F1|exact D].
Qed.
Lemma call_pair : exists gain big F, 0 < gain <= 1 /\ 0 <= big /\ steady gain big F /\
  forall a b, shape rows cols a -> shape rows cols b -> nonneg a -> nonneg b ->
  exists a' b', add_cti a parallel serial time = Ok (a', rp, rs) /\ add_cti b parallel serial time = Ok (b', rp, rs) /\
    shape rows cols a' /\ shape rows cols b' /\ concat a' = F (concat a) /\ concat b' = F (concat b).
Proof.
  destruct call_map as (gain & big & F & Hg & Hb & HT & HF). exists gain, big, F. split; [exact Hg|]. split; [exact Hb|]. split; [exact HT|]. intros a b Sa Sb Pa Pb.
  destruct (HF a Sa Pa) as (a' & Ea & Sa' & Pa' & Fa & _). destruct (HF b Sb Pb) as (b' & Eb & Sb' & Pb' & Fb & _). exists a', b'. auto 10.
Qed.
Lemma call_order a b : shape rows cols a -> shape rows cols b -> nonneg a -> (forall i j, (i < rows)%nat -> (j < cols)%nat -> pixel a i j <= pixel b i j) ->
  exists a' b', add_cti a parallel serial time = Ok (a', rp, rs) /\
    add_cti b parallel serial time = Ok (b', rp, rs) /\
    forall i j, (i < rows)%nat -> (j < cols)%nat -> pixel a' i j <= pixel b' i j.
Proof.
  intros Sa Sb Pa Hab. destruct call_pair as (gain & big & F & Hg & _ & HT & HF).
  assert (Pb : nonneg b) by (apply (shape_nonneg rows cols Hr Hc b Sb); intros i j Hi Hj; specialize (Hab i j Hi Hj); specialize (Pa i j); lra).
  destruct (HF a b Sa Sb Pa Pb) as (a' & b' & Ea & Eb & Sa' & Sb' & Fa & Fb). exists a', b'. split; [exact Ea|]. split; [exact Eb|].
  apply (flat_ordered rows cols Hr Hc); [assumption|assumption|]. rewrite Fa, Fb. apply (st_mono _ _ _ HT). now apply (flat_ordered rows cols Hr Hc).
Qed.
Lemma call_apart : exists K, 0 <= K /\ forall a b, shape rows cols a -> shape rows cols b -> nonneg a -> nonneg b ->
  exists a' b', add_cti a parallel serial time = Ok (a', rp, rs) /\
    add_cti b parallel serial time = Ok (b', rp, rs) /\ image_apart a' b' <= K * image_apart a b.
Proof.
  destruct call_pair as (gain & big & F & Hg & Hb & HT & HF). exists big. split; [exact Hb|]. intros a b Sa Sb Pa Pb.
  destruct (HF a b Sa Sb Pa Pb) as (a' & b' & Ea & Eb & Sa' & Sb' & Fa & Fb). exists a', b'. split; [exact Ea|]. split; [exact Eb|]. unfold image_apart. rewrite Fa, Fb. apply (steady_apart gain big F); [exact HT|].
  now rewrite (concat_length cols Hc a rows Sa), (concat_length cols Hc b rows Sb).
Qed.
Lemma call_injective a b out pr sr pr' sr' : shape rows cols a -> shape rows cols b -> nonneg a -> nonneg b ->
  add_cti a parallel serial time = Ok (out, pr, sr) -> add_cti b parallel serial time = Ok (out, pr', sr') -> a = b.
Proof.
  intros Sa Sb Pa Pb Ea' Eb'. destruct call_pair as (gain & big & F & Hg & _ & HT & HF).
  destruct (HF a b Sa Sb Pa Pb) as (a' & b' & Ea & Eb & Sa' & Sb' & Fa & Fb). rewrite Ea in Ea'. rewrite Eb in Eb'. injection Ea' as -> _ _. injection Eb' as -> _ _.
  apply (flat_equal rows cols Hc a b Sa Sb). apply (steady_injective gain big F HT (proj1 Hg)); [now rewrite (concat_length cols Hc a rows Sa), (concat_length cols Hc b rows Sb)|now apply flat_nonneg|now apply flat_nonneg|congruence].
Qed.

(** ** Recovery *)
Lemma call_recover x : shape rows cols x -> enough_for_call parallel serial rows cols x ->
  exists im, add_cti x parallel serial time = Ok (im, rp, rs) /\
  exists C r, 0 <= C /\ 0 <= r < 1 /\ forall k, exists est, remove_cti im k parallel serial time = Ok est /\ shape rows cols est /\
    image_apart est x <= C * r ^ k.
Proof.
  intros Sx Hx. destruct call_map as (gain & big & F & Hg & Hbig & HT & HF).
  assert (Px : forall i j, (i < rows)%nat -> (j < cols)%nat -> 0 < pixel x i j).
  { intros i j Hi Hj. destruct (Hx i j Hi Hj) as (p & s & Lp & Ls & H). apply call_limit_nonneg in Lp. apply call_limit_nonneg in Ls. lra. }
  assert (Nx : nonneg x) by (apply (shape_nonneg rows cols Hr Hc); [exact Sx|]; intros i j Hi Hj; left; now apply Px).
  assert (BD : forall a, shape rows cols a -> nonneg a -> exists a', add_cti a parallel serial time = Ok (a', rp, rs) /\ shape rows cols a' /\ concat a' = F (concat a) /\
    forall i j p s, (i < rows)%nat -> (j < cols)%nat -> call_limit parallel rows i p -> call_limit serial cols j s -> Rabs (pixel a' i j - pixel a i j) <= p + s).
  { intros a Sa Pa. destruct (HF a Sa Pa) as (a' & Ea & Sa' & _ & Fa & Ba). exists a'. auto. }
  destruct (BD x Sx Nx) as (im & E & Si & Fi & Bi). exists im. split; [exact E|].
  destruct (steady_converges gain big F HT Hbig Hg (concat x)) as (C & r & HC & Hr1 & HCr).
  { apply Forall_forall. intros v Hv. apply (In_nth _ _ 0) in Hv. destruct Hv as (l & Hl & <-). rewrite (concat_length cols Hc x rows Sx) in Hl.
    pose proof (Nat.div_mod l cols ltac:(lia)) as El. pose proof (Nat.mod_upper_bound l cols ltac:(lia)) as Hm.
    assert (Hd : (l / cols < rows)%nat) by (apply Nat.div_lt_upper_bound; lia).
    replace l with (l / cols * cols + l mod cols)%nat by lia. rewrite (concat_nth cols Hc x rows) by assumption. now apply Px. }
  exists C, r. split; [exact HC|]. split; [exact Hr1|].
  assert (ST : forall k, exists est, remove_cti im k parallel serial time = Ok est /\ shape rows cols est /\ concat est = corrected F (F (concat x)) k /\
    forall i j p s, (i < rows)%nat -> (j < cols)%nat -> call_limit parallel rows i p -> call_limit serial cols j s -> Rabs (pixel est i j - pixel x i j) <= 2 * (p + s)).
  { induction k as [|k (est & Ee & Se & Ke & Be)].
    - exists im. split; [reflexivity|]. split; [exact Si|]. split; [exact Fi|]. intros i j p s Hi Hj Lp Ls. specialize (Bi i j p s Hi Hj Lp Ls). apply call_limit_nonneg in Lp. apply call_limit_nonneg in Ls. lra.
    - assert (Ne : nonneg est).
      { apply (shape_nonneg rows cols Hr Hc); [exact Se|]. intros i j Hi Hj. destruct (Hx i j Hi Hj) as (p & s & Lp & Ls & H). specialize (Be i j p s Hi Hj Lp Ls). apply Rabs_le_between in Be. lra. }
      destruct (BD est Se Ne) as (added & Ea & Sa & Fa & Ba).
      set (out := image_zip nadd est (image_zip nsub im added)).
      assert (So : shape rows cols out) by (unfold out; repeat (apply image_zip_shape; try assumption)).
      assert (Po : forall i j, (i < rows)%nat -> (j < cols)%nat -> pixel out i j = pixel est i j + (pixel im i j - pixel added i j)).
      { intros i j Hi Hj. unfold out. rewrite (image_zip_pixel _ _ _ rows cols) by (try apply image_zip_shape; assumption).
        rewrite (image_zip_pixel _ _ _ rows cols) by assumption. reflexivity. }
      exists out. split; [|split; [exact So|split]].
      + apply (remove_S im parallel serial time rows cols Si Hr Hc k out). exists est, added, rp, rs.
        split; [exact Ee|]. split; [exact Ea|]. split; [exact So|exact Po].
      + cbn [corrected]. cbv zeta. rewrite <- Ke, <- Fa, <- Fi.
        apply (flat_ext cols Hc rows); [exact So| |].
        * rewrite plus_list_length; rewrite ?(concat_length cols Hc est rows Se), ?(concat_length cols Hc im rows Si), ?(concat_length cols Hc added rows Sa); reflexivity.
        * intros i j Hi Hj. rewrite plus_list_nth by (rewrite ?(concat_length cols Hc est rows Se), ?(concat_length cols Hc im rows Si), ?(concat_length cols Hc added rows Sa); nia).
          rewrite !(concat_nth cols Hc _ rows) by assumption. symmetry. now apply Po.
      + intros i j p s Hi Hj Lp Ls. rewrite (Po i j Hi Hj). specialize (Ba i j p s Hi Hj Lp Ls). specialize (Bi i j p s Hi Hj Lp Ls).
        replace (pixel est i j + (pixel im i j - pixel added i j) - pixel x i j) with ((pixel im i j - pixel x i j) - (pixel added i j - pixel est i j)) by lra.
        apply Rabs_le_between in Ba. apply Rabs_le_between in Bi. apply Rabs_le_between. lra. }
  intros k. destruct (ST k) as (est & Ee & Se & Ke & _). exists est. split; [exact Ee|]. split; [exact Se|]. unfold image_apart. rewrite Ke. apply HCr.
Qed.
End Both.

