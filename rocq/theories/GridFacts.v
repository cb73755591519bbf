(** * Readouts in both directions with any number of phases: order, differences and recovery. *)
From Coq Require Import ZArith List Bool Reals Lra Lia FunctionalExtensionality.
From Coquelicot Require Import Rcomplements Rbar Hierarchy RInt.
From Verif Require Import Num Py RFacts CCDModel TrapsModel ManagerModel ROEModel ClockModel MainModel Spec SpecROE SpecImage SpecReadout SpecColumn SpecBound SpecRecovery SpecPhases
  WmFacts ArrayFacts CutFacts InstantFacts ClockFacts MainFacts ShapeFacts ColumnFacts ReadoutImage RemoveFacts
  ROEClockFacts ReadoutFull ReadoutSpecFacts ReadoutColumnFacts OrderFacts TameFacts DepthFacts BoundFacts MainReadoutFacts RecoverImageFacts PhaseOrderFacts LiftFacts.
Import ListNotations.
Open Scope R_scope.
Notation in_pixel := SpecRecovery.traps_per_pixel.

Lemma least_of {A} (h : A -> R) (l : list A) : (forall x, In x l -> 0 < h x) -> exists g, 0 < g <= 1 /\ forall x, In x l -> g <= h x.
Proof.
  induction l as [|x l IH]; intros H; [exists 1; split; [lra|intros ? []]|]. destruct IH as (g & Hg & IH); [intros; apply H; now right|].
  exists (Rmin g (h x)). pose proof (H x (or_introl eq_refl)). pose proof (Rmin_l g (h x)). pose proof (Rmin_r g (h x)). split; [split; [apply Rmin_glb_lt; lra|lra]|].
  intros y [<-|Hy]; [lra|]. specialize (IH y Hy). lra.
Qed.
Lemma thinned_physical f g : 0 <= f -> Forall physical g -> Forall physical (map (thinned f) g).
Proof.
  intros Hf H. rewrite Forall_map. eapply Forall_impl; [|exact H]. intros t []. constructor; cbn; auto. now apply Rmult_le_pos.
Qed.
Lemma physical_density g : Forall physical g -> 0 <= in_pixel g.
Proof. intros H. unfold in_pixel. induction H as [|t g [] H IH]; cbn; [lra|]. unfold Rsum in IH. lra. Qed.

(** ** One direction *)
Section Direction.
Context (d : direction R) (n : nat) (c : ccd R) (traps : traps_arg R) (dwell : list R) (dt : dtype) (group : list (trap R)).
Hypothesis Hps : plain_setting d n c traps dwell dt.
Hypothesis Hone : groups_in traps = [group].
Hypothesis Hmild : forall k, (k < ccd_n_phases c)%nat -> exists full beta, phase_params c k 0 beta full /\
  1 <= beta /\ in_pixel (map (thinned (share c k)) group) * beta < full.
Definition direction_map : list R -> list R :=
  list_reads (site_of c (groups_in traps)) (trap_phases c) (timed_steps (the_roe d)) n (d_offset d).
Lemma direction_tame : exists gain, 0 < gain <= 1 /\ tame gain 0 0 direction_map.
Proof.
  pose proof (ps_plain _ _ _ _ _ _ Hps) as HC. pose proof (ps_instant _ _ _ _ _ _ Hps) as [_ HI]. rewrite Hone in HI. inversion HI as [|? ? [Hne HG] _]; subst.
  assert (Gp : Forall physical group) by (eapply Forall_impl; [|exact HG]; intros t [Ht _]; exact Ht).
  assert (KP : forall k, In k (trap_phases c) -> (k < ccd_n_phases c)%nat) by (intros k Hk; unfold trap_phases in Hk; apply filter_In in Hk as [Hk _]; apply in_seq in Hk; lia).
  set (grp := fun k => map (thinned (share c k)) group).
  set (full := fun k => nth k (ccd_full_well c) 1). set (beta := fun k => nth k (ccd_fill_power c) 1).
  assert (GP : forall k, Forall physical (grp k)) by (intros k; apply thinned_physical; [apply (pc_share _ HC)|exact Gp]).
  assert (PP : forall k, In k (trap_phases c) -> 0 < full k /\ 1 <= beta k /\ mild (in_pixel (grp k)) (full k) (beta k) 0).
  { intros k Hk. apply KP in Hk. destruct (Hmild k Hk) as (fu & be & P1 & P2 & P3). destruct P1 as [Q1 Q2 Q3].
    assert (E1 : full k = fu) by (unfold full; apply nth_error_nth; exact Q3). assert (E2 : beta k = be) by (unfold beta; apply nth_error_nth; exact Q2). rewrite E1, E2.
    destruct (pc_phase _ HC k Hk) as (fu' & be' & [_ _ R3] & R4 & _). split; [congruence|]. split; [exact P2|]. left. auto. }
  set (sl := fun k => slope_of (full k) (beta k) 0).
  assert (GR : forall k, In k (trap_phases c) -> gradual (grp k) (depth (full k) (beta k)) 0 (sl k) /\ 0 < 1 - in_pixel (grp k) * sl k).
  { intros k Hk. destruct (PP k Hk) as (P1 & P2 & P3). apply mild_gradual; [exact P1|lra|apply physical_density, GP|exact P3]. }
  destruct (least_of (fun k => 1 - in_pixel (grp k) * sl k) (trap_phases c)) as (gam & Hgam & HG1); [intros k Hk; now apply GR|].
  assert (EL : forall e es k, In (e, es) (timed_steps (the_roe d)) -> In k (trap_phases c) -> forward (electrode es k) /\ lossless 2 0 (electrode es k)).
  { intros e es k Hin Hk. rewrite (plain_roe _ _ _ _ _ _ Hps) in Hin. pose proof (ps_phases _ _ _ _ _ _ Hps) as HP. apply KP in Hk.
    destruct (electrode_ok dwell dt k e es ltac:(lia) Hin) as [E1 E2]. split; [exact E1|]. apply (E2 1%nat 0%Z). lia. }
  exists (gain_of (trap_phases c) (timed_steps (the_roe d)) gam (full_passes n (d_offset d))).
  split; [split; [apply gain_of_pos; lra|apply gain_of_01; lra]|].
  unfold direction_map. rewrite Hone. apply (phases_tame (site_of c [group]) (trap_phases c) (timed_steps (the_roe d)) grp sl gam n (d_offset d)).
  - apply NoDup_filter, seq_NoDup.
  - intros k _. reflexivity.
  - intros k _. apply GP.
  - intros k Hk. now apply GR.
  - intros k a Hk Ha. destruct (PP k Hk) as (P1 & P2 & _). cbn [site_well site_of]. fold (full k) (beta k). apply sensitive_range; [apply depth_sensitive; lra|exact Ha].
  - intros k a Hk Ha. cbn [site_well site_of]. unfold depth. destruct (Rle_dec a 0); [reflexivity|contradiction].
  - lra.
  - exact HG1.
  - intros e es Hin. now apply timed_in in Hin.
  - intros e es k Hin Hk. destruct (EL e es k Hin Hk) as [[F1 F2] (L1 & L2 & L3)]. split; [|split].
    + eapply Forall_impl; [|exact L1]. intros [x f] [Hx Hf]. split; [lia|exact Hf].
    + exact L2.
    + intros H. rewrite (L3 H), (F1 H). auto.
  - intros e es k Hin Hk. now apply EL with e.
Qed.
End Direction.

Lemma column_fun (im : image R) j : col_fun im j = col_of (column_of im j).
Proof. apply functional_extensionality. intros z. unfold col_fun, col_of. now rewrite nth_column. Qed.
(** In a direction with such traps, or without traps, every column is changed by the same map. *)
Lemma one_direction_map d n : (0 < n)%nat -> gentle_direction d n -> exists gain G, 0 < gain <= 1 /\ tame gain 0 0 G /\
  forall im cols tw, shape n cols im -> (forall i j, 0 <= pixel im i j) -> tw = whole n (d_offset d) \/ tw = None ->
  exists im', match d_traps d with None => Ok (im, the_roe d)
      | Some traps => clock_direction im d (the_roe d) traps (py_range 0 (Z.of_nat n)) (py_range 0 (Z.of_nat cols)) tw end = Ok (im', the_roe d) /\
    shape n cols im' /\ (forall i j, 0 <= pixel im' i j) /\ forall j, (j < cols)%nat -> column_of im' j = G (column_of im j).
Proof.
  intros Hn [_ [->|(c & traps & dwell & dt & group & Hset & Hall & Hone & Hm)]].
  - exists 1, (fun x => x). split; [lra|]. split; [apply tame_id|]. intros im cols tw Hs Hp _. exists im. auto.
  - destruct (direction_tame d n c traps dwell dt group Hset Hone Hm) as (gain & Hg & HT). exists gain, (direction_map d n c traps). split; [exact Hg|]. split; [exact HT|].
    intros im cols tw Hs Hp Htw. rewrite (ps_traps _ _ _ _ _ _ Hset).
    destruct (full_clocking im d c traps dwell dt (py_range 0 (Z.of_nat cols)) tw n cols Hset Hall Htw Hs Hn Hp)
      as (im' & E & G1 & G2 & G3 & G4); [apply range_in_range|apply py_range_nodup|]. exists im'. split; [exact E|]. split; [exact G1|]. split; [exact G2|].
    intros j Hj. apply (nth_ext _ _ 0 0).
    + rewrite (tm_length _ _ _ _ HT), (column_length im' n cols j G1), (column_length im n cols j Hs). reflexivity.
    + intros i Hi. rewrite (column_length im' n cols j G1) in Hi. rewrite nth_column, (G4 i j Hi) by (apply in_py_range; lia).
      unfold direction_map, list_reads. rewrite (column_length im n cols j Hs), <- column_fun.
      rewrite (nth_indep _ 0 (readout (site_of c (groups_in traps)) (trap_phases c) (timed_steps (the_roe d)) (full_passes n (d_offset d)) (col_fun im j) (Z.of_nat 0))) by (rewrite map_length, seq_length; exact Hi).
      rewrite (map_nth (fun i => readout (site_of c (groups_in traps)) (trap_phases c) (timed_steps (the_roe d)) (full_passes n (d_offset d)) (col_fun im j) (Z.of_nat i))). now rewrite seq_nth.
Qed.
Lemma transposed_column (im : image R) rows cols i : shape rows cols im -> (0 < rows)%nat -> (i < rows)%nat -> column_of (transpose im) i = nth i im [].
Proof.
  intros Hs Hr Hi.
  assert (S' : shape cols rows (transpose im)) by (apply transpose_shape; assumption). pose proof Hs as [HL HF].
  assert (LR : length (nth i im []) = cols) by (rewrite Forall_forall in HF; apply HF, nth_In; lia).
  apply (nth_ext _ _ 0 0); [rewrite (column_length (transpose im) cols rows i S'), LR; reflexivity|].
  intros j Hj. rewrite nth_column, (transpose_pixel_all rows cols) by assumption. reflexivity.
Qed.

(** ** Both directions *)
Section Both.
Context (parallel serial : direction R) (rows cols : nat).
Hypothesis Hr : (0 < rows)%nat.
Hypothesis Hc : (0 < cols)%nat.
Hypothesis Hpar : gentle_direction parallel rows.
Hypothesis Hser : gentle_direction serial cols.
Definition nonneg (im : image R) : Prop := forall i j, 0 <= pixel im i j.
Lemma both_map : exists gain F, 0 < gain <= 1 /\ tame gain 0 0 F /\
  forall im, shape rows cols im -> nonneg im ->
  exists im', add_cti im parallel serial None = Ok (im', the_roe parallel, the_roe serial) /\ shape rows cols im' /\ nonneg im' /\ concat im' = F (concat im).
Proof.
  destruct (one_direction_map parallel rows Hr Hpar) as (g1 & G1 & Hg1 & T1 & A1). destruct (one_direction_map serial cols Hc Hser) as (g2 & G2 & Hg2 & T2 & A2).
  exists (g1 * g2), (fun x => on_rows cols G2 (on_columns cols G1 x)). split; [split; [apply Rmult_lt_0_compat; lra|rewrite <- (Rmult_1_l 1); apply Rmult_le_compat; lra]|].
  split; [apply (tame_compose g1 g2 0 0 0 (on_columns cols G1) (on_rows cols G2)); [lra|apply on_columns_tame; assumption|apply on_rows_tame; assumption]|].
  intros im Hs Hp. pose proof Hs as [Lim _]. pose proof (MainReadoutFacts.shape_columns rows cols im Hs Hr) as Ncol. destruct Hpar as [Wp _]. destruct Hser as [Ws _].
  unfold add_cti. rewrite Wp, Ws, Lim, Ncol. cbn [resolve_window resolve_time_window bind].
  destruct (A1 im cols (whole rows (d_offset parallel)) Hs Hp (or_introl eq_refl)) as (im1 & E1 & S1 & P1 & C1).
  change (Some (py_range 0 (Z.of_nat (rows + d_offset parallel)))) with (whole rows (d_offset parallel)). rewrite E1. cbn [bind].
  assert (F1 : concat im1 = on_columns cols G1 (concat im)) by (apply (columns_flat cols Hc G1 g1 T1 im im1 rows Hs S1 C1)).
  assert (St : shape cols rows (transpose im1)) by (apply transpose_shape; assumption).
  assert (Pt : nonneg (transpose im1)) by (intros i j; rewrite (transpose_pixel_all rows cols) by assumption; apply P1).
  destruct (A2 (transpose im1) rows None St Pt (or_intror eq_refl)) as (im2 & E2 & S2 & P2 & C2).
  assert (S2' : shape rows cols (transpose im2)) by (apply transpose_shape; assumption).
  assert (P2' : nonneg (transpose im2)) by (intros i j; rewrite (transpose_pixel_all cols rows) by assumption; apply P2).
  assert (F2 : concat (transpose im2) = on_rows cols G2 (concat im1)).
  { apply (rows_flat cols Hc G2 g2 T2 im1 (transpose im2) rows S1 S2'). intros i Hi. rewrite <- (transposed_column im1 rows cols i S1 Hr Hi), <- (C2 i Hi).
    rewrite <- (transposed_column (transpose im2) rows cols i S2' Hr Hi). f_equal. apply (RemoveFacts.image_ext _ _ cols rows); [apply transpose_shape; assumption|assumption|].
    intros a b Ha Hb. rewrite (transpose_pixel_all rows cols), (transpose_pixel_all cols rows) by assumption. reflexivity. }
  destruct (d_traps serial) as [traps|] eqn:Et.
  - rewrite E2. cbn [bind]. exists (transpose im2). split; [reflexivity|]. split; [exact S2'|]. split; [exact P2'|]. now rewrite F2, F1.
  - injection E2 as E2. subst im2. cbn [bind]. exists im1. split; [reflexivity|]. split; [exact S1|]. split; [exact P1|].
    rewrite <- F1, <- F2. f_equal. apply (RemoveFacts.image_ext _ _ rows cols); [assumption|assumption|].
    intros a b Ha Hb. rewrite (transpose_pixel_all cols rows), (transpose_pixel_all rows cols) by assumption. reflexivity.
Qed.

Lemma flat_ordered (a b : image R) : shape rows cols a -> shape rows cols b ->
  ((forall i j, (i < rows)%nat -> (j < cols)%nat -> pixel a i j <= pixel b i j) <-> Forall2 Rle (concat a) (concat b)).
Proof.
  intros Sa Sb. split.
  - intros H. assert (G : forall x y : list R, length x = length y -> (forall l, (l < length x)%nat -> nth l x 0 <= nth l y 0) -> Forall2 Rle x y).
    { induction x as [|u x IH]; intros [|v y] HL HN; try discriminate; constructor; [apply (HN 0%nat); cbn; lia|]. apply IH; [cbn in HL; lia|]. intros l Hl. apply (HN (S l)). cbn; lia. }
    apply G; [rewrite (concat_length cols Hc a rows Sa), (concat_length cols Hc b rows Sb); reflexivity|]. intros l Hl. rewrite (concat_length cols Hc a rows Sa) in Hl.
    pose proof (Nat.div_mod l cols ltac:(lia)) as E. pose proof (Nat.mod_upper_bound l cols ltac:(lia)) as Hm.
    assert (Hd : (l / cols < rows)%nat) by (apply Nat.div_lt_upper_bound; lia).
    replace l with (l / cols * cols + l mod cols)%nat by lia. rewrite !(concat_nth cols Hc _ rows) by assumption. now apply H.
  - intros H i j Hi Hj. rewrite <- (concat_nth cols Hc a rows), <- (concat_nth cols Hc b rows) by assumption. apply (at_ordered _ _ (i * cols + j) H).
Qed.
Lemma flat_equal (a b : image R) : shape rows cols a -> shape rows cols b -> concat a = concat b -> a = b.
Proof.
  intros Sa Sb E. apply (RemoveFacts.image_ext _ _ rows cols); [assumption|assumption|]. intros i j Hi Hj. rewrite <- (concat_nth cols Hc a rows), <- (concat_nth cols Hc b rows) by assumption. now rewrite E.
Qed.
Lemma flat_nonneg (a : image R) : nonneg a -> Forall (Rle 0) (concat a).
Proof.
  intros H. apply Forall_forall. intros x Hx. apply in_concat in Hx. destruct Hx as (r & Hr' & Hx). apply (In_nth _ _ []) in Hr'. destruct Hr' as (i & Hi & <-).
  apply (In_nth _ _ 0) in Hx. destruct Hx as (j & Hj & <-). apply (H i j).
Qed.
Lemma grid_order a b : shape rows cols a -> shape rows cols b -> nonneg a -> (forall i j, (i < rows)%nat -> (j < cols)%nat -> pixel a i j <= pixel b i j) ->
  exists a' b', add_cti a parallel serial None = Ok (a', the_roe parallel, the_roe serial) /\
    add_cti b parallel serial None = Ok (b', the_roe parallel, the_roe serial) /\
    forall i j, (i < rows)%nat -> (j < cols)%nat -> pixel a' i j <= pixel b' i j.
Proof.
  intros Sa Sb Pa Hab. destruct both_map as (gain & F & Hg & HT & HF).
  assert (Pb : nonneg b).
  { intros i j. destruct (Nat.lt_ge_cases i rows) as [Hi|Hi]; [destruct (Nat.lt_ge_cases j cols) as [Hj|Hj]|].
    - specialize (Hab i j Hi Hj). specialize (Pa i j). lra.
    - unfold pixel. rewrite nth_overflow; [cbn; rnum; lra|]. destruct Sb as [Lb Fb]. rewrite Forall_forall in Fb. rewrite (Fb (nth i b [])); [exact Hj|]. apply nth_In. lia.
    - unfold pixel. destruct Sb as [Lb Fb]. rewrite (nth_overflow b) by lia. destruct j; cbn; rnum; lra. }
  destruct (HF a Sa Pa) as (a' & Ea & Sa' & Pa' & Fa). destruct (HF b Sb Pb) as (b' & Eb & Sb' & Pb' & Fb).
  exists a', b'. split; [exact Ea|]. split; [exact Eb|]. apply flat_ordered; [assumption|assumption|]. rewrite Fa, Fb. apply (tm_mono _ _ _ _ HT). now apply flat_ordered.
Qed.
Lemma grid_apart a b : shape rows cols a -> shape rows cols b -> nonneg a -> nonneg b ->
  exists a' b', add_cti a parallel serial None = Ok (a', the_roe parallel, the_roe serial) /\
    add_cti b parallel serial None = Ok (b', the_roe parallel, the_roe serial) /\ image_apart a' b' <= image_apart a b.
Proof.
  intros Sa Sb Pa Pb. destruct both_map as (gain & F & Hg & HT & HF).
  destruct (HF a Sa Pa) as (a' & Ea & Sa' & Pa' & Fa). destruct (HF b Sb Pb) as (b' & Eb & Sb' & Pb' & Fb).
  exists a', b'. split; [exact Ea|]. split; [exact Eb|]. unfold image_apart. rewrite Fa, Fb. apply (tame_apart gain 0 0 F); [exact HT|].
  now rewrite (concat_length cols Hc a rows Sa), (concat_length cols Hc b rows Sb).
Qed.
Lemma grid_injective a b out pr sr pr' sr' : shape rows cols a -> shape rows cols b -> nonneg a -> nonneg b ->
  add_cti a parallel serial None = Ok (out, pr, sr) -> add_cti b parallel serial None = Ok (out, pr', sr') -> a = b.
Proof.
  intros Sa Sb Pa Pb Ea' Eb'. destruct both_map as (gain & F & Hg & HT & HF).
  destruct (HF a Sa Pa) as (a' & Ea & Sa' & Pa' & Fa). destruct (HF b Sb Pb) as (b' & Eb & Sb' & Pb' & Fb). rewrite Ea in Ea'. rewrite Eb in Eb'. injection Ea' as -> _ _. injection Eb' as -> _ _.
  apply (flat_equal a b Sa Sb). apply (tame_injective gain 0 0 F HT (proj1 Hg)); [now rewrite (concat_length cols Hc a rows Sa), (concat_length cols Hc b rows Sb)|now apply flat_nonneg|now apply flat_nonneg|congruence].
Qed.

(** ** Recovery *)
Lemma gentle_plain d n : gentle_direction d n -> plain_direction d n.
Proof. intros [H1 [H|(c & traps & dwell & dt & group & H & _)]]; split; auto. right. exists c, traps, dwell, dt. exact H. Qed.
Lemma limit_nonneg d n i x : change_limit d n i x -> 0 <= x.
Proof.
  assert (A : forall c traps dwell dt, plain_setting d n c traps dwell dt -> 0 <= all_shares c * SpecBound.traps_per_pixel (groups_in traps)).
  { intros c traps dwell dt H. apply Rmult_le_pos.
    - unfold all_shares. pose proof (pc_share _ (ps_plain _ _ _ _ _ _ H)) as S. induction (seq 0 (ccd_n_phases c)) as [|k l IH]; [cbn; lra|]. cbn [map]. rewrite Rsum_cons. specialize (S k). lra.
    - unfold SpecBound.traps_per_pixel. destruct (ps_instant _ _ _ _ _ _ H) as [_ HI]. induction HI as [|g l [_ Hg] HI IH]; [cbn; lra|]. cbn [map]. rewrite Rsum_cons.
      assert (0 <= in_pixel g) by (apply physical_density; eapply Forall_impl; [|exact Hg]; intros t [Ht _]; exact Ht). unfold SpecRecovery.traps_per_pixel in *. lra. }
  intros [H|c traps dwell dt H|c traps dwell dt H]; [lra| |].
  - apply Rmult_le_pos; [apply pos_INR|]. eapply A, H.
  - apply Rmult_le_pos; [|apply Rmult_le_pos; [apply pos_INR|eapply A, H]]. apply Rplus_le_le_0_compat; [apply pos_INR|]. destruct i; [lra|apply pos_INR].
Qed.
Lemma shape_nonneg (im : image R) : shape rows cols im -> (forall i j, (i < rows)%nat -> (j < cols)%nat -> 0 <= pixel im i j) -> nonneg im.
Proof.
  intros Sb H i j. destruct (Nat.lt_ge_cases i rows) as [Hi|Hi]; [destruct (Nat.lt_ge_cases j cols) as [Hj|Hj]|].
  - now apply H.
  - unfold pixel. rewrite nth_overflow; [cbn; rnum; lra|]. destruct Sb as [Lb Fb]. rewrite Forall_forall in Fb. rewrite (Fb (nth i im [])); [exact Hj|]. apply nth_In. lia.
  - unfold pixel. destruct Sb as [Lb Fb]. rewrite (nth_overflow im) by lia. destruct j; cbn; rnum; lra.
Qed.
Lemma grid_recover x : shape rows cols x -> enough_charge parallel serial rows cols x ->
  exists im, add_cti x parallel serial None = Ok (im, the_roe parallel, the_roe serial) /\
  exists C r, 0 <= C /\ 0 <= r < 1 /\ forall k, exists est, remove_cti im k parallel serial None = Ok est /\ shape rows cols est /\
    image_apart est x <= C * r ^ k.
Proof.
  intros Sx Hx. destruct both_map as (gain & F & Hg & HT & HF).
  assert (Px : forall i j, (i < rows)%nat -> (j < cols)%nat -> 0 < pixel x i j).
  { intros i j Hi Hj. destruct (Hx i j Hi Hj) as (p & s & Lp & Ls & H). apply limit_nonneg in Lp. apply limit_nonneg in Ls. lra. }
  assert (Nx : nonneg x) by (apply shape_nonneg; [exact Sx|]; intros i j Hi Hj; left; now apply Px).
  assert (BD : forall a, shape rows cols a -> nonneg a -> exists a', add_cti a parallel serial None = Ok (a', the_roe parallel, the_roe serial) /\ shape rows cols a' /\ concat a' = F (concat a) /\
    forall i j p s, (i < rows)%nat -> (j < cols)%nat -> change_limit parallel rows i p -> change_limit serial cols j s -> Rabs (pixel a' i j - pixel a i j) <= p + s).
  { intros a Sa Pa. destruct (HF a Sa Pa) as (a' & Ea & Sa' & _ & Fa). destruct (both_bounded a parallel serial rows cols Sa Hr Hc Pa (gentle_plain _ _ Hpar) (gentle_plain _ _ Hser)) as (a2 & E2 & _ & B).
    rewrite Ea in E2. injection E2 as <-. exists a'. auto. }
  destruct (BD x Sx Nx) as (im & E & Si & Fi & Bi). exists im. split; [exact E|].
  destruct (converges gain 0 0 F HT Hg (concat x)) as (C & r & HC & Hr1 & HCr).
  { apply Forall_forall. intros v Hv. apply (In_nth _ _ 0) in Hv. destruct Hv as (l & Hl & <-). rewrite (concat_length cols Hc x rows Sx) in Hl.
    pose proof (Nat.div_mod l cols ltac:(lia)) as El. pose proof (Nat.mod_upper_bound l cols ltac:(lia)) as Hm.
    assert (Hd : (l / cols < rows)%nat) by (apply Nat.div_lt_upper_bound; lia).
    replace l with (l / cols * cols + l mod cols)%nat by lia. rewrite (concat_nth cols Hc x rows) by assumption. now apply Px. }
  exists C, r. split; [exact HC|]. split; [exact Hr1|].
  assert (ST : forall k, exists est, remove_cti im k parallel serial None = Ok est /\ shape rows cols est /\ concat est = corrected F (F (concat x)) k /\
    forall i j p s, (i < rows)%nat -> (j < cols)%nat -> change_limit parallel rows i p -> change_limit serial cols j s -> Rabs (pixel est i j - pixel x i j) <= 2 * (p + s)).
  { induction k as [|k (est & Ee & Se & Ke & Be)].
    - exists im. split; [reflexivity|]. split; [exact Si|]. split; [exact Fi|]. intros i j p s Hi Hj Lp Ls. specialize (Bi i j p s Hi Hj Lp Ls). apply limit_nonneg in Lp. apply limit_nonneg in Ls. lra.
    - assert (Ne : nonneg est).
      { apply shape_nonneg; [exact Se|]. intros i j Hi Hj. destruct (Hx i j Hi Hj) as (p & s & Lp & Ls & H). specialize (Be i j p s Hi Hj Lp Ls). apply Rabs_le_between in Be. lra. }
      destruct (BD est Se Ne) as (added & Ea & Sa & Fa & Ba).
      set (out := image_zip nadd est (image_zip nsub im added)).
      assert (So : shape rows cols out) by (unfold out; repeat (apply image_zip_shape; try assumption)).
      assert (Po : forall i j, (i < rows)%nat -> (j < cols)%nat -> pixel out i j = pixel est i j + (pixel im i j - pixel added i j)).
      { intros i j Hi Hj. unfold out. rewrite (image_zip_pixel _ _ _ rows cols) by (try apply image_zip_shape; assumption).
        rewrite (image_zip_pixel _ _ _ rows cols) by assumption. reflexivity. }
      exists out. split; [|split; [exact So|split]].
      + apply (remove_S im parallel serial None rows cols Si Hr Hc k out). exists est, added, (the_roe parallel), (the_roe serial).
        split; [exact Ee|]. split; [exact Ea|]. split; [exact So|exact Po].
      + cbn [corrected]. cbv zeta. rewrite <- Ke, <- Fa, <- Fi.
        apply (flat_ext cols Hc rows); [exact So| |].
        * rewrite plus_list_length; rewrite ?(concat_length cols Hc est rows Se), ?(concat_length cols Hc im rows Si), ?(concat_length cols Hc added rows Sa); reflexivity.
        * intros i j Hi Hj. rewrite plus_list_nth by (rewrite ?(concat_length cols Hc est rows Se), ?(concat_length cols Hc im rows Si), ?(concat_length cols Hc added rows Sa); nia).
          rewrite !(concat_nth cols Hc _ rows) by assumption. symmetry. now apply Po.
      + intros i j p s Hi Hj Lp Ls. rewrite (Po i j Hi Hj). specialize (Ba i j p s Hi Hj Lp Ls). specialize (Bi i j p s Hi Hj Lp Ls).
        replace (pixel est i j + (pixel im i j - pixel added i j) - pixel x i j) with ((pixel im i j - pixel x i j) - (pixel added i j - pixel est i j)) by lra.
        apply Rabs_le_between in Ba. apply Rabs_le_between in Bi. apply Rabs_le_between. lra. }
  intros k. destruct (ST k) as (est & Ee & Se & Ke & _). exists est. split; [exact Ee|]. split; [exact Se|]. unfold image_apart. rewrite Ke. apply HCr.
Qed.
End Both.
