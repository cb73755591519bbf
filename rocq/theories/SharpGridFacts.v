(** * Calls whose packets stay between two numbers of electrons: change, order and recovery. *)
From Coq Require Import ZArith List Bool Reals Lra Lia Sorted.
From Coquelicot Require Import Rcomplements Rbar Hierarchy RInt.
From Verif Require Import Num Py RFacts CCDModel TrapsModel ManagerModel ROEModel ClockModel MainModel Spec SpecROE SpecImage SpecReadout SpecColumn SpecBound SpecRecovery SpecPhases SpecWork SpecExpressOrder SpecInjectionOrder SpecWindowOrder SpecAbove SpecSharp
  CallFacts   WmFacts ArrayFacts CutFacts InstantFacts ClockFacts MainFacts ShapeFacts ColumnFacts ReadoutImage RemoveFacts
  ROEClockFacts ROEMatrixFacts ROEExpressFacts WorkFacts ReadoutFull ReadoutForced ReadoutSpecFacts ReadoutColumnFacts OrderFacts TameFacts DepthFacts BoundFacts MainReadoutFacts RecoverImageFacts PhaseOrderFacts LiftFacts GridFacts SteadyFacts ContractFacts ExpressOrderFacts ReadoutInjection ExpressGridFacts InjectionGridFacts WindowFacts WindowMainFacts MaskFacts WindowGridFacts AboveFacts AboveGridFacts InverseFacts MixtureFacts SharpFacts.
Import ListNotations.
Open Scope R_scope.

Section Narrow.
Context (d : direction R) (n cols : nat) (floor top lose back : R).
Hypothesis Hn : (0 < n)%nat.
Hypothesis Hc : (0 < cols)%nat.
Hypothesis Hd : narrow d n floor top lose back.
Notation off := (d_offset d).
Notation kept := (kept_between floor top lose back off n cols).
Definition amounts (c : ccd R) (group : list (trap R)) (full beta dwell lo ba : R) : Prop :=
  let grp := map (thinned (share c 0)) group in let v := depth full beta (top + in_pixel grp) in
  Forall physical grp /\ 0 < full /\ 0 < beta /\ lo = in_pixel grp * v /\ ba = traps_emptied dwell grp * v /\ 0 <= lo <= lose /\ 0 <= ba <= back /\ ba <= in_pixel grp /\ 0 <= v <= 1.
Lemma narrow_facts : 0 < floor /\ exists c traps dwell dt group full beta lo ba, plain_setting d n c traps [dwell] dt /\ 0 <= dwell /\ ccd_n_phases c = 1%nat /\ groups_in traps = [group] /\ phase_params c 0 0 beta full /\ beta < 1 /\
  (forall x, per_pass dt (n + d_offset d) (passes_for (n + d_offset d) (d_express d)) x ->
       x * in_pixel (map (thinned (share c 0)) group) * depth full beta floor < floor) /\ amounts c group full beta dwell lo ba.
Proof.
  destruct Hd as [_ Hf (c & traps & dwell & dt & group & full & beta & Hset & H0 & H1 & H2 & H3 & H4 & H5 & H6 & H7)]. cbv zeta in H6, H7. split; [exact Hf|].
  exists c, traps, dwell, dt, group, full, beta. do 2 eexists. split; [exact Hset|]. split; [exact H0|]. split; [exact H1|]. split; [exact H2|]. split; [exact H3|]. split; [exact H4|]. split; [exact H5|]. unfold amounts. cbv zeta.
  pose proof (ps_plain _ _ _ _ _ _ Hset) as Hpl. destruct (pc_phase _ Hpl 0 ltac:(lia)) as (fu & be & [_ R2 R3] & R4 & R5). destruct H3 as [Q1 Q2 Q3].
  assert (F : 0 < full) by congruence. assert (B : 0 < beta) by congruence.
  set (grp := map (thinned (share c 0)) group) in *. set (rho := in_pixel grp) in *.
  assert (PH : Forall physical grp).
  { pose proof (ps_instant _ _ _ _ _ _ Hset) as [_ HI]. rewrite H2 in HI. inversion HI as [|? ? [Hne HG] _]; subst. apply thinned_physical; [apply (pc_share _ Hpl)|]. eapply Forall_impl; [|exact HG]. intros t [Ht _]. exact Ht. }
  pose proof (density_nonneg grp PH) as D0. pose proof (depth_range full beta (top + rho) F B) as V. set (v := depth full beta (top + rho)) in *.
  pose proof (emptied_range grp dwell PH H0) as ER. fold rho in ER, D0.
  assert (0 <= rho * v) by (apply Rmult_le_pos; lra). assert (0 <= traps_emptied dwell grp * v) by (apply Rmult_le_pos; lra).
  assert (traps_emptied dwell grp * v <= traps_emptied dwell grp * 1) by (apply Rmult_le_compat_l; lra).
  repeat split; try assumption; try lra. apply (Rle_trans _ (traps_emptied dwell grp * 1)); [exact H8|lra].
Qed.
Lemma kept_nonneg im : shape n cols im -> kept im -> nonneg im.
Proof.
  intros Si K. apply (shape_nonneg n cols Hn Hc im Si). intros i j Hi Hj. destruct (K i j Hi Hj) as [K1 _]. destruct narrow_facts as (Hf & c & traps & dwell & dt & group & full & beta & lo & ba & _ & _ & _ & _ & _ & _ & _ & A).
  destruct A as (_ & _ & _ & _ & _ & A & _). assert (0 <= INR (i + 1 + off) * lose) by (apply Rmult_le_pos; [apply pos_INR|lra]). lra.
Qed.
Lemma narrow_map : exists gain big F rp rs, 0 < gain <= 1 /\ 0 <= big /\ steady gain big F /\
  forall im, shape n cols im -> kept im ->
  exists im', add_cti im d no_direction None = Ok (im', rp, rs) /\ shape n cols im' /\ nonneg im' /\ concat im' = F (concat im) /\
    forall i j, (i < n)%nat -> (j < cols)%nat -> - (INR (i + 1 + off) * lose) <= pixel im' i j - pixel im i j <= INR (i + 1 + off) * back.
Proof.
  destruct narrow_facts as (Hfl & c & traps & dwell & dt & group & full & beta & lo & ba & Hset & Hdw & Hph & Hone & Hpar & Hbeta & Hslow & HA).
  pose proof (na_window _ _ _ _ _ _ Hd) as HW. pose proof (selected_all d n HW) as HS0.
  assert (Hw : window_ok (selected (d_window d) n) n) by (rewrite HS0; now apply window_ok_range).
  assert (Hs : StronglySorted Z.lt (selected (d_window d) n)) by (rewrite HS0; apply ExpressGridFacts.range_sorted).
  destruct (call_times None _ n n (d_offset d) ltac:(constructor) Hw (Nat.le_refl n) Hs Hn) as (tw & lines & Etw & Htw & Hl).
  destruct (windowed_call d n n c traps [dwell] dt (Some tw) Hw (Nat.le_refl n) Htw Hset) as (em & mon & EE & HC).
  set (W := selected (d_window d) n) in *. assert (Ecols : columns_ok (selected (d_window (no_direction : direction R)) cols) cols).
  { rewrite (selected_all no_direction cols eq_refl). apply (window_columns _ cols); [apply ExpressGridFacts.range_sorted|now apply window_ok_range|lia]. }
  set (passes := map (fun '(e, m) => cells_of W e m (map (fun _ => false) e)) (combine em mon)) in *.
  set (M := max_multiplier dt (n + d_offset d) (passes_for (n + d_offset d) (d_express d))).
  assert (GC : Forall (good_cells M n) passes) by exact (window_passes_good _ n dt (d_express d) (d_offset d) (Some tw) em mon Hs Hw (ps_express _ _ _ _ _ _ Hset) Htw EE).
  assert (HM : 1 <= M) by (apply mm_ge_1; apply express_used_pos; lia).
  assert (HK : timed_steps (the_roe d) = timed_steps (built (Standard true) [dwell] DFloat true true)) by (rewrite (plain_roe _ _ _ _ _ _ Hset); reflexivity).
  assert (HS : forall k, (k < ccd_n_phases c)%nat -> exists full beta, phase_params c k 0 beta full /\ slow_growth floor M (in_pixel (map (thinned (share c k)) group)) beta full).
  { intros k Hk. assert (k = 0%nat) by lia. subst k. exists full, beta. split; [exact Hpar|]. right. split; [exact Hbeta|]. apply Hslow. apply multiplier_per_pass. apply express_used_pos. lia. }
  set (steps := timed_steps (the_roe d)) in *.
  pose proof (ps_plain _ _ _ _ _ _ Hset) as Hpl. pose proof (ps_phases _ _ _ _ _ _ Hset) as Hph'. pose proof (ps_instant _ _ _ _ _ _ Hset) as Hin.
  destruct (soft_steady steps c traps dwell group M floor Hpl Hph' Hin Hone HK HM Hfl HS n passes GC) as (gain & big & Hg & Hbig & HT).
  set (G := soft_map steps c traps floor passes) in *.
  exists gain, (Rmax 1 big), (some_columns cols G (listed (selected (d_window (no_direction : direction R)) cols))), (the_roe d), (the_roe no_direction). split; [exact Hg|]. split; [pose proof (Rmax_l 1 big); lra|].
  assert (HT' : steady gain (Rmax 1 big) G) by (apply (steady_weaken gain big); [exact HT|apply Rmax_r]).
  split; [apply some_columns_steady; (assumption || lra || apply Rmax_l)|].
  intros im Sh HK1. pose proof (kept_nonneg im Sh HK1) as Hp. pose proof Sh as [Lim _]. pose proof (MainReadoutFacts.shape_columns n cols im Sh Hn) as Ncol.
  unfold add_cti. rewrite Lim, Ncol, !resolve_selected. fold W. rewrite Etw. cbn [bind].
  destruct (HC im cols _ Sh Hp Ecols) as (im1 & E1 & S1 & P1 & U & V). rewrite (ps_traps _ _ _ _ _ _ Hset). cbn [tw_arg] in E1.
  replace (Some (py_range (fst tw) (snd tw))) with (tw_arg (Some tw)) by (destruct tw; reflexivity). rewrite E1. cbn [bind d_traps no_direction]. exists im1. split; [reflexivity|]. split; [exact S1|]. split; [exact P1|].
  destruct HA as (PH & F0 & B0 & Elo & Eba & Llo & Lba & Lrho & V1). set (grp := map (thinned (share c 0)) group) in *. set (rho := in_pixel grp) in *. set (v := depth full beta (top + rho)) in *.
  assert (Hk0 : forall k, In k (trap_phases c) -> k = 0%nat) by (intros k Hk; apply soft_phase in Hk; lia).
  assert (Efull : nth 0 (ccd_full_well c) 1 = full /\ nth 0 (ccd_fill_power c) 1 = beta).
  { destruct Hpar as [Q1 Q2 Q3]. split; apply nth_error_nth; assumption. }
  assert (FT : floor <= top).
  { destruct (HK1 0%nat 0%nat Hn Hc) as [A1 A2]. assert (0 <= INR (0 + 1 + off) * lose) by (apply Rmult_le_pos; [apply pos_INR|lra]). assert (0 <= INR (0 + 1 + off) * back) by (apply Rmult_le_pos; [apply pos_INR|lra]). lra. }
  assert (Kn : 0 <= INR (length steps) * INR (length (trap_phases c)) <= 1).
  { assert (L1 : INR (length steps) <= 1) by (change 1 with (INR 1); apply le_INR; rewrite HK; apply steps_le).
    assert (L2 : INR (length (trap_phases c)) <= 1).
    { change 1 with (INR 1). apply le_INR. unfold trap_phases. eapply Nat.le_trans; [apply MixtureFacts.filter_len|]. rewrite seq_length. lia. }
    pose proof (pos_INR (length steps)). pose proof (pos_INR (length (trap_phases c))). split; [apply Rmult_le_pos; assumption|]. rewrite <- (Rmult_1_r 1). apply Rmult_le_compat; assumption. }
  set (KK := INR (length steps) * INR (length (trap_phases c))) in *.
  set (Wz := fun z => Rsum (map (weight (own z)) passes) * KK).
  assert (W0 : forall z, 0 <= Wz z).
  { intros z. apply Rmult_le_pos; [|apply Kn]. apply Rsum_nonneg, Forall_map. eapply Forall_impl; [|exact GC]. intros cells [_ Hcells]. unfold weight. apply Rsum_nonneg, Forall_map. eapply Forall_impl; [|exact Hcells]. intros [[row mult] sv] (_ & Hm & _). cbn in Hm. apply Rmult_le_pos; [lra|apply own_pos]. }
  assert (W1 : forall i, Wz (Z.of_nat i) <= INR (i + 1 + off)).
  { intros i. pose proof (window_weight W n dt (d_express d) (d_offset d) (Some tw) em mon Hs Hw (ps_express _ _ _ _ _ _ Hset) Htw EE i) as WW. fold passes in WW. unfold Wz.
    eapply Rle_trans; [|exact WW]. rewrite <- (Rmult_1_r (Rsum _)) at 2. apply Rmult_le_compat_l; [|apply Kn].
    apply Rsum_nonneg, Forall_map. eapply Forall_impl; [|exact GC]. intros cells [_ Hcells]. unfold weight. apply Rsum_nonneg, Forall_map. eapply Forall_impl; [|exact Hcells]. intros [[row mult] sv] (_ & Hm & _). cbn in Hm. apply Rmult_le_pos; [lra|apply own_pos]. }
  assert (WI : forall j, (j < cols)%nat -> readout (site_of c (groups_in traps)) (trap_phases c) steps passes (col_fun im j) = readout (soft_site c traps floor) (trap_phases c) steps passes (col_fun im j) /\
    forall z, (0 <= z < Z.of_nat n)%Z -> col_fun im j z - Wz z * lo <= readout (soft_site c traps floor) (trap_phases c) steps passes (col_fun im j) z <= col_fun im j z + Wz z * ba).
  { intros j Hj.
    apply (readout_within (soft_site c traps floor) (site_of c (groups_in traps)) (trap_phases c) steps (fun k => map (thinned (share c k)) group) (soft_slope c floor) (fun _ => v) floor top lo ba (fun z => (0 <= z < Z.of_nat n)%Z))
      with (low := fun z => col_fun im j z - Wz z * lo) (high := fun z => col_fun im j z + Wz z * ba).
    - intros k _. apply (soft_groups c traps group floor Hone).
    - intros k _. apply (soft_physical c traps group Hpl Hin Hone).
    - intros k Hk. now apply (soft_share c traps group M floor Hpl Hph' Hin Hone HM Hfl HS).
    - intros k a Hk. now apply (soft_range c traps group M floor Hpl Hph' Hfl HS).
    - intros k a Hk. now apply soft_zero.
    - intros e es. apply (soft_time steps dwell HK).
    - intros e es k H1 H2. exact (soft_electrode steps c dwell Hph' HK e es k H1 H2).
    - intros k. reflexivity.
    - intros k a Hk Ha. now apply soft_agrees.
    - lra.
    - intros k a Hk Ha. apply Hk0 in Hk. subst k. cbn [soft_site site_well]. destruct Efull as [-> ->]. unfold soft_well. destruct (Rle_dec 1 beta); [lra|].
      unfold v. rewrite <- (bottomed_high full beta floor (top + rho)) by (pose proof (density_nonneg grp PH) as D0; fold rho in D0; lra).
      pose proof (bottomed_grows full beta floor F0 ltac:(lra) Hfl a (top + rho) ltac:(lra)). lra.
    - intros k _. exact V1.
    - intros k Hk. apply Hk0 in Hk. subst k. fold grp rho. lra.
    - lra.
    - lra.
    - intros k e es Hk He. apply Hk0 in Hk. subst k. fold grp. assert (e = dwell) as ->; [|lra].
      rewrite HK in He. unfold timed_steps in He. apply filter_In in He as [He _]. apply in_combine_l in He. cbn in He. destruct He as [He|[]]. now rewrite He.
    - intros z Hz. destruct (HK1 (Z.to_nat z) j ltac:(lia) Hj) as [A1 _]. pose proof (W1 (Z.to_nat z)) as A2. rewrite Z2Nat.id in A2 by lia. unfold col_fun.
      assert (Wz z * lo <= INR (Z.to_nat z + 1 + off) * lose) by (apply Rmult_le_compat; [apply W0|lra|exact A2|lra]). lra.
    - intros z Hz. destruct (HK1 (Z.to_nat z) j ltac:(lia) Hj) as [_ A1]. pose proof (W1 (Z.to_nat z)) as A2. rewrite Z2Nat.id in A2 by lia. unfold col_fun.
      assert (Wz z * ba <= INR (Z.to_nat z + 1 + off) * back) by (apply Rmult_le_compat; [apply W0|lra|exact A2|lra]). lra.
    - eapply Forall_impl; [|exact GC]. intros cells [_ Hcells]. eapply Forall_impl; [|exact Hcells]. intros cell (H1 & H2 & _). split; [exact H1|apply H2].
    - intros z Hz. fold KK. unfold Wz. lra. }
  split.
  - apply (some_columns_flat cols Hc G gain (Rmax 1 big) HT' _ im im1 n Sh S1). intros j Hj. apply (nth_ext _ _ 0 0).
    + destruct (listed _ j); [unfold G; rewrite (st_length _ _ _ HT)|]; rewrite (column_length im1 n cols j S1), (column_length im n cols j Sh); reflexivity.
    + intros i Hi. rewrite (column_length im1 n cols j S1) in Hi. rewrite nth_column. destruct (listed _ j) eqn:El.
      2: { rewrite nth_column. apply U. intros Hi'. apply listed_in in Hi'. congruence. }
      apply listed_in in El. rewrite (V i j Hi El). unfold G, soft_map. rewrite (column_length im n cols j Sh), (column_plus im j Hp), <- column_fun. rewrite nth_map_seq by exact Hi.
      apply (f_equal (fun f : column => f (Z.of_nat i))). now apply WI.
  - intros i j Hi Hj. assert (Ej : In (Z.of_nat j) (selected (d_window (no_direction : direction R)) cols)) by (rewrite (selected_all no_direction cols eq_refl); apply py_range_in; lia).
    rewrite (V i j Hi Ej). fold passes. destruct (WI j Hj) as [-> WB]. specialize (WB (Z.of_nat i) ltac:(lia)). unfold col_fun at 1 4 in WB. rewrite Nat2Z.id in WB. pose proof (W1 i) as A2. pose proof (W0 (Z.of_nat i)) as A3.
    assert (Wz (Z.of_nat i) * lo <= INR (i + 1 + off) * lose) by (apply Rmult_le_compat; lra). assert (Wz (Z.of_nat i) * ba <= INR (i + 1 + off) * back) by (apply Rmult_le_compat; lra).
    lra.
Qed.
End Narrow.

(** ** Recovery of images kept between two numbers of electrons *)
Section Region.
Context (parallel serial : direction R) (rows cols : nat) (low high : R) (lo hi : nat -> R).
Hypothesis Hr : (0 < rows)%nat.
Hypothesis Hc : (0 < cols)%nat.
Hypothesis Hlow : 0 <= low.
Hypothesis Hlo : forall i, 0 <= lo i.
Hypothesis Hhi : forall i, 0 <= hi i.
Context (rp rs : roe R) (time : option (list Z)) (gain big : R) (F : list R -> list R).
Hypothesis Hgain : 0 < gain <= 1.
Hypothesis Hbig : 0 <= big.
Hypothesis HT : steady gain big F.
Definition region (a b : nat -> R) (im : image R) : Prop := forall i j, (i < rows)%nat -> (j < cols)%nat -> low + a i <= pixel im i j <= high - b i.
Notation okay := (region lo hi).
Notation inner := (region (fun i => lo i + hi i) (fun i => lo i + hi i)).
Hypothesis HF : forall im, shape rows cols im -> okay im ->
  exists im', add_cti im parallel serial time = Ok (im', rp, rs) /\ shape rows cols im' /\ concat im' = F (concat im) /\
    forall i j, (i < rows)%nat -> (j < cols)%nat -> - lo i <= pixel im' i j - pixel im i j <= hi i.
Lemma okay_nonneg im : shape rows cols im -> okay im -> nonneg im.
Proof. intros S K. apply (shape_nonneg rows cols Hr Hc im S). intros i j Hi Hj. specialize (K i j Hi Hj). specialize (Hlo i). lra. Qed.
Lemma near_okay im est : inner im -> (forall i j, (i < rows)%nat -> (j < cols)%nat -> - hi i <= pixel est i j - pixel im i j <= lo i) -> okay est.
Proof. intros Hi1 B i j Hi Hj. specialize (Hi1 i j Hi Hj). specialize (B i j Hi Hj). cbv beta in Hi1. lra. Qed.
Lemma estimates_between im : shape rows cols im -> inner im ->
  forall k, exists est, remove_cti im k parallel serial time = Ok est /\ shape rows cols est /\ nonneg est /\ concat est = corrected F (concat im) k /\
    forall i j, (i < rows)%nat -> (j < cols)%nat -> - hi i <= pixel est i j - pixel im i j <= lo i.
Proof.
  intros Si Hin. assert (B0 : forall i j, (i < rows)%nat -> (j < cols)%nat -> - hi i <= pixel im i j - pixel im i j <= lo i).
  { intros i j Hi Hj. specialize (Hlo i). specialize (Hhi i). lra. }
  induction k as [|k (est & Ee & Se & Ne & Ke & Be)].
  - exists im. split; [reflexivity|]. split; [exact Si|]. split; [apply okay_nonneg; [exact Si|now apply (near_okay im im)]|]. split; [reflexivity|exact B0].
  - pose proof (near_okay im est Hin Be) as Oe. destruct (HF est Se Oe) as (added & Ea & Sa & Fa & Ba).
    set (out := image_zip nadd est (image_zip nsub im added)).
    assert (So : shape rows cols out) by (unfold out; repeat (apply image_zip_shape; try assumption)).
    assert (Po : forall i j, (i < rows)%nat -> (j < cols)%nat -> pixel out i j = pixel est i j + (pixel im i j - pixel added i j)).
    { intros i j Hi Hj. unfold out. rewrite (image_zip_pixel _ _ _ rows cols) by (try apply image_zip_shape; assumption).
      rewrite (image_zip_pixel _ _ _ rows cols) by assumption. reflexivity. }
    assert (Bo : forall i j, (i < rows)%nat -> (j < cols)%nat -> - hi i <= pixel out i j - pixel im i j <= lo i).
    { intros i j Hi Hj. rewrite (Po i j Hi Hj). specialize (Ba i j Hi Hj). lra. }
    exists out. split; [|split; [exact So|split; [apply okay_nonneg; [exact So|now apply (near_okay im out)]|split; [|exact Bo]]]].
    + apply (remove_S im parallel serial time rows cols Si Hr Hc k out). exists est, added, rp, rs.
      split; [exact Ee|]. split; [exact Ea|]. split; [exact So|exact Po].
    + cbn [corrected]. cbv zeta. rewrite <- Ke, <- Fa.
      apply (flat_ext cols Hc rows); [exact So| |].
      * rewrite plus_list_length; rewrite ?(concat_length cols Hc est rows Se), ?(concat_length cols Hc im rows Si), ?(concat_length cols Hc added rows Sa); reflexivity.
      * intros i j Hi Hj. rewrite plus_list_nth by (rewrite ?(concat_length cols Hc est rows Se), ?(concat_length cols Hc im rows Si), ?(concat_length cols Hc added rows Sa); nia).
        rewrite !(concat_nth cols Hc _ rows) by assumption. symmetry. now apply Po.
Qed.
Lemma between_nonneg im : shape rows cols im -> inner im -> forall k, Forall (Rle 0) (corrected F (concat im) k).
Proof. intros Si Hin k. destruct (estimates_between im Si Hin k) as (est & _ & _ & Ne & <- & _). now apply flat_nonneg. Qed.
Lemma undone_between im : shape rows cols im -> inner im ->
  exists x, shape rows cols x /\ okay x /\ add_cti x parallel serial time = Ok (im, rp, rs) /\
    (forall i j, (i < rows)%nat -> (j < cols)%nat -> - hi i <= pixel x i j - pixel im i j <= lo i) /\
    (forall y pr sr, shape rows cols y -> okay y -> add_cti y parallel serial time = Ok (im, pr, sr) -> y = x) /\
    forall n, exists est, remove_cti im n parallel serial time = Ok est /\ shape rows cols est /\
      image_apart est x <= scale_of gain big (rows * cols) * (1 - gain / 2) ^ n * image_apart im x.
Proof.
  intros Si Hin. pose proof (concat_length cols Hc im rows Si) as Li.
  destruct (corrected_limit gain big F HT Hbig Hgain (concat im) (between_nonneg im Si Hin)) as (l & El & Nl & Fl & (K & Kl) & Al). rewrite Li in El, Al.
  set (x := unflat rows cols l). assert (Cx : concat x = l) by (now apply unflat_concat). assert (Sx : shape rows cols x) by apply unflat_shape.
  assert (Bx : forall i j, (i < rows)%nat -> (j < cols)%nat -> - hi i <= pixel x i j - pixel im i j <= lo i).
  { intros i j Hi Hj. assert (Q : forall k, exists e, - hi i <= e - pixel im i j <= lo i /\ Rabs (e - pixel x i j) <= K * (1 - gain / 2) ^ k).
    { intros k. destruct (estimates_between im Si Hin k) as (est & _ & Se & _ & Ke & Be). exists (pixel est i j). split; [now apply Be|].
      specialize (Kl k (i * cols + j)%nat). rewrite <- Ke, (concat_nth cols Hc est rows) in Kl by assumption. unfold x. now rewrite unflat_pixel by assumption. }
    split.
    - assert (D : - hi i - (pixel x i j - pixel im i j) <= 0); [|lra]. apply (small_enough _ K (1 - gain / 2) ltac:(lra)). intros k. destruct (Q k) as (e & Q1 & Q2). apply Rabs_le_between in Q2. lra.
    - assert (D : (pixel x i j - pixel im i j) - lo i <= 0); [|lra]. apply (small_enough _ K (1 - gain / 2) ltac:(lra)). intros k. destruct (Q k) as (e & Q1 & Q2). apply Rabs_le_between in Q2. lra. }
  pose proof (near_okay im x Hin Bx) as Ox. destruct (HF x Sx Ox) as (im' & Ex & Si' & Fx & _).
  assert (Eim : im' = im) by (apply (flat_equal rows cols Hc im' im Si' Si); rewrite Fx, Cx; exact Fl). subst im'.
  exists x. split; [exact Sx|]. split; [exact Ox|]. split; [exact Ex|]. split; [exact Bx|]. split.
  - intros y pr sr Sy Oy Ey. destruct (HF y Sy Oy) as (im'' & Ey' & _ & Fy & _). rewrite Ey in Ey'. injection Ey' as <- _ _.
    pose proof (okay_nonneg y Sy Oy) as Ny. pose proof (okay_nonneg x Sx Ox) as Nx.
    apply (flat_equal rows cols Hc y x Sy Sx). apply (steady_injective gain big F HT (proj1 Hgain)); [now rewrite (concat_length cols Hc y rows Sy), (concat_length cols Hc x rows Sx)|now apply flat_nonneg|now apply flat_nonneg|congruence].
  - intros n. destruct (estimates_between im Si Hin n) as (est & Ee & Se & _ & Ke & _). exists est. split; [exact Ee|]. split; [exact Se|]. unfold image_apart. rewrite Ke, Cx. apply Al.
Qed.
Lemma noise_between a b : shape rows cols a -> shape rows cols b -> inner a -> inner b ->
  forall n, exists a' b', remove_cti a n parallel serial time = Ok a' /\ remove_cti b n parallel serial time = Ok b' /\
    image_apart a' b' <= scale_of gain big (rows * cols) * (1 + 2 / gain) * image_apart a b.
Proof.
  intros Sa Sb Ca Cb n. destruct (estimates_between a Sa Ca n) as (a' & Ea & _ & _ & Ka & _). destruct (estimates_between b Sb Cb n) as (b' & Eb & _ & _ & Kb & _). exists a', b'. split; [exact Ea|]. split; [exact Eb|].
  unfold image_apart. rewrite Ka, Kb. pose proof (concat_length cols Hc a rows Sa) as La. pose proof (concat_length cols Hc b rows Sb) as Lb.
  pose proof (runs_apart gain big F HT Hbig Hgain (corrected F (concat a)) (corrected F (concat b)) (concat a) (concat b) ltac:(congruence) eq_refl ltac:(cbn; congruence) (corrected_run F (concat a)) (corrected_run F (concat b)) (between_nonneg a Sa Ca) (between_nonneg b Sb Cb) n) as K.
  cbn [corrected] in K. rewrite La in K. pose proof (apart_nonneg (concat a) (concat b)) as A.
  assert (P : (1 - gain / 2) ^ n <= 1) by (pose proof (pow_incr (1 - gain / 2) 1 n ltac:(split; lra)) as P0; rewrite pow1 in P0; exact P0).
  eapply Rle_trans; [exact K|]. rewrite Rmult_assoc. apply Rmult_le_compat_l; [left; now apply scale_pos|]. apply (Rmult_le_compat_r _ _ _ A) in P. lra.
Qed.
End Region.
