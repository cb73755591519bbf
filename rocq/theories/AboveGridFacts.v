(** * Readouts of images in which every pixel keeps some charge, past wells of any power. *)
From Coq Require Import ZArith List Bool Reals Lra Lia Sorted.
From Coquelicot Require Import Rcomplements Rbar Hierarchy RInt.
From Verif Require Import Num Py RFacts CCDModel TrapsModel ManagerModel ROEModel ClockModel MainModel Spec SpecROE SpecImage SpecReadout SpecColumn SpecBound SpecRecovery SpecPhases SpecWork SpecExpressOrder SpecInjectionOrder SpecWindowOrder SpecAbove
  CallFacts   WmFacts ArrayFacts CutFacts InstantFacts ClockFacts MainFacts ShapeFacts ColumnFacts ReadoutImage RemoveFacts
  ROEClockFacts ROEMatrixFacts ROEExpressFacts WorkFacts ReadoutFull ReadoutForced ReadoutSpecFacts ReadoutColumnFacts OrderFacts TameFacts DepthFacts BoundFacts MainReadoutFacts RecoverImageFacts PhaseOrderFacts LiftFacts GridFacts SteadyFacts ExpressOrderFacts ReadoutInjection ExpressGridFacts InjectionGridFacts WindowFacts WindowMainFacts MaskFacts WindowGridFacts AboveFacts.
Import ListNotations.
Open Scope R_scope.

(** ** A single clocking step *)
Section Single.
Context (steps : list (R * list (roe_phase R))) (c : ccd R) (traps : traps_arg R) (d0 : R) (group : list (trap R)) (most floor : R).
Hypothesis Hplain : plain_ccd c.
Hypothesis Hphases : (ccd_n_phases c <= 1)%nat.
Hypothesis Hinst : instant_traps traps.
Hypothesis Hone : groups_in traps = [group].
Hypothesis Hclock : steps = timed_steps (built (Standard true) [d0] DFloat true true).
Hypothesis Hmost : 1 <= most.
Hypothesis Hfloor : 0 < floor.
Hypothesis Hslow : forall k, (k < ccd_n_phases c)%nat -> exists full beta, phase_params c k 0 beta full /\
  slow_growth floor most (in_pixel (map (thinned (share c k)) group)) beta full.
Definition soft_well (full beta : R) : R -> R := if Rle_dec 1 beta then depth full beta else bottomed full beta floor.
Definition soft_site (k : nat) : site := mkSite (map (map (thinned (share c k))) (groups_in traps)) (soft_well (nth k (ccd_full_well c) 1) (nth k (ccd_fill_power c) 1)).
Definition soft_map (passes : list (list (Z * R * bool))) : list R -> list R := fun x =>
  map (fun i => readout soft_site (trap_phases c) steps passes (col_of (map (Rmax 0) x)) (Z.of_nat i)) (seq 0 (length x)).
Definition soft_slope (k : nat) : R := let full := nth k (ccd_full_well c) 1 in let beta := nth k (ccd_fill_power c) 1 in
  if Rle_dec 1 beta then beta / full else depth full beta floor / floor.
Let grp k := map (thinned (share c k)) group.
Lemma soft_phase k : In k (trap_phases c) -> (k < ccd_n_phases c)%nat.
Proof. intros Hk. unfold trap_phases in Hk. apply filter_In in Hk as [Hk _]. apply in_seq in Hk. lia. Qed.
Lemma soft_physical k : Forall physical (grp k).
Proof.
  pose proof Hinst as [_ HI]. rewrite Hone in HI. inversion HI as [|? ? [Hne HG] _]; subst. apply thinned_physical; [apply (pc_share _ Hplain)|]. eapply Forall_impl; [|exact HG]. intros t [Ht _]. exact Ht.
Qed.
Lemma soft_groups k : site_groups (soft_site k) = [grp k].
Proof. unfold soft_site. rewrite Hone. reflexivity. Qed.
Lemma soft_params k : In k (trap_phases c) -> let full := nth k (ccd_full_well c) 1 in let beta := nth k (ccd_fill_power c) 1 in
  0 < full /\ 0 < beta /\ slow_growth floor most (in_pixel (grp k)) beta full.
Proof.
  intros Hk full beta. apply soft_phase in Hk. destruct (Hslow k Hk) as (fu & be & P1 & P2). destruct P1 as [Q1 Q2 Q3].
  assert (E1 : full = fu) by (unfold full; apply nth_error_nth; exact Q3). assert (E2 : beta = be) by (unfold beta; apply nth_error_nth; exact Q2). rewrite E1, E2.
  destruct (pc_phase _ Hplain k Hk) as (fu' & be' & [_ R2 R3] & R4 & R5). split; [congruence|]. split; [congruence|exact P2].
Qed.
Lemma soft_range k a : In k (trap_phases c) -> 0 <= a -> 0 <= site_well (soft_site k) a <= 1.
Proof.
  intros Hk Ha. destruct (soft_params k Hk) as (P1 & P2 & _). cbn [soft_site site_well]. unfold soft_well. destruct (Rle_dec _ _) as [H|H]; [apply depth_range; assumption|apply bottomed_range; (assumption || lra)].
Qed.
Lemma soft_zero k a : In k (trap_phases c) -> a <= 0 -> site_well (soft_site k) a = 0.
Proof.
  intros Hk Ha. cbn [soft_site site_well]. unfold soft_well. destruct (Rle_dec _ _) as [H|H]; [unfold depth; destruct (Rle_dec a 0); [reflexivity|contradiction]|].
  apply bottomed_zero; assumption.
Qed.
Lemma soft_agrees k a : In k (trap_phases c) -> floor <= a -> site_well (site_of c (groups_in traps) k) a = site_well (soft_site k) a.
Proof. intros Hk Ha. cbn [soft_site site_of site_well]. unfold soft_well. destruct (Rle_dec _ _) as [H|H]; [reflexivity|]. symmetry. now apply bottomed_high. Qed.
Lemma soft_share k : In k (trap_phases c) -> gradual (grp k) (site_well (soft_site k)) 0 (soft_slope k) /\ 0 < 1 - most * (in_pixel (grp k) * soft_slope k).
Proof.
  intros Hk. destruct (soft_params k Hk) as (P1 & P2 & P3). pose proof (physical_density _ (soft_physical k)) as Hd.
  cbn [soft_site site_well]. unfold soft_well, soft_slope. cbv zeta. set (full := nth k (ccd_full_well c) 1) in *. set (beta := nth k (ccd_fill_power c) 1) in *. set (rho := in_pixel (grp k)) in *.
  destruct (Rle_dec 1 beta) as [Hb|Hb].
  - assert (P4 : most * rho * beta < full) by (destruct P3 as [[_ P3]|[P3 _]]; [exact P3|lra]).
    assert (HM : most * (rho * (beta / full)) < 1).
    { apply (Rmult_lt_reg_r full); [exact P1|]. replace (most * (rho * (beta / full)) * full) with (most * rho * beta) by (field; lra). lra. }
    split; [|lra]. replace (beta / full) with (slope_of full beta 0) by (unfold slope_of; destruct (Req_EM_T 0 0); [reflexivity|lra]).
    apply mild_gradual; [exact P1|exact P2|exact Hd|]. left. split; [reflexivity|]. split; [exact Hb|]. change (SpecRecovery.traps_per_pixel (grp k)) with rho.
    apply Rle_lt_trans with (2 := P4). apply Rmult_le_compat_r; [lra|]. rewrite <- (Rmult_1_l rho) at 1. apply Rmult_le_compat_r; lra.
  - assert (P4 : most * rho * depth full beta floor < floor) by (destruct P3 as [[P3 _]|[_ P3]]; [lra|exact P3]).
    assert (HM : most * (rho * (depth full beta floor / floor)) < 1).
    { apply (Rmult_lt_reg_r floor); [exact Hfloor|]. replace (most * (rho * (depth full beta floor / floor)) * floor) with (most * rho * depth full beta floor) by (field; lra). lra. }
    split; [|lra]. apply bottomed_gradual; try assumption; [lra|]. change (SpecRecovery.traps_per_pixel (grp k)) with rho.
    pose proof (bottomed_slope full beta floor P1 ltac:(lra) Hfloor) as S0. set (s := depth full beta floor / floor) in *.
    assert (0 <= rho * s) by (apply Rmult_le_pos; assumption). assert (1 * (rho * s) <= most * (rho * s)) by (apply Rmult_le_compat_r; lra). lra.
Qed.
Lemma soft_gain : exists gam, 0 < gam <= 1 /\ forall k, In k (trap_phases c) -> most * (in_pixel (grp k) * soft_slope k) <= 1 - gam.
Proof.
  destruct (least_of (fun k => 1 - most * (in_pixel (grp k) * soft_slope k)) (trap_phases c)) as (gam & Hgam & HG1); [intros k Hk; now apply soft_share|].
  exists gam. split; [lra|]. intros k Hk. specialize (HG1 k Hk). cbv beta in HG1. lra.
Qed.
Lemma soft_electrode e es k : In (e, es) steps -> In k (trap_phases c) -> rp_high (electrode es k) = true /\ rp_capture (electrode es k) = 0%Z /\ combine (rp_release (electrode es k)) (rp_fraction (electrode es k)) = [(0%Z, 1)].
Proof.
  intros Hin Hk. apply soft_phase in Hk. rewrite Hclock in Hin. destruct (timed_in _ _ _ Hin) as [_ Hes]. destruct k; [|lia]. cbn in Hes. destruct Hes as [<-|[]]. cbn. auto.
Qed.
Lemma soft_time e es : In (e, es) steps -> 0 < e.
Proof. rewrite Hclock. intros Hin. now apply timed_in in Hin. Qed.
Lemma soft_steady n passes : Forall (good_cells most n) passes -> exists gain big, 0 < gain <= 1 /\ 0 <= big /\ steady gain big (soft_map passes).
Proof.
  intros Hpass. destruct soft_gain as (gam & Hgam & HG).
  exists (gain_on (trap_phases c) steps gam passes), (big_on (trap_phases c) steps most passes).
  split; [split; [apply gain_on_pos; lra|apply gain_on_01; lra]|]. split; [now apply big_on_pos|].
  unfold soft_map. apply (weighted_steady soft_site (trap_phases c) steps grp soft_slope gam most) with (M := n); try assumption.
  - apply NoDup_filter, seq_NoDup.
  - intros k _. apply soft_groups.
  - intros k _. apply soft_physical.
  - intros k Hk. now apply soft_share.
  - intros k a Hk. now apply soft_range.
  - intros k a Hk. now apply soft_zero.
  - lra.
  - intros e es. apply soft_time.
  - intros e es k Hin Hk. destruct (soft_electrode e es k Hin Hk) as (F1 & F2 & F3). cbv zeta. rewrite F3. split; [repeat constructor; (lia || lra)|]. split; [cbn; lra|]. intros _. split; [exact F2|reflexivity].
  - intros e es k Hin Hk. apply soft_phase in Hk. rewrite Hclock in Hin. apply (electrode_ok [d0] DFloat k e es); [cbn; lia|exact Hin].
Qed.
Lemma soft_density : Rsum (map (fun k => in_pixel (grp k)) (trap_phases c)) = all_shares c * SpecBound.traps_per_pixel (groups_in traps).
Proof.
  rewrite <- all_phases_density by exact Hplain. apply Rsum_ext. intros k _. unfold site_density. cbn [site_of site_groups]. rewrite Hone. cbn [map]. change (Rsum [?a]) with (a + 0). rewrite Rplus_0_r. reflexivity.
Qed.
Lemma soft_same n passes (col : column) : Forall (good_cells most n) passes -> (forall z, 0 <= col z) ->
  (forall i, (i < n)%nat -> exists x, floor + x <= col (Z.of_nat i) /\ Rsum (map (weight (own (Z.of_nat i))) passes) * (INR (length steps) * (all_shares c * SpecBound.traps_per_pixel (groups_in traps))) <= x) ->
  readout (site_of c (groups_in traps)) (trap_phases c) steps passes col = readout soft_site (trap_phases c) steps passes col.
Proof.
  intros Hpass Hcol Hs. destruct soft_gain as (gam & Hgam & HG).
  apply (readout_same soft_site (site_of c (groups_in traps)) (trap_phases c) steps grp soft_slope gam most floor (fun z => (0 <= z < Z.of_nat n)%Z)); try assumption.
  - apply NoDup_filter, seq_NoDup.
  - intros k _. apply soft_groups.
  - intros k _. apply soft_physical.
  - intros k Hk. now apply soft_share.
  - intros k a Hk. now apply soft_range.
  - intros k a Hk. now apply soft_zero.
  - lra.
  - intros e es. apply soft_time.
  - intros e es k Hin Hk. exact (soft_electrode e es k Hin Hk).
  - intros k. reflexivity.
  - intros k a Hk Ha. now apply soft_agrees.
  - intros z Hz. apply Hz.
  - eapply Forall_impl; [|exact Hpass]. intros cells [_ Hc]. eapply Forall_impl; [|exact Hc]. intros cell (H1 & H2 & _). split; assumption.
  - intros z Hz. rewrite soft_density. destruct (Hs (Z.to_nat z) ltac:(lia)) as (x & H1 & H2). rewrite Z2Nat.id in H1, H2 by lia. lra.
Qed.
End Single.

(** ** What one direction of a call does *)
Definition does_above (floor : R) (d : direction R) (n : nat) (tw : option (list Z)) (B : nat -> R -> Prop) (r' : roe R) : Prop := exists gain big G, 0 < gain <= 1 /\ 1 <= big /\ steady gain big G /\
  forall im cols columns, shape n cols im -> nonneg im -> columns_ok columns cols -> (forall i j, (i < n)%nat -> (j < cols)%nat -> exists x, B i x /\ floor + x <= pixel im i j) ->
  exists im', match d_traps d with None => Ok (im, the_roe d)
      | Some traps => clock_direction im d (the_roe d) traps (selected (d_window d) n) columns tw end = Ok (im', r') /\
    shape n cols im' /\ nonneg im' /\ (forall j, (j < cols)%nat -> column_of im' j = if listed columns j then G (column_of im j) else column_of im j) /\
    forall i j x, (i < n)%nat -> (j < cols)%nat -> B i x -> Rabs (pixel im' i j - pixel im i j) <= x.
Lemma does_is_above floor d n tw B r : does d n tw B r -> does_above floor d n tw B r.
Proof. intros (gain & big & G & H1 & H2 & H3 & H4). exists gain, big, G. split; [exact H1|]. split; [exact H2|]. split; [exact H3|]. intros im cols columns Hs Hp Hc _. now apply H4. Qed.
Lemma plain_unique d b b' c c' traps traps' dwell dwell' dt dt' : plain_setting d b c traps dwell dt -> plain_setting d b' c' traps' dwell' dt' -> c = c' /\ traps = traps' /\ dwell = dwell'.
Proof.
  intros [S1 S2 S3 _ _ _ _] [S1' S2' S3' _ _ _ _]. rewrite S1 in S1'. rewrite S2 in S2'. injection S1' as <-. injection S2' as <-. split; [reflexivity|]. split; [reflexivity|].
  destruct S3 as [S3|(S3 & E & _)], S3' as [S3'|(S3' & E' & _)]; rewrite S3 in S3'; try discriminate; [|congruence].
  pose proof (f_equal (option_map (fun r => roe_dwell_times r)) S3') as K. cbn [option_map roe_dwell_times roe_init make_roe] in K. congruence.
Qed.
Lemma one_dwell (x y : R) : [x] = [y] -> x = y. Proof. congruence. Qed.
Lemma does_slow floor d n tw : 0 < floor -> tw_ok tw -> slow_in_window floor d n -> does_above floor d n (tw_arg tw) (call_limit d n) (the_roe d).
Proof.
  intros Hfl Htw (b & Hs & Hw & Hb & c & traps & d0 & dt & group & Hset & Hone & Hm).
  destruct (windowed_call d n b c traps [d0] dt tw Hw Hb Htw Hset) as (em & mon & EE & HC).
  pose proof (window_pos _ _ Hw) as Hb0. set (W := selected (d_window d) n) in *.
  set (passes := map (fun '(e, m) => cells_of W e m (map (fun _ => false) e)) (combine em mon)) in *.
  set (M := max_multiplier dt (b + d_offset d) (passes_for (b + d_offset d) (d_express d))).
  assert (GC : Forall (good_cells M b) passes) by exact (window_passes_good _ b dt (d_express d) (d_offset d) tw em mon Hs Hw (ps_express _ _ _ _ _ _ Hset) Htw EE).
  assert (HM : 1 <= M) by (apply mm_ge_1; apply express_used_pos; lia).
  assert (HK : timed_steps (the_roe d) = timed_steps (built (Standard true) [d0] DFloat true true)) by (rewrite (plain_roe _ _ _ _ _ _ Hset); reflexivity).
  assert (HS : forall k, (k < ccd_n_phases c)%nat -> exists full beta, phase_params c k 0 beta full /\ slow_growth floor M (in_pixel (map (thinned (share c k)) group)) beta full).
  { intros k Hk. apply Hm; [exact Hk|]. apply multiplier_per_pass. apply express_used_pos. lia. }
  destruct (soft_steady (timed_steps (the_roe d)) c traps d0 group M floor (ps_plain _ _ _ _ _ _ Hset) (ps_phases _ _ _ _ _ _ Hset) (ps_instant _ _ _ _ _ _ Hset) Hone HK HM Hfl HS b passes GC) as (gain & big & Hg & Hbig & HT).
  exists gain, (Rmax 1 big), (soft_map (timed_steps (the_roe d)) c traps floor passes). split; [exact Hg|]. split; [apply Rmax_l|]. split; [apply (steady_weaken gain big); [exact HT|apply Rmax_r]|].
  intros im cols columns Sh Hp Hc Habove. destruct (HC im cols columns Sh Hp Hc) as (im' & E & S' & P' & U & V). rewrite (ps_traps _ _ _ _ _ _ Hset). exists im'. split; [exact E|]. split; [exact S'|]. split; [exact P'|]. split.
  - intros j Hj. apply (nth_ext _ _ 0 0).
    + destruct (listed columns j); [rewrite (st_length _ _ _ HT)|]; rewrite (column_length im' n cols j S'), (column_length im n cols j Sh); reflexivity.
    + intros i Hi. rewrite (column_length im' n cols j S') in Hi. rewrite nth_column. destruct (listed columns j) eqn:El.
      2: { rewrite nth_column. apply U. intros Hin. apply listed_in in Hin. congruence. }
      apply listed_in in El. rewrite (V i j Hi El). unfold soft_map. rewrite (column_length im n cols j Sh), (column_plus im j Hp), <- column_fun. rewrite nth_map_seq by exact Hi.
      apply (f_equal (fun f : column => f (Z.of_nat i))).
      apply (soft_same (timed_steps (the_roe d)) c traps d0 group M floor (ps_plain _ _ _ _ _ _ Hset) (ps_phases _ _ _ _ _ _ Hset) (ps_instant _ _ _ _ _ _ Hset) Hone HK HM Hfl HS b passes (col_fun im j) GC); [intros z; apply Hp|].
      clear i Hi. intros i Hi. destruct (Habove i j ltac:(lia) Hj) as (x & Lx & Hx). exists x. unfold col_fun at 1. rewrite Nat2Z.id. split; [exact Hx|].
      assert (R0 : 0 <= all_shares c * SpecBound.traps_per_pixel (groups_in traps)).
      { rewrite <- all_phases_density by exact (ps_plain _ _ _ _ _ _ Hset). apply Rsum_nonneg, Forall_map, Forall_forall. intros k Hk. apply site_density_nonneg. exact (plain_sites d c traps [d0] dt b Hset k Hk). }
      set (rho := all_shares c * SpecBound.traps_per_pixel (groups_in traps)) in *.
      assert (L1 : INR (length (timed_steps (the_roe d))) <= 1) by (change 1 with (INR 1); apply le_INR; rewrite HK; apply steps_le).
      assert (LR : 0 <= INR (length (timed_steps (the_roe d))) * rho <= rho) by (split; [apply Rmult_le_pos; [apply pos_INR|exact R0]|rewrite <- (Rmult_1_l rho) at 2; apply Rmult_le_compat_r; assumption]).
      pose proof (window_weight W b dt (d_express d) (d_offset d) tw em mon Hs Hw (ps_express _ _ _ _ _ _ Hset) Htw EE i) as W1. fold passes in W1.
      assert (CB : Rsum (map (weight (own (Z.of_nat i))) passes) * (INR (length (timed_steps (the_roe d))) * rho) <= INR (i + 1 + d_offset d) * rho).
      { apply Rle_trans with (INR (i + 1 + d_offset d) * (INR (length (timed_steps (the_roe d))) * rho)); [apply Rmult_le_compat_r; [apply LR|exact W1]|apply Rmult_le_compat_l; [apply pos_INR|apply LR]]. }
      destruct Lx as [O1 O2|b' x Hw' Lx|x Lx].
      * replace (Rsum _) with 0; [lra|]. symmetry. apply Rsum_zero. intros y Hy. apply in_map_iff in Hy as (cells & <- & Hcells). unfold passes in Hcells. apply in_map_iff in Hcells as ((e & m) & <- & _). now apply own_cells_out.
      * destruct Lx as [Hn|c' traps' dwell' dt' H'|c' traps' dwell' dt' H'].
        -- rewrite (ps_traps _ _ _ _ _ _ Hset) in Hn. discriminate.
        -- destruct (plain_unique _ _ _ _ _ _ _ _ _ _ _ Hset H') as (<- & <- & _). exact CB.
        -- destruct (plain_unique _ _ _ _ _ _ _ _ _ _ _ Hset H') as (<- & <- & <-). eapply Rle_trans; [exact CB|]. fold rho. cbn [length]. change (INR 1) with 1. rewrite Rmult_1_l. apply Rmult_le_compat_r; [exact R0|].
           destruct i; [lra|]. pose proof (pos_INR (S i + d_offset d)). lra.
      * exfalso. destruct Lx as [c' traps' dwell' npt Hx'|c' traps' dwell' npt Hx']; destruct Hset as [_ _ [Hr|[Hr _]] _ _ _ _]; rewrite (is_roe _ _ _ _ _ _ Hx') in Hr; try discriminate;
          apply (f_equal (option_map (fun r => roe_kind_of r))) in Hr; cbn in Hr; discriminate.
  - now apply (window_bounded d n b c traps [d0] dt tw Hs Hw Hb Htw Hset im cols columns).
Qed.
Lemma does_slow_injection floor d n tw : 0 < floor -> (0 < n)%nat -> tw_ok tw -> slow_injection floor d n -> exists r, does_above floor d n (tw_arg tw) (call_limit d n) r.
Proof.
  intros Hfl Hn Htw (HW & c & traps & d0 & npt & group & Hset & Hone & Hm). cbv zeta in Hm. set (N := injection_transfers npt n (d_offset d)) in *. set (E := passes_for N (d_express d)) in *.
  exists (roe_injection_init [d0] (Some N) true true DFloat). destruct (injected_x d n c traps [d0] npt Hn Hset) as [Hx HEx]. fold N E in Hx, HEx.
  set (part := fun i => tw_part tw (INR i * (INR N / INR E)) (INR (S i) * (INR N / INR E))). set (passes := injection_passes n E part).
  assert (GC : Forall (good_cells (INR N / INR E) n) passes) by exact (passes_fine d n c traps [d0] npt tw Hn Htw Hset).
  pose proof (injected_steps _ _ _ _ _ _ Hset) as HK.
  destruct (soft_steady (timed_steps (the_roe d)) c traps d0 group (INR N / INR E) floor (is_plain _ _ _ _ _ _ Hset) (is_phases _ _ _ _ _ _ Hset) (is_instant _ _ _ _ _ _ Hset) Hone HK Hx Hfl Hm n passes GC) as (gain & big & Hg & Hbig & HT).
  exists gain, (Rmax 1 big), (soft_map (timed_steps (the_roe d)) c traps floor passes). split; [exact Hg|]. split; [apply Rmax_l|]. split; [apply (steady_weaken gain big); [exact HT|apply Rmax_r]|].
  intros im cols columns Hs Hp [Hnd Hrange] Habove. rewrite (is_traps _ _ _ _ _ _ Hset), (selected_all d n HW). unfold clock_direction. rewrite (is_ccd _ _ _ _ _ _ Hset).
  destruct (injection_readout im c [d0] traps (groups_in traps) npt (d_express d) (d_offset d) columns tw n cols
    Hs Hn Hp (is_plain _ _ _ _ _ _ Hset) (is_phases _ _ _ _ _ _ Hset) (groups_normalised _ (is_instant _ _ _ _ _ _ Hset)) (proj2 (is_instant _ _ _ _ _ _ Hset)) Hrange Hnd (is_some _ _ _ _ _ _ Hset) Htw)
    as (im' & G1 & G2 & G3 & G4).
  exists im'. split; [rewrite (injected_roe _ _ _ _ _ _ Hset); exact G1|]. split; [exact G2|].
  assert (N' : forall i j, 0 <= pixel im' i j).
  { apply nonneg_iff. destruct (clocking_ok _ _ _ _ _ _ _ _ _ _ _ _ _ Hs Hn G1) as [_ _ _ HS]. intros i0 j0. apply HS; [|apply nonneg_iff, Hp]. rnum. apply Rltb_false. lra. }
  split; [exact N'|]. rewrite <- (injected_roe _ _ _ _ _ _ Hset) in G4. fold N E in G4. fold part in G4. fold passes in G4. split.
  - intros j Hj. apply (nth_ext _ _ 0 0).
    + destruct (listed columns j); [rewrite (st_length _ _ _ HT)|]; rewrite (column_length im' n cols j G2), (column_length im n cols j Hs); reflexivity.
    + intros i Hi. rewrite (column_length im' n cols j G2) in Hi. rewrite nth_column. destruct (listed columns j) eqn:El.
      2: { rewrite nth_column. apply G3. intros Hin. apply listed_in in Hin. congruence. }
      apply listed_in in El. rewrite (G4 i j Hi El). unfold soft_map. rewrite (column_length im n cols j Hs), (column_plus im j Hp), <- column_fun. rewrite nth_map_seq by exact Hi.
      apply (f_equal (fun f : column => f (Z.of_nat i))).
      apply (soft_same (timed_steps (the_roe d)) c traps d0 group (INR N / INR E) floor (is_plain _ _ _ _ _ _ Hset) (is_phases _ _ _ _ _ _ Hset) (is_instant _ _ _ _ _ _ Hset) Hone HK Hx Hfl Hm n passes (col_fun im j) GC); [intros z; apply Hp|].
      clear i Hi. intros i Hi. destruct (Habove i j Hi Hj) as (x & Lx & Hxx). exists x. unfold col_fun at 1. rewrite Nat2Z.id. split; [exact Hxx|].
      assert (R0 : 0 <= all_shares c * SpecBound.traps_per_pixel (groups_in traps)).
      { rewrite <- all_phases_density by exact (is_plain _ _ _ _ _ _ Hset). apply Rsum_nonneg, Forall_map, Forall_forall. intros k Hk. apply site_density_nonneg. exact (injected_sites d n c traps [d0] npt Hset k Hk). }
      set (rho := all_shares c * SpecBound.traps_per_pixel (groups_in traps)) in *.
      assert (L1 : INR (length (timed_steps (the_roe d))) <= 1) by (change 1 with (INR 1); apply le_INR; rewrite HK; apply steps_le).
      assert (LR : 0 <= INR (length (timed_steps (the_roe d))) * rho <= rho) by (split; [apply Rmult_le_pos; [apply pos_INR|exact R0]|rewrite <- (Rmult_1_l rho) at 2; apply Rmult_le_compat_r; assumption]).
      assert (W1 : Rsum (map (weight (own (Z.of_nat i))) passes) <= INR N).
      { rewrite <- HEx, <- (Rmult_1_r (INR E * (INR N / INR E))). unfold passes. apply total_weight; [intros e _; exact (part_bounds d n c traps [d0] npt tw Hn Htw Hset e)| |lra]. intros m Hm'. rewrite own_rows. destruct (_ && _)%bool; lra. }
      assert (CB : Rsum (map (weight (own (Z.of_nat i))) passes) * (INR (length (timed_steps (the_roe d))) * rho) <= INR N * rho).
      { apply Rle_trans with (INR N * (INR (length (timed_steps (the_roe d))) * rho)); [apply Rmult_le_compat_r; [apply LR|exact W1]|apply Rmult_le_compat_l; [apply pos_INR|apply LR]]. }
      destruct Lx as [O1 O2|b' x Hw' Lx|x Lx].
      * exfalso. apply O1. rewrite (selected_all d n HW). apply py_range_in. lia.
      * exfalso. destruct Lx as [Hy|c' traps' dwell' dt' Hy|c' traps' dwell' dt' Hy]; [rewrite (is_traps _ _ _ _ _ _ Hset) in Hy; discriminate| |];
          destruct Hy as [_ _ [Hr|[Hr _]] _ _ _ _]; rewrite (is_roe _ _ _ _ _ _ Hset) in Hr; try discriminate; apply (f_equal (option_map (fun r => roe_kind_of r))) in Hr; cbn in Hr; discriminate.
      * destruct Lx as [c' traps' dwell' npt' Hy|c' traps' dwell' npt' Hy]; pose proof (is_ccd _ _ _ _ _ _ Hy) as S1'; pose proof (is_traps _ _ _ _ _ _ Hy) as S2'; pose proof (is_roe _ _ _ _ _ _ Hy) as S3';
        rewrite (is_ccd _ _ _ _ _ _ Hset) in S1'; rewrite (is_traps _ _ _ _ _ _ Hset) in S2'; rewrite (is_roe _ _ _ _ _ _ Hset) in S3'; injection S1' as <-; injection S2' as <-;
        pose proof (f_equal (option_map (fun r => roe_kind_of r)) S3') as K1; pose proof (f_equal (option_map (fun r => roe_dwell_times r)) S3') as K2; cbn [option_map roe_kind_of roe_dwell_times roe_injection_init make_roe] in K1, K2; injection K1 as <-.
        -- exact CB.
        -- assert (K : [d0] = dwell') by congruence. rewrite <- K. eapply Rle_trans; [exact CB|]. fold N rho. cbn [length]. change (INR 1) with 1. rewrite Rmult_1_l. apply Rmult_le_compat_r; [exact R0|].
           pose proof (pos_INR N). destruct i; lra.
  - now apply (injection_bounded d n c traps [d0] npt tw Hn Htw HW Hset im cols columns im' Hs Hp (conj Hnd Hrange) G3 G4).
Qed.
Lemma does_slow_call floor d n tw : 0 < floor -> (0 < n)%nat -> tw_ok tw -> slow_call floor d n -> exists r, does_above floor d n (tw_arg tw) (call_limit d n) r.
Proof.
  intros Hfl Hn Htw [H|[H|H]]; [|exists (the_roe d); now apply does_slow|now apply does_slow_injection].
  destruct (does_call d n tw Hn Htw H) as [r Hr]. exists r. now apply does_is_above.
Qed.
Lemma slow_window floor d n : (0 < n)%nat -> slow_call floor d n -> exists b, StronglySorted Z.lt (selected (d_window d) n) /\ window_ok (selected (d_window d) n) b /\ (b <= n)%nat.
Proof.
  intros Hn [H|[(b & H1 & H2 & H3 & _)|[HW _]]]; [now apply call_window|exists b; auto|]. exists n. rewrite (selected_all d n HW). split; [apply range_sorted|]. split; [now apply window_ok_range|lia].
Qed.
Record ready_above (floor : R) (parallel serial : direction R) (rows cols : nat) (time : option (list Z)) (rp rs : roe R) (tw lines : list Z) : Prop := {
  ra_times : resolve_time_window time (selected (d_window parallel) rows) rows (d_offset parallel) = Ok (tw, lines);
  ra_lines : columns_ok lines rows;
  ra_columns : columns_ok (selected (d_window serial) cols) cols;
  ra_parallel : does_above floor parallel rows (Some tw) (call_limit parallel rows) rp;
  ra_serial : does_above floor serial cols None (call_limit serial cols) rs }.
Lemma slow_ready floor parallel serial rows cols time : 0 < floor -> (0 < rows)%nat -> (0 < cols)%nat -> time_range time -> slow_call floor parallel rows -> slow_call floor serial cols ->
  exists rp rs tw lines, ready_above floor parallel serial rows cols time rp rs tw lines.
Proof.
  intros Hfl Hr Hc Ht Hp Hs. destruct (slow_window floor parallel rows Hr Hp) as (b & P1 & P2 & P3). destruct (slow_window floor serial cols Hc Hs) as (b' & S1 & S2 & S3).
  destruct (call_times time _ b rows (d_offset parallel) Ht P2 P3 P1 Hr) as (tw & lines & E & Htw & Hl).
  destruct (does_slow_call floor parallel rows (Some tw) Hfl Hr Htw Hp) as [rp Dp]. destruct (does_slow_call floor serial cols None Hfl Hc I Hs) as [rs Ds].
  exists rp, rs, (py_range (fst tw) (snd tw)), lines. destruct tw as [t0 t1]. split; [exact E|exact Hl|now apply (window_columns _ b')|exact Dp|exact Ds].
Qed.
(** ** Both directions *)
Section Both.
Context (floor : R) (parallel serial : direction R) (rows cols : nat).
Hypothesis Hfloor : 0 < floor.
Hypothesis Hr : (0 < rows)%nat.
Hypothesis Hc : (0 < cols)%nat.
Context (rp rs : roe R) (time : option (list Z)) (tw lines : list Z).
Hypothesis Htimes : resolve_time_window time (selected (d_window parallel) rows) rows (d_offset parallel) = Ok (tw, lines).
Hypothesis Hlines : columns_ok lines rows.
Hypothesis Hcolumns : columns_ok (selected (d_window serial) cols) cols.
Hypothesis Hpar : does_above floor parallel rows (Some tw) (call_limit parallel rows) rp.
Hypothesis Hser : does_above floor serial cols None (call_limit serial cols) rs.
Lemma slow_map : exists gain big F, 0 < gain <= 1 /\ 0 <= big /\ steady gain big F /\
  forall im, shape rows cols im -> nonneg im -> charged_above floor 1 parallel serial rows cols im ->
  exists im', add_cti im parallel serial time = Ok (im', rp, rs) /\ shape rows cols im' /\ nonneg im' /\ concat im' = F (concat im) /\
    forall i j p s, (i < rows)%nat -> (j < cols)%nat -> call_limit parallel rows i p -> call_limit serial cols j s -> Rabs (pixel im' i j - pixel im i j) <= p + s.
Proof.
  destruct Hpar as (g1 & b1 & G1 & Hg1 & Hb1 & T1 & A1). destruct Hser as (g2 & b2 & G2 & Hg2 & Hb2 & T2 & A2).
  exists (g1 * g2), (b1 * b2), (fun x => some_rows cols G2 (listed lines) (some_columns cols G1 (listed (selected (d_window serial) cols)) x)). split; [split; [apply Rmult_lt_0_compat; lra|rewrite <- (Rmult_1_l 1); apply Rmult_le_compat; lra]|].
  split; [apply Rmult_le_pos; lra|].
  split; [apply (steady_compose g1 g2 b1 b2 (some_columns cols G1 (listed (selected (d_window serial) cols))) (some_rows cols G2 (listed lines))); [lra|lra|apply some_columns_steady; (assumption || lra)|apply some_rows_steady; (assumption || lra)]|].
  intros im Hs Hp Hch. pose proof Hs as [Lim _]. pose proof (MainReadoutFacts.shape_columns rows cols im Hs Hr) as Ncol.
  unfold add_cti. rewrite Lim, Ncol, !resolve_selected, Htimes. cbn [bind].
  assert (Q1 : forall i j, (i < rows)%nat -> (j < cols)%nat -> exists x, call_limit parallel rows i x /\ floor + x <= pixel im i j).
  { intros i j Hi Hj. destruct (Hch i j Hi Hj) as (p & s & Lp & Ls & H). exists p. split; [exact Lp|]. apply call_limit_nonneg in Ls. lra. }
  destruct (A1 im cols (selected (d_window serial) cols) Hs Hp Hcolumns Q1) as (im1 & E1 & S1 & P1 & C1 & D1). rewrite E1. cbn [bind].
  assert (F1 : concat im1 = some_columns cols G1 (listed (selected (d_window serial) cols)) (concat im)) by (eapply (some_columns_flat cols Hc G1 g1 b1 T1); eauto).
  assert (St : shape cols rows (transpose im1)) by (apply transpose_shape; assumption).
  assert (Pt : nonneg (transpose im1)) by (intros i j; rewrite (transpose_pixel_all rows cols) by assumption; apply P1).
  assert (Q2 : forall i j, (i < cols)%nat -> (j < rows)%nat -> exists x, call_limit serial cols i x /\ floor + x <= pixel (transpose im1) i j).
  { intros i j Hi Hj. destruct (Hch j i Hj Hi) as (p & s & Lp & Ls & H). exists s. split; [exact Ls|]. rewrite (transpose_pixel_all rows cols) by assumption. specialize (D1 j i p Hj Hi Lp). apply Rabs_le_between in D1. lra. }
  destruct (A2 (transpose im1) rows lines St Pt Hlines Q2) as (im2 & E2 & S2 & P2 & C2 & D2).
  assert (S2' : shape rows cols (transpose im2)) by (apply transpose_shape; assumption).
  assert (P2' : nonneg (transpose im2)) by (intros i j; rewrite (transpose_pixel_all cols rows) by assumption; apply P2).
  assert (F2 : concat (transpose im2) = some_rows cols G2 (listed lines) (concat im1)).
  { eapply (some_rows_flat cols Hc G2 g2 b2 T2); eauto. intros i Hi. rewrite <- (transposed_column im1 rows cols i S1 Hr Hi), <- (C2 i Hi).
    rewrite <- (transposed_column (transpose im2) rows cols i S2' Hr Hi). f_equal. apply (RemoveFacts.image_ext _ _ cols rows); [apply transpose_shape; assumption|assumption|].
    intros a b Ha Hb. rewrite (transpose_pixel_all rows cols), (transpose_pixel_all cols rows) by assumption. reflexivity. }
  assert (D : forall i j p s, (i < rows)%nat -> (j < cols)%nat -> call_limit parallel rows i p -> call_limit serial cols j s -> Rabs (pixel (transpose im2) i j - pixel im i j) <= p + s).
  { intros i j p s Hi Hj Lp Ls. specialize (D1 i j p Hi Hj Lp). specialize (D2 j i s Hj Hi Ls).
    rewrite (transpose_pixel_all cols rows) by assumption. rewrite (transpose_pixel_all rows cols im1) in D2 by assumption.
    apply Rabs_le_between in D1. apply Rabs_le_between in D2. apply Rabs_le_between. lra. }
  destruct (d_traps serial) as [traps|] eqn:Et.
  - rewrite E2. cbn [bind]. exists (transpose im2). split; [reflexivity|]. split; [exact S2'|]. split; [exact P2'|]. split; [now rewrite F2, F1|exact D].
  - assert (Eim : transpose im2 = im1).
    { injection E2 as E2 _. subst im2. apply (RemoveFacts.image_ext _ _ rows cols); [assumption|assumption|].
      intros a b Ha Hb. rewrite (transpose_pixel_all cols rows), (transpose_pixel_all rows cols) by assumption. reflexivity. }
    injection E2 as _ Ers. cbn [bind]. rewrite Ers. exists im1. split; [reflexivity|]. split; [exact S1|]. split; [exact P1|]. rewrite Eim in F2, D. split; [now rewrite F2, F1|exact D].
Qed.
Lemma slow_pair : exists gain big F, 0 < gain <= 1 /\ 0 <= big /\ steady gain big F /\
  forall a b, shape rows cols a -> shape rows cols b -> nonneg a -> nonneg b -> charged_above floor 1 parallel serial rows cols a -> charged_above floor 1 parallel serial rows cols b ->
  exists a' b', add_cti a parallel serial time = Ok (a', rp, rs) /\ add_cti b parallel serial time = Ok (b', rp, rs) /\
    shape rows cols a' /\ shape rows cols b' /\ concat a' = F (concat a) /\ concat b' = F (concat b).
Proof.
  destruct slow_map as (gain & big & F & Hg & Hb & HT & HF). exists gain, big, F. split; [exact Hg|]. split; [exact Hb|]. split; [exact HT|]. intros a b Sa Sb Pa Pb Ca Cb.
  destruct (HF a Sa Pa Ca) as (a' & Ea & Sa' & Pa' & Fa & _). destruct (HF b Sb Pb Cb) as (b' & Eb & Sb' & Pb' & Fb & _). exists a', b'. auto 10.
Qed.
Lemma slow_order a b : shape rows cols a -> shape rows cols b -> nonneg a -> charged_above floor 1 parallel serial rows cols a -> (forall i j, (i < rows)%nat -> (j < cols)%nat -> pixel a i j <= pixel b i j) ->
  exists a' b', add_cti a parallel serial time = Ok (a', rp, rs) /\
    add_cti b parallel serial time = Ok (b', rp, rs) /\
    forall i j, (i < rows)%nat -> (j < cols)%nat -> pixel a' i j <= pixel b' i j.
Proof.
  intros Sa Sb Pa Ca Hab. destruct slow_pair as (gain & big & F & Hg & _ & HT & HF).
  assert (Pb : nonneg b) by (apply (shape_nonneg rows cols Hr Hc b Sb); intros i j Hi Hj; specialize (Hab i j Hi Hj); specialize (Pa i j); lra).
  assert (Cb : charged_above floor 1 parallel serial rows cols b) by (intros i j Hi Hj; destruct (Ca i j Hi Hj) as (p & s & Lp & Ls & H); exists p, s; split; [exact Lp|]; split; [exact Ls|]; specialize (Hab i j Hi Hj); lra).
  destruct (HF a b Sa Sb Pa Pb Ca Cb) as (a' & b' & Ea & Eb & Sa' & Sb' & Fa & Fb). exists a', b'. split; [exact Ea|]. split; [exact Eb|].
  apply (flat_ordered rows cols Hr Hc); [assumption|assumption|]. rewrite Fa, Fb. apply (st_mono _ _ _ HT). now apply (flat_ordered rows cols Hr Hc).
Qed.
Lemma slow_apart : exists K, 0 <= K /\ forall a b, shape rows cols a -> shape rows cols b -> nonneg a -> nonneg b -> charged_above floor 1 parallel serial rows cols a -> charged_above floor 1 parallel serial rows cols b ->
  exists a' b', add_cti a parallel serial time = Ok (a', rp, rs) /\
    add_cti b parallel serial time = Ok (b', rp, rs) /\ image_apart a' b' <= K * image_apart a b.
Proof.
  destruct slow_pair as (gain & big & F & Hg & Hb & HT & HF). exists big. split; [exact Hb|]. intros a b Sa Sb Pa Pb Ca Cb.
  destruct (HF a b Sa Sb Pa Pb Ca Cb) as (a' & b' & Ea & Eb & Sa' & Sb' & Fa & Fb). exists a', b'. split; [exact Ea|]. split; [exact Eb|]. unfold image_apart. rewrite Fa, Fb. apply (steady_apart gain big F); [exact HT|].
  now rewrite (concat_length cols Hc a rows Sa), (concat_length cols Hc b rows Sb).
Qed.
Lemma slow_injective a b out pr sr pr' sr' : shape rows cols a -> shape rows cols b -> nonneg a -> nonneg b -> charged_above floor 1 parallel serial rows cols a -> charged_above floor 1 parallel serial rows cols b ->
  add_cti a parallel serial time = Ok (out, pr, sr) -> add_cti b parallel serial time = Ok (out, pr', sr') -> a = b.
Proof.
  intros Sa Sb Pa Pb Ca Cb Ea' Eb'. destruct slow_pair as (gain & big & F & Hg & _ & HT & HF).
  destruct (HF a b Sa Sb Pa Pb Ca Cb) as (a' & b' & Ea & Eb & Sa' & Sb' & Fa & Fb). rewrite Ea in Ea'. rewrite Eb in Eb'. injection Ea' as -> _ _. injection Eb' as -> _ _.
  apply (flat_equal rows cols Hc a b Sa Sb). apply (steady_injective gain big F HT (proj1 Hg)); [now rewrite (concat_length cols Hc a rows Sa), (concat_length cols Hc b rows Sb)|now apply flat_nonneg|now apply flat_nonneg|congruence].
Qed.

(** ** Recovery *)
Lemma slow_recover x : shape rows cols x -> charged_above floor 3 parallel serial rows cols x ->
  exists im, add_cti x parallel serial time = Ok (im, rp, rs) /\
  exists C r, 0 <= C /\ 0 <= r < 1 /\ forall k, exists est, remove_cti im k parallel serial time = Ok est /\ shape rows cols est /\
    image_apart est x <= C * r ^ k.
Proof.
  intros Sx Hx. destruct slow_map as (gain & big & F & Hg & Hbig & HT & HF).
  assert (Px : forall i j, (i < rows)%nat -> (j < cols)%nat -> 0 < pixel x i j).
  { intros i j Hi Hj. destruct (Hx i j Hi Hj) as (p & s & Lp & Ls & H). apply call_limit_nonneg in Lp. apply call_limit_nonneg in Ls. lra. }
  assert (Nx : nonneg x) by (apply (shape_nonneg rows cols Hr Hc); [exact Sx|]; intros i j Hi Hj; left; now apply Px).
  assert (BD : forall a, shape rows cols a -> nonneg a -> charged_above floor 1 parallel serial rows cols a -> exists a', add_cti a parallel serial time = Ok (a', rp, rs) /\ shape rows cols a' /\ concat a' = F (concat a) /\
    forall i j p s, (i < rows)%nat -> (j < cols)%nat -> call_limit parallel rows i p -> call_limit serial cols j s -> Rabs (pixel a' i j - pixel a i j) <= p + s).
  { intros a Sa Pa Ca. destruct (HF a Sa Pa Ca) as (a' & Ea & Sa' & _ & Fa & Ba). exists a'. auto. }
  assert (Cx : charged_above floor 1 parallel serial rows cols x).
  { intros i j Hi Hj. destruct (Hx i j Hi Hj) as (p & s & Lp & Ls & H). exists p, s. split; [exact Lp|]. split; [exact Ls|]. apply call_limit_nonneg in Lp. apply call_limit_nonneg in Ls. lra. }
  destruct (BD x Sx Nx Cx) as (im & E & Si & Fi & Bi). exists im. split; [exact E|].
  destruct (steady_converges gain big F HT Hbig Hg (concat x)) as (C & r & HC & Hr1 & HCr).
  { apply Forall_forall. intros v Hv. apply (In_nth _ _ 0) in Hv. destruct Hv as (l & Hl & <-). rewrite (concat_length cols Hc x rows Sx) in Hl.
    pose proof (Nat.div_mod l cols ltac:(lia)) as El. pose proof (Nat.mod_upper_bound l cols ltac:(lia)) as Hm.
    assert (Hd : (l / cols < rows)%nat) by (apply Nat.div_lt_upper_bound; lia).
    replace l with (l / cols * cols + l mod cols)%nat by lia. rewrite (concat_nth cols Hc x rows) by assumption. now apply Px. }
  exists C, r. split; [exact HC|]. split; [exact Hr1|].
  assert (ST : forall k, exists est, remove_cti im k parallel serial time = Ok est /\ shape rows cols est /\ concat est = corrected F (F (concat x)) k /\
    forall i j p s, (i < rows)%nat -> (j < cols)%nat -> call_limit parallel rows i p -> call_limit serial cols j s -> Rabs (pixel est i j - pixel x i j) <= 2 * (p + s)).
  { induction k as [|k (est & Ee & Se & Ke & Be)].
    - exists im. split; [reflexivity|]. split; [exact Si|]. split; [exact Fi|]. intros i j p s Hi Hj Lp Ls. specialize (Bi i j p s Hi Hj Lp Ls). apply call_limit_nonneg in Lp. apply call_limit_nonneg in Ls. lra.
    - assert (Ne : nonneg est).
      { apply (shape_nonneg rows cols Hr Hc); [exact Se|]. intros i j Hi Hj. destruct (Hx i j Hi Hj) as (p & s & Lp & Ls & H). specialize (Be i j p s Hi Hj Lp Ls). apply call_limit_nonneg in Lp. apply call_limit_nonneg in Ls. apply Rabs_le_between in Be. lra. }
      assert (Ce : charged_above floor 1 parallel serial rows cols est).
      { intros i j Hi Hj. destruct (Hx i j Hi Hj) as (p & s & Lp & Ls & H). exists p, s. split; [exact Lp|]. split; [exact Ls|]. specialize (Be i j p s Hi Hj Lp Ls). apply Rabs_le_between in Be. lra. }
      destruct (BD est Se Ne Ce) as (added & Ea & Sa & Fa & Ba).
      set (out := image_zip nadd est (image_zip nsub im added)).
      assert (So : shape rows cols out) by (unfold out; repeat (apply image_zip_shape; try assumption)).
      assert (Po : forall i j, (i < rows)%nat -> (j < cols)%nat -> pixel out i j = pixel est i j + (pixel im i j - pixel added i j)).
      { intros i j Hi Hj. unfold out. rewrite (image_zip_pixel _ _ _ rows cols) by (try apply image_zip_shape; assumption).
        rewrite (image_zip_pixel _ _ _ rows cols) by assumption. reflexivity. }
      exists out. split; [|split; [exact So|split]].
      + apply (remove_S im parallel serial time rows cols Si Hr Hc k out). exists est, added, rp, rs.
        split; [exact Ee|]. split; [exact Ea|]. split; [exact So|exact Po].
      + cbn [corrected]. cbv zeta. rewrite <- Ke, <- Fa, <- Fi.
        apply (flat_ext cols Hc rows); [exact So| |].
        * rewrite plus_list_length; rewrite ?(concat_length cols Hc est rows Se), ?(concat_length cols Hc im rows Si), ?(concat_length cols Hc added rows Sa); reflexivity.
        * intros i j Hi Hj. rewrite plus_list_nth by (rewrite ?(concat_length cols Hc est rows Se), ?(concat_length cols Hc im rows Si), ?(concat_length cols Hc added rows Sa); nia).
          rewrite !(concat_nth cols Hc _ rows) by assumption. symmetry. now apply Po.
      + intros i j p s Hi Hj Lp Ls. rewrite (Po i j Hi Hj). specialize (Ba i j p s Hi Hj Lp Ls). specialize (Bi i j p s Hi Hj Lp Ls).
        replace (pixel est i j + (pixel im i j - pixel added i j) - pixel x i j) with ((pixel im i j - pixel x i j) - (pixel added i j - pixel est i j)) by lra.
        apply Rabs_le_between in Ba. apply Rabs_le_between in Bi. apply Rabs_le_between. lra. }
  intros k. destruct (ST k) as (est & Ee & Se & Ke & _). exists est. split; [exact Ee|]. split; [exact Se|]. unfold image_apart. rewrite Ke. apply HCr.
Qed.
End Both.

