(** * Images read out, and corrected, with settings that differ a little. *)
From Coq Require Import ZArith List Bool Reals Lra Lia.
From Verif Require Import Num Py RFacts CCDModel TrapsModel ManagerModel ROEModel ClockModel MainModel Spec SpecImage SpecReadout SpecHistory SpecColumn SpecRecovery SpecCalibration WmFacts OrderFacts TameFacts InstantFacts ReadoutImage DepthFacts RecoverFacts RecoverImageFacts SteadyFacts ContractFacts CalibrationFacts.
Import ListNotations.
Open Scope R_scope.

(** ** Corrections above a threshold *)
Section Shifted.
Context (gain tin tout : R) (F : list R -> list R) (HT : tame gain tin tout F) (Hgain : 0 < gain <= 1).
Notation up t x := (map (fun v => v + t) x).
Let H (z : list R) : list R := up (- tout) (F (up tin z)).
Lemma up_up s t x : up s (up t x) = up (t + s) x. Proof. rewrite map_map. apply map_ext. intros. ring. Qed.
Lemma up_0 t s x : t + s = 0 -> up s (up t x) = x. Proof. intros E. rewrite up_up. rewrite <- (map_id x) at 2. apply map_ext. intros. lra. Qed.
Lemma up_last t p a : last (up t (p ++ [a])) 0 = a + t. Proof. rewrite map_app. cbn. apply last_last. Qed.
Lemma up_sum t : forall x y, length x = length y -> Rsum (up t x) - Rsum (up t y) = Rsum x - Rsum y.
Proof. induction x as [|a x IH]; intros [|b y] E; try discriminate; cbn [map]; rewrite ?Rsum_cons; [lra|]. cbn in E. specialize (IH y ltac:(lia)). lra. Qed.
Lemma up_ordered t x y : ordered x y -> ordered (up t x) (up t y). Proof. induction 1; cbn; constructor; [lra|auto]. Qed.
Lemma up_apart t : forall x y, apart (up t x) (up t y) = apart x y.
Proof. induction x as [|a x IH]; intros [|b y]; cbn; try reflexivity. rewrite IH. f_equal. f_equal. ring. Qed.
Lemma last_up t x : x <> [] -> last (up t x) 0 = last x 0 + t.
Proof. intros N. destruct (exists_last N) as (p & a & ->). rewrite up_last, last_last. reflexivity. Qed.
Lemma F_snoc_nonempty p a : F (p ++ [a]) <> [].
Proof. intros E. apply (f_equal (@length R)) in E. rewrite (tm_length _ _ _ _ HT), app_length in E. cbn in E. lia. Qed.
Lemma H_last p a : last (H (p ++ [a])) 0 = last (F (up tin p ++ [a + tin])) 0 - tout.
Proof. unfold H. rewrite map_app. cbn [map]. rewrite last_up by apply F_snoc_nonempty. ring. Qed.
Lemma shifted_steady : steady gain 1 H.
Proof.
  constructor.
  - intros x. unfold H. now rewrite map_length, (tm_length _ _ _ _ HT), map_length.
  - intros i x. unfold H. rewrite firstn_map, <- (tm_prefix _ _ _ _ HT), firstn_map. reflexivity.
  - intros y x O. unfold H. apply up_ordered, (tm_mono _ _ _ _ HT), up_ordered, O.
  - intros y x O. unfold H. pose proof (ordered_length _ _ O) as L. rewrite up_sum by (rewrite !(tm_length _ _ _ _ HT), !map_length; lia).
    pose proof (tm_sum _ _ _ _ HT _ _ (up_ordered tin _ _ O)) as S. rewrite (up_sum tin x y) in S by lia. lra.
  - intros p a b Hab. rewrite !H_last. pose proof (tame_step HT (up tin p) (a + tin) (b + tin) ltac:(lra)). lra.
  - intros p a b Hab Hb. rewrite !H_last. pose proof (tm_grow _ _ _ _ HT (up tin p) (a + tin) (b + tin) ltac:(lra) ltac:(lra)). lra.
  - intros p b Hb. rewrite H_last. pose proof (tm_floor _ _ _ _ HT (up tin p) (b + tin) ltac:(lra)). lra.
Qed.
Lemma shifted_plus : forall x im fx, length x = length im -> length im = length fx -> up (- tin) (plus_list x im fx) = plus_list (up (- tin) x) (up (- tout) im) (up (- tout) fx).
Proof. induction x as [|a x IH]; intros [|b im] [|c fx] E1 E2; try discriminate; cbn; [reflexivity|]. cbn in E1, E2. rewrite IH by lia. f_equal. ring. Qed.
Lemma runs_near x y im im' : length im = length im' -> length (x 0%nat) = length im -> length (y 0%nat) = length im -> run F x im -> run F y im' -> (forall k, Forall (Rle tin) (x k)) -> (forall k, Forall (Rle tin) (y k)) ->
  forall k, apart (x k) (y k) <= scale_of gain 1 (length im) * ((1 - gain / 2) ^ k * apart (x 0%nat) (y 0%nat) + 2 / gain * apart im im').
Proof.
  intros E Ex Ey Rx Ry Hx Hy k.
  assert (RL : forall z i, length (z 0%nat) = length i -> run F z i -> forall k, length (z k) = length i).
  { intros z i L Rz. induction k0 as [|k0 IH]; [exact L|]. rewrite Rz, plus_list_length; [exact IH|exact IH|]. rewrite (tm_length _ _ _ _ HT). now symmetry. }
  assert (RR : forall z i, length (z 0%nat) = length i -> run F z i -> run H (fun k => up (- tin) (z k)) (up (- tout) i)).
  { intros z i L Rz k0. rewrite Rz, shifted_plus; [|now apply RL|rewrite (tm_length _ _ _ _ HT); symmetry; now apply RL]. unfold H. rewrite (up_0 (- tin) tin) by lra. reflexivity. }
  assert (P : forall z : nat -> list R, (forall k, Forall (Rle tin) (z k)) -> forall k, Forall (Rle 0) (up (- tin) (z k))).
  { intros z Hz k0. apply Forall_map. eapply Forall_impl; [|apply Hz]. cbv beta. intros. lra. }
  pose proof (runs_apart gain 1 H shifted_steady ltac:(lra) Hgain (fun k => up (- tin) (x k)) (fun k => up (- tin) (y k)) (up (- tout) im) (up (- tout) im')) as K.
  rewrite !map_length in K. specialize (K E Ex Ey (RR x im Ex Rx) (RR y im' ltac:(lia) Ry) (P x Hx) (P y Hy) k). rewrite !up_apart in K. exact K.
Qed.
End Shifted.

Lemma reads_short tr w we fl : forall k x, (length x <= k)%nat -> reads tr w we fl k x = reads tr w we fl (length x) x.
Proof.
  induction k as [|k IH]; intros x L; [now replace (length x) with 0%nat by lia|]. destruct x as [|h x]; [reflexivity|]. cbn [reads length]. cbn [pass skip]. f_equal.
  pose proof (pass_length tr w we fl x (behind tr w we fl h empty_profile)) as Lp. cbn in L. rewrite IH by lia. now rewrite Lp.
Qed.

Lemma plus_same : forall x f, length f = length x -> plus_list x f f = x.
Proof. induction x as [|a x IH]; intros [|b f] E; try discriminate; cbn; [reflexivity|]. cbn in E. rewrite IH by lia. f_equal. ring. Qed.

(** ** Estimates stay near what they start from *)
Section Estimates.
Context (traps : list (trap R)) (well : R -> R) (dwell floor : R).
Hypothesis Hphys : Forall physical traps.
Hypothesis Hdwell : 0 <= dwell.
Hypothesis Hw : forall a, floor <= a -> 0 <= well a <= 1.
Context (rows offset : nat).
Let rho := traps_per_pixel traps.
Let F := column_reads traps dwell well floor rows offset.
Let d := INR (offset + rows) * rho.
Lemma near_length e x y : near e x y -> length x = length y. Proof. induction 1; cbn; auto. Qed.
Lemma near_sym e x y : near e x y -> near e y x. Proof. induction 1; constructor; [now rewrite Rabs_minus_sym|auto]. Qed.
Lemma plus_near_start : forall c fc y, near d c fc -> length y = length c -> near d y (plus_list c y fc).
Proof.
  intros c fc y H. revert y. induction H as [|a b c fc Hab H IH]; intros [|v y] L; try discriminate; cbn; [constructor|]. constructor; [|apply IH; cbn in L; lia].
  replace (a + (v - b) - v) with (a - b) by ring. now rewrite Rabs_minus_sym.
Qed.
Lemma estimates_near y : Forall (Rle (floor + 2 * d)) y -> forall k, near d y (corrected F y k) /\ Forall (Rle (floor + d)) (corrected F y k).
Proof.
  intros Hy. assert (D0 : 0 <= d) by (unfold d, rho; pose proof (density_nonneg traps Hphys); pose proof (pos_INR (offset + rows)); apply Rmult_le_pos; lra).
  assert (N : forall z, near d y z -> Forall (Rle (floor + d)) z) by (intros z Hz; apply (near_above d (floor + d) y z Hz); eapply Forall_impl; [|exact Hy]; cbv beta; intros; lra).
  assert (K : forall k, near d y (corrected F y k)); [|intros k; split; [apply K|apply N, K]].
  induction k as [|k IH]; cbn [corrected].
  - apply (near_weaken 0); [exact D0|]. apply near_refl.
  - apply plus_near_start; [|now apply (near_length d)]. apply (column_near traps well dwell floor Hphys Hdwell Hw rows offset). exact (N _ IH).
Qed.
End Estimates.

Section Two.
Context (parallel serial parallel' serial' : direction R) (c c' : ccd R) (fraction dwell full beta fraction' dwell' full' beta' floor eps : R) (group group' : list (trap R)) (rows cols : nat).
Let traps := map (thinned fraction) group.
Let traps' := map (thinned fraction') group'.
Let rho := traps_per_pixel traps.
Let rho' := traps_per_pixel traps'.
Let passes := (d_offset parallel + rows)%nat.
Let err := setting_error dwell dwell' eps traps traps'.
Hypothesis Hr : (0 < rows)%nat.
Hypothesis Hc : (0 < cols)%nat.
Hypothesis Hset : single_phase parallel rows c fraction group dwell false.
Hypothesis Hset' : single_phase parallel' rows c' fraction' group' dwell' false.
Hypothesis Hgroup : instant_group group.
Hypothesis Hgroup' : instant_group group'.
Hypothesis Hpp : phase_params c 0 0 beta full.
Hypothesis Hpp' : phase_params c' 0 0 beta' full'.
Hypothesis Hf : 0 < full.
Hypothesis Hf' : 0 < full'.
Hypothesis Hb : 0 < beta.
Hypothesis Hb' : 0 < beta'.
Hypothesis Hst : d_traps serial = None.
Hypothesis Hst' : d_traps serial' = None.
Hypothesis Hsw : d_window serial = WNone.
Hypothesis Hsw' : d_window serial' = WNone.
Hypothesis Hmild : mild rho full beta floor.
Hypothesis Hmild' : mild rho' full' beta' floor.
Hypothesis Hoff : d_offset parallel' = d_offset parallel.
Hypothesis Hlen : length group' = length group.
Hypothesis Heps : depth_error floor full beta full' beta' eps.
Let F := column_reads traps dwell (depth full beta) floor rows (d_offset parallel).
Let F' := column_reads traps' dwell' (depth full' beta') floor rows (d_offset parallel).
Let gain := (1 - rho * slope_of full beta floor) ^ passes.
Let th (p : nat) : R := if Req_EM_T floor 0 then 0 else floor + INR p * rho.
Lemma the_tame : tame gain (th passes) (th 0) F.
Proof. exact (im_tame parallel c fraction dwell full beta floor group rows Hset Hgroup Hf Hb Hmild). Qed.
Lemma the_gain : 0 < gain <= 1.
Proof. exact (im_gain parallel c fraction dwell full beta floor group rows Hset Hgroup Hf Hb Hmild). Qed.
Lemma the_floor : 0 <= floor. Proof. destruct Hmild as [(-> & _)|(H & _)]; lra. Qed.
Lemma the_phys : Forall physical traps. Proof. exact (im_phys parallel c fraction dwell group rows Hset Hgroup). Qed.
Lemma the_phys' : Forall physical traps'. Proof. exact (im_phys parallel' c' fraction' dwell' group' rows Hset' Hgroup'). Qed.
Lemma the_dwell : 0 <= dwell. Proof. pose proof (sp_dwell _ _ _ _ _ _ _ Hset). lra. Qed.
Lemma the_dwell' : 0 <= dwell'. Proof. pose proof (sp_dwell _ _ _ _ _ _ _ Hset'). lra. Qed.
Lemma the_well a : floor <= a -> 0 <= depth full beta a <= 1. Proof. intros Ha. apply sensitive_range; [apply depth_sensitive; auto|pose proof the_floor; lra]. Qed.
Lemma the_well' a : floor <= a -> 0 <= depth full' beta' a <= 1. Proof. intros Ha. apply sensitive_range; [apply depth_sensitive; auto|pose proof the_floor; lra]. Qed.
Lemma rho_0 : 0 <= rho. Proof. apply density_nonneg, the_phys. Qed.
Lemma rho_0' : 0 <= rho'. Proof. apply density_nonneg, the_phys'. Qed.
Lemma column_settings k x : apart (column_reads traps dwell (depth full beta) floor k (d_offset parallel) x) (column_reads traps' dwell' (depth full' beta') floor k (d_offset parallel) x)
  <= INR (d_offset parallel + k) * (6 * INR (length x) * err).
Proof.
  pose proof (mild_gradual traps full beta floor Hf Hb rho_0 Hmild) as [G1 G2]. assert (G3 : traps_per_pixel traps * slope_of full beta floor <= 1) by lra.
  pose proof (im_th0 parallel fraction dwell full beta floor group rows Hmild) as TH0. pose proof (im_th parallel c fraction dwell full beta floor group rows Hset Hgroup Hf Hb Hmild) as TH1. assert (TH2 : forall p, th p <= th (S p)) by (intros p; unfold th; destruct (Req_EM_T floor 0); [lra|]; rewrite S_INR; pose proof rho_0; lra).
  exact (column_near_settings traps traps' dwell dwell' ltac:(unfold traps, traps'; now rewrite !map_length) the_phys the_phys' the_dwell the_dwell' (depth full beta) (depth full' beta') floor (slope_of full beta floor) eps
    G1 the_well the_well' G3 Heps th TH0 TH1 TH2 k (d_offset parallel) x).
Qed.

(** ** Readout *)
Notation enough im := (forall i j, (i < rows)%nat -> (j < cols)%nat -> stays_above rho floor passes (pixel im i j) /\ stays_above rho' floor passes (pixel im i j)).
Lemma part_of_column tr w we k x i : (i <= length x)%nat -> (length x <= k)%nat -> forall g t1 t2, tame g t1 t2 (column_reads tr w we floor k (d_offset parallel)) ->
  firstn i (column_reads tr w we floor k (d_offset parallel) x) = column_reads tr w we floor i (d_offset parallel) (firstn i x).
Proof.
  intros Hi Hk g t1 t2 T. rewrite <- (tm_prefix _ _ _ _ T). unfold column_reads. rewrite (reads_short tr w we floor k) by (rewrite enters_length, firstn_length; lia).
  rewrite enters_length, firstn_length. now rewrite (Nat.min_l i) by lia.
Qed.
Lemma the_tame' : tame ((1 - rho' * slope_of full' beta' floor) ^ passes) (if Req_EM_T floor 0 then 0 else floor + INR passes * rho') (if Req_EM_T floor 0 then 0 else floor + INR 0 * rho') F'.
Proof.
  pose proof (im_tame parallel' c' fraction' dwell' full' beta' floor group' rows Hset' Hgroup' Hf' Hb' Hmild') as T. rewrite Hoff in T. exact T.
Qed.
Lemma both_reads im : shape rows cols im -> enough im ->
  exists out out', add_cti im parallel serial None = Ok (out, the_roe parallel, the_roe serial) /\ add_cti im parallel' serial' None = Ok (out', the_roe parallel', the_roe serial') /\
    shape rows cols out /\ shape rows cols out' /\ forall j, (j < cols)%nat -> column_of out j = F (column_of im j) /\ column_of out' j = F' (column_of im j).
Proof.
  intros Hs He.
  destruct (image_reads parallel serial c fraction dwell full beta floor group rows cols Hr Hset Hgroup Hpp Hf Hb Hst Hsw Hmild im Hs ltac:(intros; now apply He)) as (out & E & S & K).
  assert (He' : forall i j, (i < rows)%nat -> (j < cols)%nat -> stays_above (traps_per_pixel (map (thinned fraction') group')) floor (d_offset parallel' + rows) (pixel im i j)) by (rewrite Hoff; intros; now apply He).
  destruct (image_reads parallel' serial' c' fraction' dwell' full' beta' floor group' rows cols Hr Hset' Hgroup' Hpp' Hf' Hb' Hst' Hsw' Hmild' im Hs He') as (out' & E' & S' & K').
  rewrite Hoff in K'. exists out, out'. auto 10.
Qed.
Lemma readouts_near im : shape rows cols im -> enough im ->
  exists out out', add_cti im parallel serial None = Ok (out, the_roe parallel, the_roe serial) /\ add_cti im parallel' serial' None = Ok (out', the_roe parallel', the_roe serial') /\
    forall i j, (i <= rows)%nat -> (j < cols)%nat -> apart (firstn i (column_of out j)) (firstn i (column_of out' j)) <= 6 * INR i * INR (d_offset parallel + i) * err.
Proof.
  intros Hs He. destruct (both_reads im Hs He) as (out & out' & E & E' & S & S' & K). exists out, out'. split; [exact E|]. split; [exact E'|]. intros i j Hi Hj.
  destruct (K j Hj) as [-> ->]. pose proof (column_length im rows cols j Hs) as L. unfold F, F'.
  rewrite (part_of_column _ _ _ rows (column_of im j) i ltac:(lia) ltac:(lia) _ _ _ the_tame), (part_of_column _ _ _ rows (column_of im j) i ltac:(lia) ltac:(lia) _ _ _ the_tame').
  pose proof (column_settings i (firstn i (column_of im j))) as C. rewrite firstn_length, L, Nat.min_l in C by lia. lra.
Qed.

(** ** Correction *)
Let d := INR passes * rho.
Lemma correction_near x : shape rows cols x -> (forall i j, (i < rows)%nat -> (j < cols)%nat -> floor + INR passes * (2 * rho + rho') <= pixel x i j) ->
  exists im, add_cti x parallel' serial' None = Ok (im, the_roe parallel', the_roe serial') /\ shape rows cols im /\
  forall n, exists est, remove_cti im n parallel serial None = Ok est /\ shape rows cols est /\
    forall j, (j < cols)%nat -> apart (column_of est j) (column_of x j) <=
      scale_of gain 1 rows * ((1 - gain / 2) ^ n * apart (column_of im j) (column_of x j) + 2 / gain * (6 * INR rows * INR passes * err)).
Proof.
  intros Hs He. pose proof rho_0 as R0. pose proof rho_0' as R0'. pose proof (pos_INR passes) as Np. pose proof the_floor as F0. pose proof the_gain as Hg.
  assert (P1 : 0 <= INR passes * rho) by (now apply Rmult_le_pos). assert (P2 : 0 <= INR passes * rho') by (now apply Rmult_le_pos).
  destruct (both_reads x Hs) as (out & im & _ & E' & _ & S' & K).
  { intros i j Hi Hj. specialize (He i j Hi Hj). split; right; lra. }
  exists im. split; [exact E'|]. split; [exact S'|].
  assert (Up : forall j, (j < cols)%nat -> Forall (Rle (floor + 2 * d)) (column_of im j)).
  { intros j Hj. rewrite (proj2 (K j Hj)). unfold F', d.
    apply (near_above (INR passes * rho') _ (column_of x j)).
    - apply (column_near traps' (depth full' beta') dwell' floor the_phys' the_dwell' the_well' rows (d_offset parallel)). apply (Forall_column _ x rows cols j Hs). intros i Hi. specialize (He i j Hi Hj). fold passes rho'. lra.
    - apply (Forall_column _ x rows cols j Hs). intros i Hi. specialize (He i j Hi Hj). lra. }
  assert (Es : forall j, (j < cols)%nat -> forall k, near d (column_of im j) (corrected F (column_of im j) k) /\ Forall (Rle (floor + d)) (corrected F (column_of im j) k)).
  { intros j Hj. exact (estimates_near traps (depth full beta) dwell floor the_phys the_dwell the_well rows (d_offset parallel) (column_of im j) (Up j Hj)). }
  assert (Tin : forall l, Forall (Rle (floor + d)) l -> Forall (Rle (th passes)) l).
  { intros l. apply Forall_impl. intros a Ha. unfold th. destruct (Req_EM_T floor 0); unfold d in Ha; lra. }
  intros n. destruct (remove_columns parallel serial c fraction dwell full beta floor group rows cols Hr Hset Hgroup Hpp Hf Hb Hst Hsw Hmild im Hc S') with (k := n) as (est & Ee & Se & Ke).
  { intros k j Hj. eapply Forall_impl; [|apply (Es j Hj k)]. intros a Ha. right. unfold d in Ha. change (floor + INR passes * rho <= a). lra. }
  exists est. split; [exact Ee|]. split; [exact Se|]. intros j Hj. rewrite (Ke j Hj).
  pose proof (column_length im rows cols j S') as L1. pose proof (column_length x rows cols j Hs) as L2.
  assert (LF : length (F (column_of x j)) = rows) by (now rewrite (tm_length _ _ _ _ the_tame)).
  pose proof (runs_near gain (th passes) (th 0) F the_tame Hg (corrected F (column_of im j)) (fun _ => column_of x j) (column_of im j) (F (column_of x j)) ltac:(lia) eq_refl ltac:(lia)) as RN.
  assert (R1 : run F (corrected F (column_of im j)) (column_of im j)) by (intros k; reflexivity).
  assert (R2 : run F (fun _ => column_of x j) (F (column_of x j))).
  { intros k. symmetry. apply plus_same. now rewrite LF, L2. }
  specialize (RN R1 R2 (fun k => Tin _ (proj2 (Es j Hj k)))).
  specialize (RN ltac:(intros k; apply Tin; apply (Forall_column _ x rows cols j Hs); intros i Hi; specialize (He i j Hi Hj); unfold d; lra) n).
  cbn [corrected] in RN. rewrite L1 in RN. eapply Rle_trans; [exact RN|].
  apply Rmult_le_compat_l; [left; apply scale_pos; [lra|exact Hg]|]. apply Rplus_le_compat_l. apply Rmult_le_compat_l; [left; apply Rdiv_lt_0_compat; lra|].
  rewrite (proj2 (K j Hj)). pose proof (column_settings rows (column_of x j)) as C. rewrite L2 in C. fold F F' passes in C.
  assert (Sy : forall a b, apart a b = apart b a) by (clear; induction a as [|u a IH]; intros [|v b]; cbn; try reflexivity; now rewrite IH, Rabs_minus_sym).
  rewrite Sy. lra.
Qed.
End Two.
