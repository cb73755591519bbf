(** * A readout changes no pixel by more than the traps it passes. *)
From Coq Require Import ZArith List Bool Reals Lra Lia.
From Coquelicot Require Import Rcomplements Rbar Hierarchy RInt.
From Verif Require Import Num Py RFacts CCDModel TrapsModel ManagerModel ROEModel ClockModel MainModel Spec SpecROE SpecImage SpecReadout SpecColumn SpecExpress SpecBound
  WmFacts ArrayFacts CutFacts InstantFacts ClockFacts MainFacts ShapeFacts ColumnFacts
  ROEClockFacts ROEMatrixFacts ROEExpressFacts ROEKindFacts ReadoutFacts ReadoutImage ReadoutForced ReadoutFull ReadoutSpecFacts ReadoutColumnFacts MainReadoutFacts ExpressFacts MixtureFacts.
Import ListNotations.
Open Scope R_scope.

Definition group_density (g : list (trap R)) : R := Rsum (map (@t_density R) g).
Definition site_density (s : site) : R := Rsum (map group_density (site_groups s)).

Lemma real_le g P : Forall physical g -> real g P -> electrons g P 0 1 <= group_density g.
Proof.
  intros Hp H. destruct (H 0%nat) as (m & Hm). destruct Hm as (l & k & -> & _ & Hg & Hv & Hs). cbn [m_wm] in Hs.
  rewrite <- (electrons_same g _ P 0 1 Hs) by lra. rewrite electrons_total by assumption.
  assert (Hd : Forall (fun d => 0 <= d) (dens g)) by apply Rsum_dens_nonneg, Hp.
  eapply Rle_trans; [apply (trapped_le (length g)); [exact Hg|exact Hd|apply map_length]|].
  assert (0 <= Rsum (dens g)). { clear - Hd. induction Hd; [cbn; lra|]. cbn. unfold Rsum in *. lra. }
  change (group_density g) with (Rsum (dens g)). nra.
Qed.
Lemma net_bound g well n dwell P : Forall physical g -> (0 < length g)%nat -> sensitive well -> real g P -> 0 <= n -> 0 < dwell ->
  Rabs (transfer_net g well dwell n P) <= group_density g.
Proof.
  intros Hp Hl Hw Hr Hn Hd. destruct (real_step g well n dwell P Hp Hl Hw Hr Hn Hd) as (H1 & H2 & _).
  pose proof (real_le g P Hp Hr). pose proof (real_nonneg g P Hp Hr). pose proof (real_le g _ Hp H1). pose proof (real_nonneg g _ Hp H1).
  apply Rabs_le. lra.
Qed.
Lemma site_net_bound s n dwell Ps : good_site s -> real_state s Ps -> 0 <= n -> 0 < dwell -> Rabs (site_net s dwell n Ps) <= site_density s.
Proof.
  intros [Hw Hg] Hr Hn Hd. unfold real_state, site_net, site_density in *. revert Hg. generalize dependent Ps.
  induction (site_groups s) as [|g gs IH]; intros Ps Hr Hg; inversion Hr as [|? P ? Ps' Hr1 Hr2]; subst.
  - cbn. rewrite Rabs_R0. lra.
  - inversion Hg as [|? ? [Hp Hl] Hg']; subst. cbn [combine map]. rewrite !Rsum_cons.
    eapply Rle_trans; [apply Rabs_triang|]. apply Rplus_le_compat; [apply net_bound; assumption|apply IH; assumption].
Qed.
Lemma site_density_nonneg s : good_site s -> 0 <= site_density s.
Proof.
  intros [_ Hg]. unfold site_density. induction Hg as [|g gs [Hp _] Hg IH]; [cbn; lra|]. cbn [map]. rewrite Rsum_cons.
  enough (0 <= group_density g) by lra. unfold group_density. clear - Hp. induction Hp as [|t g [Ht _ _] Hp IH]; [cbn; lra|]. cbn [map]. rewrite Rsum_cons. lra.
Qed.

(** The part of a release that reaches row [z]. *)
Definition reach (targets : list (Z * R)) (row z : Z) : R :=
  Rsum (map (fun '(d, f) => if (row + d =? z)%Z then f else 0) targets).
Lemma give_change (c : column) row q z : 0 <= c z -> Rabs (give c row q z - c z) <= if (row =? z)%Z then Rabs q else 0.
Proof.
  intros H. unfold give. rewrite Z.eqb_sym. destruct (Z.eqb_spec row z) as [->|_]; [|rewrite Rminus_diag_eq, Rabs_R0 by reflexivity; lra].
  unfold Rmax. destruct (Rle_dec 0 (c z + q)).
  - replace (c z + q - c z) with q by ring. lra.
  - rewrite (Rabs_left1 (0 - c z)) by lra. rewrite (Rabs_left1 q) by lra. lra.
Qed.
Lemma deposit_change targets row q z : Forall (fun p => 0 <= snd p) targets -> forall c : column, (forall i, 0 <= c i) ->
  Rabs (deposit targets row q c z - c z) <= Rabs q * reach targets row z.
Proof.
  induction 1 as [|[d f] targets Hf H IH]; intros c Hc; [cbn; rewrite Rminus_diag_eq, Rabs_R0 by reflexivity; lra|].
  unfold deposit. cbn [fold_left]. fold (deposit targets row q (give c (row + d) (q * f))).
  pose proof (IH _ (give_nonneg c (row + d)%Z (q * f) Hc)) as H1. pose proof (give_change c (row + d)%Z (q * f) z (Hc z)) as H2.
  unfold reach. cbn [map]. rewrite Rsum_cons. fold (reach targets row z). cbn [snd] in Hf.
  replace (deposit targets row q (give c (row + d) (q * f)) z - c z)
    with ((deposit targets row q (give c (row + d) (q * f)) z - give c (row + d) (q * f) z) + (give c (row + d) (q * f) z - c z)) by ring.
  eapply Rle_trans; [apply Rabs_triang|]. destruct (Z.eqb_spec (row + d) z).
  - rewrite Rabs_mult, (Rabs_pos_eq f Hf) in H2. lra.
  - lra.
Qed.

Section Change.
Context (sites : nat -> site) (phases : list nat) (steps : list (R * list (roe_phase R))) (B : Z -> R) (z : Z).
Hypothesis Hsites : forall k, In k phases -> good_site (sites k).
Hypothesis Hsteps : forall d es, In (d, es) steps -> 0 < d.
Hypothesis HB : forall d es k row, In (d, es) steps -> In k phases ->
  let e := electrode es k in Forall (fun p => 0 <= snd p) (combine (rp_release e) (rp_fraction e)) /\ reach (combine (rp_release e) (rp_fraction e)) row z <= B row.

Let rho := Rsum (map (fun k => site_density (sites k)) phases).
Definition within (x : R) (c c' : column) : Prop := Rabs (c' z - c z) <= x.
Lemma within_trans x y c c1 c2 : within x c c1 -> within y c1 c2 -> within (x + y) c c2.
Proof.
  unfold within. intros H1 H2. replace (c2 z - c z) with ((c1 z - c z) + (c2 z - c1 z)) by ring. eapply Rle_trans; [apply Rabs_triang|]. lra.
Qed.
Lemma within_refl c : within 0 c c.
Proof. unfold within. rewrite Rminus_diag_eq, Rabs_R0 by reflexivity. lra. Qed.

Lemma expose_change row mult dwell es c T k : 0 <= mult -> In (dwell, es) steps -> In k phases -> sound sites phases (c, T) ->
  within (mult * B row * site_density (sites k)) c (fst (expose sites row mult dwell es (c, T) k)).
Proof.
  intros Hm Hin Hk [H1 H2]. cbn [fst snd] in *. unfold expose, within. cbn [fst].
  destruct (HB dwell es k row Hin Hk) as [Hf Hr]. set (e := electrode es k) in *.
  set (n := if rp_high e then c (row + rp_capture e)%Z else 0). assert (Hn : 0 <= n) by (unfold n; destruct (rp_high e); [apply H1|lra]).
  eapply Rle_trans; [apply deposit_change; [exact Hf|exact H1]|]. rewrite Rabs_mult, (Rabs_pos_eq mult Hm).
  pose proof (site_net_bound (sites k) n dwell (T k) (Hsites k Hk) (H2 k Hk) Hn (Hsteps _ _ Hin)) as HN.
  pose proof (Rabs_pos (site_net (sites k) dwell n (T k))). pose proof (site_density_nonneg (sites k) (Hsites k Hk)).
  assert (0 <= reach (combine (rp_release e) (rp_fraction e)) row z).
  { unfold reach. clear - Hf. induction Hf as [|[d f] l Hf0 Hf IH]; [cbn; lra|]. cbn [map]. rewrite Rsum_cons. cbn [snd] in Hf0. destruct (row + d =? z)%Z; lra. }
  set (N := Rabs (site_net (sites k) dwell n (T k))) in *. set (r := reach _ row z) in *.
  assert (N * r <= site_density (sites k) * B row) by (apply Rmult_le_compat; assumption). nra.
Qed.
Lemma fold_expose_change row mult dwell es : 0 <= mult -> In (dwell, es) steps -> forall ks, incl ks phases -> forall c T, sound sites phases (c, T) ->
  within (mult * B row * Rsum (map (fun k => site_density (sites k)) ks)) c (fst (fold_left (expose sites row mult dwell es) ks (c, T))).
Proof.
  intros Hm Hin. induction ks as [|k ks IH]; intros Hi c T Hs; [cbn; rewrite Rmult_0_r; apply within_refl|]. cbn [fold_left map]. rewrite Rsum_cons.
  assert (Hk : In k phases) by (apply Hi; left; reflexivity).
  pose proof (expose_change row mult dwell es c T k Hm Hin Hk Hs) as H1.
  pose proof (expose_sound sites phases Hsites row mult dwell es (c, T) k (Hsteps _ _ Hin) Hk Hs) as H2.
  destruct (expose sites row mult dwell es (c, T) k) as [c1 T1]. cbn [fst] in H1.
  pose proof (IH ltac:(intros a Ha; apply Hi; right; exact Ha) c1 T1 H2) as H3. rewrite Rmult_plus_distr_l. eapply within_trans; eassumption.
Qed.
Lemma pixel_change row mult c T : 0 <= mult -> sound sites phases (c, T) ->
  within (mult * B row * (INR (length steps) * rho)) c (fst (transfer_pixel sites phases steps row mult (c, T))).
Proof.
  intros Hm. unfold transfer_pixel. assert (Hi : incl steps steps) by (intros a Ha; exact Ha). revert Hi c T.
  generalize steps at 1 3 4 as l. induction l as [|[d es] l IH]; intros Hi c T Hs; [cbn; rewrite Rmult_0_l, Rmult_0_r; apply within_refl|].
  cbn [fold_left]. assert (Hin : In (d, es) steps) by (apply Hi; left; reflexivity).
  pose proof (fold_expose_change row mult d es Hm Hin phases (fun a Ha => Ha) c T Hs) as H1.
  pose proof (fold_expose_sound sites phases Hsites row mult d es phases (Hsteps _ _ Hin) (fun a Ha => Ha) (c, T) Hs) as H2.
  destruct (fold_left (expose sites row mult d es) phases (c, T)) as [c1 T1]. cbn [fst] in H1.
  pose proof (IH ltac:(intros a Ha; apply Hi; right; exact Ha) c1 T1 H2) as H3.
  replace (mult * B row * (INR (length ((d, es) :: l)) * rho)) with (mult * B row * rho + mult * B row * (INR (length l) * rho))
    by (cbn [length]; rewrite S_INR; ring).
  eapply within_trans; eassumption.
Qed.
Definition weight (cells : list (Z * R * bool)) : R := Rsum (map (fun '(row, mult, _) => mult * B row) cells).
Lemma cells_change cells : Forall (fun '(_, mult, _) => 0 <= mult) cells -> forall c T saved, sound sites phases (c, T) -> sound sites phases (c, saved) ->
  within (weight cells * (INR (length steps) * rho)) c (fst (fst (fold_left (pass_cell sites phases steps) cells (c, T, saved)))).
Proof.
  induction 1 as [|[[row mult] save] cells Hm H IH]; intros c T saved Hs1 Hs2; [unfold weight; cbn; rewrite Rmult_0_l; apply within_refl|].
  cbn [fold_left pass_cell]. pose proof (pixel_change row mult c T Hm Hs1) as H1.
  pose proof (transfer_pixel_sound sites phases steps Hsites Hsteps row mult (c, T) Hs1) as H2.
  destruct (transfer_pixel sites phases steps row mult (c, T)) as [c1 T1]. cbn [fst] in H1.
  assert (H3 : sound sites phases (c1, if save then T1 else saved)) by (destruct H2 as [H2a H2b]; destruct save; split; auto; apply Hs2).
  pose proof (IH c1 T1 _ H2 H3) as H4. unfold weight. cbn [map]. rewrite Rsum_cons. fold (weight cells). rewrite Rmult_plus_distr_r.
  eapply within_trans; eassumption.
Qed.
Lemma readout_change passes : Forall (Forall (fun '(_, mult, _) => 0 <= mult)) passes -> forall c : column, (forall i, 0 <= c i) ->
  within (Rsum (map weight passes) * (INR (length steps) * rho)) c (readout sites phases steps passes c).
Proof.
  intros H c Hc. unfold readout. pose proof (all_empty_sound sites phases c Hc) as Hs. revert c Hc Hs. generalize (all_empty sites) as T.
  induction H as [|cells passes Hm H IH]; intros T c Hc Hs; [cbn; rewrite Rmult_0_l; apply within_refl|].
  cbn [fold_left transfer_pass map]. pose proof (cells_change cells Hm c T T Hs Hs) as H1.
  destruct (fold_left (pass_cell sites phases steps) cells (c, T, T)) as [[c1 T1] s1] eqn:E.
  destruct (pass_sound sites phases steps Hsites Hsteps cells _ _ _ _ _ _ Hs Hs E) as [H2 H3]. cbn [fst] in H1.
  pose proof (IH s1 c1 (proj1 H3) H3) as H4. rewrite Rsum_cons, Rmult_plus_distr_r. eapply within_trans; eassumption.
Qed.
End Change.

(** ** The weights of the passes of an express matrix *)
Definition own (z row : Z) : R := if (row =? z)%Z then 1 else 0.
Definition own_or_next (z row : Z) : R := own z row + own (z - 1) row.
Lemma weight_plus B1 B2 cells : weight (fun r => B1 r + B2 r) cells = weight B1 cells + weight B2 cells.
Proof. unfold weight. induction cells as [|[[r m] s] cells IH]; [cbn; lra|]. cbn [map]. rewrite !Rsum_cons, IH. ring. Qed.
Lemma weighted_pass_from z : forall mults s, Forall (Rle 0) mults ->
  weight (own (Z.of_nat z)) (flat_map (fun '(w, x) => if Rlt_dec 0 x then [(Z.of_nat w, x, false)] else []) (combine (seq s (length mults)) mults))
  = if Nat.leb s z then nth (z - s) mults 0 else 0.
Proof.
  induction mults as [|x mults IH]; intros s H; [cbn; destruct (Nat.leb s z); [destruct (z - s)%nat; reflexivity|reflexivity]|].
  inversion H as [|? ? Hx H']; subst. cbn [length seq combine flat_map].
  assert (W : weight (own (Z.of_nat z)) (if Rlt_dec 0 x then [(Z.of_nat s, x, false)] else []) = if Nat.eqb s z then x else 0).
  { unfold own, weight. destruct (Rlt_dec 0 x); cbn [map]; unfold Rsum; cbn [fold_right].
    - destruct (Z.eqb_spec (Z.of_nat s) (Z.of_nat z)), (Nat.eqb_spec s z); try lia; lra.
    - destruct (Nat.eqb s z); [|reflexivity]. lra. }
  unfold weight in *. rewrite map_app, Rsum_app, W, IH by assumption.
  destruct (Nat.eqb_spec s z) as [->|Hne].
  - rewrite Nat.leb_refl, Nat.sub_diag. destruct (Nat.leb_spec (S z) z); [lia|]. cbn [nth]. lra.
  - destruct (Nat.leb_spec s z), (Nat.leb_spec (S s) z); try lia; [|lra]. replace (z - s)%nat with (S (z - S s)) by lia. cbn [nth]. lra.
Qed.
Lemma weighted_pass_below z mults : (z < 0)%Z -> weight (own z) (weighted_pass mults) = 0.
Proof.
  intros Hz. unfold weighted_pass. generalize 0%nat as s. induction mults as [|x mults IH]; intros s; [reflexivity|].
  cbn [length seq combine flat_map]. unfold weight in *. rewrite map_app, Rsum_app, IH. unfold own.
  destruct (Rlt_dec 0 x); cbn [map]; unfold Rsum; cbn [fold_right]; [|lra]. destruct (Z.eqb_spec (Z.of_nat s) z); [lia|lra].
Qed.
Lemma transfers_rows m j : transfers m j = Rsum (map (fun r => nth j r 0) m).
Proof.
  unfold transfers, entry. induction m as [|r m IH] using rev_ind; [reflexivity|].
  rewrite app_length, Nat.add_1_r. cbn [transfers_before]. unfold entry. rewrite nth_middle, map_app, Rsum_app. cbn [map]. rewrite Rsum_cons. change (Rsum []) with 0. rewrite Rplus_0_r. f_equal.
  rewrite <- IH. clear IH. assert (H : forall i, (i <= length m)%nat -> transfers_before (m ++ [r]) i j = transfers_before m i j).
  { induction i as [|i IH]; intros Hi; [reflexivity|]. cbn [transfers_before]. rewrite IH by lia. unfold entry. rewrite app_nth1 by lia. reflexivity. }
  apply H. lia.
Qed.
Lemma weights_own m (i : nat) : Forall (Forall (Rle 0)) m -> Rsum (map (weight (own (Z.of_nat i))) (weighted_passes m)) = transfers m i.
Proof.
  intros H. rewrite transfers_rows. unfold weighted_passes. rewrite map_map. apply Rsum_ext. intros r Hr. unfold weighted_pass.
  rewrite weighted_pass_from by (rewrite Forall_forall in H; apply H, Hr). cbn [Nat.leb]. rewrite Nat.sub_0_r. reflexivity.
Qed.
Lemma weights_before m (i : nat) : Forall (Forall (Rle 0)) m -> Rsum (map (weight (own (Z.of_nat i - 1))) (weighted_passes m)) = match i with O => 0 | S i' => transfers m i' end.
Proof.
  intros H. destruct i as [|i].
  - unfold weighted_passes. rewrite map_map. induction m as [|r m IH]; [reflexivity|]. cbn [map]. rewrite Rsum_cons, weighted_pass_below by lia. rewrite IH by (inversion H; assumption). lra.
  - replace (Z.of_nat (S i) - 1)%Z with (Z.of_nat i) by lia. apply weights_own, H.
Qed.
Lemma weighted_nonneg m : Forall (Forall (fun '(_, mult, _) => 0 <= mult)) (weighted_passes m).
Proof.
  unfold weighted_passes, weighted_pass. apply Forall_forall. intros cells Hc. apply in_map_iff in Hc as (r & <- & _).
  apply Forall_forall. intros [[row mult] s] Hin. apply in_flat_map in Hin as ([w x] & _ & Hin). destruct (Rlt_dec 0 x); [|destruct Hin]. destruct Hin as [E|[]]. injection E as <- <- <-. lra.
Qed.

(** ** The image *)
Lemma site_of_density c groups k : site_density (site_of c groups k) = share c k * traps_per_pixel groups.
Proof.
  unfold site_density, traps_per_pixel, site_of. cbn [site_groups]. rewrite map_map. induction groups as [|g gs IH]; [cbn; ring|].
  cbn [map]. rewrite !Rsum_cons, IH, Rmult_plus_distr_l. f_equal. unfold group_density. rewrite map_map. cbn [thinned t_density].
  induction g as [|t g IHg]; [cbn; ring|]. cbn [map]. rewrite !Rsum_cons, IHg. ring.
Qed.
Lemma all_phases_density c groups : plain_ccd c ->
  Rsum (map (fun k => site_density (site_of c groups k)) (trap_phases c)) = all_shares c * traps_per_pixel groups.
Proof.
  intros Hc. unfold trap_phases, all_shares. induction (seq 0 (ccd_n_phases c)) as [|k l IH]; [cbn; ring|].
  cbn [filter map]. destruct (Rlt_dec 0 (share c k)) as [Hk|Hk]; cbn [map]; rewrite !Rsum_cons, IH, ?site_of_density; [ring|].
  replace (share c k) with 0 by (pose proof (pc_share c Hc k); lra). ring.
Qed.
Lemma rect_nonneg E rows m : rect E rows m -> (forall e w, (e < E)%nat -> (w < rows)%nat -> 0 <= entry m e w) -> Forall (Forall (Rle 0)) m.
Proof.
  intros [H1 H2] H. apply Forall_forall. intros r Hr. apply Forall_forall. intros x Hx. rewrite Forall_forall in H2.
  destruct (In_nth m r [] Hr) as (e & He & Er). destruct (In_nth r x 0 Hx) as (w & Hw & Ex).
  rewrite <- Ex, <- Er. apply (H e w); [rewrite <- H1; exact He|]. rewrite <- (H2 r Hr). exact Hw.
Qed.
Lemma steps_le (r : roe R) : (length (timed_steps r) <= length (roe_dwell_times r))%nat.
Proof. unfold timed_steps. eapply Nat.le_trans; [apply filter_len|]. rewrite combine_length. lia. Qed.
Lemma electrode_reach dwell dt k d es row z : (k < length dwell)%nat -> In (d, es) (timed_steps (built (Standard true) dwell dt true true)) ->
  let e := electrode es k in Forall (fun p => 0 <= snd p) (combine (rp_release e) (rp_fraction e)) /\
    reach (combine (rp_release e) (rp_fraction e)) row z <= own_or_next z row.
Proof.
  intros Hk Hin. destruct (timed_in _ _ _ Hin) as [_ Hes]. cbn in Hes. apply In_nth_error in Hes as [step Hstep].
  destruct (standard_sequence_spec true _ _ _ Hstep) as [Hl Hsp].
  destruct (nth_error es k) as [e|] eqn:Ee; [|apply nth_error_None in Ee; lia].
  assert (He : electrode es k = e) by (unfold electrode; apply nth_error_nth, Ee). cbn zeta. rewrite He.
  destruct (Hsp _ _ Ee) as (P1 & P2 & P3 & P4 & P5). pose proof (fractions_nonneg _ _ _ _ _ _ Hstep Ee) as P6. cbn iota in P3.
  assert (Q1 : Forall (fun p => 0 <= snd p /\ (0 <= fst p <= 1)%Z) (combine (rp_release e) (rp_fraction e))).
  { apply Forall_forall. intros [x f] Hx. cbn [snd fst]. split; [rewrite Forall_forall in P6; apply P6; eapply in_combine_r, Hx|].
    specialize (P3 x (or_intror (in_combine_l _ _ _ _ Hx))). lia. }
  assert (Q2 : Rsum (map snd (combine (rp_release e) (rp_fraction e))) = 1).
  { rewrite <- P4 at 1. f_equal. clear - P5. revert P5. generalize (rp_release e) (rp_fraction e). induction l as [|a l IH]; intros [|b l'] H; try discriminate; [reflexivity|].
    cbn [combine map snd]. f_equal. apply IH. cbn in H. lia. }
  split; [eapply Forall_impl; [|exact Q1]; intros ? [? _]; assumption|].
  unfold own_or_next, own.
  assert (G1 : reach (combine (rp_release e) (rp_fraction e)) row z <= Rsum (map snd (combine (rp_release e) (rp_fraction e)))).
  { unfold reach. clear - Q1. induction Q1 as [|[x f] l [Hf _] Q1 IH]; [cbn; lra|]. cbn [map snd fst] in *. rewrite !Rsum_cons. destruct (row + x =? z)%Z; lra. }
  assert (G2 : (row <> z)%Z -> (row <> z - 1)%Z -> reach (combine (rp_release e) (rp_fraction e)) row z = 0).
  { intros H1 H2. unfold reach. clear - Q1 H1 H2. induction Q1 as [|[x f] l [_ Hx] Q1 IH]; [reflexivity|]. cbn [map snd fst] in *. rewrite !Rsum_cons, IH. destruct (Z.eqb_spec (row + x) z); [lia|lra]. }
  destruct (Z.eqb_spec row z), (Z.eqb_spec row (z - 1)); try lra. rewrite G2 by assumption. lra.
Qed.
Lemma single_reach (d0 : R) dt k d es row z : (k < 1)%nat -> In (d, es) (timed_steps (built (Standard true) [d0] dt true true)) ->
  let e := electrode es k in Forall (fun p => 0 <= snd p) (combine (rp_release e) (rp_fraction e)) /\
    reach (combine (rp_release e) (rp_fraction e)) row z <= own z row.
Proof.
  intros Hk Hin. destruct (timed_in _ _ _ Hin) as [_ Hes]. destruct k; [|lia]. cbn in Hes. destruct Hes as [<-|[]]. cbn. rnum.
  split; [repeat constructor; cbn; lra|]. unfold own, reach. cbn. rewrite Z.add_0_r. destruct (row =? z)%Z; lra.
Qed.

Section Image.
Context (im : image R) (d : direction R) (c : ccd R) (traps : traps_arg R) (dwell : list R) (dt : dtype) (rows cols : nat)
  (columns : list Z) (tw : option (list Z)).
Hypothesis Hs : shape rows cols im.
Hypothesis Hr : (0 < rows)%nat.
Hypothesis Hp : forall i j, 0 <= pixel im i j.
Hypothesis Hps : plain_setting d rows c traps dwell dt.
Hypothesis Hrange : forall j, In j columns -> (0 <= j < Z.of_nat cols)%Z.
Hypothesis Hnd : NoDup columns.
Hypothesis Htw : tw = None \/ tw = whole rows (d_offset d).
Let traps_met := all_shares c * traps_per_pixel (groups_in traps).
Let T (i : nat) := INR (i + 1 + d_offset d).

Lemma traps_met_nonneg : 0 <= traps_met.
Proof.
  unfold traps_met. rewrite <- all_phases_density by exact (ps_plain _ _ _ _ _ _ Hps).
  assert (H : forall k, In k (trap_phases c) -> good_site (site_of c (groups_in traps) k)) by apply (plain_sites d c traps dwell dt rows Hps).
  revert H. generalize (trap_phases c) as l. induction l as [|k l IH]; intros H; [cbn; lra|]. cbn [map]. rewrite Rsum_cons.
  pose proof (site_density_nonneg _ (H k (or_introl eq_refl))). pose proof (IH (fun a Ha => H a (or_intror Ha))). lra.
Qed.
Lemma direction_readout : exists im' m E, clock_direction im d (the_roe d) traps (py_range 0 (Z.of_nat rows)) columns tw = Ok (im', the_roe d) /\
  shape rows cols im' /\ (forall i j, 0 <= pixel im' i j) /\ rect E rows m /\
  (forall e w, (e < E)%nat -> (w < rows)%nat -> 0 <= entry m e w) /\ (forall w, (w < rows)%nat -> transfers m w = T w) /\
  forall i j, (i < rows)%nat -> In (Z.of_nat j) columns ->
    pixel im' i j = readout (site_of c (groups_in traps)) (trap_phases c) (timed_steps (the_roe d)) (weighted_passes m) (col_fun im j) (Z.of_nat i).
Proof.
  destruct (plain_clocking im d rows c traps dwell dt columns None rows cols Hps eq_refl Hs Hr Hp Hrange Hnd I) as (im' & em & mon & E1 & E2 & G1 & G2 & _ & G4).
  cbn [tw_arg option_map] in E1, E2. rewrite <- (plain_roe _ _ _ _ _ _ Hps) in E2, G4.
  assert (E3 : clock_direction im d (the_roe d) traps (py_range 0 (Z.of_nat rows)) columns tw = Ok (im', the_roe d)).
  { destruct Htw as [-> | ->]; [exact E2|]. rewrite <- E2. unfold clock_direction. rewrite (ps_ccd _ _ _ _ _ _ Hps), (plain_roe _ _ _ _ _ _ Hps).
    rewrite clock_whole_none by exact Hr. reflexivity. }
  pose proof (window_ok_range rows Hr) as Hwin.
  destruct (column_transfers _ _ _ _ _ _ Hwin _ _ E1) as (E & R1 & R2 & HE & Hk).
  rewrite py_range_length, Z.sub_0_r, Nat2Z.id in R1, R2.
  assert (Hk' : forall w, (w < rows)%nat -> transfers em w = INR (w + 1 + d_offset d) /\
    forall i, (i < E)%nat -> 0 <= entry em i w /\ (bentry mon i w = true <-> 0 < entry em i w)).
  { intros w Hlt. destruct (Hk w (Z.of_nat w)) as [T1 T2]; [rewrite py_range_nth_error by lia; f_equal; lia|].
    split; [|exact T2]. rewrite T1, !plus_INR, <- INR_IZR_INZ. reflexivity. }
  exists im', em, E. split; [exact E3|]. split; [exact G1|]. split; [exact G2|]. split; [exact R1|].
  split; [intros e w He Hlt; apply (proj1 (proj2 (Hk' w Hlt) e He))|].
  split; [intros w Hlt; apply Hk', Hlt|].
  intros i j Hi Hj. rewrite (G4 i j Hi Hj). f_equal. apply (passes_weighted rows E em mon R1 R2). intros e w He Hlt. apply Hk'; assumption.
Qed.

Lemma direction_bounded : exists im', clock_direction im d (the_roe d) traps (py_range 0 (Z.of_nat rows)) columns tw = Ok (im', the_roe d) /\
  shape rows cols im' /\ (forall i j, 0 <= pixel im' i j) /\
  forall i j, (i < rows)%nat -> In (Z.of_nat j) columns ->
    Rabs (pixel im' i j - pixel im i j) <= (T i + match i with O => 0 | S _ => INR (i + d_offset d) end) * (INR (length dwell) * traps_met) /\
    (length dwell = 1%nat -> Rabs (pixel im' i j - pixel im i j) <= T i * traps_met).
Proof.
  destruct direction_readout as (im' & m & E & H4 & H5 & H5' & H1 & H2 & H3 & H6).
  exists im'. split; [exact H4|]. split; [exact H5|]. split; [exact H5'|]. intros i j Hi Hj. rewrite (H6 i j Hi Hj).
  pose proof (rect_nonneg E rows m H1 H2) as Hm.
  pose proof traps_met_nonneg as Ht. unfold traps_met in Ht. rewrite <- all_phases_density in Ht by exact (ps_plain _ _ _ _ _ _ Hps).
  assert (HT : forall i, (i < rows)%nat -> transfers m i = T i) by exact H3.
  assert (Hlen : INR (length (timed_steps (the_roe d))) <= INR (length dwell)).
  { apply le_INR. rewrite (plain_roe _ _ _ _ _ _ Hps). apply steps_le. }
  assert (Hc : forall z, 0 <= col_fun im j z) by (intros z; apply Hp).
  replace (pixel im i j) with (col_fun im j (Z.of_nat i)) by (unfold col_fun; rewrite Nat2Z.id; reflexivity).
  assert (Hsteps := plain_steps d).
  assert (Hk := plain_phases d c traps dwell dt rows Hps Hr).
  assert (Hsites := plain_sites d c traps dwell dt rows Hps).
  unfold traps_met. rewrite <- all_phases_density by exact (ps_plain _ _ _ _ _ _ Hps).
  set (rho := Rsum _) in *. split.
  - pose proof (readout_change (site_of c (groups_in traps)) (trap_phases c) (timed_steps (the_roe d)) (own_or_next (Z.of_nat i)) (Z.of_nat i) Hsites Hsteps) as H.
    specialize (H ltac:(intros x es k row Hd Hkin; apply (electrode_reach dwell dt k x es row); [apply Hk, Hkin|rewrite (plain_roe _ _ _ _ _ _ Hps) in Hd; exact Hd]) (weighted_passes m) (weighted_nonneg m) (col_fun im j) Hc).
    unfold within in H. fold rho in H. eapply Rle_trans; [exact H|].
    replace (Rsum (map (weight (own_or_next (Z.of_nat i))) (weighted_passes m))) with (T i + match i with O => 0 | S _ => INR (i + d_offset d) end).
    + apply Rmult_le_compat_l; [|apply Rmult_le_compat_r; assumption]. unfold T. destruct i; [pose proof (pos_INR (0 + 1 + d_offset d)); lra|pose proof (pos_INR (S i + 1 + d_offset d)); pose proof (pos_INR (S i + d_offset d)); lra].
    + rewrite <- HT by exact Hi. replace (match i with O => 0 | S _ => INR (i + d_offset d) end) with (match i with O => 0 | S i' => transfers m i' end)
        by (destruct i; [reflexivity|rewrite HT by lia; unfold T; f_equal; lia]).
      rewrite <- (weights_own m i Hm), <- (weights_before m i Hm), <- Rsum_plus. apply Rsum_ext. intros cells _. symmetry. apply weight_plus.
  - intros H1d. assert (Hd0 : exists d0, dwell = [d0]) by (destruct dwell as [|d0 [|]]; try discriminate H1d; eauto). destruct Hd0 as [d0 Hd0].
    pose proof (readout_change (site_of c (groups_in traps)) (trap_phases c) (timed_steps (the_roe d)) (own (Z.of_nat i)) (Z.of_nat i) Hsites Hsteps) as H.
    specialize (H ltac:(intros x es k row Hd Hkin; apply (single_reach d0 dt k x es row); [pose proof (Hk k Hkin); lia|rewrite (plain_roe _ _ _ _ _ _ Hps), Hd0 in Hd; exact Hd]) (weighted_passes m) (weighted_nonneg m) (col_fun im j) Hc).
    unfold within in H. fold rho in H. eapply Rle_trans; [exact H|]. rewrite weights_own, HT by assumption.
    apply Rmult_le_compat_l; [apply pos_INR|]. rewrite H1d in Hlen. change (INR 1) with 1 in Hlen. nra.
Qed.
End Image.

(** One direction, with or without traps. *)
Lemma one_direction im d rows cols tw : shape rows cols im -> (0 < rows)%nat -> (forall i j, 0 <= pixel im i j) -> plain_direction d rows ->
  tw = None \/ tw = whole rows (d_offset d) ->
  exists im', match d_traps d with None => Ok (im, the_roe d)
      | Some traps => clock_direction im d (the_roe d) traps (py_range 0 (Z.of_nat rows)) (py_range 0 (Z.of_nat cols)) tw end = Ok (im', the_roe d) /\
  shape rows cols im' /\ (forall i j, 0 <= pixel im' i j) /\
  forall i j x, (i < rows)%nat -> (j < cols)%nat -> change_limit d rows i x -> Rabs (pixel im' i j - pixel im i j) <= x.
Proof.
  intros Hs Hr Hp [_ Hd] Htw. destruct (d_traps d) as [traps|] eqn:Et.
  - destruct Hd as [Hd|(c & traps' & dwell & dt & Hps)]; [discriminate|].
    pose proof (ps_traps _ _ _ _ _ _ Hps) as E. rewrite Et in E. injection E as <-.
    destruct (direction_bounded im d c traps dwell dt rows cols (py_range 0 (Z.of_nat cols)) tw Hs Hr Hp Hps (range_in_range cols) (py_range_nodup cols) Htw) as (im' & E & S1 & P1 & _).
    exists im'. split; [exact E|]. split; [exact S1|]. split; [exact P1|]. intros i j x Hi Hj Hx.
    assert (Hin : In (Z.of_nat j) (py_range 0 (Z.of_nat cols))) by (apply in_py_range; lia).
    inversion Hx as [Hn|c' traps' dwell' dt' Hps'|c' traps' dwell' dt' Hps']; subst.
    + congruence.
    + pose proof (ps_traps _ _ _ _ _ _ Hps') as E'. rewrite Et in E'. injection E' as <-.
      destruct (direction_bounded im d c' traps [dwell'] dt' rows cols (py_range 0 (Z.of_nat cols)) tw Hs Hr Hp Hps' (range_in_range cols) (py_range_nodup cols) Htw) as (im2 & E2 & _ & _ & B).
      rewrite E in E2. injection E2 as <-. apply (proj2 (B i j Hi Hin)). reflexivity.
    + pose proof (ps_traps _ _ _ _ _ _ Hps') as E'. rewrite Et in E'. injection E' as <-.
      destruct (direction_bounded im d c' traps dwell' dt' rows cols (py_range 0 (Z.of_nat cols)) tw Hs Hr Hp Hps' (range_in_range cols) (py_range_nodup cols) Htw) as (im2 & E2 & _ & _ & B).
      rewrite E in E2. injection E2 as <-. apply (proj1 (B i j Hi Hin)).
  - exists im. split; [reflexivity|]. split; [exact Hs|]. split; [exact Hp|]. intros i j x _ _ Hx. rewrite Rminus_diag_eq, Rabs_R0 by reflexivity.
    inversion Hx as [Hn|c' traps' dwell' dt' Hps'|c' traps' dwell' dt' Hps']; subst; [lra| |];
      pose proof (ps_traps _ _ _ _ _ _ Hps') as E'; congruence.
Qed.

Lemma both_bounded im parallel serial rows cols :
  shape rows cols im -> (0 < rows)%nat -> (0 < cols)%nat -> (forall i j, 0 <= pixel im i j) ->
  plain_direction parallel rows -> plain_direction serial cols ->
  exists im', add_cti im parallel serial None = Ok (im', the_roe parallel, the_roe serial) /\ shape rows cols im' /\
  forall i j x y, (i < rows)%nat -> (j < cols)%nat -> change_limit parallel rows i x -> change_limit serial cols j y ->
    Rabs (pixel im' i j - pixel im i j) <= x + y.
Proof.
  intros Hs Hr Hc Hp Pp Ps. pose proof Hs as [Lim _]. pose proof (shape_columns rows cols im Hs Hr) as Ncol.
  unfold add_cti. rewrite (proj1 Pp), (proj1 Ps), Lim, Ncol. cbn [resolve_window resolve_time_window bind].
  destruct (one_direction im parallel rows cols (whole rows (d_offset parallel)) Hs Hr Hp Pp (or_intror eq_refl)) as (im1 & E1 & S1 & P1 & B1).
  unfold whole, tw_arg, option_map in E1. rewrite E1. cbn [bind].
  assert (St : shape cols rows (transpose im1)) by (apply transpose_shape; assumption).
  destruct (one_direction (transpose im1) serial cols rows None St Hc) as (im2 & E2 & S2 & P2 & B2); [|exact Ps|left; reflexivity|].
  { intros i j. rewrite (transpose_pixel_all rows cols) by assumption. apply P1. }
  destruct (d_traps serial) as [traps|] eqn:Et.
  - rewrite E2. cbn [bind]. exists (transpose im2). split; [reflexivity|]. split; [apply transpose_shape; assumption|].
    intros i j x y Hi Hj Hx Hy. rewrite (transpose_pixel_all cols rows) by assumption.
    specialize (B1 i j x Hi Hj Hx). specialize (B2 j i y Hj Hi Hy). rewrite (transpose_pixel_all rows cols) in B2 by assumption.
    replace (pixel im2 j i - pixel im i j) with ((pixel im1 i j - pixel im i j) + (pixel im2 j i - pixel im1 i j)) by ring.
    eapply Rle_trans; [apply Rabs_triang|]. lra.
  - cbn [bind]. injection E2 as <-. exists im1. split; [reflexivity|]. split; [exact S1|]. intros i j x y Hi Hj Hx Hy.
    specialize (B1 i j x Hi Hj Hx). specialize (B2 j i y Hj Hi Hy). rewrite Rminus_diag_eq, Rabs_R0 in B2 by reflexivity. lra.
Qed.
