(** * Facts about the mathematical readout model of SpecReadout.v: charge balance, causality,
    and what leaves a column unchanged. *)
From Coq Require Import ZArith List Bool Reals Lra Lia.
From Coquelicot Require Import Rcomplements Rbar Hierarchy RInt.
From Verif Require Import Num Py RFacts CCDModel TrapsModel ManagerModel ROEModel ClockModel Spec SpecROE SpecImage SpecReadout SpecColumn
  WmFacts ArrayFacts CutFacts InstantFacts.
Import ListNotations.
Open Scope R_scope.

(** ** Profiles that can be reached *)
Definition real (g : list (trap R)) (P : profile) : Prop := forall u, exists m, represents g u m P.
Lemma real_empty g : real g empty_profile.
Proof. intros u. eexists. apply init_represents. Qed.
Lemma real_of g u m P : represents g u m P -> real g P.
Proof.
  intros (l & k & -> & _ & Hg & Hv & Hs) u'. exists (mkManager KInstant g (l ++ Zs (length g) (S u'))). exists l, u'.
  split; [reflexivity|]. split; [lia|]. split; [exact Hg|]. split; [exact Hv|]. cbn [m_wm] in *.
  intros s x Hsn Hx. rewrite <- Hs by assumption. rewrite !occupancy_app_Zs by (first [apply live_nonneg, (good_live (length g)), Hg|lra]). reflexivity.
Qed.
Lemma real_nonneg g P : Forall physical g -> real g P -> 0 <= electrons g P 0 1.
Proof.
  intros Hp H. destruct (H 0%nat) as (m & Hm). destruct Hm as (l & k & -> & _ & Hg & Hv & Hs). cbn [m_wm] in Hs.
  rewrite <- (electrons_same g _ P 0 1 Hs) by lra. rewrite electrons_total by assumption. apply (trapped_nonneg (length g)); [exact Hg|apply Rsum_dens_nonneg, Hp].
Qed.
Lemma real_step g well n dwell P : Forall physical g -> (0 < length g)%nat -> sensitive well -> real g P -> 0 <= n -> 0 < dwell ->
  real g (transfer_after g well dwell n P) /\
  electrons g (transfer_after g well dwell n P) 0 1 = electrons g P 0 1 - transfer_net g well dwell n P /\
  - n <= transfer_net g well dwell n P.
Proof.
  intros Hp Hl Hw Hr Hn Hd. destruct (Hr 1%nat) as (m & Hm).
  destruct (instant_step_ok g m P 0 (fun n => Ok (well n)) well n dwell Hp Hl Hm Hw (fun _ _ => eq_refl) Hn Hd) as (m' & _ & H1 & H2 & H3).
  split; [exact (real_of _ _ _ _ H1)|]. split; assumption.
Qed.
Lemma electrons_empty g : electrons g empty_profile 0 1 = 0.
Proof.
  destruct (real_empty g 0%nat) as (m & l & k & -> & _ & Hg & Hv & Hs). unfold electrons. clear. generalize 0%nat as s.
  induction g as [|t g IH]; intros s; [reflexivity|]. cbn [electrons_from]. rewrite IH. unfold empty_profile. rewrite RInt_const. unfold scal. cbn. unfold mult. cbn. lra.
Qed.

(** ** Sites *)
Definition good_site (s : site) : Prop :=
  sensitive (site_well s) /\ Forall (fun g => Forall physical g /\ (0 < length g)%nat) (site_groups s).
Definition real_state (s : site) (Ps : list profile) : Prop := Forall2 real (site_groups s) Ps.
Lemma site_step s n dwell Ps : good_site s -> real_state s Ps -> 0 <= n -> 0 < dwell ->
  real_state s (site_after s dwell n Ps) /\
  site_electrons s (site_after s dwell n Ps) = site_electrons s Ps - site_net s dwell n Ps /\
  (length (site_groups s) = 1%nat -> - n <= site_net s dwell n Ps).
Proof.
  intros [Hw Hg] Hr Hn Hd. unfold real_state, site_electrons, site_after, site_net in *. revert Hg. generalize dependent Ps.
  induction (site_groups s) as [|g gs IH]; intros Ps Hr Hg; inversion Hr as [|? P ? Ps' Hr1 Hr2]; subst.
  - cbn. split; [constructor|]. split; [lra|discriminate].
  - inversion Hg as [|? ? [Hp Hl] Hg']; subst. destruct (real_step g (site_well s) n dwell P Hp Hl Hw Hr1 Hn Hd) as (G1 & G2 & G3).
    destruct (IH Ps' Hr2 Hg') as (I1 & I2 & _). cbn [combine map Rsum fold_right]. fold (Rsum).
    split; [constructor; assumption|]. split.
    + change (fold_right Rplus 0) with Rsum in *. rewrite G2, I2. lra.
    + intros Hlen. cbn in Hlen. destruct gs; [|cbn in Hlen; lia]. inversion Hr2; subst. cbn. lra.
Qed.
Lemma site_nonneg s Ps : good_site s -> real_state s Ps -> 0 <= site_electrons s Ps.
Proof.
  intros [_ Hg] Hr. unfold real_state, site_electrons in *. induction Hr as [|g P gs Ps H Hr IH]; [cbn; lra|].
  inversion Hg as [|? ? [Hp _] Hg']; subst. cbn [combine map Rsum fold_right]. change (fold_right Rplus 0) with Rsum.
  pose proof (real_nonneg g P Hp H). pose proof (IH Hg'). lra.
Qed.
Lemma site_empty s : real_state s (map (fun _ => empty_profile) (site_groups s)) /\ site_electrons s (map (fun _ => empty_profile) (site_groups s)) = 0.
Proof.
  unfold real_state, site_electrons. induction (site_groups s) as [|g gs [IH1 IH2]]; [split; [constructor|reflexivity]|].
  split; [constructor; [apply real_empty|exact IH1]|]. cbn [map combine Rsum fold_right]. change (fold_right Rplus 0) with Rsum. rewrite electrons_empty, IH2. lra.
Qed.

(** ** One exposure *)
Lemma total_S n c : total (S n) c = total n c + c (Z.of_nat n).
Proof.
  unfold total. rewrite seq_S, map_app. cbn [map]. generalize (map (fun i => c (Z.of_nat i)) (seq 0 n)). cbn [Nat.add].
  intros l. induction l as [|x l IH]; cbn; [lra|]. unfold Rsum in IH. rewrite IH. lra.
Qed.
Lemma total_ext n c c' : (forall i, (0 <= i < Z.of_nat n)%Z -> c i = c' i) -> total n c = total n c'.
Proof. intros H. unfold total. f_equal. apply map_ext_in. intros i Hi. apply in_seq in Hi. apply H. lia. Qed.
Lemma total_give L c row q : (0 <= row < Z.of_nat L)%Z -> 0 <= c row + q -> total L (give c row q) = total L c + q.
Proof.
  intros Hr Hq. induction L as [|L IH]; [lia|]. rewrite !total_S.
  assert (E : give c row q row = c row + q) by (unfold give; rewrite Z.eqb_refl; apply Rmax_right; exact Hq).
  destruct (Z.eq_dec row (Z.of_nat L)) as [->|Hne].
  - rewrite E. rewrite (total_ext L (give c (Z.of_nat L) q) c); [lra|]. intros i Hi. unfold give. destruct (Z.eqb_spec i (Z.of_nat L)); [lia|reflexivity].
  - rewrite IH by lia. unfold give at 1. destruct (Z.eqb_spec (Z.of_nat L) row); [lia|]. lra.
Qed.
Lemma give_nonneg c row q : (forall i, 0 <= c i) -> forall i, 0 <= give c row q i.
Proof. intros H i. unfold give. destruct (Z.eqb_spec i row); [apply Rmax_l|apply H]. Qed.
Lemma deposit_nonneg targets row q : forall c, (forall i, 0 <= c i) -> forall i, 0 <= deposit targets row q c i.
Proof.
  induction targets as [|[d f] targets IH]; intros c H; [exact H|]. unfold deposit. cbn [fold_left]. fold (deposit targets row q (give c (row + d) (q * f))).
  apply IH. apply give_nonneg. exact H.
Qed.
Lemma total_deposit L targets row q : 0 <= q -> Forall (fun '(d, f) => (0 <= row + d < Z.of_nat L)%Z /\ 0 <= f) targets ->
  forall c, (forall i, 0 <= c i) -> total L (deposit targets row q c) = total L c + q * Rsum (map snd targets).
Proof.
  intros Hq H. induction H as [|[d f] targets [Hd Hf] H IH]; intros c Hc; [cbn; lra|].
  unfold deposit. cbn [fold_left]. fold (deposit targets row q (give c (row + d) (q * f))). rewrite IH by (apply give_nonneg, Hc).
  rewrite total_give; [cbn [map snd]; unfold Rsum; cbn [fold_right]; lra|exact Hd|]. pose proof (Hc (row + d)%Z). nra.
Qed.

(** An electrode that gives back everything: a high one to its own cloud only. *)
Definition lossless (L : nat) (row : Z) (e : roe_phase R) : Prop :=
  Forall (fun '(d, f) => (0 <= row + d < Z.of_nat L)%Z /\ 0 <= f) (combine (rp_release e) (rp_fraction e)) /\
  Rsum (map snd (combine (rp_release e) (rp_fraction e))) = 1 /\
  (rp_high e = true -> combine (rp_release e) (rp_fraction e) = [(rp_capture e, 1)]).

Section Balance.
Context (sites : nat -> site) (phases : list nat) (steps : list (R * list (roe_phase R))) (L : nat).
Hypothesis Hsites : forall k, In k phases -> good_site (sites k).
Hypothesis Hnodup : NoDup phases.
Hypothesis Hsteps : forall d es, In (d, es) steps -> 0 < d.

Definition sound (st : column * traps_state) : Prop :=
  (forall i, 0 <= fst st i) /\ forall k, In k phases -> real_state (sites k) (snd st k).

Lemma expose_sound row mult dwell es st k : 0 < dwell -> In k phases -> sound st -> sound (expose sites row mult dwell es st k).
Proof.
  destruct st as [c T]. intros Hd Hk [H1 H2]. cbn [fst snd] in *. unfold expose. split; cbn [fst snd].
  - apply deposit_nonneg, H1.
  - intros k' Hk'. unfold put. destruct (Nat.eqb_spec k' k) as [->|Hne]; [|apply H2, Hk'].
    apply (site_step (sites k) _ dwell (T k) (Hsites k Hk) (H2 k Hk)); [|exact Hd]. destruct (rp_high (electrode es k)); [apply H1|lra].
Qed.
Lemma in_phases_sum (f g : nat -> R) (k : nat) ks : NoDup ks -> In k ks -> (forall k', k' <> k -> f k' = g k') ->
  Rsum (map f ks) = Rsum (map g ks) + (f k - g k).
Proof.
  intros Hn. induction Hn as [|k0 ks Hnot Hn IH]; intros Hin0 Hfg; [destruct Hin0|]. destruct Hin0 as [<-|Hin]; unfold Rsum; cbn [map fold_right].
  - change (fold_right Rplus 0) with Rsum. rewrite (map_ext_in f g); [lra|]. intros a Ha. apply Hfg. intros ->. contradiction.
  - change (fold_right Rplus 0) with Rsum. rewrite IH by assumption. rewrite (Hfg k0); [lra|]. intros ->. contradiction.
Qed.
Lemma expose_balance row dwell es c T k : 0 < dwell -> In k phases -> sound (c, T) -> length (site_groups (sites k)) = 1%nat -> lossless L row (electrode es k) ->
  let '(c', T') := expose sites row 1 dwell es (c, T) k in
  total L c' + trapped_electrons sites phases T' = total L c + trapped_electrons sites phases T.
Proof.
  intros Hd Hk [H1 H2] Hone (HL1 & HL2 & HL3). cbn [fst snd] in *. unfold expose.
  set (e := electrode es k) in *. set (n := if rp_high e then c (row + rp_capture e)%Z else 0).
  assert (Hn : 0 <= n) by (unfold n; destruct (rp_high e); [apply H1|lra]).
  destruct (site_step (sites k) n dwell (T k) (Hsites k Hk) (H2 k Hk) Hn Hd) as (_ & G2 & G3). specialize (G3 Hone).
  unfold trapped_electrons. rewrite (in_phases_sum (fun k' => site_electrons (sites k') (put T k (site_after (sites k) dwell n (T k)) k')) (fun k' => site_electrons (sites k') (T k')) k phases Hnodup Hk).
  2: { intros k' Hne. unfold put. rewrite (proj2 (Nat.eqb_neq k' k) Hne). reflexivity. }
  unfold put at 1. rewrite Nat.eqb_refl, G2. rewrite Rmult_1_r.
  enough (E : total L (deposit (combine (rp_release e) (rp_fraction e)) row (site_net (sites k) dwell n (T k)) c) = total L c + site_net (sites k) dwell n (T k)) by (rewrite E; lra).
  unfold n in *. destruct (rp_high e).
  - rewrite HL3 in * by reflexivity. unfold deposit. cbn [fold_left]. pose proof (Forall_inv HL1) as [Hin _]. rewrite Rmult_1_r. apply total_give; [exact Hin|]. lra.
  - rewrite total_deposit; [rewrite HL2; lra|lra|exact HL1|exact H1].
Qed.

Lemma fold_expose_sound row mult dwell es ks : 0 < dwell -> incl ks phases -> forall st, sound st -> sound (fold_left (expose sites row mult dwell es) ks st).
Proof. intros Hd. induction ks as [|k ks IH]; intros Hi st Hs; [exact Hs|]. cbn [fold_left]. apply IH; [intros a Ha; apply Hi; right; exact Ha|]. apply expose_sound; auto. apply Hi. left. reflexivity. Qed.
Lemma transfer_pixel_sound row mult st : sound st -> sound (transfer_pixel sites phases steps row mult st).
Proof.
  unfold transfer_pixel. assert (H : incl steps steps) by (intros a Ha; exact Ha). revert H st. generalize steps at 1 3 as l.
  induction l as [|[d es] l IH]; intros Hi st Hs; [exact Hs|]. cbn [fold_left]. apply IH; [intros a Ha; apply Hi; right; exact Ha|].
  apply fold_expose_sound; [apply (Hsteps d es), Hi; left; reflexivity|intros a Ha; exact Ha|exact Hs].
Qed.
Lemma pass_sound cells : forall c T saved c' T' saved', sound (c, T) -> sound (c, saved) ->
  fold_left (pass_cell sites phases steps) cells (c, T, saved) = (c', T', saved') -> sound (c', T') /\ sound (c', saved').
Proof.
  induction cells as [|[[row mult] save] cells IH]; intros c T saved c' T' saved' H1 H2 E; cbn [fold_left] in E; [injection E as <- <- <-; auto|].
  cbn [pass_cell] in E. pose proof (transfer_pixel_sound row mult (c, T) H1) as H3.
  destruct (transfer_pixel sites phases steps row mult (c, T)) as [c1 T1]. apply IH in E; auto.
  destruct H3 as [H3a H3b]. destruct save; split; auto. apply H2.
Qed.

Hypothesis Hone : forall k, In k phases -> length (site_groups (sites k)) = 1%nat.
Definition lossless_row (row : Z) : Prop := forall d es k, In (d, es) steps -> In k phases -> lossless L row (electrode es k).

Lemma transfer_pixel_balance row c T : lossless_row row -> sound (c, T) ->
  let '(c', T') := transfer_pixel sites phases steps row 1 (c, T) in
  total L c' + trapped_electrons sites phases T' = total L c + trapped_electrons sites phases T.
Proof.
  intros Hrow. unfold transfer_pixel. assert (Hi : incl steps steps) by (intros a Ha; exact Ha). revert Hi c T. generalize steps at 1 3 as l.
  induction l as [|[d es] l IH]; intros Hi c T Hs; [reflexivity|]. cbn [fold_left].
  assert (Hd : 0 < d) by (apply (Hsteps d es), Hi; left; reflexivity).
  assert (Hin : In (d, es) steps) by (apply Hi; left; reflexivity).
  assert (G : forall ks, incl ks phases -> forall c T, sound (c, T) ->
    let '(c', T') := fold_left (expose sites row 1 d es) ks (c, T) in
    total L c' + trapped_electrons sites phases T' = total L c + trapped_electrons sites phases T).
  { induction ks as [|k ks IHk]; intros Hk c1 T1 Hs1; [reflexivity|]. cbn [fold_left].
    assert (Hkin : In k phases) by (apply Hk; left; reflexivity).
    pose proof (expose_balance row d es c1 T1 k Hd Hkin Hs1 (Hone k Hkin) (Hrow d es k Hin Hkin)) as E.
    pose proof (expose_sound row 1 d es (c1, T1) k Hd Hkin Hs1) as Hs2. destruct (expose sites row 1 d es (c1, T1) k) as [c2 T2].
    specialize (IHk ltac:(intros a Ha; apply Hk; right; exact Ha) c2 T2 Hs2). destruct (fold_left _ ks (c2, T2)) as [c3 T3]. lra. }
  specialize (G phases ltac:(intros a Ha; exact Ha) c T Hs). pose proof (fold_expose_sound row 1 d es phases Hd ltac:(intros a Ha; exact Ha) (c, T) Hs) as Hs2.
  destruct (fold_left (expose sites row 1 d es) phases (c, T)) as [c2 T2].
  specialize (IH ltac:(intros a Ha; apply Hi; right; exact Ha) c2 T2 Hs2). destruct (fold_left _ l (c2, T2)) as [c3 T3]. lra.
Qed.

Lemma pass_balance cells : Forall (fun '(row, mult, _) => lossless_row row /\ mult = 1) cells ->
  forall c T saved c' T' saved', sound (c, T) ->
  fold_left (pass_cell sites phases steps) cells (c, T, saved) = (c', T', saved') ->
  total L c' + trapped_electrons sites phases T' = total L c + trapped_electrons sites phases T.
Proof.
  induction 1 as [|[[row mult] save] cells [Hrow ->] H IH]; intros c T saved c' T' saved' Hs E; cbn [fold_left] in E; [injection E as <- <- <-; reflexivity|].
  cbn [pass_cell] in E. pose proof (transfer_pixel_sound row 1 (c, T) Hs) as H3. pose proof (transfer_pixel_balance row c T Hrow Hs) as H4.
  destruct (transfer_pixel sites phases steps row 1 (c, T)) as [c1 T1]. apply IH in E; auto. lra.
Qed.
Lemma trapped_nonneg_all T : (forall k, In k phases -> real_state (sites k) (T k)) -> 0 <= trapped_electrons sites phases T.
Proof.
  intros H. unfold trapped_electrons. clear Hnodup Hone. induction phases as [|k ks IH]; [cbn; lra|]. unfold Rsum. cbn [map fold_right]. change (fold_right Rplus 0) with Rsum.
  assert (0 <= Rsum (map (fun k0 => site_electrons (sites k0) (T k0)) ks)).
  { apply IH; intros; first [apply Hsites|apply H]; right; assumption. }
  pose proof (site_nonneg (sites k) (T k) (Hsites k (or_introl eq_refl)) (H k (or_introl eq_refl))). lra.
Qed.
Lemma all_empty_electrons : trapped_electrons sites phases (all_empty sites) = 0.
Proof.
  unfold trapped_electrons. clear. induction phases as [|k ks IH]; [reflexivity|]. unfold Rsum. cbn [map fold_right]. change (fold_right Rplus 0) with Rsum. rewrite IH.
  unfold all_empty. rewrite (proj2 (site_empty (sites k))). lra.
Qed.
Lemma all_empty_sound c : (forall i, 0 <= c i) -> sound (c, all_empty sites).
Proof. intros H. split; [exact H|]. intros k _. apply site_empty. Qed.

(** Passes that do not save all start with empty traps. *)
Lemma pass_no_save cells : Forall (fun '(_, _, save) => save = false) cells ->
  forall c T saved, snd (fold_left (pass_cell sites phases steps) cells (c, T, saved)) = saved.
Proof.
  induction 1 as [|[[row mult] save] cells -> H IH]; intros c T saved; [reflexivity|]. cbn [fold_left pass_cell].
  destruct (transfer_pixel sites phases steps row mult (c, T)) as [c1 T1]. apply IH.
Qed.
Lemma readout_account passes : Forall (Forall (fun '(row, mult, save) => lossless_row row /\ mult = 1 /\ save = false)) passes ->
  forall c : column, (forall i, 0 <= c i) ->
  (forall i, 0 <= readout sites phases steps passes c i) /\ 0 <= left_behind sites phases steps passes c /\
  total L (readout sites phases steps passes c) + left_behind sites phases steps passes c = total L c.
Proof.
  unfold readout. intros H. induction H as [|cells passes Hc H IH]; intros c Hpos; [split; [exact Hpos|cbn [left_behind fold_left fst]; lra]|]. cbn [fold_left transfer_pass left_behind].
  destruct (fold_left (pass_cell sites phases steps) cells (c, all_empty sites, all_empty sites)) as [[c1 T1] s1] eqn:E.
  assert (Hs1 : s1 = all_empty sites).
  { pose proof (pass_no_save cells) as G. specialize (G ltac:(eapply Forall_impl; [|exact Hc]; intros [[? ?] ?] (_ & _ & G'); exact G') c (all_empty sites) (all_empty sites)). rewrite E in G. exact G. }
  subst s1. pose proof (all_empty_sound c Hpos) as Hs0.
  destruct (pass_sound cells _ _ _ _ _ _ Hs0 Hs0 E) as [Hs1 _].
  pose proof (pass_balance cells ltac:(eapply Forall_impl; [|exact Hc]; intros [[? ?] ?] (G1 & G2 & _); auto) _ _ _ _ _ _ Hs0 E) as HB.
  rewrite all_empty_electrons in HB. pose proof (trapped_nonneg_all T1 (proj2 Hs1)).
  destruct (IH c1 (proj1 Hs1)) as (I1 & I2 & I3). split; [exact I1|]. split; lra.
Qed.
Lemma readout_total passes : Forall (Forall (fun '(row, mult, save) => lossless_row row /\ mult = 1 /\ save = false)) passes ->
  forall c : column, (forall i, 0 <= c i) ->
  (forall i, 0 <= readout sites phases steps passes c i) /\ total L (readout sites phases steps passes c) <= total L c.
Proof.
  unfold readout. intros H. induction H as [|cells passes Hc H IH]; intros c Hpos; [split; [exact Hpos|apply Rle_refl]|]. cbn [fold_left transfer_pass].
  destruct (fold_left (pass_cell sites phases steps) cells (c, all_empty sites, all_empty sites)) as [[c1 T1] s1] eqn:E.
  assert (Hs1 : s1 = all_empty sites).
  { pose proof (pass_no_save cells) as G. specialize (G ltac:(eapply Forall_impl; [|exact Hc]; intros [[? ?] ?] (_ & _ & G'); exact G') c (all_empty sites) (all_empty sites)). rewrite E in G. exact G. }
  subst s1. pose proof (all_empty_sound c Hpos) as Hs0.
  destruct (pass_sound cells _ _ _ _ _ _ Hs0 Hs0 E) as [Hs1 _].
  pose proof (pass_balance cells ltac:(eapply Forall_impl; [|exact Hc]; intros [[? ?] ?] (G1 & G2 & _); auto) _ _ _ _ _ _ Hs0 E) as HB.
  rewrite all_empty_electrons in HB. pose proof (trapped_nonneg_all T1 (proj2 Hs1)).
  destruct (IH c1 (proj1 Hs1)) as [I1 I2]. split; [exact I1|]. lra.
Qed.
End Balance.
