(** * More facts about the readout model: causality, the textbook form, and what leaves a column
    unchanged. *)
From Coq Require Import ZArith List Bool Reals Lra Lia.
From Coquelicot Require Import Rcomplements Rbar Hierarchy RInt.
From Verif Require Import Num Py RFacts CCDModel TrapsModel ManagerModel ROEModel ClockModel Spec SpecROE SpecImage SpecReadout SpecColumn
  WmFacts ArrayFacts CutFacts InstantFacts ReadoutSpecFacts.
Import ListNotations.
Open Scope R_scope.

(** ** Causality *)
Definition agree (p : Z) (f g : column) : Prop := forall z, (z <= p)%Z -> f z = g z.
Lemma agree_trans p f g h : agree p f g -> agree p g h -> agree p f h.
Proof. intros H1 H2 z Hz. rewrite H1 by exact Hz. apply H2, Hz. Qed.
Lemma agree_sym p f g : agree p f g -> agree p g f.
Proof. intros H z Hz. symmetry. apply H, Hz. Qed.
Lemma agree_give p f g row q : agree p f g -> agree p (give f row q) (give g row q).
Proof. intros H z Hz. unfold give. rewrite (H z Hz). reflexivity. Qed.
Lemma agree_deposit p targets row q : forall f g, agree p f g -> agree p (deposit targets row q f) (deposit targets row q g).
Proof.
  induction targets as [|[d x] targets IH]; intros f g H; [exact H|]. unfold deposit. cbn [fold_left].
  apply (IH (give f (row + d) (q * x)) (give g (row + d) (q * x))). apply agree_give, H.
Qed.
Lemma deposit_beyond p targets row q : (p < row)%Z -> Forall (fun t => (0 <= fst t)%Z) targets -> forall f, agree p f (deposit targets row q f).
Proof.
  intros Hr H. induction H as [|[d x] targets Hd H IH]; intros f; [intros z _; reflexivity|]. unfold deposit. cbn [fold_left].
  eapply agree_trans; [|exact (IH (give f (row + d) (q * x)))]. intros z Hz. cbn in Hd. unfold give. destruct (Z.eqb_spec z (row + d)); [lia|reflexivity].
Qed.
(** Electrodes that only read from their own pixel and release away from the readout. *)
Definition forward (e : roe_phase R) : Prop :=
  (rp_high e = true -> rp_capture e = 0%Z) /\ forall d, In d (rp_release e) -> (0 <= d)%Z.

Section Causal.
Context (sites : nat -> site) (phases : list nat) (steps : list (R * list (roe_phase R))) (p : Z).
Hypothesis Hfw : forall d es k, In (d, es) steps -> In k phases -> forward (electrode es k).

Lemma expose_agree row mult d es f g T k : (row <= p)%Z -> forward (electrode es k) -> agree p f g ->
  agree p (fst (expose sites row mult d es (f, T) k)) (fst (expose sites row mult d es (g, T) k)) /\
  snd (expose sites row mult d es (f, T) k) = snd (expose sites row mult d es (g, T) k).
Proof.
  intros Hr [Hc _] H. unfold expose.
  assert (E : (if rp_high (electrode es k) then f (row + rp_capture (electrode es k))%Z else 0) = (if rp_high (electrode es k) then g (row + rp_capture (electrode es k))%Z else 0)).
  { destruct (rp_high (electrode es k)); [|reflexivity]. rewrite Hc by reflexivity. apply H. lia. }
  rewrite E. split; [apply agree_deposit, H|reflexivity].
Qed.
Lemma expose_beyond row mult d es f T k : (p < row)%Z -> forward (electrode es k) ->
  agree p f (fst (expose sites row mult d es (f, T) k)).
Proof.
  intros Hr [_ Hd]. unfold expose. cbn [fst]. apply deposit_beyond; [exact Hr|]. apply Forall_forall. intros [x y] Hin. apply Hd. eapply in_combine_l. exact Hin.
Qed.
Lemma transfer_agree row mult f g T : (row <= p)%Z -> agree p f g ->
  agree p (fst (transfer_pixel sites phases steps row mult (f, T))) (fst (transfer_pixel sites phases steps row mult (g, T))) /\
  snd (transfer_pixel sites phases steps row mult (f, T)) = snd (transfer_pixel sites phases steps row mult (g, T)).
Proof.
  intros Hr. unfold transfer_pixel. assert (Hi : incl steps steps) by (intros a Ha; exact Ha). revert Hi f g T. generalize steps at 1 3 4 5 6 as l.
  induction l as [|[d es] l IH]; intros Hi f g T H; [auto|]. cbn [fold_left].
  assert (Hin : In (d, es) steps) by (apply Hi; left; reflexivity).
  assert (G : forall ks, incl ks phases -> forall f g T, agree p f g ->
    agree p (fst (fold_left (expose sites row mult d es) ks (f, T))) (fst (fold_left (expose sites row mult d es) ks (g, T))) /\
    snd (fold_left (expose sites row mult d es) ks (f, T)) = snd (fold_left (expose sites row mult d es) ks (g, T))).
  { induction ks as [|k ks IHk]; intros Hk f1 g1 T1 H1; [auto|]. cbn [fold_left].
    destruct (expose_agree row mult d es f1 g1 T1 k Hr (Hfw d es k Hin (Hk k (or_introl eq_refl))) H1) as [A B].
    destruct (expose sites row mult d es (f1, T1) k) as [f2 T2], (expose sites row mult d es (g1, T1) k) as [g2 T2']. cbn [fst snd] in A, B. subst T2'.
    apply IHk; [intros a Ha; apply Hk; right; exact Ha|exact A]. }
  destruct (G phases ltac:(intros a Ha; exact Ha) f g T H) as [A B].
  destruct (fold_left (expose sites row mult d es) phases (f, T)) as [f2 T2], (fold_left (expose sites row mult d es) phases (g, T)) as [g2 T2']. cbn [fst snd] in A, B. subst T2'.
  apply IH; [intros a Ha; apply Hi; right; exact Ha|exact A].
Qed.
Lemma transfer_beyond row mult f T : (p < row)%Z -> agree p f (fst (transfer_pixel sites phases steps row mult (f, T))).
Proof.
  intros Hr. unfold transfer_pixel. assert (Hi : incl steps steps) by (intros a Ha; exact Ha). revert Hi f T. generalize steps at 1 3 as l.
  induction l as [|[d es] l IH]; intros Hi f T; [intros z _; reflexivity|]. cbn [fold_left].
  assert (Hin : In (d, es) steps) by (apply Hi; left; reflexivity).
  assert (G : forall ks, incl ks phases -> forall f T, agree p f (fst (fold_left (expose sites row mult d es) ks (f, T)))).
  { induction ks as [|k ks IHk]; intros Hk f1 T1; [intros z _; reflexivity|]. cbn [fold_left].
    pose proof (expose_beyond row mult d es f1 T1 k Hr (Hfw d es k Hin (Hk k (or_introl eq_refl)))) as A.
    destruct (expose sites row mult d es (f1, T1) k) as [f2 T2]. cbn [fst] in A. eapply agree_trans; [exact A|]. apply IHk. intros a Ha; apply Hk; right; exact Ha. }
  pose proof (G phases ltac:(intros a Ha; exact Ha) f T) as A. destruct (fold_left (expose sites row mult d es) phases (f, T)) as [f2 T2]. cbn [fst] in A.
  eapply agree_trans; [exact A|]. apply IH. intros a Ha; apply Hi; right; exact Ha.
Qed.

Definition at_most (cell : Z * R * bool) : bool := let '(row, _, _) := cell in (row <=? p)%Z.
(** The pixels of a pass up to row [p] come first. *)
Definition ordered (cells : list (Z * R * bool)) : Prop :=
  cells = filter at_most cells ++ filter (fun c => negb (at_most c)) cells.
Lemma pass_agree a : Forall (fun c => at_most c = true) a -> forall f g T saved, agree p f g ->
  agree p (fst (fst (fold_left (pass_cell sites phases steps) a (f, T, saved)))) (fst (fst (fold_left (pass_cell sites phases steps) a (g, T, saved)))) /\
  snd (fst (fold_left (pass_cell sites phases steps) a (f, T, saved))) = snd (fst (fold_left (pass_cell sites phases steps) a (g, T, saved))) /\
  snd (fold_left (pass_cell sites phases steps) a (f, T, saved)) = snd (fold_left (pass_cell sites phases steps) a (g, T, saved)).
Proof.
  induction 1 as [|[[row mult] save] a Ha H IH]; intros f g T saved Hfg; [auto|]. cbn [fold_left pass_cell]. cbn [at_most] in Ha. apply Z.leb_le in Ha.
  destruct (transfer_agree row mult f g T Ha Hfg) as [A B].
  destruct (transfer_pixel sites phases steps row mult (f, T)) as [f2 T2], (transfer_pixel sites phases steps row mult (g, T)) as [g2 T2']. cbn [fst snd] in A, B. subst T2'.
  apply IH, A.
Qed.
Lemma pass_beyond b : Forall (fun c => at_most c = false) b -> forall f T saved,
  agree p f (fst (fst (fold_left (pass_cell sites phases steps) b (f, T, saved)))).
Proof.
  induction 1 as [|[[row mult] save] a Ha H IH]; intros f T saved; [intros z _; reflexivity|]. cbn [fold_left pass_cell]. cbn [at_most] in Ha. apply Z.leb_gt in Ha.
  pose proof (transfer_beyond row mult f T Ha) as A. destruct (transfer_pixel sites phases steps row mult (f, T)) as [f2 T2]. cbn [fst] in A.
  eapply agree_trans; [exact A|apply IH].
Qed.
Lemma filter_all {A} (q : A -> bool) l : Forall (fun c => q c = true) (filter q l).
Proof. apply Forall_forall. intros x Hx. apply filter_In in Hx. apply Hx. Qed.
Lemma readout_cut passes : Forall (fun cells => ordered cells /\ Forall (fun '(_, _, save) => save = false) cells) passes ->
  forall f g, agree p f g -> agree p (readout sites phases steps passes f) (readout sites phases steps (map (filter at_most) passes) g).
Proof.
  unfold readout. induction 1 as [|cells passes [Ho Hs] H IH]; intros f g Hfg; [exact Hfg|]. cbn [map fold_left transfer_pass].
  unfold ordered in Ho. rewrite Ho at 1. rewrite fold_left_app.
  destruct (pass_agree (filter at_most cells) (filter_all _ _) f g (all_empty sites) (all_empty sites) Hfg) as (A & _ & _).
  pose proof (pass_no_save sites phases steps (filter at_most cells)) as S1.
  specialize (S1 ltac:(apply Forall_forall; intros x Hx; apply filter_In in Hx as [Hx _]; rewrite Forall_forall in Hs; apply Hs, Hx)).
  pose proof (S1 f (all_empty sites) (all_empty sites)) as S1f. pose proof (S1 g (all_empty sites) (all_empty sites)) as S1g.
  destruct (fold_left (pass_cell sites phases steps) (filter at_most cells) (f, all_empty sites, all_empty sites)) as [[f1 T1] s1].
  destruct (fold_left (pass_cell sites phases steps) (filter at_most cells) (g, all_empty sites, all_empty sites)) as [[g1 T1'] s1'].
  cbn [fst snd] in A, S1f, S1g. subst s1 s1'.
  pose proof (pass_beyond (filter (fun c => negb (at_most c)) cells)) as B.
  specialize (B ltac:(apply Forall_forall; intros x Hx; apply filter_In in Hx as [_ Hx]; destruct (at_most x); [discriminate|reflexivity]) f1 T1 (all_empty sites)).
  pose proof (pass_no_save sites phases steps (filter (fun c => negb (at_most c)) cells)) as S2.
  specialize (S2 ltac:(apply Forall_forall; intros x Hx; apply filter_In in Hx as [Hx _]; rewrite Forall_forall in Hs; apply Hs, Hx) f1 T1 (all_empty sites)).
  destruct (fold_left (pass_cell sites phases steps) (filter (fun c => negb (at_most c)) cells) (f1, T1, all_empty sites)) as [[f2 T2] s2].
  cbn [fst snd] in B, S2. subst s2. apply IH. eapply agree_trans; [apply agree_sym, B|exact A].
Qed.
End Causal.

(** The passes of a longer column, cut after row [p]. *)
Lemma filter_seq_le n : forall s p, filter (fun w => (Z.of_nat w <=? Z.of_nat p)%Z) (seq s n) = seq s (Nat.min n (S p - s)).
Proof.
  induction n as [|n IH]; intros s p; [reflexivity|]. cbn [seq filter]. destruct (Z.leb_spec (Z.of_nat s) (Z.of_nat p)) as [H|H].
  - rewrite IH. replace (S p - s)%nat with (S (S p - S s)) by lia. reflexivity.
  - rewrite IH. replace (S p - s)%nat with 0%nat by lia. replace (S p - S s)%nat with 0%nat by lia. rewrite !Nat.min_0_r. reflexivity.
Qed.
Lemma filter_seq_gt n : forall s p, filter (fun w => negb (Z.of_nat w <=? Z.of_nat p)%Z) (seq s n) = seq (s + Nat.min n (S p - s)) (n - Nat.min n (S p - s)).
Proof.
  induction n as [|n IH]; intros s p; [reflexivity|]. cbn [seq filter]. destruct (Z.leb_spec (Z.of_nat s) (Z.of_nat p)) as [H|H]; cbn [negb].
  - rewrite IH. replace (S p - s)%nat with (S (S p - S s)) by lia. cbn [Nat.min]. f_equal; lia.
  - rewrite IH. replace (S p - s)%nat with 0%nat by lia. replace (S p - S s)%nat with 0%nat by lia. rewrite !Nat.min_0_r, !Nat.sub_0_r, !Nat.add_0_r. reflexivity.
Qed.
Lemma filter_map_cells (q : Z * R * bool -> bool) (h : nat -> Z * R * bool) l : filter q (map h l) = map h (filter (fun w => q (h w)) l).
Proof. induction l as [|x l IH]; [reflexivity|]. cbn [map filter]. destruct (q (h x)); [cbn [map]; f_equal|]; exact IH. Qed.
Lemma cells_ordered (p : nat) s n : ordered (Z.of_nat p) (map (fun w => (Z.of_nat w, 1, false)) (seq s n)).
Proof.
  unfold ordered. rewrite !filter_map_cells. cbn [at_most]. rewrite filter_seq_le, filter_seq_gt, <- map_app. f_equal.
  rewrite <- seq_app. f_equal. lia.
Qed.
Lemma full_passes_cut rows offset p : (p < rows)%nat ->
  map (filter (at_most (Z.of_nat p))) (full_passes rows offset) = full_passes (S p) offset ++ repeat [] (rows - S p).
Proof.
  intros Hp. unfold full_passes. rewrite map_map. replace (rows + offset)%nat with (S p + offset + (rows - S p))%nat by lia. rewrite seq_app, map_app. f_equal.
  - apply map_ext_in. intros e He. apply in_seq in He. rewrite filter_map_cells. cbn [at_most]. rewrite filter_seq_le. f_equal. f_equal. lia.
  - set (g := fun x => filter (at_most (Z.of_nat p)) (map (fun w : nat => (Z.of_nat w, 1, false)) (seq (x - offset) (rows - (x - offset))))).
    assert (G : forall n s, (S p + offset <= s)%nat -> map g (seq s n) = repeat [] n).
    { induction n as [|n IH]; intros s Hs; [reflexivity|]. cbn [seq map repeat]. rewrite IH by lia. f_equal. unfold g. rewrite filter_map_cells. cbn [at_most]. rewrite filter_seq_le.
      replace (S p - (s - offset))%nat with 0%nat by lia. rewrite Nat.min_0_r. reflexivity. }
    apply G. lia.
Qed.
Lemma readout_nil sites phases steps passes n f : readout sites phases steps (passes ++ repeat [] n) f = readout sites phases steps passes f.
Proof.
  unfold readout. rewrite fold_left_app. set (st := fold_left _ passes _). destruct st as [c s]. clear.
  induction n as [|n IH]; [reflexivity|]. cbn [repeat fold_left]. cbn [transfer_pass fold_left]. exact IH.
Qed.
Lemma readout_causal sites phases steps rows offset p f g : (p < rows)%nat ->
  (forall d es k, In (d, es) steps -> In k phases -> forward (electrode es k)) -> agree (Z.of_nat p) f g ->
  agree (Z.of_nat p) (readout sites phases steps (full_passes rows offset) f) (readout sites phases steps (full_passes (S p) offset) g).
Proof.
  intros Hp Hfw Hfg. rewrite <- (readout_nil sites phases steps (full_passes (S p) offset) (rows - S p) g), <- full_passes_cut by exact Hp.
  apply readout_cut; [exact Hfw| |exact Hfg]. apply Forall_forall. intros cells Hc. unfold full_passes in Hc. apply in_map_iff in Hc as (e & <- & _).
  split; [apply cells_ordered|]. apply Forall_forall. intros x Hx. apply in_map_iff in Hx as (w & <- & _). reflexivity.
Qed.

(** ** Columns that do not change *)
Definition same_col (f g : column) : Prop := forall z, f z = g z.
Lemma deposit_nothing targets row : forall f, (forall z, 0 <= f z) -> same_col (deposit targets row 0 f) f.
Proof.
  induction targets as [|[d x] targets IH]; intros f Hf; [intros z; reflexivity|]. unfold deposit. cbn [fold_left]. intros z.
  assert (E : same_col (give f (row + d) (0 * x)) f).
  { intros y. unfold give. destruct (Z.eqb_spec y (row + d)); [|reflexivity]. rewrite Rmult_0_l, Rplus_0_r. apply Rmax_right, Hf. }
  etransitivity; [exact (IH (give f (row + d) (0 * x)) (fun y => eq_ind_r (fun v => 0 <= v) (Hf y) (E y)) z)|apply E].
Qed.
Section Unchanged.
Context (sites : nat -> site) (phases : list nat) (steps : list (R * list (roe_phase R))).
Hypothesis Hsteps : forall d es, In (d, es) steps -> 0 < d.
(** A condition on columns and trap states under which no electron is exchanged. *)
Context (still : column -> Prop) (idle : site -> list profile -> Prop).
Hypothesis Hpos : forall f, still f -> forall z, 0 <= f z.
Hypothesis Hidle : forall k dwell f z Ps n, In k phases -> 0 < dwell -> still f -> n = f z \/ n = 0 -> idle (sites k) Ps ->
  site_net (sites k) dwell n Ps = 0 /\ idle (sites k) (site_after (sites k) dwell n Ps).
Hypothesis Hempty : forall k, In k phases -> idle (sites k) (map (fun _ => empty_profile) (site_groups (sites k))).

Definition quiet (f : column) (st : column * traps_state) : Prop :=
  same_col (fst st) f /\ forall k, In k phases -> idle (sites k) (snd st k).
Lemma expose_quiet f row mult d es st k : still f -> 0 < d -> In k phases -> quiet f st -> quiet f (expose sites row mult d es st k).
Proof.
  destruct st as [c T]. intros Hf Hd Hk [H1 H2]. cbn [fst snd] in *. unfold expose.
  set (n := if rp_high (electrode es k) then c (row + rp_capture (electrode es k))%Z else 0).
  destruct (Hidle k d f (row + rp_capture (electrode es k))%Z (T k) n Hk Hd Hf) as [E1 E2]; [|apply H2, Hk|].
  { unfold n. destruct (rp_high (electrode es k)); [left; apply H1|right; reflexivity]. }
  rewrite E1, Rmult_0_l. split; cbn [fst snd].
  - intros z. rewrite deposit_nothing; [apply H1|]. intros y. rewrite H1. apply Hpos, Hf.
  - intros k' Hk'. unfold put. destruct (Nat.eqb_spec k' k) as [->|]; [exact E2|apply H2, Hk'].
Qed.
Lemma transfer_quiet f row mult st : still f -> quiet f st -> quiet f (transfer_pixel sites phases steps row mult st).
Proof.
  intros Hf. unfold transfer_pixel. assert (Hi : incl steps steps) by (intros a Ha; exact Ha). revert Hi st. generalize steps at 1 3 as l.
  induction l as [|[d es] l IH]; intros Hi st H; [exact H|]. cbn [fold_left]. apply IH; [intros a Ha; apply Hi; right; exact Ha|].
  assert (Hd : 0 < d) by (apply (Hsteps d es), Hi; left; reflexivity).
  assert (G : forall ks, incl ks phases -> forall st, quiet f st -> quiet f (fold_left (expose sites row mult d es) ks st)).
  { induction ks as [|k ks IHk]; intros Hk st1 H1; [exact H1|]. cbn [fold_left]. apply IHk; [intros a Ha; apply Hk; right; exact Ha|].
    apply expose_quiet; auto. apply Hk. left; reflexivity. }
  apply G; [intros a Ha; exact Ha|exact H].
Qed.
Lemma readout_unchanged passes f : still f -> same_col (readout sites phases steps passes f) f.
Proof.
  intros Hf. unfold readout.
  assert (G : forall passes st, quiet f st -> quiet f (fold_left (transfer_pass sites phases steps) passes st)).
  { clear passes. induction passes as [|cells passes IH]; intros [c s] H; [exact H|]. cbn [fold_left]. apply IH. cbn [transfer_pass].
    assert (G : forall cells c T s, quiet f (c, T) -> quiet f (c, s) ->
      let '(c', T', s') := fold_left (pass_cell sites phases steps) cells (c, T, s) in quiet f (c', T') /\ quiet f (c', s')).
    { clear - Hf Hpos Hidle Hsteps. induction cells as [|[[row mult] save] cells IH]; intros c T s H1 H2; [cbn; tauto|]. cbn [fold_left pass_cell].
      pose proof (transfer_quiet f row mult (c, T) Hf H1) as H3. destruct (transfer_pixel sites phases steps row mult (c, T)) as [c1 T1].
      apply IH; [exact H3|]. destruct save; [exact H3|]. split; [apply H3|apply H2]. }
    specialize (G cells c s s H H). destruct (fold_left _ cells (c, s, s)) as [[c' T'] s']. apply G. }
  apply (G passes (f, all_empty sites)). split; [intros z; reflexivity|]. intros k Hk. apply Hempty, Hk.
Qed.
End Unchanged.

(** No charge. *)
Lemma readout_zero sites phases steps passes f : (forall k, In k phases -> good_site (sites k)) -> (forall d es, In (d, es) steps -> 0 < d) ->
  (forall z, f z = 0) -> same_col (readout sites phases steps passes f) f.
Proof.
  intros Hs Hd Hf.
  apply (readout_unchanged sites phases steps Hd (fun f => forall z, f z = 0)
    (fun s Ps => Forall2 (fun g P => real g P /\ electrons g P 0 1 = 0) (site_groups s) Ps)); auto.
  - intros g Hg z. rewrite Hg. lra.
  - intros k d g z Ps n Hk Hdp Hg Hn H. assert (n = 0) as -> by (destruct Hn as [->| ->]; [apply Hg|reflexivity]).
    destruct (Hs k Hk) as [Hw Hgs]. unfold site_net, site_after. induction H as [|t P ts Ps [H1 H2] H IH]; [split; [reflexivity|constructor]|].
    inversion Hgs as [|? ? [Hp Hl] Hgs']; subst. destruct (real_step t (site_well (sites k)) 0 d P Hp Hl Hw H1 ltac:(lra) Hdp) as (G1 & G2 & G3).
    pose proof (real_nonneg _ _ Hp G1) as G4. assert (E : transfer_net t (site_well (sites k)) d 0 P = 0) by lra.
    destruct (IH Hgs') as [I1 I2]. split.
    + unfold Rsum in *. cbn [combine map fold_right]. rewrite E, I1. lra.
    + cbn [combine map]. constructor; [split; [exact G1|lra]|exact I2].
  - intros k _. clear. induction (site_groups (sites k)) as [|g gs IH]; [constructor|]. constructor; [split; [apply real_empty|apply electrons_empty]|exact IH].
Qed.
(** No traps. *)
Lemma zero_density_electrons g P : Forall (fun t => t_density t = 0) g -> electrons g P 0 1 = 0.
Proof. unfold electrons. generalize 0%nat as s. intros s H. revert s. induction H as [|t g Ht H IH]; intros s; [reflexivity|]. cbn [electrons_from]. rewrite Ht, IH. lra. Qed.
Lemma readout_no_density sites phases steps passes f : (forall k, In k phases -> good_site (sites k) /\ Forall (Forall (fun t => t_density t = 0)) (site_groups (sites k))) ->
  (forall d es, In (d, es) steps -> 0 < d) -> (forall z, 0 <= f z) -> same_col (readout sites phases steps passes f) f.
Proof.
  intros Hs Hd Hf.
  apply (readout_unchanged sites phases steps Hd (fun f => forall z, 0 <= f z) real_state); auto.
  - intros k d g z Ps n Hk Hdp Hg Hn H. destruct (Hs k Hk) as [Hgood H0].
    assert (0 <= n) by (destruct Hn as [->| ->]; [apply Hg|lra]).
    destruct (site_step (sites k) n d Ps Hgood H) as (G1 & G2 & _); auto. split; [|exact G1].
    assert (E : forall Ps, site_electrons (sites k) Ps = 0).
    { clear - H0. unfold site_electrons. intros Ps. revert Ps. induction H0 as [|t ts Ht H0 IH]; intros [|P Ps]; try reflexivity. unfold Rsum in *. cbn [combine map fold_right].
      rewrite zero_density_electrons, IH by exact Ht. lra. }
    rewrite !E in G2. lra.
  - intros k _. apply site_empty.
Qed.

Lemma map_seq_shift {A} (f h : nat -> A) o n : (forall i, f (o + i)%nat = h i) -> map f (seq (0 + o) n) = map h (seq 0 n).
Proof.
  intros H. cbn [Nat.add]. replace o with (o + 0)%nat by lia. generalize 0%nat as s. induction n as [|n IH]; intros s; [reflexivity|].
  cbn [seq map]. rewrite H, <- (IH (S s)), Nat.add_succ_r. reflexivity.
Qed.
Lemma map_const {A B} (x : B) (l : list A) : map (fun _ => x) l = repeat x (length l).
Proof. induction l as [|a l IH]; [reflexivity|]. cbn. rewrite IH. reflexivity. Qed.

(** ** The textbook form: one phase, one clocking step, one group. *)
Section Textbook.
Context (sites : nat -> site) (g : list (trap R)) (well : R -> R) (dwell : R).
Hypothesis Hsite : sites 0%nat = mkSite [g] well.
Hypothesis Hgood : good_site (sites 0%nat).
Hypothesis Hd : 0 < dwell.
Let steps := [(dwell, [mkRP true 0%Z [0%Z] [1]])].
Let pass := fold_left (pass_cell sites [0%nat] steps).
Definition image_of (s n : nat) (c : column) : list R := map (fun i => c (Z.of_nat i)) (seq s n).

Lemma textbook_pass n : forall s (c : column) P (T saved : traps_state), (forall z, 0 <= c z) -> real g P -> T 0%nat = [P] ->
  let '(c', T', saved') := pass (map (fun w => (Z.of_nat w, 1, false)) (seq s n)) (c, T, saved) in
  saved' = saved /\ (forall z, 0 <= c' z) /\ (forall z, ~ (Z.of_nat s <= z < Z.of_nat (s + n))%Z -> c' z = c z) /\
  image_of s n c' = past_traps g well dwell P (image_of s n c).
Proof.
  induction n as [|n IH]; intros s c P T saved Hc HP HT; [cbn; auto|].
  cbn [seq map]. unfold pass. cbn [fold_left pass_cell]. unfold transfer_pixel, steps. cbn [fold_left expose]. unfold electrode. cbn [nth rp_high rp_capture rp_release rp_fraction combine].
  rewrite Z.add_0_r, Hsite, HT. unfold site_net, site_after. cbn [site_groups site_well combine map]. unfold Rsum. cbn [fold_right]. rewrite Rplus_0_r, Rmult_1_r.
  unfold deposit. cbn [fold_left]. rewrite Rmult_1_r, Z.add_0_r.
  set (q := transfer_net g well dwell (c (Z.of_nat s)) P). set (P' := transfer_after g well dwell (c (Z.of_nat s)) P).
  assert (Hgs : sensitive well /\ Forall physical g /\ (0 < length g)%nat).
  { pose proof Hgood as G. rewrite Hsite in G. destruct G as [G1 G2]. split; [exact G1|]. exact (Forall_inv G2). }
  destruct Hgs as (Hw & Hp & Hl).
  destruct (real_step g well (c (Z.of_nat s)) dwell P Hp Hl Hw HP (Hc _) Hd) as (G1 & _ & G3). fold q in G3. fold P' in G1.
  set (c1 := give c (Z.of_nat s) q).
  assert (Hc1 : forall z, 0 <= c1 z) by (apply give_nonneg, Hc).
  assert (Es : c1 (Z.of_nat s) = c (Z.of_nat s) + q) by (unfold c1, give; rewrite Z.eqb_refl; apply Rmax_right; lra).
  assert (Eo : forall z, z <> Z.of_nat s -> c1 z = c z) by (intros z Hz; unfold c1, give; destruct (Z.eqb_spec z (Z.of_nat s)); [contradiction|reflexivity]).
  specialize (IH (S s) c1 P' (put T 0 [P']) saved Hc1 G1 eq_refl). unfold pass, steps in IH.
  destruct (fold_left (pass_cell sites [0%nat] _) (map (fun w => (Z.of_nat w, 1, false)) (seq (S s) n)) (c1, put T 0 [P'], saved)) as [[c' T'] s'].
  destruct IH as (I1 & I2 & I3 & I4). split; [exact I1|]. split; [exact I2|]. split.
  - intros z Hz. rewrite I3 by lia. apply Eo. lia.
  - unfold image_of. cbn [seq map past_traps]. fold q. fold P'. f_equal.
    + rewrite I3 by lia. exact Es.
    + fold (image_of (S s) n c'). rewrite I4. f_equal. unfold image_of. apply map_ext_in. intros i Hi. apply in_seq in Hi. apply Eo. lia.
Qed.
Lemma textbook_transfer s n (c : column) : (forall z, 0 <= c z) ->
  let '(c', saved') := transfer_pass sites [0%nat] steps (c, all_empty sites) (map (fun w => (Z.of_nat w, 1, false)) (seq s n)) in
  saved' = all_empty sites /\ (forall z, 0 <= c' z) /\ (forall z, ~ (Z.of_nat s <= z < Z.of_nat (s + n))%Z -> c' z = c z) /\
  image_of s n c' = past_traps g well dwell empty_profile (image_of s n c).
Proof.
  intros Hc. cbn [transfer_pass].
  pose proof (textbook_pass n s c empty_profile (all_empty sites) (all_empty sites) Hc (real_empty g)) as H. unfold pass in H.
  specialize (H ltac:(unfold all_empty; rewrite Hsite; reflexivity)).
  destruct (fold_left (pass_cell sites [0%nat] steps) (map (fun w => (Z.of_nat w, 1, false)) (seq s n)) (c, all_empty sites, all_empty sites)) as [[c' T'] s']. exact H.
Qed.
Lemma textbook_leave n : forall s (c : column), (forall z, 0 <= c z) ->
  let '(c', saved') := fold_left (transfer_pass sites [0%nat] steps)
    (map (fun i => map (fun w => (Z.of_nat w, 1, false)) (seq i (s + n - i))) (seq s n)) (c, all_empty sites) in
  (forall z, (z < Z.of_nat s)%Z -> c' z = c z) /\ image_of s n c' = read_out g well dwell n (image_of s n c).
Proof.
  induction n as [|n IH]; intros s c Hc; [cbn; auto|]. cbn [seq map]. replace (s + S n - s)%nat with (S n) by lia. cbn [fold_left].
  pose proof (textbook_transfer s (S n) c Hc) as H. destruct (transfer_pass sites [0%nat] steps (c, all_empty sites) _) as [c1 s1]. destruct H as (-> & H1 & H2 & H3).
  specialize (IH (S s) c1 H1). replace (S s + n)%nat with (s + S n)%nat in IH by lia.
  destruct (fold_left (transfer_pass sites [0%nat] steps) _ (c1, all_empty sites)) as [c' s']. destruct IH as [I1 I2]. split.
  - intros z Hz. rewrite I1 by lia. apply H2. lia.
  - cbn [read_out]. rewrite <- H3. unfold image_of at 1 2. cbn [seq map]. f_equal.
    + apply I1. lia.
    + exact I2.
Qed.
Lemma textbook_offset rows : forall offset (c : column), (forall z, 0 <= c z) ->
  let '(c', saved') := fold_left (transfer_pass sites [0%nat] steps)
    (repeat (map (fun w => (Z.of_nat w, 1, false)) (seq 0 rows)) offset) (c, all_empty sites) in
  saved' = all_empty sites /\ (forall z, 0 <= c' z) /\ image_of 0 rows c' = through_pixels g well dwell offset (image_of 0 rows c).
Proof.
  induction offset as [|k IH]; intros c Hc; [cbn; auto|]. cbn [repeat fold_left].
  pose proof (textbook_transfer 0 rows c Hc) as H. destruct (transfer_pass sites [0%nat] steps (c, all_empty sites) _) as [c1 s1]. destruct H as (-> & H1 & H2 & H3).
  specialize (IH c1 H1). destruct (fold_left (transfer_pass sites [0%nat] steps) _ (c1, all_empty sites)) as [c' s']. destruct IH as (I1 & I2 & I3).
  split; [exact I1|]. split; [exact I2|]. rewrite I3, H3. reflexivity.
Qed.
Lemma past_length P l : length (past_traps g well dwell P l) = length l.
Proof. revert P. induction l as [|n l IH]; intros P; [reflexivity|]. cbn. rewrite IH. reflexivity. Qed.

Lemma readout_textbook rows offset (c : column) : (forall z, 0 <= c z) ->
  image_of 0 rows (readout sites [0%nat] steps (full_passes rows offset) c) = textbook g well dwell offset (image_of 0 rows c).
Proof.
  intros Hc. unfold readout, full_passes. rewrite (Nat.add_comm rows offset), seq_app, map_app, fold_left_app.
  rewrite (map_ext_in _ (fun _ => map (fun w => (Z.of_nat w, 1, false)) (seq 0 rows)) (seq 0 offset)), map_const, seq_length.
  2: { intros e0 He0. apply in_seq in He0. replace (e0 - offset)%nat with 0%nat by lia. rewrite Nat.sub_0_r. reflexivity. }
  pose proof (textbook_offset rows offset c Hc) as H. destruct (fold_left (transfer_pass sites [0%nat] steps) _ (c, all_empty sites)) as [c1 s1]. destruct H as (-> & H1 & H2).
  rewrite (map_seq_shift _ (fun i => map (fun w => (Z.of_nat w, 1, false)) (seq i (0 + rows - i))) offset).
  2: { intros i. replace (offset + i - offset)%nat with i by lia. reflexivity. }
  pose proof (textbook_leave rows 0 c1 H1) as H. destruct (fold_left (transfer_pass sites [0%nat] steps) _ (c1, all_empty sites)) as [c' s'].
  destruct H as [_ H]. cbn [fst]. rewrite H, H2. unfold textbook. f_equal. unfold image_of. rewrite map_length, seq_length. reflexivity.
Qed.
End Textbook.
