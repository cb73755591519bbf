(** * The readout depends on the mixture of trap species only, not on how it is listed. *)
From Coq Require Import ZArith List Bool Reals Lra Lia FinFun.
From Coquelicot Require Import Rcomplements Rbar Hierarchy RInt.
From Verif Require Import Num Py RFacts CCDModel TrapsModel ManagerModel ROEModel ClockModel MainModel Spec SpecROE SpecImage SpecReadout SpecColumn SpecExpress
  ClockFacts MainFacts ShapeFacts ColumnFacts ROEMatrixFacts ROEExpressFacts ReadoutForced ReadoutFull MainReadoutFacts ExpressFacts.
Import ListNotations.
Open Scope R_scope.

(** ** Sums over a mixture *)
Definition weigh (l : list (R * R)) (h : R -> R) : R := Rsum (map (fun '(d, tau) => d * h tau) l).
Definition amount (l : list (R * R)) (tau : R) : R := Rsum (map (fun '(d, u) => if Req_EM_T u tau then d else 0) l).
Definition has_tau (tau : R) (p : R * R) : bool := if Req_EM_T (snd p) tau then true else false.

Lemma weigh_part l h tau : weigh l h = amount l tau * h tau + weigh (filter (fun p => negb (has_tau tau p)) l) h.
Proof.
  induction l as [|[d u] l IH]; [unfold weigh, amount; cbn; ring|].
  unfold weigh, amount in *. cbn [filter map]. rewrite !Rsum_cons, IH.
  assert (Ht : has_tau tau (d, u) = if Req_EM_T u tau then true else false) by reflexivity. rewrite Ht.
  destruct (Req_EM_T u tau) as [->|]; cbn [negb map]; rewrite ?Rsum_cons; ring.
Qed.
Lemma amount_part l tau v : v <> tau -> amount (filter (fun p => negb (has_tau tau p)) l) v = amount l v.
Proof.
  intros Hv. induction l as [|[d u] l IH]; [reflexivity|]. unfold amount in *. cbn [filter map].
  assert (Ht : has_tau tau (d, u) = if Req_EM_T u tau then true else false) by reflexivity. rewrite Ht.
  destruct (Req_EM_T u tau) as [->|]; cbn [negb map]; rewrite ?Rsum_cons, IH; [|reflexivity]. destruct (Req_EM_T tau v); [congruence|ring].
Qed.
Lemma amount_gone l tau : amount (filter (fun p => negb (has_tau tau p)) l) tau = 0.
Proof.
  induction l as [|[d u] l IH]; [reflexivity|]. unfold amount in *. cbn [filter map].
  assert (Ht : has_tau tau (d, u) = if Req_EM_T u tau then true else false) by reflexivity. rewrite Ht.
  destruct (Req_EM_T u tau) as [->|n]; cbn [negb map]; rewrite ?Rsum_cons, IH; [reflexivity|]. destruct (Req_EM_T u tau); [congruence|ring].
Qed.
Lemma filter_len {A} (f : A -> bool) l : (length (filter f l) <= length l)%nat.
Proof. induction l as [|a l IH]; cbn; [lia|]. destruct (f a); cbn; lia. Qed.
Lemma weigh_zero h : forall n l, (length l <= n)%nat -> (forall tau, amount l tau = 0) -> weigh l h = 0.
Proof.
  induction n as [|n IH]; intros l Hl H; [destruct l; [reflexivity|cbn in Hl; lia]|].
  destruct l as [|[d u] l]; [reflexivity|]. rewrite (weigh_part _ h u), (H u).
  rewrite IH; [ring| |].
  - cbn [filter]. assert (Ht : has_tau u (d, u) = if Req_EM_T u u then true else false) by reflexivity. rewrite Ht. destruct (Req_EM_T u u); [|congruence]. cbn [negb]. cbn [length] in Hl. pose proof (filter_len (fun p => negb (has_tau u p)) l). lia.
  - intros tau. destruct (Req_EM_T tau u) as [->|Hne]; [apply amount_gone|]. rewrite amount_part by exact Hne. apply H.
Qed.
Lemma weigh_app l l' h : weigh (l ++ l') h = weigh l h + weigh l' h.
Proof. unfold weigh. rewrite map_app. apply Rsum_app. Qed.
Lemma amount_app l l' tau : amount (l ++ l') tau = amount l tau + amount l' tau.
Proof. unfold amount. rewrite map_app. apply Rsum_app. Qed.
Definition opposite (l : list (R * R)) : list (R * R) := map (fun '(d, u) => (- d, u)) l.
Lemma weigh_opposite l h : weigh (opposite l) h = - weigh l h.
Proof. unfold weigh, opposite. induction l as [|[d u] l IH]; [cbn; ring|]. cbn [map]. rewrite !Rsum_cons, IH. ring. Qed.
Lemma amount_opposite l h : amount (opposite l) h = - amount l h.
Proof. unfold amount, opposite. induction l as [|[d u] l IH]; [cbn; ring|]. cbn [map]. rewrite !Rsum_cons, IH. destruct (Req_EM_T u h); ring. Qed.
Lemma weigh_same l l' h : (forall tau, amount l tau = amount l' tau) -> weigh l h = weigh l' h.
Proof.
  intros H. enough (weigh (l ++ opposite l') h = 0) by (rewrite weigh_app, weigh_opposite in *; lra).
  apply (weigh_zero h (length (l ++ opposite l'))); [lia|]. intros tau. rewrite amount_app, amount_opposite, H. ring.
Qed.

Definition pairs (g : list (trap R)) : list (R * R) := map (fun t => (t_density t, t_release_timescale t)) g.
Lemma density_amount tau g : density_at tau g = amount (pairs g) tau.
Proof. unfold density_at, amount, pairs. rewrite map_map. reflexivity. Qed.

(** ** Profiles that depend on the timescale only *)
Definition by_timescale (g : list (trap R)) (P : profile) (Q : R -> R -> R) : Prop :=
  forall s x, (s < length g)%nat -> P s x = Q (timescale g s) x.

Lemma electrons_from_weigh (Q : R -> R -> R) a b : forall g s (P : profile),
  (forall i x, (i < length g)%nat -> P (s + i)%nat x = Q (timescale g i) x) ->
  electrons_from s g P a b = weigh (pairs g) (fun tau => RInt (Q tau) a b).
Proof.
  induction g as [|t g IH]; intros s P H; [reflexivity|].
  cbn [electrons_from pairs map]. unfold weigh. cbn [map]. rewrite Rsum_cons. f_equal.
  - f_equal. apply RInt_ext. intros x _. rewrite <- (Nat.add_0_r s). apply (H 0%nat). cbn. lia.
  - apply IH. intros i x Hi. rewrite Nat.add_succ_comm. apply (H (S i)). cbn. lia.
Qed.
Lemma electrons_weigh g P Q a b : by_timescale g P Q -> electrons g P a b = weigh (pairs g) (fun tau => RInt (Q tau) a b).
Proof. intros H. apply electrons_from_weigh. exact H. Qed.

Section Two.
Context (g h : list (trap R)).
Hypothesis Hgh : same_mixture g h.
Definition alike (P P' : profile) : Prop := exists Q, by_timescale g P Q /\ by_timescale h P' Q.

Lemma alike_electrons P P' a b : alike P P' -> electrons g P a b = electrons h P' a b.
Proof.
  intros (Q & H1 & H2). rewrite (electrons_weigh g P Q a b H1), (electrons_weigh h P' Q a b H2).
  apply weigh_same. intros tau. rewrite <- !density_amount. apply Hgh.
Qed.
Lemma alike_empty : alike empty_profile empty_profile.
Proof. exists (fun _ _ => 0). split; intros s x _; reflexivity. Qed.
Lemma alike_release P P' dwell : alike P P' -> alike (after_release g dwell P) (after_release h dwell P').
Proof.
  intros (Q & H1 & H2). exists (fun tau x => Q tau x * exp (- dwell / tau)).
  split; intros s x Hs; unfold after_release; [rewrite (H1 s x Hs)|rewrite (H2 s x Hs)]; reflexivity.
Qed.
Lemma alike_released P P' dwell : alike P P' -> released g dwell P = released h dwell P'.
Proof. intros H. unfold released. rewrite (alike_electrons P P' 0 1 H), (alike_electrons _ _ 0 1 (alike_release P P' dwell H)). reflexivity. Qed.
Lemma alike_demand P P' v : alike P P' -> demand g v P = demand h v P'.
Proof.
  intros (Q & H1 & H2). unfold demand. apply alike_electrons. exists (fun tau x => 1 - Q tau x).
  split; intros s x Hs; [rewrite (H1 s x Hs)|rewrite (H2 s x Hs)]; reflexivity.
Qed.
Lemma alike_capture P P' n v : alike P P' -> alike (after_capture g n v P) (after_capture h n v P').
Proof.
  intros H. pose proof (alike_demand P P' v H) as Hd. destruct H as (Q & H1 & H2).
  exists (fun tau x => if Rlt_dec x v then if Rle_dec (demand g v P) n then 1
    else let enough := n / demand g v P in enough + (1 - enough) * (RInt (Q tau) 0 v / v) else Q tau x).
  split; intros s x Hs; unfold after_capture; rewrite <- ?Hd; (destruct (Rlt_dec x v); [|(apply H1 || apply H2); exact Hs]); destruct (Rle_dec _ n); try reflexivity; cbn zeta;
    do 3 f_equal; apply RInt_ext; intros y _; [apply H1|apply H2]; exact Hs.
Qed.
Lemma alike_net well dwell n P P' : alike P P' -> transfer_net g well dwell n P = transfer_net h well dwell n P'.
Proof.
  intros H. unfold transfer_net, captured. rewrite (alike_released P P' dwell H), (alike_demand _ _ _ (alike_release P P' dwell H)). reflexivity.
Qed.
Lemma alike_after well dwell n P P' : alike P P' -> alike (transfer_after g well dwell n P) (transfer_after h well dwell n P').
Proof.
  intros H. unfold transfer_after. rewrite (alike_released P P' dwell H). apply alike_capture, alike_release, H.
Qed.
End Two.

(** ** Sites *)
Inductive states_alike : list (list (trap R)) -> list (list (trap R)) -> list profile -> list profile -> Prop :=
| sa_nil : states_alike [] [] [] []
| sa_cons g h P P' gs hs Ps Ps' : same_mixture g h -> alike g h P P' -> states_alike gs hs Ps Ps' ->
    states_alike (g :: gs) (h :: hs) (P :: Ps) (P' :: Ps').

Lemma states_empty gs hs : Forall2 same_mixture gs hs -> states_alike gs hs (map (fun _ => empty_profile) gs) (map (fun _ => empty_profile) hs).
Proof. induction 1; cbn; constructor; auto using alike_empty. Qed.
Lemma states_net gs hs Ps Ps' well dwell n : states_alike gs hs Ps Ps' ->
  site_net (mkSite gs well) dwell n Ps = site_net (mkSite hs well) dwell n Ps'.
Proof.
  unfold site_net. cbn [site_groups site_well]. induction 1 as [|g h P P' gs hs Ps Ps' Hm Ha _ IH]; [reflexivity|].
  cbn [combine map]. rewrite !Rsum_cons, IH, (alike_net g h Hm well dwell n P P' Ha). reflexivity.
Qed.
Lemma states_after gs hs Ps Ps' well dwell n : states_alike gs hs Ps Ps' ->
  states_alike gs hs (site_after (mkSite gs well) dwell n Ps) (site_after (mkSite hs well) dwell n Ps').
Proof.
  unfold site_after. cbn [site_groups site_well]. induction 1 as [|g h P P' gs hs Ps Ps' Hm Ha _ IH]; [constructor|].
  cbn [combine map]. constructor; [exact Hm|apply alike_after; assumption|exact IH].
Qed.

(** ** Readouts *)
Section Readouts.
Context (sites sites' : nat -> site) (phases : list nat) (steps : list (R * list (roe_phase R))).
Hypothesis Hwell : forall k, site_well (sites k) = site_well (sites' k).
Hypothesis Hmix : forall k, Forall2 same_mixture (site_groups (sites k)) (site_groups (sites' k)).
Definition same_states (T T' : traps_state) : Prop := forall k, states_alike (site_groups (sites k)) (site_groups (sites' k)) (T k) (T' k).

Lemma start_same : same_states (all_empty sites) (all_empty sites').
Proof. intros k. apply states_empty, Hmix. Qed.
Lemma expose_same row mult dwell es c T T' k : same_states T T' ->
  fst (expose sites row mult dwell es (c, T) k) = fst (expose sites' row mult dwell es (c, T') k) /\
  same_states (snd (expose sites row mult dwell es (c, T) k)) (snd (expose sites' row mult dwell es (c, T') k)).
Proof.
  intros H. cbn [expose fst snd]. set (n := if rp_high (electrode es k) then _ else _).
  pose proof (H k) as Hk. pose proof (Hwell k) as Hw. destruct (sites k) as [gs w] eqn:E1, (sites' k) as [hs w'] eqn:E2. cbn in Hk, Hw. subst w'.
  split; [rewrite (states_net gs hs (T k) (T' k) w dwell n Hk); reflexivity|].
  intros k'. unfold put. destruct (Nat.eqb_spec k' k) as [->|]; [|apply H]. rewrite E1, E2. apply states_after, Hk.
Qed.
Lemma transfer_same row mult : forall c T T', same_states T T' ->
  fst (transfer_pixel sites phases steps row mult (c, T)) = fst (transfer_pixel sites' phases steps row mult (c, T')) /\
  same_states (snd (transfer_pixel sites phases steps row mult (c, T))) (snd (transfer_pixel sites' phases steps row mult (c, T'))).
Proof.
  unfold transfer_pixel. induction steps as [|[d es] l IH]; intros c T T' H; [split; [reflexivity|exact H]|]. cbn [fold_left].
  assert (G : forall ks c T T', same_states T T' ->
    fst (fold_left (expose sites row mult d es) ks (c, T)) = fst (fold_left (expose sites' row mult d es) ks (c, T')) /\
    same_states (snd (fold_left (expose sites row mult d es) ks (c, T))) (snd (fold_left (expose sites' row mult d es) ks (c, T')))).
  { clear - Hwell. induction ks as [|k ks IH]; intros c T T' H; [split; [reflexivity|exact H]|]. cbn [fold_left].
    destruct (expose_same row mult d es c T T' k H) as [H1 H2].
    destruct (expose sites row mult d es (c, T) k) as [c1 T1], (expose sites' row mult d es (c, T') k) as [c2 T2]. cbn [fst snd] in H1, H2. subst c2. apply IH, H2. }
  destruct (G phases c T T' H) as [H1 H2].
  destruct (fold_left (expose sites row mult d es) phases (c, T)) as [c1 T1], (fold_left (expose sites' row mult d es) phases (c, T')) as [c2 T2].
  cbn [fst snd] in H1, H2. subst c2. apply IH, H2.
Qed.
Lemma pass_same cells : forall c T T' S S', same_states T T' -> same_states S S' ->
  fst (fst (fold_left (pass_cell sites phases steps) cells (c, T, S))) = fst (fst (fold_left (pass_cell sites' phases steps) cells (c, T', S'))) /\
  same_states (snd (fold_left (pass_cell sites phases steps) cells (c, T, S))) (snd (fold_left (pass_cell sites' phases steps) cells (c, T', S'))).
Proof.
  induction cells as [|[[row mult] save] cells IH]; intros c T T' S S' HT HS; [split; [reflexivity|exact HS]|]. cbn [fold_left pass_cell].
  destruct (transfer_same row mult c T T' HT) as [H1 H2].
  destruct (transfer_pixel sites phases steps row mult (c, T)) as [c1 T1], (transfer_pixel sites' phases steps row mult (c, T')) as [c2 T2].
  cbn [fst snd] in H1, H2. subst c2. apply IH; [exact H2|]. destruct save; assumption.
Qed.
Lemma readout_same passes c : readout sites phases steps passes c = readout sites' phases steps passes c.
Proof.
  unfold readout. generalize start_same. generalize (all_empty sites) (all_empty sites'). revert c.
  induction passes as [|cells passes IH]; intros c S S' H; [reflexivity|]. cbn [fold_left transfer_pass].
  destruct (pass_same cells c S S' S S' H H) as [H1 H2].
  destruct (fold_left (pass_cell sites phases steps) cells (c, S, S)) as [[c1 T1] S1], (fold_left (pass_cell sites' phases steps) cells (c, S', S')) as [[c2 T2] S2].
  cbn [fst snd] in H1, H2. subst c2. apply IH, H2.
Qed.
End Readouts.

Lemma thinned_mixture f g h : same_mixture g h -> same_mixture (map (thinned f) g) (map (thinned f) h).
Proof.
  assert (E : forall l tau, density_at tau (map (thinned f) l) = density_at tau l * f).
  { intros l tau. unfold density_at. rewrite map_map. induction l as [|t l IH]; [cbn; ring|]. cbn [map]. rewrite !Rsum_cons, IH. cbn [thinned t_release_timescale t_density].
    destruct (Req_EM_T _ tau); ring. }
  intros H tau. rewrite !E, (H tau). reflexivity.
Qed.
Lemma mixture_readout c gs hs phases steps passes col : Forall2 same_mixture gs hs ->
  readout (site_of c gs) phases steps passes col = readout (site_of c hs) phases steps passes col.
Proof.
  intros H. apply readout_same; [reflexivity|]. intros k. cbn [site_of site_groups].
  induction H; cbn [map]; constructor; auto using thinned_mixture.
Qed.

(** ** add_cti *)
Lemma the_roe_same d d' : relisted d d' -> the_roe d' = the_roe d.
Proof. intros H. unfold the_roe. rewrite (rl_roe _ _ H). reflexivity. Qed.
Lemma relisted_setting d d' n c traps dwell dt : relisted d d' -> plain_setting d n c traps dwell dt ->
  exists traps', d_traps d' = Some traps' /\ plain_setting d' n c traps' dwell dt /\ Forall2 same_mixture (groups_in traps) (groups_in traps').
Proof.
  intros [R1 R2 R3 R4 R5 R6] [P1 P2 P3 P4 P5 P6 P7]. rewrite P2 in R6. destruct (d_traps d') as [traps'|] eqn:E; [|tauto]. destruct R6 as [Ri Rm].
  exists traps'. split; [reflexivity|]. split; [|exact Rm].
  constructor; [congruence|exact E|rewrite R2; exact P3|exact P4|exact P5|exact Ri|rewrite R3; exact P7].
Qed.
Lemma relisted_clocking im d d' c traps traps' dwell dt columns tw rows cols :
  relisted d d' -> plain_setting d rows c traps dwell dt -> d_traps d' = Some traps' ->
  shape rows cols im -> (0 < rows)%nat -> (forall i j, 0 <= pixel im i j) ->
  (forall j, In j columns -> (0 <= j < Z.of_nat cols)%Z) -> NoDup columns -> tw_ok tw ->
  clock_direction im d' (the_roe d') traps' (py_range 0 (Z.of_nat rows)) columns (tw_arg tw) =
  clock_direction im d (the_roe d) traps (py_range 0 (Z.of_nat rows)) columns (tw_arg tw).
Proof.
  intros Hrl Hps Ht Hs Hr Hp Hc Hnd Htw.
  destruct (relisted_setting d d' rows c traps dwell dt Hrl Hps) as (traps'' & Ht' & Hps' & Hm). assert (traps'' = traps') by congruence. subst traps''.
  rewrite (plain_roe _ _ _ _ _ _ Hps), (plain_roe _ _ _ _ _ _ Hps').
  destruct (plain_clocking im d rows c traps dwell dt columns tw rows cols Hps eq_refl Hs Hr Hp Hc Hnd Htw) as (a & em & mon & E1 & E2 & A1 & _ & A3 & A4).
  destruct (plain_clocking im d' rows c traps' dwell dt columns tw rows cols Hps' eq_refl Hs Hr Hp Hc Hnd Htw) as (b & em' & mon' & E1' & E2' & B1 & _ & B3 & B4).
  rewrite (rl_express _ _ Hrl), (rl_offset _ _ Hrl), E1 in E1'. injection E1' as <- <-. rewrite E2, E2'. do 2 f_equal.
  apply (image_ext rows cols); [exact B1|exact A1|]. intros i j Hi Hj.
  destruct (in_dec Z.eq_dec (Z.of_nat j) columns) as [Hin|Hin]; [|rewrite A3, B3 by exact Hin; reflexivity].
  rewrite (A4 i j Hi Hin), (B4 i j Hi Hin). rewrite (mixture_readout c _ _ _ _ _ _ Hm). reflexivity.
Qed.
Lemma relisted_add_cti im parallel serial parallel' serial' rows cols :
  shape rows cols im -> (0 < rows)%nat -> (0 < cols)%nat -> (forall i j, 0 <= pixel im i j) ->
  plain_direction parallel rows -> plain_direction serial cols ->
  relisted parallel parallel' -> relisted serial serial' ->
  add_cti im parallel' serial' None = add_cti im parallel serial None.
Proof.
  intros Hs Hr Hc Hp [Wp Pp] [Ws Ps] Rp Rs. pose proof Hs as [Lim _]. pose proof (shape_columns rows cols im Hs Hr) as Ncol.
  unfold add_cti. rewrite (rl_window _ _ Rp), (rl_window _ _ Rs), (rl_offset _ _ Rp), Wp, Ws, Lim, Ncol. cbn [resolve_window resolve_time_window bind].
  assert (H1 : exists im1, match d_traps parallel with None => Ok (im, the_roe parallel)
      | Some traps => clock_direction im parallel (the_roe parallel) traps (py_range 0 (Z.of_nat rows)) (py_range 0 (Z.of_nat cols)) (Some (py_range 0 (Z.of_nat (rows + d_offset parallel)))) end
      = Ok (im1, the_roe parallel) /\ shape rows cols im1 /\ (forall i j, 0 <= pixel im1 i j) /\
      match d_traps parallel' with None => Ok (im, the_roe parallel')
      | Some traps => clock_direction im parallel' (the_roe parallel') traps (py_range 0 (Z.of_nat rows)) (py_range 0 (Z.of_nat cols)) (Some (py_range 0 (Z.of_nat (rows + d_offset parallel)))) end
      = Ok (im1, the_roe parallel)).
  { destruct Pp as [Hn|(c & traps & dwell & dt & Hset)].
    - rewrite Hn. pose proof (rl_traps _ _ Rp) as HT. rewrite Hn in HT. destruct (d_traps parallel') eqn:E; [tauto|]. exists im. rewrite (the_roe_same _ _ Rp). auto.
    - destruct (relisted_setting _ _ _ _ _ _ _ Rp Hset) as (traps' & Ht' & Hset' & _). rewrite Ht', (ps_traps _ _ _ _ _ _ Hset).
      pose proof (relisted_clocking im parallel parallel' c traps traps' dwell dt (py_range 0 (Z.of_nat cols)) (Some (0%Z, Z.of_nat (rows + d_offset parallel))) rows cols Rp Hset Ht' Hs Hr Hp) as E'.
      cbn [tw_arg option_map] in E'. rewrite E'; [|apply range_in_range|apply py_range_nodup|cbn; lia].
      rewrite (plain_roe _ _ _ _ _ _ Hset).
      destruct (plain_clocking im parallel rows c traps dwell dt (py_range 0 (Z.of_nat cols)) (Some (0%Z, Z.of_nat (rows + d_offset parallel))) rows cols Hset eq_refl Hs Hr Hp)
        as (im1 & em & mon & _ & E & G1 & G2 & _); [apply range_in_range|apply py_range_nodup|cbn; lia|]. exists im1. auto. }
  destruct H1 as (im1 & E1 & S1 & P1 & E1'). rewrite E1, E1'. cbn [bind].
  assert (St : shape cols rows (transpose im1)) by (apply transpose_shape; assumption).
  destruct Ps as [Hn|(c & traps & dwell & dt & Hset)].
  - rewrite Hn. pose proof (rl_traps _ _ Rs) as HT. rewrite Hn in HT. destruct (d_traps serial') eqn:E; [tauto|]. rewrite (the_roe_same _ _ Rs). reflexivity.
  - destruct (relisted_setting _ _ _ _ _ _ _ Rs Hset) as (traps' & Ht' & Hset' & _). rewrite Ht', (ps_traps _ _ _ _ _ _ Hset).
    pose proof (relisted_clocking (transpose im1) serial serial' c traps traps' dwell dt (py_range 0 (Z.of_nat rows)) None cols rows Rs Hset Ht' St Hc) as E'.
    cbn [tw_arg option_map] in E'. rewrite E'; [reflexivity| |apply range_in_range|apply py_range_nodup|exact I].
    intros i j. rewrite (transpose_pixel_all rows cols) by assumption. apply P1.
Qed.
