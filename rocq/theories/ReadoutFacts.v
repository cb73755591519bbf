(** * The clocking loops refine the mathematical readout model of SpecReadout.v. *)
From Coq Require Import ZArith List Bool Reals Lra Lia.
From Coquelicot Require Import Rcomplements Rbar Hierarchy RInt.
From Verif Require Import Num Py RFacts CCDModel TrapsModel ManagerModel ROEModel ClockModel Spec SpecImage SpecReadout
  WmFacts ArrayFacts CutFacts InstantFacts ClockFacts ShapeFacts ColumnFacts.
Import ListNotations.
Open Scope R_scope.

(** ** Groups of managers *)
Inductive rep_groups (u : nat) : list (list (trap R)) -> list (manager R) -> list profile -> Prop :=
| rg_nil : rep_groups u [] [] []
| rg_cons g gs m ms P Ps : represents g u m P -> rep_groups u gs ms Ps -> rep_groups u (g :: gs) (m :: ms) (P :: Ps).

Lemma represents_le g u u' m P : (u' <= u)%nat -> represents g u m P -> represents g u' m P.
Proof. intros H (l & k & E & Hk & G). exists l, k. split; [exact E|]. split; [lia|exact G]. Qed.
Lemma rep_groups_le u u' gs ms Ps : (u' <= u)%nat -> rep_groups u gs ms Ps -> rep_groups u' gs ms Ps.
Proof. intros H. induction 1; constructor; auto. eapply represents_le; eauto. Qed.
Lemma represents_kind g u m P : represents g u m P -> m_kind m = KInstant.
Proof. intros (l & k & -> & _). reflexivity. Qed.

Definition site_ok (s : site) (fill : filling R) : Prop :=
  sensitive (site_well s) /\ (forall n, 0 <= n -> fill n = Ok (site_well s n)) /\
  Forall (fun g => Forall physical g /\ (0 < length g)%nat) (site_groups s).

Lemma step_groups_sim well fill u gs ms Ps n dwell acc : rep_groups (S u) gs ms Ps ->
  sensitive well -> (forall n, 0 <= n -> fill n = Ok (well n)) ->
  Forall (fun g => Forall physical g /\ (0 < length g)%nat) gs -> 0 <= n -> 0 < dwell ->
  exists ms', step_groups ms n fill dwell acc
      = Ok (acc + Rsum (map (fun '(g, P) => transfer_net g well dwell n P) (combine gs Ps)), ms') /\
    rep_groups u gs ms' (map (fun '(g, P) => transfer_after g well dwell n P) (combine gs Ps)).
Proof.
  intros HR Hw Hf Hgs Hn Hd. revert acc. induction HR as [|g gs m ms P Ps Hm HR IH]; intros acc.
  - exists []. split; [cbn; f_equal; f_equal; lra|constructor].
  - inversion Hgs as [|? ? [Hph Hlen] Hgs']; subst.
    destruct (instant_step_ok g m P u fill well n dwell Hph Hlen Hm Hw Hf Hn Hd) as (m' & E & Hm' & _).
    destruct (IH Hgs' (acc + transfer_net g well dwell n P)) as (ms' & Es & HR').
    exists (m' :: ms'). split; [|constructor; assumption].
    cbn [step_groups]. unfold manager_step. rewrite (represents_kind _ _ _ _ Hm), E. cbn [bind].
    rnum. rewrite Es. cbn [bind combine map]. do 2 f_equal. unfold Rsum. cbn [fold_right]. fold (Rsum (map (fun '(g, P) => transfer_net g well dwell n P) (combine gs Ps))). lra.
Qed.

(** ** Columns *)
Section Sim.
Context (c : ccd R) (r : roe R) (sites : nat -> site) (L : nat).
Let phases := phases_with_traps c.
Hypothesis Hsites : forall k, In k phases -> site_ok (sites k) (fun n => well_fill c k false n).
Hypothesis Hnodup : NoDup phases.

Definition inside (i : Z) : Prop := (0 <= i < Z.of_nat L)%Z.
Definition rel_col (col : list R) (f : column) : Prop :=
  length col = L /\ forall i, inside i -> nth (Z.to_nat i) col 0 = f i /\ 0 <= f i.

Lemma write_back_sim col f row net mult d fr : rel_col col f -> inside (row + d)%Z ->
  exists col', write_back col row net mult (d, fr) = Ok col' /\ rel_col col' (give f (row + d)%Z (net * mult * fr)).
Proof.
  intros [Hl H] Hi. unfold write_back. unfold inside in *.
  rewrite (cy_index_get col (row + d) 0) by (rewrite Hl; exact Hi). cbn [bind].
  rewrite cy_upd_get by (rewrite Hl; exact Hi). eexists. split; [reflexivity|].
  split; [rewrite upd_len; exact Hl|]. intros i Hii. rewrite nth_upd. unfold give.
  destruct (H _ Hi) as [E1 P1]. destruct (H i Hii) as [E2 P2].
  destruct (Z.eqb_spec i (row + d)) as [->|Hne].
  - rewrite Nat.eqb_refl, Hl. replace (Nat.ltb _ L) with true by (symmetry; apply Nat.ltb_lt; lia). cbn [andb].
    rnum. rewrite E1. split; [|apply Rmax_l].
    destruct (Rltb_spec (f (row + d)%Z + net * fr * mult) 0); [rewrite Rmax_left|rewrite Rmax_right]; lra.
  - replace (Nat.eqb (Z.to_nat (row + d)) (Z.to_nat i)) with false by (symmetry; apply Nat.eqb_neq; unfold inside in Hii; lia). cbn [andb]. auto.
Qed.
Lemma give_zero col f row q : rel_col col f -> inside row -> q = 0 -> rel_col col (give f row q).
Proof.
  intros [Hl H] Hi ->. split; [exact Hl|]. intros i Hii. unfold give. destruct (H i Hii) as [E P].
  destruct (Z.eqb_spec i row); [|auto]. rewrite Rmax_right by lra. split; lra.
Qed.
Lemma deposit_sim targets col f row net mult : rel_col col f -> Forall (fun t => inside (row + fst t)%Z) targets ->
  exists col', foldM (fun col t => write_back col row net mult t) targets col = Ok col' /\
    rel_col col' (deposit targets row (net * mult) f).
Proof.
  intros HR HT. revert col f HR. induction HT as [|[d fr] ts Hd HT IH]; intros col f HR.
  - exists col. split; [reflexivity|exact HR].
  - cbn [fst] in Hd. destruct (write_back_sim col f row net mult d fr HR Hd) as (col1 & E1 & HR1).
    destruct (IH col1 _ HR1) as (col2 & E2 & HR2). exists col2. cbn [foldM]. rewrite E1. cbn [bind]. split; [exact E2|exact HR2].
Qed.
Lemma deposit_zero targets col f row : rel_col col f -> Forall (fun t => inside (row + fst t)%Z) targets ->
  rel_col col (deposit targets row 0 f).
Proof.
  intros HR HT. revert f HR. induction HT as [|[d fr] ts Hd HT IH]; intros f HR; [exact HR|].
  unfold deposit. cbn [fold_left]. apply IH. apply give_zero; [exact HR|exact Hd|lra].
Qed.

(** ** The state of all phases, with at least [u k] free levels in phase [k]. *)
Definition rel_at (u : nat) (data : list (list (manager R))) (T : traps_state) (k : nat) : Prop :=
  exists ms, nth_error data k = Some ms /\ rep_groups u (site_groups (sites k)) ms (T k).
Definition rel_data (u : nat) data T : Prop := forall k, In k phases -> rel_at u data T k.

Definition safe (row : Z) (e : roe_phase R) : Prop :=
  inside (row + rp_capture e)%Z /\ forall d, In d (rp_release e) -> inside (row + d)%Z.

Lemma clock_one_phase_sim u dwell es row mult col f data T k e : 0 < dwell ->
  In k phases -> nth_error es k = Some e -> safe row e ->
  rel_col col f -> rel_at (S u) data T k ->
  exists col' data', clock_one_phase c dwell es row mult (col, data) k = Ok (col', data') /\
    let '(f', T') := expose sites row mult dwell es (f, T) k in
    rel_col col' f' /\ rel_at u data' T' k /\
    (forall k' u', k' <> k -> rel_at u' data T k' -> rel_at u' data' T' k').
Proof.
  intros Hd Hk He [Hs1 Hs2] HC (ms & Hms & Hrep). destruct (Hsites k Hk) as (Hw & Hf & Hgs).
  unfold expose. rewrite (nth_error_nth es k no_electrode He : electrode es k = e).
  set (n := if rp_high e then f (row + rp_capture e)%Z else 0).
  destruct HC as [Hl HC]. pose proof (HC _ Hs1) as [Ec Pc].
  assert (Hn : 0 <= n) by (unfold n; destruct (rp_high e); lra).
  destruct (step_groups_sim (site_well (sites k)) (fun n => well_fill c k false n) u _ ms (T k) n dwell 0 Hrep Hw Hf Hgs Hn Hd) as (ms' & Es & Hrep').
  set (net := site_net (sites k) dwell n (T k)).
  assert (Enet : 0 + Rsum (map (fun '(g, P) => transfer_net g (site_well (sites k)) dwell n P) (combine (site_groups (sites k)) (T k))) = net)
    by (unfold net, site_net; lra).
  assert (Hts : Forall (fun t => inside (row + fst t)%Z) (combine (rp_release e) (rp_fraction e))).
  { apply Forall_forall. intros [d fr] Hin. cbn [fst]. apply Hs2. eapply in_combine_l; exact Hin. }
  assert (Hdata : rel_at u (upd data k ms') (put T k (site_after (sites k) dwell n (T k))) k).
  { exists ms'. rewrite nth_error_upd, Nat.eqb_refl. replace (Nat.ltb k (length data)) with true.
    2: { symmetry. apply Nat.ltb_lt. apply nth_error_Some. congruence. }
    cbn [andb]. split; [reflexivity|]. unfold put. rewrite Nat.eqb_refl. exact Hrep'. }
  assert (Hother : forall k' u', k' <> k -> rel_at u' data T k' -> rel_at u' (upd data k ms') (put T k (site_after (sites k) dwell n (T k))) k').
  { intros k' u' Hne (m2 & Hm2 & Hr2). exists m2. rewrite nth_error_upd. replace (Nat.eqb k k') with false by (symmetry; apply Nat.eqb_neq; lia).
    cbn [andb]. split; [exact Hm2|]. unfold put. replace (Nat.eqb k' k) with false by (symmetry; apply Nat.eqb_neq; lia). exact Hr2. }
  assert (Eread : clock_one_phase c dwell es row mult (col, data) k =
    (if Reqb mult 0 then Ok (col, upd data k ms') else
     bind (foldM (fun col t => write_back col row net mult t) (combine (rp_release e) (rp_fraction e)) col) (fun col' => Ok (col', upd data k ms')))).
  { unfold clock_one_phase. rewrite He. cbn [of_option bind]. rewrite (cy_index_get col _ 0) by (rewrite Hl; exact Hs1). cbn [bind].
    rewrite Hms. cbn [of_option bind]. rnum. rewrite Ec.
    replace (f (row + rp_capture e)%Z * (if rp_high e then 1 else 0)) with n by (unfold n; destruct (rp_high e); lra).
    rewrite Es. cbn [bind]. rewrite Enet. reflexivity. }
  rewrite Eread. destruct (Reqb_spec mult 0) as [->|Hm].
  - exists col, (upd data k ms'). split; [reflexivity|]. split; [|split; assumption].
    replace (net * 0) with 0 by lra. apply deposit_zero; [split; assumption|exact Hts].
  - destruct (deposit_sim _ col f row net mult (conj Hl HC) Hts) as (col' & Ed & HR').
    exists col', (upd data k ms'). rewrite Ed. split; [reflexivity|]. split; [exact HR'|split; assumption].
Qed.

(** One clocking step: every phase once. *)
Lemma clock_step_sim u dwell es row mult : 0 < dwell -> forall ks done col f data T,
  NoDup ks -> (forall k, In k ks -> In k phases /\ ~ In k done) ->
  (forall k, In k ks -> exists e, nth_error es k = Some e /\ safe row e) ->
  rel_col col f -> (forall k, In k ks -> rel_at (S u) data T k) -> (forall k, In k done -> rel_at u data T k) ->
  exists col' data', foldM (fun st phase => clock_one_phase c dwell es row mult st phase) ks (col, data) = Ok (col', data') /\
    let '(f', T') := fold_left (expose sites row mult dwell es) ks (f, T) in
    rel_col col' f' /\ (forall k, In k ks \/ In k done -> rel_at u data' T' k).
Proof.
  intros Hd. induction ks as [|k ks IH]; intros dn col f data T Hnd Hks Hes HC HK HD.
  - exists col, data. split; [reflexivity|]. cbn. split; [exact HC|]. intros k [[]|Hk]. auto.
  - inversion Hnd as [|? ? Hni Hnd']; subst. destruct (Hks k (or_introl eq_refl)) as [Hkp Hkd]. destruct (Hes k (or_introl eq_refl)) as (e & He & Hs).
    destruct (clock_one_phase_sim u dwell es row mult col f data T k e Hd Hkp He Hs HC (HK k (or_introl eq_refl))) as (col1 & data1 & E1 & H1).
    cbn [fold_left]. destruct (expose sites row mult dwell es (f, T) k) as [f1 T1]. destruct H1 as (HC1 & Hk1 & Ho1).
    destruct (IH (k :: dn) col1 f1 data1 T1) as (col2 & data2 & E2 & H2).
    + exact Hnd'.
    + intros k' Hk'. destruct (Hks k' (or_intror Hk')) as [A B]. split; [exact A|]. intros [->|Hin]; [exact (Hni Hk')|exact (B Hin)].
    + intros k' Hk'. apply Hes. right; exact Hk'.
    + exact HC1.
    + intros k' Hk'. apply Ho1; [|apply HK; right; exact Hk']. intros ->. exact (Hni Hk').
    + intros k' [->|Hk']; [exact Hk1|]. apply Ho1; [|apply HD; exact Hk']. intros ->. exact (Hkd Hk').
    + exists col2, data2. cbn [foldM]. rewrite E1. cbn [bind]. split; [exact E2|].
      destruct (fold_left (expose sites row mult dwell es) ks (f1, T1)) as [f2 T2]. destruct H2 as [HC2 HK2]. split; [exact HC2|].
      intros k' [[->|Hk']|Hk']; apply HK2; cbn; auto.
Qed.

(** The steps of the model and those of the specification. *)
Context (steps : list (R * list (roe_phase R))).
Hypothesis Hsteps : Forall2 (fun '(i, d) '(d', es) => d = d' /\ 0 < d /\ nth_error (roe_clock_sequence r) i = Some es) (steps_with_dwell r) steps.
Definition safe_row (row : Z) : Prop :=
  forall d es, In (d, es) steps -> forall k, In k phases -> exists e, nth_error es k = Some e /\ safe row e.

Lemma clock_one_row_sim u row mult col f data T : safe_row row ->
  rel_col col f -> rel_data (length steps + u) data T ->
  exists col' data', clock_one_row c r row mult (col, data) = Ok (col', data') /\
    let '(f', T') := transfer_pixel sites phases steps row mult (f, T) in rel_col col' f' /\ rel_data u data' T'.
Proof.
  intros Hsafe. unfold clock_one_row, transfer_pixel, safe_row in *. revert col f data T.
  induction Hsteps as [|[i d] [d' es] ss ss' (-> & Hd & Hes) H IH]; intros col f data T HC HD.
  - exists col, data. split; [reflexivity|]. cbn. split; assumption.
  - cbn [foldM fold_left length] in *.
    destruct (clock_step_sim (length ss' + u) d' es row mult Hd phases [] col f data T) as (col1 & data1 & E1 & H1); auto.
    + intros k Hk. apply (Hsafe d' es); [left; reflexivity|exact Hk].
    + intros k [].
    + rewrite Hes. cbn [of_option bind]. fold phases. rewrite E1. cbn [bind].
      destruct (fold_left (expose sites row mult d' es) phases (f, T)) as [f1 T1]. destruct H1 as [HC1 HD1].
      apply IH; [exact H|intros d2 es2 Hin; apply (Hsafe d2 es2); right; exact Hin|exact HC1|]. intros k Hk. apply HD1. left; exact Hk.
Qed.

(** ** Passes, and the free levels they need. *)
Context (d0 : list (list (manager R))).
Hypothesis Hd0 : Forall (Forall mshape) d0.
Definition rel_atm (u us : nat) (a : all_managers R) (T saved : traps_state) : Prop :=
  aok d0 a /\ rel_data u (atm_data a) T /\ rel_data us (restored a) saved.

(** The free levels left in the saved state after some cells. *)
Fixpoint room (cells : list (R * bool * bool)) (u us : nat) : option nat :=
  match cells with
  | [] => Some us
  | (_, monitor, save) :: l =>
      if negb monitor then room l u us
      else if Nat.leb (length steps) u then room l (u - length steps) (if save : bool then (u - length steps)%nat else us)
      else None
  end.
Fixpoint rooms (passes : list (list (R * bool * bool))) (us : nat) : option nat :=
  match passes with
  | [] => Some us
  | cells :: l => match room cells us us with Some us' => rooms l us' | None => None end
  end.

(** The cells of the model, paired with the rows of the window. *)
Definition cell_rows (window : list Z) (cells : list (nat * (R * bool * bool))) : list (Z * R * bool) :=
  flat_map (fun '(i, (m, monitor, save)) => if monitor : bool then
      match nth_error window i with Some row => [(row, m, save)] | None => [] end else []) cells.

Lemma clock_cells_sim window : forall cells u us col f a T saved us',
  Forall (fun '(i, (_, monitor, _)) => monitor = true -> exists row, nth_error window i = Some row /\ safe_row row) cells ->
  rel_col col f -> rel_atm u us a T saved -> room (map snd cells) u us = Some us' ->
  exists col' a', foldM (clock_cell c r window) cells (col, a) = Ok (col', a') /\
    let '(f', T', saved') := fold_left (pass_cell sites phases steps) (cell_rows window cells) (f, T, saved) in
    rel_col col' f' /\ exists u', rel_atm u' us' a' T' saved'.
Proof.
  induction cells as [|[i [[m mo] sv]] cells IH]; intros u us col f a T saved us' HW HC HA HR.
  - cbn in *. injection HR as <-. exists col, a. split; [reflexivity|]. split; [exact HC|]. exists u. exact HA.
  - inversion HW as [|? ? Hw HW']; subst. cbn [map snd room] in HR. destruct mo; cbn [negb] in HR.
    + destruct (Hw eq_refl) as (row & Erow & Hsafe).
      destruct (Nat.leb_spec (length steps) u) as [Hle|]; [|discriminate].
      destruct HA as ([A1 A2] & HD & HS).
      destruct (clock_one_row_sim (u - length steps) row m col f (atm_data a) T Hsafe HC) as (col1 & data1 & E1 & H1).
      { replace (length steps + (u - length steps))%nat with u by lia. exact HD. }
      pose proof (clock_one_row_keeps c r row m d0 (col, atm_data a) (col1, data1) A1 E1) as Hkeep. cbn [snd] in Hkeep.
      cbn [cell_rows flat_map]. rewrite Erow. cbn [app fold_left]. unfold pass_cell at 2.
      destruct (transfer_pixel sites phases steps row m (f, T)) as [f1 T1]. destruct H1 as [HC1 HD1].
      cbn [foldM]. unfold clock_cell at 1. cbn [negb]. rewrite Erow, E1. cbn [bind].
      assert (HA1 : rel_atm (u - length steps) (if sv then u - length steps else us)
                (if sv then atm_save (with_data a data1) else with_data a data1) T1 (if sv then T1 else saved)).
      { destruct sv.
        - split; [split; [exact Hkeep|cbn; intros d Hd; injection Hd as <-; exact Hkeep]|]. split; exact HD1.
        - split; [split; [exact Hkeep|exact A2]|]. split; [exact HD1|].
          unfold restored in *. cbn. destruct (atm_saved a) as [d|]; [exact HS|].
          change (rel_data us (emptied data1) saved). rewrite (emptied_keeps d0 data1) by assumption. 
          rewrite (emptied_keeps d0 (atm_data a)) in HS by assumption. exact HS. }
      exact (IH _ _ col1 f1 _ T1 _ us' HW' HC1 HA1 HR).
    + cbn [foldM cell_rows flat_map app]. unfold clock_cell at 1. cbn [negb bind].
      exact (IH u us col f a T saved us' HW' HC HA HR).
Qed.
Lemma clock_pass_sim window cells us us' col f a T u saved :
  Forall (fun '(i, (_, monitor, _)) => monitor = true -> exists row, nth_error window i = Some row /\ safe_row row) (combine (seq 0 (length cells)) cells) ->
  rel_col col f -> rel_atm u us a T saved -> room cells us us = Some us' ->
  exists col' a', clock_pass_rows c r window cells (col, atm_restore a) = Ok (col', a') /\
    let '(f', saved') := transfer_pass sites phases steps (f, saved) (cell_rows window (combine (seq 0 (length cells)) cells)) in
    rel_col col' f' /\ exists u' T', rel_atm u' us' a' T' saved'.
Proof.
  intros HW HC (HA & HD & HS) HR. unfold clock_pass_rows.
  destruct (clock_cells_sim window (combine (seq 0 (length cells)) cells) us us col f (atm_restore a) saved saved us' HW HC) as (col' & a' & E & H).
  - split; [apply restore_ok; assumption|]. rewrite restore_data, restore_restored. auto.
  - replace (map snd (combine (seq 0 (length cells)) cells)) with cells; [exact HR|].
    clear. generalize 0%nat. induction cells as [|x l IH]; intros s; [reflexivity|]. cbn. f_equal. apply IH.
  - exists col', a'. split; [exact E|]. unfold transfer_pass.
    destruct (fold_left (pass_cell sites phases steps) _ (f, saved, saved)) as [[f' T'] saved']. destruct H as (H1 & u' & H2). split; [exact H1|]. exists u', T'. exact H2.
Qed.
Lemma clock_column_sim window : forall passes us us' col f a T u saved,
  Forall (fun cells => Forall (fun '(i, (_, monitor, _)) => monitor = true -> exists row, nth_error window i = Some row /\ safe_row row) (combine (seq 0 (length cells)) cells)) passes ->
  rel_col col f -> rel_atm u us a T saved -> rooms passes us = Some us' ->
  exists col' a', clock_column c r window passes (col, a) = Ok (col', a') /\
    let '(f', saved') := fold_left (transfer_pass sites phases steps)
      (map (fun cells => cell_rows window (combine (seq 0 (length cells)) cells)) passes) (f, saved) in
    rel_col col' f' /\ exists u' T', rel_atm u' us' a' T' saved'.
Proof.
  induction passes as [|cells passes IH]; intros us us' col f a T u saved HW HC HA HR.
  - cbn in *. injection HR as <-. exists col, a. split; [reflexivity|]. split; [exact HC|]. exists u, T. exact HA.
  - inversion HW as [|? ? Hw HW']; subst. cbn [rooms] in HR. destruct (room cells us us) as [us1|] eqn:Er; [|discriminate].
    destruct (clock_pass_sim window cells us us1 col f a T u saved Hw HC HA Er) as (col1 & a1 & E1 & H1).
    unfold clock_column. cbn [foldM fst snd map fold_left]. rewrite E1. cbn [bind].
    destruct (transfer_pass sites phases steps (f, saved) _) as [f1 saved1]. destruct H1 as (HC1 & u1 & T1 & HA1).
    exact (IH us1 us' col1 f1 a1 T1 u1 saved1 HW' HC1 HA1 HR).
Qed.
End Sim.
