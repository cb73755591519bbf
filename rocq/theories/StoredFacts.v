(** * The balance of every call, in terms of the stored electrons. *)
From Coq Require Import ZArith List Bool Reals Lra Lia.
From Coquelicot Require Import Rcomplements Rbar Hierarchy RInt.
From Verif Require Import Num Py RFacts CCDModel TrapsModel ManagerModel Spec SpecBalance WmFacts ArrayFacts CutFacts
  InstantFacts ClockFacts ShapeFacts BalanceFacts TimeFacts.
Import ListNotations.
Open Scope R_scope.

Lemma stored_app k traps a b : stored k traps (a ++ b) = stored k traps a + stored k traps b.
Proof. unfold stored. now rewrite map_app, Rsum_app. Qed.
Lemma stored_Zs k traps n q : stored k traps (Zs n q) = 0.
Proof.
  unfold stored. induction q as [|q IH]; [reflexivity|]. cbn [Zs repeat map]. unfold Rsum in *; cbn [fold_right].
  unfold Zs in IH. rewrite IH. unfold level_electrons, zrow; cbn [fst]. ring.
Qed.
Lemma level_fractions k traps r : k <> KTime -> level_electrons k traps r = row_trapped (dens traps) r.
Proof.
  intros Hk. unfold level_electrons, row_trapped, dens. f_equal. destruct r as [v fs]. cbn [snd]. revert fs.
  induction traps as [|t ts IH]; intros [|f fs]; try reflexivity. cbn [combine map]. unfold Rsum; cbn [fold_right].
  unfold Rsum in IH. rewrite IH. cbn [dot]. unfold fraction. destruct k; try contradiction; ring.
Qed.
Lemma stored_fractions k traps w : k <> KTime -> stored k traps w = trapped (dens traps) w.
Proof. intros Hk. unfold stored, trapped. f_equal. apply map_ext. intros r. now apply level_fractions. Qed.
Lemma stored_times traps l : stored KTime traps l = count traps l.
Proof.
  unfold stored, count, trapped, mapv. rewrite map_map. f_equal. apply map_ext. intros [v ts].
  unfold level_electrons, row_trapped, dens. cbn [fst snd]. f_equal. revert ts.
  induction traps as [|t rest IH]; intros [|x ts]; try reflexivity. cbn [combine map]. unfold Rsum; cbn [fold_right].
  unfold Rsum in IH. rewrite IH. unfold curve, zip_with. cbn [combine map dot fraction]. ring.
Qed.
Lemma stored_counted m l k : m_kind m = KTime -> live l ->
  n_trapped m (l ++ Zs (length (m_traps m)) (S k)) = stored (m_kind m) (m_traps m) (l ++ Zs (length (m_traps m)) (S k)).
Proof. intros Hk Hl. rewrite count_n_trapped by auto. rewrite Hk, stored_app, stored_Zs, stored_times. ring. Qed.

Lemma fractions_balance (m : manager R) n_free fill dwell net m' : m_kind m <> KTime ->
  one_value_each (length (m_traps m)) (m_wm m) -> has_free_level (m_wm m) ->
  manager_step m n_free fill dwell = Ok (net, m') ->
  m_kind m' = m_kind m /\ m_traps m' = m_traps m /\ one_value_each (length (m_traps m)) (m_wm m') /\
  net = stored (m_kind m) (m_traps m) (m_wm m) - stored (m_kind m) (m_traps m) (m_wm m').
Proof.
  intros Hk Hw Hf E. assert (Hs : mshape m) by (split; [reflexivity|exact Hw]).
  destruct (manager_step_shape m n_free fill dwell net m' Hs E) as (K1 & K2 & K3 & K4).
  split; [auto|]. split; [auto|]. split; [exact K4|].
  rewrite (step_balance m n_free fill dwell net m' Hk Hs Hf E). rewrite !stored_fractions by auto.
  assert (forall w, n_trapped m w = trapped (dens (m_traps m)) w) as N1.
  { intros w. unfold n_trapped. destruct (m_kind m); try contradiction; apply cy_n_trapped_eq. }
  assert (forall w, n_trapped m' w = trapped (dens (m_traps m)) w) as N2.
  { intros w. unfold n_trapped. rewrite K1. unfold n_traps_per_pixel. rewrite K2. destruct (m_kind m); try contradiction; apply cy_n_trapped_eq. }
  now rewrite N1, N2.
Qed.

Lemma times_balance traps used free n_free fill dwell net m' :
  let n := length traps in
  let w := used ++ repeat (0, repeat 0 n) (2 + free) in
  (0 < n)%nat -> Forall (fun r => 0 < fst r) used -> one_value_each n used ->
  (forall a v, fill a = Ok v -> 0 <= v /\ (a <= 0 -> v = 0)) ->
  manager_step (mkManager KTime traps w) n_free fill dwell = Ok (net, m') ->
  m_kind m' = KTime /\ m_traps m' = traps /\ one_value_each n (m_wm m') /\
  net = stored KTime traps w - stored KTime traps (m_wm m').
Proof.
  intros n w Hn Hl Hw Hf E. change w with (used ++ Zs n (S (S free))) in *. unfold w. clear w. unfold manager_step, instant_step in E. cbn [m_kind] in E.
  unfold n in E at 1. rewrite time_released in E by auto. cbv iota beta in E. fold n in E.
  apply bind_ok in E as ([c m2] & Ec & E). injection E as <- <-.
  set (l1 := mapv (map (fun t => t + dwell)) used) in *.
  rnum. destruct (fill (n_free + (count traps used - count traps l1))) as [v|e] eqn:Ev.
  2: { unfold n_electrons_captured in Ec. rewrite Ev in Ec. discriminate. }
  destruct (Hf _ _ Ev) as [Hv Hz].
  destruct (time_captured traps l1 free fill _ v Hn (mapv_live _ _ Hl) (wait_width n used dwell Hw) Ev Hv Hz)
    as (l' & k' & P1 & P2 & _ & _ & _ & _ & _ & P3). cbv zeta in P3.
  fold n in P3. destruct P3 as [[P3 _]|[P3 _]]; rewrite P3 in Ec; [|discriminate]. injection Ec as <- <-.
  cbn [m_wm m_kind m_traps]. split; [reflexivity|]. split; [reflexivity|]. split.
  - apply Forall_app. split; [exact P2|]. apply Forall_forall. intros r Hr. apply repeat_spec in Hr. subst. apply repeat_length.
  - rewrite !stored_app, !stored_Zs, !stored_times. rnum. ring.
Qed.
