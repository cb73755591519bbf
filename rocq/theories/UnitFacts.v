(** * Changing the units of charge and time: managers. *)
From Coq Require Import ZArith List Bool Reals Lra Lia.
From Verif Require Import Num Py RFacts CCDModel TrapsModel ManagerModel ROEModel ClockModel MainModel SpecCalls SpecUnits CallFacts.
Import ListNotations.
Open Scope R_scope.

Definition rmap {A B} (f : A -> B) (r : result A) : result B := match r with Ok a => Ok (f a) | Err e => Err e end.

(** ** Comparisons. *)
Lemma ltb_scale k x y : 0 < k -> Rltb (k * x) (k * y) = Rltb x y.
Proof. intros Hk. destruct (Rltb_spec x y); destruct (Rltb_spec (k * x) (k * y)); auto; nra. Qed.
Lemma leb_scale k x y : 0 < k -> Rleb (k * x) (k * y) = Rleb x y.
Proof. intros Hk. destruct (Rleb_spec x y); destruct (Rleb_spec (k * x) (k * y)); auto; nra. Qed.
Lemma eqb_scale k x y : 0 < k -> Reqb (k * x) (k * y) = Reqb x y.
Proof. intros Hk. destruct (Reqb_spec x y); destruct (Reqb_spec (k * x) (k * y)); auto; exfalso; [subst; auto|apply Rmult_eq_reg_l in H0; [auto|lra]]. Qed.
Lemma ltb0_scale k x : 0 < k -> Rltb 0 (k * x) = Rltb 0 x.
Proof. intros Hk. rewrite <- (ltb_scale k 0 x Hk), Rmult_0_r. reflexivity. Qed.
Lemma ltb0r_scale k x : 0 < k -> Rltb (k * x) 0 = Rltb x 0.
Proof. intros Hk. rewrite <- (ltb_scale k x 0 Hk), Rmult_0_r. reflexivity. Qed.
Lemma eqb0_scale k x : 0 < k -> Reqb (k * x) 0 = Reqb x 0.
Proof. intros Hk. rewrite <- (eqb_scale k x 0 Hk), Rmult_0_r. reflexivity. Qed.
Lemma div_scale k x y : 0 < k -> (k * x) / (k * y) = x / y.
Proof. intros Hk. unfold Rdiv. rewrite Rinv_mult. replace (k * x * (/ k * / y)) with (k * / k * (x * / y)) by ring. rewrite Rinv_r by lra. ring. Qed.

(** ** Managers. *)
Section Units.
Variables q s : R.
Hypothesis Hq : 0 < q.
Hypothesis Hs : 0 < s.
Variable flag : bool -> bool.
Notation U := (trap_units q s flag).


Lemma combine_map_r {A B C} (f : B -> C) (l : list A) m : combine l (map f m) = map (fun '(x, y) => (x, f y)) (combine l m).
Proof. revert m. induction l as [|a l IH]; intros [|b m]; cbn; [reflexivity..|]. rewrite IH. reflexivity. Qed.
Definition manager_units (m : manager R) : manager R := mkManager (m_kind m) (map U (m_traps m)) (m_wm m).
(** A manager that records times keeps them in its watermarks. *)
Definition unit_free (k : mkind) : Prop := s = 1 \/ k <> KTime.

Lemma trapped_row (vs ds : list R) : forall v acc,
  fold_left (fun total '(f, d) => total + v * f * d) (combine vs (map (Rmult q) ds)) (q * acc) = q * fold_left (fun total '(f, d) => total + v * f * d) (combine vs ds) acc.
Proof.
  revert ds. induction vs as [|f vs IH]; intros [|d ds] v acc; cbn; [reflexivity..|]. rewrite <- IH. f_equal. ring.
Qed.
Lemma trapped_units w ds : cy_n_trapped w (map (Rmult q) ds) = q * cy_n_trapped w ds.
Proof.
  unfold cy_n_trapped. rnum. rewrite <- (Rmult_0_r q) at 1. generalize 0. induction w as [|[v vs] w IH]; intros acc; [reflexivity|].
  cbn [fold_left vol vals fst snd]. rewrite trapped_row. apply IH.
Qed.
Lemma densities_units l : map t_density (map U l) = map (Rmult q) (map t_density l).
Proof. rewrite !map_map. reflexivity. Qed.
Lemma elapsed_units t x : fill_fraction_from_time_elapsed (U t) (s * x) = fill_fraction_from_time_elapsed t x.
Proof.
  unfold fill_fraction_from_time_elapsed. cbn [trap_units t_class t_release_timescale].
  destruct (t_class t) as [| |f r sv]; cbn [class_units].
  - rnum. f_equal. replace (- (s * x)) with (s * - x) by ring. apply div_scale, Hs.
  - rnum. f_equal. replace (- (s * x)) with (s * - x) by ring. apply div_scale, Hs.
  - f_equal. rnum. field. lra.
Qed.
Lemma zip_units {A B} (f : trap R -> A -> B) l vs : (forall t x, f (U t) x = f t x) -> zip_with f (map U l) vs = zip_with f l vs.
Proof. intros H. revert vs. unfold zip_with. induction l as [|t l IH]; intros [|x vs]; cbn; [reflexivity..|]. rewrite H, IH. reflexivity. Qed.
Lemma zip_units' {A B} (f g : A -> trap R -> B) l vs : (forall t x, f x (U t) = g x t) -> zip_with f vs (map U l) = zip_with g vs l.
Proof. intros H. revert vs. unfold zip_with. induction l as [|t l IH]; intros [|x vs]; cbn; [reflexivity..|]. rewrite H, IH. reflexivity. Qed.
Lemma slice_ext a b f g (w : list (R * list R)) : (forall l, f l = g l) -> map_vals_slice a b f w = map_vals_slice a b g w.
Proof. intros H. unfold map_vals_slice. apply map_ext. intros [i r]. rewrite H. reflexivity. Qed.
Lemma fractions_units l w : s = 1 -> to_fill_fractions (map U l) w = to_fill_fractions l w.
Proof.
  intros E. unfold to_fill_fractions. apply slice_ext. intros ts. apply zip_units. intros t x. rewrite <- (elapsed_units t x), E. f_equal. ring.
Qed.
Lemma n_trapped_units m w : unit_free (m_kind m) -> n_trapped (manager_units m) w = q * n_trapped m w.
Proof.
  intros H. unfold n_trapped, n_traps_per_pixel, manager_units. cbn [m_kind m_traps]. rewrite densities_units. destruct (m_kind m); try apply trapped_units.
  destruct H as [H|H]; [|contradiction]. rewrite fractions_units by exact H. apply trapped_units.
Qed.

Lemma release_units d t : release_probability (s * d) (U t) = release_probability d t.
Proof. unfold release_probability. cbn [trap_units t_emission_rate]. rnum. f_equal. field. lra. Qed.
Lemma prob_units d t : fill_probabilities1 (s * d) (U t) = fill_probabilities1 d t.
Proof.
  unfold fill_probabilities1. rewrite release_units. cbn [trap_units t_capture_rate t_emission_rate].
  destruct (t_capture_rate t) as [|c]; cbn [rate_units].
  - rnum. rewrite ltb0_scale by exact Hs. reflexivity.
  - rnum. replace (c / s + t_emission_rate t / s) with (/ s * (c + t_emission_rate t)) by (field; lra).
    assert (Hi : 0 < / s) by (apply Rinv_0_lt_compat, Hs). rewrite eqb0_scale by exact Hi. destruct (Reqb_spec (c + t_emission_rate t) 0) as [|N]; [reflexivity|].
    replace (- (/ s * (c + t_emission_rate t)) * (s * d)) with (- (c + t_emission_rate t) * d) by (field; lra).
    set (e := exp _). do 3 f_equal; field; split; lra.
Qed.
Lemma probs_units l d : fill_probabilities (map U l) (s * d) = fill_probabilities l d.
Proof. unfold fill_probabilities. rewrite mapM_map. apply mapM_ext_in. intros t _. apply prob_units. Qed.

Definition step_units (out : result (R * manager R)) : result (R * manager R) := rmap (fun '(x, m) => (q * x, manager_units m)) out.
Definition fill_units (fill fill' : filling R) : Prop := forall n, fill' (q * n) = fill n.

Lemma not_enough_units m w wi e : not_enough (manager_units m) w wi e = not_enough m w wi e.
Proof. reflexivity. Qed.
Lemma slow_first_units m n cloud wi probs : unit_free (m_kind m) ->
  slow_first_capture (manager_units m) (q * n) cloud wi probs = rmap (fun '(x, w) => (q * x, w)) (slow_first_capture m n cloud wi probs).
Proof.
  intros H. unfold slow_first_capture. rewrite n_trapped_units by exact H. cbn [manager_units m_wm]. set (T := n_trapped m _).
  rnum. rewrite eqb0_scale by exact Hq. destruct (Reqb T 0); [cbn [rmap]; f_equal; f_equal; ring|].
  rewrite div_scale by exact Hq. destruct (Rltb (n / T) 1); [|cbn [rmap]; f_equal; f_equal; ring].
  rewrite not_enough_units. destruct (not_enough m _ _ _) as [w'|]; [|reflexivity]. cbn [bind rmap]. rewrite n_trapped_units by exact H. f_equal; f_equal; rnum; ring.
Qed.
Lemma slow_below_units m n cloud wi index mx probs t0 fill fill' : unit_free (m_kind m) -> fill_units fill fill' ->
  slow_cloud_below (manager_units m) (q * n) cloud wi index mx probs (q * t0) fill' =
  rmap (fun o => mkSB (q * sb_free o) (sb_wm o) (sb_wm_initial o) (sb_cloud o) (sb_index o) (sb_max o)) (slow_cloud_below m n cloud wi index mx probs t0 fill).
Proof.
  intros H HF. unfold slow_cloud_below. cbn [manager_units m_wm]. destruct (slow_split _ wi _ _ _) as [[[w1 wi1] mx1]|]; [|reflexivity]. cbn [bind].
  change (mkManager (m_kind m) (map U (m_traps m)) (m_wm m)) with (manager_units m). rewrite n_trapped_units by exact H. set (w2 := map_vals_slice _ _ _ _). rnum.
  replace (q * n + (q * t0 - q * n_trapped m w2)) with (q * (n + (t0 - n_trapped m w2))) by ring. rewrite HF.
  destruct (fill _) as [cl|]; [|reflexivity]. cbn [bind]. destruct (slow_split w2 _ _ _ _) as [[[w3 wi3] mx3]|]; reflexivity.
Qed.
Lemma slow_units m n fill fill' d : unit_free (m_kind m) -> fill_units fill fill' ->
  slow_step (manager_units m) (q * n) fill' (s * d) = step_units (slow_step m n fill d).
Proof.
  intros H HF. unfold slow_step. cbn [manager_units m_wm m_traps m_kind]. change (mkManager (m_kind m) (map U (m_traps m)) (m_wm m)) with (manager_units m).
  rewrite probs_units. destruct (fill_probabilities _ d) as [probs|]; [|reflexivity]. cbn [bind]. rewrite HF. destruct (fill n) as [cloud|]; [|reflexivity]. cbn [bind].
  assert (EN : (n0 <? Rmult q n)%num = (n0 <? n)%num) by (rnum; apply ltb0_scale, Hq). rewrite EN. clear EN.
  destruct (_ && (n0 <? n)%num)%bool.
  - rewrite slow_first_units by exact H. destruct (slow_first_capture _ _ _ _ _) as [[x w]|]; reflexivity.
  - set (index := index_above_cloud _ _ _). set (mx := max_watermark_index _). rewrite n_trapped_units by exact H. rewrite map_length. set (t0 := n_trapped m (m_wm m)).
    assert (E : (if ((index <=? mx) || (mx =? -1))%Z
        then do o <- slow_cloud_below (manager_units m) (q * n) cloud (m_wm m) index mx probs (q * t0) fill'; Ok (sb_free o, sb_wm o, sb_wm_initial o, sb_index o)
        else do '(w, wi) <- new_top_watermark (m_wm m) (m_wm m) cloud index; Ok (q * n, w, wi, index)) =
      rmap (fun '(f, w, wi, i) => (q * f, w, wi, i)) (if ((index <=? mx) || (mx =? -1))%Z
        then do o <- slow_cloud_below m n cloud (m_wm m) index mx probs t0 fill; Ok (sb_free o, sb_wm o, sb_wm_initial o, sb_index o)
        else do '(w, wi) <- new_top_watermark (m_wm m) (m_wm m) cloud index; Ok (n, w, wi, index))).
    { destruct (_ || _)%bool.
      - rewrite (slow_below_units m n cloud _ _ _ _ _ fill fill' H HF). destruct (slow_cloud_below m n _ _ _ _ _ _ _); reflexivity.
      - destruct (new_top_watermark _ _ _ _) as [[? ?]|]; reflexivity. }
    rewrite E. clear E. match goal with |- context [rmap _ ?x] => destruct x as [[[[f w] wi] i]|] end; [|reflexivity]. cbn [rmap bind].
    destruct (collapse_with_copy _ _ _ _) as [[w2 wi2]|]; [|reflexivity]. cbn [bind]. rewrite !n_trapped_units by exact H. set (T := n_trapped m w2).
    rnum. rewrite eqb_scale by exact Hq. destruct (Reqb T t0); [cbn [step_units rmap]; rewrite Rmult_0_r; reflexivity|].
    replace (q * T - q * t0) with (q * (T - t0)) by ring. rewrite div_scale by exact Hq. destruct (_ && _)%bool.
    + rewrite not_enough_units. destruct (not_enough m _ _ _) as [w'|]; [|reflexivity]. cbn [bind step_units rmap]. rewrite n_trapped_units by exact H. f_equal; f_equal. ring.
    + cbn [bind step_units rmap]. f_equal; f_equal. ring.
Qed.

Lemma released_units m d : unit_free (m_kind m) -> forall l, released_values (manager_units m) (s * d) l = released_values m d l.
Proof.
  intros H l. unfold released_values. cbn [manager_units m_kind m_traps]. destruct (m_kind m); [apply zip_units'; intros; rewrite release_units; reflexivity..|].
  destruct H as [->|H]; [|contradiction]. apply map_ext. intros x. rewrite Rmult_1_l. reflexivity.
Qed.
Lemma n_released_units m d : unit_free (m_kind m) ->
  n_electrons_released (manager_units m) (s * d) = (q * fst (n_electrons_released m d), manager_units (snd (n_electrons_released m d))).
Proof.
  intros H. unfold n_electrons_released. cbn [fst snd]. rewrite (slice_ext _ _ _ (released_values m d)) by (apply released_units, H).
  rewrite !n_trapped_units by exact H. cbn [manager_units m_wm m_kind m_traps with_wm]. f_equal. rnum. ring.
Qed.
Lemma instant_first_units m n cloud wi : unit_free (m_kind m) ->
  instant_first_capture (manager_units m) (q * n) cloud wi = rmap (fun '(x, w) => (q * x, w)) (instant_first_capture m n cloud wi).
Proof.
  intros H. unfold instant_first_capture. rewrite n_trapped_units by exact H. cbn [manager_units m_wm m_kind m_traps]. rewrite map_length. set (T := n_trapped m _).
  rnum. rewrite eqb0_scale by exact Hq. destruct (Reqb T 0); [cbn [rmap]; f_equal; f_equal; ring|].
  rewrite div_scale by exact Hq. destruct (Rltb (n / T) 1); [|reflexivity].
  change (mkManager (m_kind m) (map U (m_traps m)) (m_wm m)) with (manager_units m). rewrite not_enough_units. destruct (not_enough m _ _ _) as [w'|]; [|reflexivity]. cbn [bind rmap]. rewrite n_trapped_units by exact H. reflexivity.
Qed.
Lemma captured_units m n fill fill' : unit_free (m_kind m) -> fill_units fill fill' ->
  n_electrons_captured (manager_units m) (q * n) fill' = step_units (n_electrons_captured m n fill).
Proof.
  intros H HF. unfold n_electrons_captured. cbn [manager_units m_wm m_traps m_kind]. change (mkManager (m_kind m) (map U (m_traps m)) (m_wm m)) with (manager_units m).
  rewrite HF. destruct (fill n) as [cloud|]; [|reflexivity]. cbn [bind].
  assert (EN : (n0 <? Rmult q n)%num = (n0 <? n)%num) by (rnum; apply ltb0_scale, Hq). rewrite EN. clear EN.
  destruct (_ && (n0 <? n)%num)%bool.
  - rewrite instant_first_units by exact H. destruct (instant_first_capture _ _ _ _) as [[x w]|]; reflexivity.
  - set (index := index_above_cloud _ _ _). set (mx := max_watermark_index _). rewrite n_trapped_units by exact H. rewrite map_length. set (t0 := n_trapped m (m_wm m)).
    match goal with |- context [bind ?x _] => match x with context [new_top_watermark] => destruct x as [[w wi]|] end end; [|reflexivity]. cbn [bind].
    destruct (collapse_with_copy _ _ _ _) as [[w2 wi2]|]; [|reflexivity]. cbn [bind]. rewrite !n_trapped_units by exact H. set (T := n_trapped m w2).
    rnum. rewrite eqb_scale by exact Hq. destruct (Reqb T t0); [cbn [step_units rmap]; rewrite Rmult_0_r; reflexivity|].
    replace (q * T - q * t0) with (q * (T - t0)) by ring. rewrite div_scale by exact Hq. destruct (_ && _)%bool.
    + rewrite not_enough_units. destruct (not_enough m _ _ _) as [w'|]; [|reflexivity]. cbn [bind step_units rmap]. rewrite n_trapped_units by exact H. f_equal; f_equal. ring.
    + cbn [bind step_units rmap]. f_equal; f_equal. ring.
Qed.
Lemma instant_units m n fill fill' d : unit_free (m_kind m) -> fill_units fill fill' ->
  instant_step (manager_units m) (q * n) fill' (s * d) = step_units (instant_step m n fill d).
Proof.
  intros H HF. unfold instant_step. rewrite n_released_units by exact H.
  assert (K : m_kind (snd (n_electrons_released m d)) = m_kind m) by reflexivity.
  destruct (n_electrons_released m d) as [x m1]. cbn [fst snd] in *. rnum. rewrite <- Rmult_plus_distr_l.
  rewrite (captured_units m1 _ fill fill') by (auto; rewrite K; exact H). destruct (n_electrons_captured m1 _ fill) as [[y m2]|]; [|reflexivity].
  cbn [step_units rmap bind]. f_equal; f_equal. ring.
Qed.
Lemma manager_step_units m n fill fill' d : unit_free (m_kind m) -> fill_units fill fill' ->
  manager_step (manager_units m) (q * n) fill' (s * d) = step_units (manager_step m n fill d).
Proof.
  intros H HF. unfold manager_step. cbn [manager_units m_kind]. change (mkManager (m_kind m) (map U (m_traps m)) (m_wm m)) with (manager_units m).
  destruct (m_kind m) eqn:K; [apply slow_units|apply instant_units..]; auto; rewrite K; exact H.
Qed.
End Units.
