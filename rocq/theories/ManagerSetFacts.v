(** * AllTrapManager (trap_managers.py:22-156). *)
From Coq Require Import ZArith List Bool Reals Lra Lia.
From Coquelicot Require Import Rcomplements Rbar Hierarchy RInt.
From Verif Require Import Num Py RFacts CCDModel TrapsModel ManagerModel ROEModel ClockModel MainModel Spec SpecImage SpecReadout SpecManagers ClockFacts WmFacts ShapeFacts.
Import ListNotations.
Open Scope R_scope.

Lemma mapM_ok {A B} (f : A -> result B) (P : A -> B -> Prop) l :
  Forall (fun a => exists b, f a = Ok b /\ P a b) l -> exists l', mapM f l = Ok l' /\ Forall2 P l l'.
Proof.
  induction 1 as [|a l (b & E & Hb) _ (l' & E' & H')]; [exists []; split; [reflexivity|constructor]|].
  exists (b :: l'). cbn. rewrite E. cbn. rewrite E'. split; [reflexivity|constructor; assumption].
Qed.
Lemma mapM_err {A B} (f : A -> result B) e l :
  (exists a, In a l /\ f a = Err e) -> (forall a e', In a l -> f a = Err e' -> e' = e) -> mapM f l = Err e.
Proof.
  intros (a & Hin & Ha) Hall. induction l as [|x l IH]; [destruct Hin|]. cbn. destruct (f x) as [b|e'] eqn:E.
  - cbn. destruct Hin as [->|Hin]; [congruence|]. rewrite IH; [reflexivity|assumption|]. intros. eapply Hall; [right|]; eassumption.
  - cbn. f_equal. apply (Hall x); [left; reflexivity|assumption].
Qed.

Lemma mapM_errs {A B} (f : A -> result B) e l : (forall a e', f a = Err e' -> e' = e) -> forall e', mapM f l = Err e' -> e' = e.
Proof.
  intros H. induction l as [|a l IH]; cbn; intros e' E; [discriminate|]. destruct (f a) eqn:Ea; cbn in E.
  - destruct (mapM f l); cbn in E; [discriminate|]. apply IH. congruence.
  - injection E as <-. eapply H. exact Ea.
Qed.

Lemma normalised (a : traps_arg R) : groups_in a <> [] -> (forall g, In g (groups_in a) -> g <> []) -> normalise_traps a = Ok (groups_in a).
Proof.
  destruct a as [t|[|t l]|[|g l]]; cbn; intros H H'; try reflexivity; [|congruence].
  exfalso. apply (H' []); [left|]; reflexivity.
Qed.

Lemma group_manager (g : list (trap R)) k frac N : kind_of_group g = Ok k ->
  manages N frac g (mkManager k (map (scale_density frac) g) (m_wm (manager_init k g N))).
Proof.
  intros H. split; [|split; [|split]].
  - destruct g as [|t g]; [discriminate|]. cbn in *. injection H as <-. destruct (t_class t); reflexivity.
  - cbn [m_traps]. clear H. induction g as [|t g IH]; constructor; [reflexivity|exact IH].
  - cbn [m_wm manager_init m_kind]. rewrite repeat_length. destruct k; cbn; lia.
  - cbn [m_wm manager_init]. apply Forall_forall. intros r Hr. apply repeat_spec in Hr. exact Hr.
Qed.

Lemma atm_init_spec (traps : traps_arg R) N (c : ccd R) :
  groups_in traps <> [] -> (forall g, In g (groups_in traps) -> g <> []) -> length (ccd_fractions c) = ccd_n_phases c ->
  exists a, atm_init traps N c = Ok a /\
    length (atm_data a) = ccd_n_phases c /\
    (forall k ms, nth_error (atm_data a) k = Some ms -> Forall2 (manages N (share c k)) (groups_in traps) ms) /\
    atm_saved a = None /\ atm_in_save a = 0 /\ atm_previously a = 0.
Proof.
  intros H1 H2 Hf. unfold atm_init. rewrite (normalised traps H1 H2). cbn [bind].
  destruct (mapM_ok (fun phase =>
      mapM (fun g =>
          do k <- kind_of_group g;
          do frac <- of_option IndexError (nth_error (ccd_fractions c) phase);
          let m := manager_init k g N in
          Ok (mkManager (m_kind m) (map (scale_density frac) (m_traps m)) (m_wm m)))
        (groups_in traps))
      (fun k ms => Forall2 (manages N (share c k)) (groups_in traps) ms) (seq 0 (ccd_n_phases c))) as (data & E & G).
  - apply Forall_forall. intros k Hk. apply in_seq in Hk.
    assert (Ek : nth_error (ccd_fractions c) k = Some (share c k)).
    { unfold share. apply nth_error_nth'. lia. }
    apply mapM_ok. apply Forall_forall. intros g Hg. specialize (H2 g Hg).
    assert (Hk' : exists kd, kind_of_group g = Ok kd) by (destruct g; [congruence|eexists; reflexivity]). destruct Hk' as (kd & Ekd).
    rewrite Ekd. cbn [bind]. rewrite Ek. cbn [of_option bind]. eexists. split; [reflexivity|].
    cbn [manager_init m_kind m_traps]. apply group_manager. exact Ekd.
  - cbv zeta in E. rewrite E. cbn [bind]. eexists. split; [reflexivity|]. cbn [atm_data atm_saved atm_in_save atm_previously].
    assert (L : length (seq 0 (ccd_n_phases c)) = length data). { clear E. induction G; cbn; congruence. }
    rewrite seq_length in L. split; [congruence|]. split; [|repeat split; reflexivity].
    intros k ms Ems. assert (Hk : (k < ccd_n_phases c)%nat). { rewrite L. apply nth_error_Some. congruence. }
    assert (Es : nth_error (seq 0 (ccd_n_phases c)) k = Some k). { rewrite (nth_error_nth' _ 0%nat) by (rewrite seq_length; exact Hk). rewrite seq_nth by exact Hk. reflexivity. }
    clear - G Ems Es. revert G Es. generalize (seq 0 (ccd_n_phases c)) as l. intros l G Es.
    assert (J : forall n (x : nat) y, nth_error l n = Some x -> nth_error data n = Some y -> Forall2 (manages N (share c x)) (groups_in traps) y).
    { clear - G. induction G; intros [|n] z1 z2 Ex Ey; cbn in *; try discriminate; [congruence|eauto]. }
    exact (J k k ms Es Ems).
Qed.

Lemma atm_init_fails (traps : traps_arg R) N (c : ccd R) : (0 < ccd_n_phases c)%nat -> length (ccd_fractions c) = ccd_n_phases c ->
  groups_in traps = [] \/ In [] (groups_in traps) -> atm_init traps N c = Err IndexError.
Proof.
  intros Hn Hf H. unfold atm_init.
  assert (G : normalise_traps traps = Err IndexError \/ normalise_traps traps = Ok (groups_in traps) /\ In [] (groups_in traps)).
  { destruct traps as [t|[|t l]|[|g l]]; cbn in *; try (left; reflexivity); right; split; try reflexivity; destruct H as [H|H]; try discriminate; try exact H. }
  destruct G as [-> | [-> Hin]]; [reflexivity|]. cbn [bind].
  assert (G1 : forall k g e,
      (do kd <- kind_of_group g;
       do frac <- of_option IndexError (nth_error (ccd_fractions c) k);
       Ok (mkManager (m_kind (manager_init kd g N)) (map (scale_density frac) (m_traps (manager_init kd g N))) (m_wm (manager_init kd g N)))) = Err e -> e = IndexError).
  { intros k [|t g] e; cbn [kind_of_group bind]; [congruence|]. destruct (nth_error (ccd_fractions c) k); cbn [of_option bind]; congruence. }
  rewrite (mapM_err _ IndexError); [reflexivity| |].
  - exists 0%nat. split; [apply in_seq; lia|]. apply mapM_err.
    + exists []. split; [exact Hin|reflexivity].
    + intros g e _ Hg. exact (G1 0%nat g e Hg).
  - intros k e Hk Hg. exact (mapM_errs _ _ _ (G1 k) e Hg).
Qed.

(** The densities of a species add up. *)
Lemma Rsum_map_scal {A} (f : A -> R) x l : Rsum (map (fun a => x * f a) l) = x * Rsum (map f l).
Proof. unfold Rsum. induction l; cbn; [lra|]. rewrite IHl. lra. Qed.
Lemma density_shares (c : ccd R) (t : trap R) : length (ccd_fractions c) = ccd_n_phases c ->
  Rsum (map (fun k => t_density (thinned (share c k) t)) (seq 0 (ccd_n_phases c))) = t_density t * Rsum (ccd_fractions c).
Proof.
  intros Hf. cbn [t_density thinned]. rewrite (Rsum_map_scal (share c)). do 2 f_equal. rewrite <- Hf. unfold share.
  generalize (ccd_fractions c) as l. clear. intros l.
  enough (G : forall p, map (fun k => nth k (p ++ l) 0) (seq (length p) (length l)) = l) by exact (G []).
  induction l as [|x l IH]; intros p; [reflexivity|]. cbn [length seq map]. f_equal.
  - rewrite app_nth2, Nat.sub_diag by lia. reflexivity.
  - specialize (IH (p ++ [x])). rewrite app_length in IH. cbn [length] in IH. rewrite Nat.add_1_r, <- app_assoc in IH. exact IH.
Qed.

(** ** Save, restore and the accounts. *)
Lemma emptied_eq d : map (map empty_all_traps) d = emptied d.
Proof.
  unfold emptied. apply map_ext. intros ms. apply map_ext. intros m. unfold empty_all_traps, with_wm. f_equal.
  apply map_ext. intros r. f_equal. unfold vals. generalize (snd r) as l. induction l; cbn; [reflexivity|]. f_equal. exact IHl.
Qed.
Definition perform (a : all_managers R) (x : action) : all_managers R :=
  match x with
  | Save => atm_save a
  | Restore => atm_restore a
  | Empty => atm_empty a
  | Change d => with_data a d
  end.
(** [history] has the most recent action first. *)
Definition after (a : all_managers R) (history : list action) : all_managers R := fold_right (fun x a => perform a x) a history.

Lemma trapped_currently_eq (d : list (list (manager R))) :
  trapped_currently d = Rsum (map (fun phase => Rsum (map (fun m => n_trapped m (m_wm m)) phase)) d).
Proof.
  unfold trapped_currently.
  assert (H1 : forall phase acc, fold_left (fun acc m => (acc + n_trapped m (m_wm m))%num) phase acc = acc + Rsum (map (fun m => n_trapped m (m_wm m)) phase)).
  { induction phase as [|m phase IH]; intros acc; cbn; [lra|]. rewrite IH. rnum. unfold Rsum. lra. }
  enough (H2 : forall acc, fold_left (fun acc phase => fold_left (fun acc m => (acc + n_trapped m (m_wm m))%num) phase acc) d acc = acc + Rsum (map (fun phase => Rsum (map (fun m => n_trapped m (m_wm m)) phase)) d)).
  { rewrite H2. rnum. lra. }
  induction d as [|phase d IH]; intros acc; cbn [fold_left map Rsum fold_right]; [unfold Rsum; cbn; lra|]. rewrite H1, IH. unfold Rsum; cbn. lra.
Qed.

Lemma emptied_wm_trapped (w : wmarks R) ds : cy_n_trapped (map (fun r => (0, map (fun _ => 0) (snd r))) w) ds = 0.
Proof.
  rewrite cy_n_trapped_eq. unfold trapped. rewrite map_map. unfold Rsum in *. induction w; cbn; [reflexivity|]. rewrite IHw. unfold row_trapped. cbn. lra.
Qed.
Lemma first_zero_emptied (w : wmarks R) : first_zero_volume (map (fun r => (0, map (fun _ => 0) (snd r))) w) = 0%nat.
Proof.
  unfold first_zero_volume. destruct w; cbn; [reflexivity|]. unfold np_argmax. cbn. rnum. rewrite (proj2 (Reqb_true 0 0) eq_refl). reflexivity.
Qed.
Lemma n_trapped_emptied (m : manager R) : n_trapped (empty_all_traps m) (m_wm (empty_all_traps m)) = 0.
Proof.
  unfold n_trapped, empty_all_traps. cbn [m_kind m_wm with_wm m_traps n_traps_per_pixel]. destruct (m_kind m); try apply emptied_wm_trapped.
  unfold to_fill_fractions. change (map (fun r : R * list R => (n0, map (fun _ : R => n0) (vals r))) (m_wm m)) with (map (fun r : R * list R => (0, map (fun _ => 0) (snd r))) (m_wm m)).
  rewrite first_zero_emptied. 
  replace (map_vals_slice 0 0 _ _) with (map (fun r : R * list R => (0, map (fun _ => 0) (snd r))) (m_wm m)); [apply emptied_wm_trapped|].
  unfold map_vals_slice. set (w := map _ (m_wm m)). clearbody w. 
  enough (G : forall (s : nat), map (fun '(i, r) => if (Nat.leb 0 i && Nat.ltb i 0)%bool then (vol r, (fun times => zip_with (fun t time => fill_fraction_from_time_elapsed t time) (m_traps m) times) (vals r)) else r) (combine (seq s (length w)) w) = w) by (symmetry; apply G).
  induction w as [|r w IH]; intros s; [reflexivity|]. cbn [length seq combine map]. cbn [andb Nat.leb]. f_equal. apply IH.
Qed.
Lemma trapped_emptied d : trapped_currently (emptied d) = 0.
Proof.
  rewrite trapped_currently_eq, <- emptied_eq, map_map. induction d as [|phase d IH]; [reflexivity|]. unfold Rsum in *. cbn [map fold_right]. rewrite IH, map_map.
  assert (G : Rsum (map (fun m => n_trapped (empty_all_traps m) (m_wm (empty_all_traps m))) phase) = 0).
  { clear. unfold Rsum. induction phase; [reflexivity|]. cbn [map fold_right]. rewrite IHphase, n_trapped_emptied. lra. }
  unfold Rsum in G at 1. rewrite G. lra.
Qed.

Lemma history_spec d0 history : trapped_currently d0 = 0 ->
  let a := after (mkATM d0 None 0 0) history in
  states d0 history = (atm_data a, atm_saved a) /\
  atm_in_save a = match atm_saved a with Some d => trapped_currently d | None => 0 end /\
  atm_previously a + trapped_currently (atm_data a) = entered trapped_currently d0 history.
Proof.
  intros H0. induction history as [|x history (IH1 & IH2 & IH3)]; [cbn [after fold_right states entered atm_data atm_saved atm_in_save atm_previously]; rewrite H0; repeat split; lra|].
  cbn [after fold_right]. fold (after (mkATM d0 None 0 0) history). set (a := after _ history) in *. clearbody a.
  cbn [states entered]. rewrite IH1. cbn [fst]. rewrite <- ?emptied_eq.
  destruct x as [| | |d]; cbn [perform atm_save atm_restore atm_empty with_data atm_data atm_saved atm_in_save atm_previously fst].
  - split; [reflexivity|]. split; [reflexivity|]. rewrite IH3. lra.
  - unfold atm_restore. destruct (atm_saved a) as [s|]; cbn [atm_data atm_saved atm_in_save atm_previously].
    + split; [reflexivity|]. split; [exact IH2|]. rnum. rewrite IH2. lra.
    + rewrite emptied_eq. split; [reflexivity|]. split; [exact IH2|]. rewrite trapped_emptied. rnum. rewrite IH2. lra.
  - rewrite emptied_eq. split; [reflexivity|]. split; [exact IH2|]. lra.
  - split; [reflexivity|]. split; [exact IH2|]. lra.
Qed.

Lemma mapM_inv {A B} (f : A -> result B) l : forall l', mapM f l = Ok l' -> Forall2 (fun a b => f a = Ok b) l l'.
Proof.
  induction l as [|a l IH]; cbn; intros l' E; [injection E as <-; constructor|].
  destruct (f a) as [b|] eqn:Ea; cbn in E; [|discriminate]. destruct (mapM f l) as [l0|] eqn:El; cbn in E; [|discriminate].
  injection E as <-. constructor; [exact Ea|]. apply IH. reflexivity.
Qed.
Lemma Forall2_right {A B} (P : A -> B -> Prop) (Q : B -> Prop) l l' : Forall2 P l l' -> (forall a b, In a l -> P a b -> Q b) -> Forall Q l'.
Proof. induction 1; intros HQ; constructor; [eapply HQ; [left; reflexivity|assumption]|]. apply IHForall2. intros. eapply HQ; [right|]; eassumption. Qed.

Lemma atm_init_empty traps N (c : ccd R) a0 : atm_init traps N c = Ok a0 ->
  a0 = mkATM (atm_data a0) None 0 0 /\ emptied (atm_data a0) = atm_data a0.
Proof.
  unfold atm_init. destruct (normalise_traps traps) as [groups|]; cbn [bind]; [|discriminate].
  match goal with |- context [mapM ?f ?l] => destruct (mapM f l) as [data|] eqn:E end; cbn [bind]; [|discriminate].
  intros H. injection H as <-. cbn [atm_data]. split; [reflexivity|].
  apply mapM_inv in E. apply (Forall2_right _ (Forall (fun m => empty_all_traps m = m))) in E.
  - rewrite <- emptied_eq. induction E as [|ms data Hm _ IH]; [reflexivity|]. cbn [map]. f_equal; [|exact IH].
    induction Hm as [|m ms Hm _ IHm]; [reflexivity|]. cbn [map]. f_equal; assumption.
  - intros k ms _ Ems. apply mapM_inv in Ems. apply (Forall2_right _ (fun m => empty_all_traps m = m)) in Ems; [exact Ems|].
    intros g m _. destruct (kind_of_group g) as [kd|]; cbn [bind]; [|discriminate]. destruct (nth_error _ k) as [fr|]; cbn [of_option bind]; [|discriminate].
    intros H. injection H as <-. unfold empty_all_traps, with_wm. cbn [manager_init m_kind m_traps m_wm]. f_equal.
    generalize (length g) as n. intros n. 
    enough (G : forall j, map (fun r : R * list R => (n0, map (fun _ => n0) (vals r))) (repeat (zero_row n) j) = repeat (zero_row n) j) by exact (G (S (N * n_watermarks_per_transfer kd))).
    induction j as [|j IH]; [reflexivity|]. cbn [repeat map]. f_equal; [|exact IH]. unfold zero_row, vals. cbn [snd]. f_equal.
    clear. induction n as [|n IH]; [reflexivity|]. cbn [repeat map]. f_equal. exact IH.
Qed.

Lemma history_from_init traps N (c : ccd R) a0 history : atm_init traps N c = Ok a0 ->
  let a := after a0 history in
  states (atm_data a0) history = (atm_data a, atm_saved a) /\
  atm_in_save a = match atm_saved a with Some d => trapped_currently d | None => 0 end /\
  atm_previously a + trapped_currently (atm_data a) = entered trapped_currently (atm_data a0) history.
Proof.
  intros H. apply atm_init_empty in H. destruct H as (-> & He). cbn [atm_data] in *. apply history_spec. rewrite <- He. apply trapped_emptied.
Qed.
