(** * The order of species and of groups, and species listed in parts. *)
From Coq Require Import ZArith List Bool Reals Lra Lia Permutation.
From Verif Require Import Num Py RFacts CCDModel TrapsModel ManagerModel ROEModel ClockModel MainModel Spec SpecReadout SpecGroups WmFacts ClockFacts ShapeFacts CallFacts UnitFacts GroupSim SpeciesFacts.
Import ListNotations.
Open Scope R_scope.

(** ** Which groups list copies of each other's species. *)
Lemma lift_seq {A} (d : A) l : liftd (seq 0 (length l)) d l = l.
Proof.
  unfold liftd. apply (nth_ext _ _ d d); [rewrite map_length, seq_length; reflexivity|]. intros i Hi. rewrite map_length, seq_length in Hi.
  rewrite (nth_indep _ d (nth 0 l d)) by (rewrite map_length, seq_length; exact Hi). rewrite (map_nth (fun i => nth i l d)), seq_nth by exact Hi. reflexivity.
Qed.
Lemma Rsum_perm l m : Permutation l m -> Rsum l = Rsum m.
Proof. intros H. unfold Rsum in *. induction H; cbn [fold_right]; lra. Qed.
Lemma dot_sum l m : dot l m = Rsum (map (fun '(x, y) => x * y) (combine l m)).
Proof. revert m. induction l as [|x l IH]; intros [|y m]; cbn; try reflexivity. rewrite IH. reflexivity. Qed.
Lemma combine_maps {A B C} (f : A -> B) (g : A -> C) l : combine (map f l) (map g l) = map (fun i => (f i, g i)) l.
Proof. induction l as [|a l IH]; cbn; [reflexivity|]. rewrite IH. reflexivity. Qed.
Lemma covers_perm g h : Permutation g h -> exists pi, covers pi g h.
Proof.
  intros H. set (t0 := mkTrap 0 0 RInf 0 false CTrap : trap R).
  assert (E : map (fun i => nth i g t0) (seq 0 (length g)) = g) by apply lift_seq.
  pose proof H as H'. rewrite <- E in H'. apply Permutation_sym, Permutation_map_inv in H' as (pi & Eh & Hp).
  exists pi. split.
  - rewrite Eh, map_length. reflexivity.
  - intros i Hi. apply (Permutation_in i (Permutation_sym Hp)) in Hi. apply in_seq in Hi. lia.
  - intros j Hj. apply (Permutation_in j Hp). apply in_seq. lia.
  - intros dk. rewrite Eh. unfold liftd. rewrite map_map. apply map_ext_in. intros i Hi. apply (Permutation_in i (Permutation_sym Hp)) in Hi. apply in_seq in Hi.
    rewrite (nth_indep (map key g) dk (key t0)) by (rewrite map_length; lia). rewrite map_nth. reflexivity.
  - intros vs Hv. rewrite !dot_sum. unfold lift, liftd. rewrite Eh at 1. rewrite map_map, combine_maps, map_map.
    assert (Ev : map (fun i => nth i vs 0) (seq 0 (length g)) = vs) by (rewrite <- Hv; apply lift_seq).
    transitivity (Rsum (map (fun x => nth x vs 0 * t_density (nth x g t0)) (seq 0 (length g)))).
    2: { transitivity (Rsum (map (fun '(x, y) => x * y) (combine (map (fun i => nth i vs 0) (seq 0 (length g))) (map t_density (map (fun i => nth i g t0) (seq 0 (length g))))))); [|rewrite Ev, E; reflexivity].
      rewrite map_map, combine_maps, map_map. reflexivity. }
    apply Rsum_perm, Permutation_map, Permutation_sym, Hp.
Qed.
Lemma covers_split t a b g : covers (0%nat :: seq 0 (S (length g))) (with_density t (a + b) :: g) (with_density t a :: with_density t b :: g).
Proof.
  split.
  - cbn. rewrite seq_length. reflexivity.
  - intros i [<-|Hi]; cbn [length]; [lia|]. apply in_seq in Hi. lia.
  - intros j Hj. right. apply in_seq. cbn [length] in Hj. lia.
  - intros dk. transitivity (key t :: liftd (seq 0 (length (map key (with_density t (a + b) :: g)))) dk (map key (with_density t (a + b) :: g))).
    + rewrite lift_seq. reflexivity.
    + rewrite map_length. reflexivity.
  - intros vs Hv. destruct vs as [|v vs]; [discriminate|].
    transitivity (dot (v :: liftd (seq 0 (length (v :: vs))) 0 (v :: vs)) (map t_density (with_density t a :: with_density t b :: g))).
    + rewrite Hv. reflexivity.
    + rewrite lift_seq. cbn. lra.
Qed.
Lemma dot_scale q : forall l m, dot l (map (fun x => x * q) m) = dot l m * q.
Proof. induction l as [|x l IH]; intros [|y m]; cbn; try lra. rewrite IH. lra. Qed.
Lemma covers_scale pi g h q : covers pi g h -> covers pi (map (scale_density q) g) (map (scale_density q) h).
Proof.
  intros C. assert (K : forall l, map key (map (scale_density q) l) = map key l) by (intros l; rewrite map_map; apply map_ext; intros []; reflexivity).
  assert (D : forall l, map t_density (map (scale_density q) l) = map (fun x => x * q) (map t_density l)) by (intros l; rewrite !map_map; apply map_ext; intros []; reflexivity).
  split.
  - rewrite map_length. apply C.
  - rewrite map_length. apply C.
  - rewrite map_length. apply C.
  - intros dk. rewrite !K. apply C.
  - rewrite map_length. intros vs Hv. rewrite !D, !dot_scale. f_equal. apply C, Hv.
Qed.

(** ** Managers of such groups. *)
Inductive msim : manager R -> manager R -> Prop :=
| msim_lift pi m B : covers pi (m_traps m) B -> mshape m -> msim m (ml pi B m)
| msim_refl m : msim m m
| msim_sym m b : msim m b -> msim b m
| msim_trans m b c : msim m b -> msim b c -> msim m c.
Definition step_rel (p q : R * manager R) : Prop := fst p = fst q /\ msim (snd p) (snd q).
Lemma msim_step m b x fill d : msim m b -> rrel eq step_rel (manager_step m x fill d) (manager_step b x fill d).
Proof.
  intros H. induction H as [pi m B C W|m|m b H IH|m b c H1 IH1 H2 IH2].
  - rewrite (manager_step_lift pi (m_traps m) B C (length (m_wm m)) m x fill d eq_refl W).
    destruct (manager_step m x fill d) as [[y m']|e] eqn:E; cbn; [|reflexivity]. pose proof (manager_step_shape _ _ _ _ _ _ W E) as K. split; [reflexivity|]. cbn [snd].
    apply msim_lift; [|exact (keeps_shape _ _ K)]. destruct K as (_ & -> & _). exact C.
  - destruct (manager_step m x fill d); cbn; [split; [reflexivity|apply msim_refl]|reflexivity].
  - destruct (manager_step m x fill d), (manager_step b x fill d); cbn in *; try contradiction; [destruct IH; split; [auto|apply msim_sym; auto]|auto].
  - destruct (manager_step m x fill d), (manager_step b x fill d), (manager_step c x fill d); cbn in *; try contradiction; [destruct IH1, IH2; split; [congruence|eapply msim_trans; eauto]|congruence].
Qed.
Lemma msim_count m b : msim m b -> n_trapped m (m_wm m) = n_trapped b (m_wm b).
Proof.
  intros H. induction H as [pi m B C W|m|m b H IH|m b c H1 IH1 H2 IH2]; try congruence. symmetry. apply (n_trapped_lift pi (m_traps m) B C); [reflexivity|apply W].
Qed.
Lemma msim_empty m b : msim m b -> msim (empty_all_traps m) (empty_all_traps b).
Proof.
  intros H. induction H as [pi m B C W|m|m b H IH|m b c H1 IH1 H2 IH2].
  - rewrite empty_lift. apply msim_lift; [exact C|apply empty_shape, W].
  - apply msim_refl.
  - apply msim_sym, IH.
  - eapply msim_trans; eauto.
Qed.
Lemma species_step gs hs x fill d : Forall2 msim gs hs -> forall acc,
  rrel eq (fun p q => fst p = fst q /\ Forall2 msim (snd p) (snd q)) (step_groups gs x fill d acc) (step_groups hs x fill d acc).
Proof.
  intros H. induction H as [|m b gs hs Hm H IH]; intros acc; [split; [reflexivity|constructor]|]. cbn [step_groups].
  apply (rrel_bind _ step_rel); [apply msim_step, Hm|]. intros [y m'] [z b'] _ _ [Hy Hm']. cbn [fst snd] in *. subst z.
  eapply rrel_bind; [apply IH|]. intros [t ms] [u bs] _ _ [Ht Hs]. cbn [fst snd] in *. subst u. split; [reflexivity|constructor; assumption].
Qed.
Lemma species_count gs hs acc : Forall2 msim gs hs ->
  fold_left (fun acc m => (acc + n_trapped m (m_wm m))%num) gs acc = fold_left (fun acc m => (acc + n_trapped m (m_wm m))%num) hs acc.
Proof. intros H. revert acc. induction H as [|m b gs hs Hm H IH]; intros acc; [reflexivity|]. cbn [fold_left]. rewrite (msim_count _ _ Hm). apply IH. Qed.
Lemma species_empty gs hs : Forall2 msim gs hs -> Forall2 msim (map empty_all_traps gs) (map empty_all_traps hs).
Proof. intros H. induction H; constructor; auto. apply msim_empty. assumption. Qed.

(** ** New managers. *)
Lemma map_repeated {A B} (f : A -> B) x k : map f (repeat x k) = repeat (f x) k.
Proof. induction k as [|k IH]; cbn; [reflexivity|]. rewrite IH. reflexivity. Qed.
Definition new_manager (k : mkind) (g : list (trap R)) (q : R) (N : nat) : manager R :=
  mkManager k (map (scale_density q) g) (m_wm (manager_init k g N)).
Definition made (N : nat) (c : ccd R) (phase : nat) (g : list (trap R)) : result (manager R) :=
  do k <- kind_of_group g; do q <- of_option IndexError (nth_error (ccd_fractions c) phase); Ok (new_manager k g q N).
Definition starts_alike (g h : list (trap R)) : Prop := kind_of_group g = kind_of_group h /\ forall k q N, msim (new_manager k g q N) (new_manager k h q N).
Lemma covers_new pi g h k q N : covers pi g h -> msim (new_manager k g q N) (new_manager k h q N).
Proof.
  intros C. assert (E : new_manager k h q N = ml pi (map (scale_density q) h) (new_manager k g q N)).
  { unfold new_manager, ml. cbn [m_kind m_wm manager_init]. f_equal. unfold wl. rewrite map_repeated. f_equal. unfold zero_row, wlift_row. cbn [fst snd]. f_equal.
    unfold lift. rewrite <- (cv_length _ _ _ C). symmetry. apply (lift_repeat pi (length g) (cv_in _ _ _ C)). }
  rewrite E. apply msim_lift; [apply covers_scale, C|]. unfold mshape, new_manager. cbn [m_traps m_wm manager_init]. rewrite map_length. apply (init_shape k g N).
Qed.
Lemma same_group_starts g h : same_group g h -> starts_alike g h.
Proof.
  intros H. induction H as [k g h Hk Hp|t a b g|g h _ IH|g h i _ IH1 _ IH2].
  - split.
    + pose proof (Permutation_length Hp) as L. unfold of_sort in Hk. rewrite Forall_forall in Hk. destruct g as [|t g], h as [|u h]; try discriminate; [reflexivity|].
      pose proof (Hk t (or_introl eq_refl)) as Ht. pose proof (Hk u (Permutation_in u (Permutation_sym Hp) (or_introl eq_refl))) as Hu. cbn. unfold sort_of in *.
      destruct (t_class t), (t_class u); congruence.
    + destruct (covers_perm _ _ Hp) as [pi C]. intros. apply (covers_new pi), C.
  - split; [reflexivity|]. intros. eapply covers_new, covers_split.
  - destruct IH as [K I]. split; [congruence|]. intros. apply msim_sym, I.
  - destruct IH1 as [K1 I1], IH2 as [K2 I2]. split; [congruence|]. intros. eapply msim_trans; auto.
Qed.
Lemma made_alike N c phase g h : starts_alike g h -> rrel eq msim (made N c phase g) (made N c phase h).
Proof.
  intros [K I]. unfold made. rewrite K. destruct (kind_of_group h) as [k|]; cbn [bind]; [|reflexivity]. destruct (nth_error _ _) as [q|]; cbn; [apply I|reflexivity].
Qed.
Lemma rrel_mapM {A B C D} (E : exn -> exn -> Prop) (RelI : A -> B -> Prop) (Rel : C -> D -> Prop) f g l m :
  (forall a b, RelI a b -> rrel E Rel (f a) (g b)) -> Forall2 RelI l m -> rrel E (Forall2 Rel) (mapM f l) (mapM g m).
Proof.
  intros H HL. induction HL as [|a b l m Hab HL IH]; [constructor|]. cbn [mapM]. apply (rrel_bind _ Rel); [apply H, Hab|]. intros x y _ _ Hx.
  apply (rrel_bind _ (Forall2 Rel)); [exact IH|]. intros xs ys _ _ Hs. constructor; assumption.
Qed.
Lemma Forall2_same {A} (Rel : A -> A -> Prop) l : (forall a, Rel a a) -> Forall2 Rel l l.
Proof. intros H. induction l; constructor; auto. Qed.
Lemma init_eq a N c : atm_init a N c = do groups <- normalise_traps a; do data <- mapM (fun phase => mapM (made N c phase) groups) (seq 0 (ccd_n_phases c)); Ok (mkATM data None n0 n0).
Proof. reflexivity. Qed.
Lemma groups_init gs hs N c : Forall2 same_group gs hs ->
  rrel eq (atm_sim (Forall2 msim)) (do data <- mapM (fun phase => mapM (made N c phase) gs) (seq 0 (ccd_n_phases c)); Ok (mkATM data None n0 n0))
    (do data <- mapM (fun phase => mapM (made N c phase) hs) (seq 0 (ccd_n_phases c)); Ok (mkATM data None n0 n0)).
Proof.
  intros H. apply (rrel_bind _ (Forall2 (Forall2 msim))).
  - apply (rrel_mapM _ eq); [|apply Forall2_same; reflexivity]. intros i ? <-. apply (rrel_mapM _ same_group); [|exact H]. intros g h Hg. apply made_alike, same_group_starts, Hg.
  - intros x y _ _ Hx. repeat split; cbn; auto.
Qed.
Lemma normalise_groups a : Forall (fun g => g <> []) (groups_in a) -> normalise_traps a = match groups_in a with [] => Err IndexError | l => Ok l end.
Proof.
  intros H. destruct a as [t|[|t l]|[|g l]]; try reflexivity. inversion H as [|? ? X _]. contradiction X. reflexivity.
Qed.
Lemma same_group_empty g h : same_group g h -> g = [] <-> h = [].
Proof. intros H. apply same_group_starts in H as [K _]. destruct g, h; split; intros X; try discriminate; try reflexivity; discriminate K. Qed.
Lemma same_traps_sim a b : same_traps a b -> traps_sim eq (Forall2 msim) a b.
Proof.
  intros [H Ha] N c. assert (Hb : Forall (fun g => g <> []) (groups_in b)).
  { clear N c. induction H as [|g h l m Hg Hl IH]; [constructor|]. inversion Ha; subst. constructor; [|apply IH; assumption]. rewrite <- (same_group_empty _ _ Hg). assumption. }
  rewrite !init_eq, (normalise_groups a Ha), (normalise_groups b Hb). destruct H as [|g h l m Hg Hl]; [reflexivity|]. cbn [bind]. apply groups_init. constructor; assumption.
Qed.
Lemma atm_sim_refl (P : list (manager R) -> list (manager R) -> Prop) a : (forall gs, P gs gs) -> atm_sim P a a.
Proof. intros H. repeat split; auto; [|destruct (atm_saved a); [|exact I]]; apply Forall2_same, H. Qed.
Lemma direction_sim_refl (E : exn -> exn -> Prop) (P : list (manager R) -> list (manager R) -> Prop) d : (forall e, E e e) -> (forall gs, P gs gs) -> direction_sim E P d d.
Proof.
  intros HE HP. unfold direction_sim. repeat (split; [reflexivity|]). destruct (d_traps d) as [a|]; [|exact I]. intros N c. destruct (atm_init a N c); cbn; [apply atm_sim_refl, HP|apply HE].
Qed.
Lemma same_direction_sim d e : same_direction d e -> direction_sim eq (Forall2 msim) d e.
Proof.
  intros [<-|[(H1 & H2 & H3 & H4 & H5) (a & b & Ha & Hb & Hab)]].
  - apply direction_sim_refl; [reflexivity|]. intros gs. apply Forall2_same, msim_refl.
  - unfold direction_sim. rewrite Ha, Hb. repeat (split; [assumption|]). apply same_traps_sim, Hab.
Qed.
Lemma species_do_not_matter im parallel serial parallel' serial' tw : same_direction parallel parallel' -> same_direction serial serial' ->
  add_cti im parallel serial tw = add_cti im parallel' serial' tw.
Proof.
  intros HP HS. apply rrel_eq, (add_cti_sim eq (fun e => eq_refl) (Forall2 msim)).
  - intros gs hs n fill d H. apply species_step, H.
  - intros gs hs acc H. apply species_count, H.
  - intros gs hs H. apply species_empty, H.
  - apply same_direction_sim, HP.
  - apply same_direction_sim, HS.
Qed.

(** ** The order of groups. *)
Definition any (_ _ : exn) : Prop := True.
Lemma rrel_trans {A} (Rel : A -> A -> Prop) x y z : (forall a b c, Rel a b -> Rel b c -> Rel a c) -> rrel any Rel x y -> rrel any Rel y z -> rrel any Rel x z.
Proof. intros H. destruct x, y, z; cbn; try contradiction; auto. apply H. Qed.
Definition order_rel (p q : R * list (manager R)) : Prop := fst p = fst q /\ Permutation (snd p) (snd q).
Lemma order_refl x : rrel any order_rel x x.
Proof. destruct x; cbn; [split; auto|exact I]. Qed.
Lemma order_step gs hs x fill d : Permutation gs hs -> forall acc, rrel any order_rel (step_groups gs x fill d acc) (step_groups hs x fill d acc).
Proof.
  intros H. induction H as [|m gs hs H IH|m b gs|gs hs is H1 IH1 H2 IH2]; intros acc.
  - apply order_refl.
  - cbn [step_groups]. apply (rrel_bind _ eq); [apply rrel_refl; exact (fun _ => I)|]. intros [y m'] ? _ _ <-.
    apply (rrel_bind _ order_rel); [apply IH|]. intros [t ms] [u bs] _ _ [Ht Hs]. cbn [fst snd] in *. subst u. split; [reflexivity|]. cbn. apply perm_skip, Hs.
  - cbn [step_groups]. destruct (manager_step m x fill d) as [[y m']|], (manager_step b x fill d) as [[z b']|]; cbn [bind]; try exact I.
    replace ((acc + z)%num + y)%num with ((acc + y)%num + z)%num by (rnum; lra). destruct (step_groups gs _ _ _ _) as [[t ms]|]; cbn; [|exact I]. split; [reflexivity|]. cbn. apply perm_swap.
  - eapply rrel_trans; [|apply IH1|apply IH2]. intros p q r [A1 A2] [B1 B2]. split; [congruence|]. eapply perm_trans; eauto.
Qed.
Lemma order_count gs hs acc : Permutation gs hs ->
  fold_left (fun acc m => (acc + n_trapped m (m_wm m))%num) gs acc = fold_left (fun acc m => (acc + n_trapped m (m_wm m))%num) hs acc.
Proof.
  intros H. revert acc. induction H as [|m gs hs H IH|m b gs|gs hs is H1 IH1 H2 IH2]; intros acc; cbn [fold_left]; auto; [|congruence].
  f_equal. rnum. lra.
Qed.
Lemma mapM_perm {A B} (f : A -> result B) l m : Permutation l m -> rrel any (@Permutation B) (mapM f l) (mapM f m).
Proof.
  intros H. induction H as [|a l m H IH|a b l|l m k H1 IH1 H2 IH2]; [apply perm_nil| | |]; cbn [mapM].
  - destruct (f a); cbn [bind]; [|exact I]. destruct (mapM f l), (mapM f m); cbn in *; try contradiction; auto.
  - destruct (f a), (f b); cbn [bind]; try exact I; destruct (mapM f l); cbn; try exact I; apply perm_swap.
  - eapply rrel_trans; [|apply IH1|apply IH2]. apply perm_trans.
Qed.
Lemma order_init l m : Permutation l m -> traps_sim any (@Permutation _) (TNested l) (TNested m).
Proof.
  intros H N c. rewrite !init_eq. destruct l as [|g l].
  - apply Permutation_nil in H. subst m. exact I.
  - destruct m as [|h m]; [apply Permutation_sym, Permutation_nil in H; discriminate H|]. cbn [normalise_traps bind].
    apply (rrel_bind _ (Forall2 (@Permutation _))).
    + apply (rrel_mapM _ eq); [|apply Forall2_same; reflexivity]. intros i ? <-. apply mapM_perm, H.
    + intros x y _ _ Hx. repeat split; cbn; auto.
Qed.
Lemma reordered_sim d e : reordered_groups d e -> direction_sim any (@Permutation _) d e.
Proof.
  intros [<-|[(H1 & H2 & H3 & H4 & H5) (a & b & Ha & Hb & Hab)]].
  - apply direction_sim_refl; [exact (fun _ => I)|]. intros gs. reflexivity.
  - unfold direction_sim. rewrite Ha, Hb. repeat (split; [assumption|]). apply order_init, Hab.
Qed.
Lemma groups_order im parallel serial parallel' serial' tw : reordered_groups parallel parallel' -> reordered_groups serial serial' ->
  same_outcome (add_cti im parallel serial tw) (add_cti im parallel' serial' tw).
Proof.
  intros HP HS. assert (H : rrel any eq (add_cti im parallel serial tw) (add_cti im parallel' serial' tw)).
  { apply (add_cti_sim any (fun e => I) (@Permutation _)).
    - intros gs hs n fill d H. apply order_step, H.
    - intros gs hs acc H. apply order_count, H.
    - intros gs hs H. apply Permutation_map, H.
    - apply reordered_sim, HP.
    - apply reordered_sim, HS. }
  revert H. destruct (add_cti _ parallel _ _), (add_cti _ parallel' _ _); cbn; auto.
Qed.

(** ** Corrections. *)
Lemma keep_same d e r : same_direction d e -> same_direction (keep_roe d r) (keep_roe e r).
Proof.
  intros [<-|[(H1 & H2 & H3 & H4 & H5) H]]; [left; reflexivity|]. right. unfold keep_roe. rewrite <- H2. destruct (d_roe d) eqn:K; [|split; [repeat split; congruence|exact H]].
  split; [repeat split; assumption|]. exact H.
Qed.
Lemma keep_reordered d e r : reordered_groups d e -> reordered_groups (keep_roe d r) (keep_roe e r).
Proof.
  intros [<-|[(H1 & H2 & H3 & H4 & H5) H]]; [left; reflexivity|]. right. unfold keep_roe. rewrite <- H2. destruct (d_roe d) eqn:K; [|split; [repeat split; congruence|exact H]].
  split; [repeat split; assumption|]. exact H.
Qed.
Lemma correction_species im n : forall parallel serial parallel' serial' tw estimate, same_direction parallel parallel' -> same_direction serial serial' ->
  (do '(out, _, _) <- remove_cti_loop im n parallel serial tw estimate; Ok out) = (do '(out, _, _) <- remove_cti_loop im n parallel' serial' tw estimate; Ok out).
Proof.
  induction n as [|n IH]; intros parallel serial parallel' serial' tw estimate HP HS; [reflexivity|]. cbn [remove_cti_loop].
  rewrite (species_do_not_matter estimate _ _ _ _ tw HP HS). destruct (add_cti _ _ _ _) as [[[added pr] sr]|]; [|reflexivity]. cbn [bind]. apply IH; apply keep_same; assumption.
Qed.
Lemma correction_order im n : forall parallel serial parallel' serial' tw estimate, reordered_groups parallel parallel' -> reordered_groups serial serial' ->
  same_outcome (do '(out, _, _) <- remove_cti_loop im n parallel serial tw estimate; Ok out) (do '(out, _, _) <- remove_cti_loop im n parallel' serial' tw estimate; Ok out).
Proof.
  induction n as [|n IH]; intros parallel serial parallel' serial' tw estimate HP HS; [reflexivity|]. cbn [remove_cti_loop].
  pose proof (groups_order estimate _ _ _ _ tw HP HS) as E. destruct (add_cti estimate parallel serial tw) as [[[added pr] sr]|], (add_cti estimate parallel' serial' tw) as [[[added' pr'] sr']|]; try contradiction; [|exact I].
  cbn in E. injection E as <- <- <-. cbn [bind]. apply IH; apply keep_reordered; assumption.
Qed.
