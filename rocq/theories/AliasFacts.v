(** * Trap objects that appear more than once. *)
From Coq Require Import Arith List Bool Lia.
From Verif Require Import Num Py CCDModel TrapsModel ManagerModel ClockFacts AliasModel.
Import ListNotations.

Section Facts.
Context {F : Type} {num : Num F}.
Lemma nth_upd {A} (l : list A) i j x : nth_error (upd l i x) j = if Nat.eqb i j then option_map (fun _ => x) (nth_error l j) else nth_error l j.
Proof.
  revert i j. induction l as [|a l IH]; intros i j.
  - cbn. destruct j; destruct (Nat.eqb i _); reflexivity.
  - destruct i, j; try reflexivity. cbn. apply IH.
Qed.
Lemma with_with (t : trap F) v w : with_density (with_density t v) w = with_density t w.
Proof. reflexivity. Qed.
Lemma nth_store (h : heap F) i v j : nth_error (store_density h i v) j = if Nat.eqb i j then option_map (fun t => with_density t v) (nth_error h j) else nth_error h j.
Proof.
  unfold store_density. destruct (nth_error h i) as [t|] eqn:E.
  - rewrite nth_upd. destruct (Nat.eqb_spec i j); [|reflexivity]. subst. now rewrite E.
  - destruct (Nat.eqb_spec i j); [|reflexivity]. subst. now rewrite E.
Qed.
(** The last of the values written to an address. *)
Fixpoint last_value (refs : list nat) (values : list F) (j : nat) : option F :=
  match refs, values with
  | i :: refs', v :: values' =>
      match last_value refs' values' j with
      | Some w => Some w
      | None => if Nat.eqb i j then Some v else None
      end
  | _, _ => None
  end.
Lemma nth_stores refs : forall (h : heap F) values j, nth_error (fold_left (fun h '(i, v) => store_density h i v) (combine refs values) h) j =
  match last_value refs values j with Some v => option_map (fun t => with_density t v) (nth_error h j) | None => nth_error h j end.
Proof.
  induction refs as [|i refs IH]; intros h values j; [reflexivity|]. destruct values as [|v values]; [reflexivity|]. cbn [combine fold_left last_value]. rewrite IH, nth_store.
  destruct (last_value refs values j); destruct (Nat.eqb i j); try reflexivity. destruct (nth_error h j); reflexivity.
Qed.
Lemma last_value_app refs1 values1 i v refs2 values2 : length refs1 = length values1 -> ~ In i refs2 ->
  last_value (refs1 ++ i :: refs2) (values1 ++ v :: values2) i = Some v.
Proof.
  revert values1. induction refs1 as [|k refs1 IH]; intros [|w values1] Hl Hi; try discriminate; cbn [app last_value].
  - enough (Q : last_value refs2 values2 i = None) by (rewrite Q, Nat.eqb_refl; reflexivity). revert values2. induction refs2 as [|k refs2 IH2]; intros values2; [reflexivity|]. destruct values2 as [|w values2]; [reflexivity|]. cbn.
    rewrite IH2 by (intros Q; apply Hi; now right). destruct (Nat.eqb_spec k i); [|reflexivity]. exfalso. apply Hi. now left.
  - rewrite IH; [reflexivity|now injection Hl|exact Hi].
Qed.
Lemma last_value_fun (g : nat -> F) refs j : last_value refs (map g refs) j = if existsb (Nat.eqb j) refs then Some (g j) else None.
Proof.
  induction refs as [|i refs IH]; [reflexivity|]. cbn [map last_value existsb]. rewrite IH, (Nat.eqb_sym i j). destruct (existsb (Nat.eqb j) refs); [now rewrite orb_true_r|]. destruct (Nat.eqb_spec j i); [now subst|reflexivity].
Qed.
Lemma loads (h : heap F) (f : nat -> trap F) refs : (forall i, In i refs -> nth_error h i = Some (f i)) -> mapM (load h) refs = Ok (map f refs).
Proof.
  induction refs as [|i refs IH]; intros H; [reflexivity|]. cbn [mapM map]. unfold load at 1. rewrite (H i (or_introl eq_refl)). cbn [of_option bind]. rewrite IH; [reflexivity|]. intros k Hk. apply H. now right.
Qed.
Lemma manager_objects (h : heap F) d refs n frac k : (forall i, In i refs -> (i < length h)%nat) -> kind_of_group (map (fun i => nth i h d) refs) = Ok k ->
  manager_of_objects h refs n frac = let m := manager_init k (map (fun i => nth i h d) refs) n in Ok (mkManager (m_kind m) (map (scale_density frac) (m_traps m)) (m_wm m)).
Proof.
  intros Hr Hk. set (f := fun i => nth i h d) in *. assert (L : forall i, In i refs -> nth_error h i = Some (f i)) by (intros i Hi; apply nth_error_nth', Hr, Hi).
  unfold manager_of_objects, densities_of. rewrite (loads h f refs L). cbn [bind]. rewrite Hk. cbn [bind]. rewrite !map_map. unfold store_densities. rewrite !map_length, Nat.eqb_refl. cbn [bind].
  rewrite (loads _ (fun i => scale_density frac (f i)) refs).
  - cbn [bind]. unfold manager_init. cbn [m_kind m_traps m_wm]. now rewrite map_map.
  - intros i Hi. rewrite nth_stores, (last_value_fun (fun i => (t_density (f i) * frac)%num)). replace (existsb (Nat.eqb i) refs) with true.
    + rewrite (L i Hi). reflexivity.
    + symmetry. apply existsb_exists. exists i. split; [exact Hi|apply Nat.eqb_refl].
Qed.
Lemma mapM_cong {A B} (f g : A -> result B) l : (forall x, In x l -> f x = g x) -> mapM f l = mapM g l.
Proof. induction l as [|a l IH]; intros H; [reflexivity|]. cbn [mapM]. rewrite (H a (or_introl eq_refl)), IH; [reflexivity|]. intros x Hx. apply H. now right. Qed.
Lemma mapM_over {A B C} (f : B -> result C) (g : A -> B) l : mapM f (map g l) = mapM (fun x => f (g x)) l.
Proof. induction l as [|a l IH]; [reflexivity|]. cbn [map mapM]. now rewrite IH. Qed.
Lemma atm_objects (h : heap F) d groups n c : (forall g i, In g groups -> In i g -> (i < length h)%nat) ->
  atm_of_objects h groups n c = atm_init (TNested (map (map (fun i => nth i h d)) groups)) n c.
Proof.
  intros Hr. unfold atm_of_objects, atm_init. destruct groups as [|g0 groups0]; [reflexivity|]. set (groups := g0 :: groups0) in *.
  change (normalise_traps (TNested (map (map (fun i => nth i h d)) groups))) with (@Ok (list (list (trap F))) (map (map (fun i => nth i h d)) groups)). cbn [bind].
  f_equal. apply mapM_cong. intros phase _. rewrite mapM_over. apply mapM_cong. intros g Hg.
  rewrite (loads h (fun i => nth i h d) g) by (intros i Hi; apply nth_error_nth', (Hr g i Hg Hi)). cbn [bind].
  destruct (kind_of_group (map (fun i => nth i h d) g)) as [k|] eqn:Ek; [|reflexivity]. cbn [bind]. destruct (nth_error (ccd_fractions c) phase) as [frac|]; [|reflexivity]. cbn [of_option bind].
  exact (manager_objects h d g n frac k (fun i => Hr g i Hg) Ek).
Qed.
(** ** Assigned densities *)
Lemma assigned_apart (h : heap F) refs values : NoDup refs -> (forall i, In i refs -> (i < length h)%nat) -> length values = length refs ->
  exists h', store_densities h refs values = Ok h' /\ densities_of h' refs = Ok values.
Proof.
  intros Hn Hr Hl. unfold store_densities. rewrite Hl, Nat.eqb_refl. eexists. split; [reflexivity|]. set (h' := fold_left _ _ h).
  enough (G : forall r v, (exists r0 v0, refs = r0 ++ r /\ values = v0 ++ v /\ length r0 = length v0) -> densities_of h' r = Ok v) by (apply G; now exists [], []).
  induction r as [|i r IH]; intros v (r0 & v0 & Er & Ev & Hl0).
  - destruct v; [reflexivity|]. rewrite Er, Ev, !app_length in Hl. cbn in Hl. lia.
  - destruct v as [|x v]; [rewrite Er, Ev, !app_length in Hl; cbn in Hl; lia|].
    assert (IH' : densities_of h' r = Ok v) by (apply IH; exists (r0 ++ [i]), (v0 ++ [x]); rewrite <- !app_assoc; cbn; rewrite !app_length; repeat split; [exact Er|exact Ev|cbn; lia]).
    unfold densities_of in *. cbn [mapM]. assert (Q : nth_error h' i = option_map (fun t => with_density t x) (nth_error h i)).
    { unfold h'. rewrite nth_stores, Er, Ev, last_value_app; [reflexivity|exact Hl0|]. rewrite Er in Hn. apply NoDup_remove_2 in Hn. intros Hi. apply Hn. apply in_or_app. now right. }
    unfold load at 1. rewrite Q. destruct (nth_error h i) as [t|] eqn:Et.
    + cbn [option_map of_option bind]. destruct (mapM (load h') r); [|discriminate]. cbn [bind] in *. injection IH' as <-. reflexivity.
    + exfalso. apply nth_error_None in Et. assert (In i refs) by (rewrite Er; apply in_or_app; right; now left). specialize (Hr _ H). lia.
Qed.
Lemma assigned_last (h h' : heap F) refs1 i refs2 values1 v values2 : length refs1 = length values1 -> ~ In i refs2 -> (i < length h)%nat ->
  store_densities h (refs1 ++ i :: refs2) (values1 ++ v :: values2) = Ok h' ->
  forall p ds, nth_error (refs1 ++ i :: refs2) p = Some i -> densities_of h' (refs1 ++ i :: refs2) = Ok ds -> nth_error ds p = Some v.
Proof.
  intros Hl Hi Hh. unfold store_densities. destruct (Nat.eqb _ _); [|discriminate]. intros E p ds Hp Hd. injection E as E.
  unfold densities_of in Hd. destruct (mapM (load h') _) as [ts|] eqn:Em; [|discriminate]. cbn [bind] in Hd. injection Hd as <-.
  destruct (mapM_ok_nth _ _ _ p i Em Hp) as (t & Ht & Et). rewrite nth_error_map, Ht. cbn [option_map]. f_equal.
  unfold load in Et. rewrite <- E, nth_stores, last_value_app in Et by assumption. destruct (nth_error h i) as [t0|] eqn:E0; [|discriminate]. cbn in Et. injection Et as <-. reflexivity.
Qed.
End Facts.
