(** * Managers whose species are copies of the species of another manager. *)
From Coq Require Import ZArith List Bool Reals Lra Lia Permutation.
From Verif Require Import Num Py RFacts CCDModel TrapsModel ManagerModel ROEModel ClockModel MainModel SpecUnits SpecGroups WmFacts ClockFacts ShapeFacts CallFacts UnitFacts GroupSim.
Import ListNotations.
Open Scope R_scope.

(** The same trap but for the density and the flag. *)
Definition alike (t b : trap R) : Prop :=
  t_release_timescale b = t_release_timescale t /\ t_capture_rate b = t_capture_rate t /\ t_emission_rate b = t_emission_rate t /\ t_class b = t_class t.

Lemma minl_spec (l : list nat) : l <> [] -> let m := match l with [] => 0%nat | k :: ks => fold_left Nat.min ks k end in In m l /\ forall x, In x l -> (m <= x)%nat.
Proof.
  destruct l as [|k ks]; [contradiction|]. intros _. cbn zeta. revert k. induction ks as [|j ks IH]; intros k; cbn [fold_left].
  - split; [left; reflexivity|]. intros x [<-|[]]. lia.
  - destruct (IH (Nat.min k j)) as [H1 H2]. split.
    + destruct H1 as [H1|H1]; [|right; right; exact H1]. rewrite <- H1. destruct (Nat.min_spec k j) as [[_ ->]|[_ ->]]; [left|right; left]; reflexivity.
    + intros x Hx. destruct Hx as [<-|[<-|Hx]].
      * pose proof (H2 _ (or_introl eq_refl)). lia.
      * pose proof (H2 _ (or_introl eq_refl)). lia.
      * apply H2. right. exact Hx.
Qed.
Lemma minl_same (l m : list nat) : (forall x, In x l <-> In x m) ->
  match l with [] => 0%nat | k :: ks => fold_left Nat.min ks k end = match m with [] => 0%nat | k :: ks => fold_left Nat.min ks k end.
Proof.
  intros H. destruct l as [|a l]; [destruct m as [|b m]; [reflexivity|]; destruct (proj2 (H b) (or_introl eq_refl))|].
  destruct m as [|b m]; [destruct (proj1 (H a) (or_introl eq_refl))|].
  destruct (minl_spec (a :: l) ltac:(discriminate)) as [L1 L2]. destruct (minl_spec (b :: m) ltac:(discriminate)) as [M1 M2]. cbn zeta in *.
  apply H in M1. apply H in L1. specialize (L2 _ M1). specialize (M2 _ L1). lia.
Qed.

Section Lift.
Variable pi : list nat.
Variable n : nat.
Hypothesis Hpi : forall i, In i pi -> (i < n)%nat.
Hypothesis Hsurj : forall j, (j < n)%nat -> In j pi.
Definition liftd {A} (d : A) (l : list A) : list A := map (fun i => nth i l d) pi.
Definition lift : list R -> list R := liftd 0.
Lemma lift_length {A} (d : A) l : length (liftd d l) = length pi.
Proof. apply map_length. Qed.
Lemma lift_nth {A} (d : A) l i e k : nth_error pi k = Some i -> nth k (liftd d l) e = nth i l d.
Proof. intros H. apply nth_error_nth. unfold liftd. apply (map_nth_error (fun i => nth i l d) k pi H). Qed.
Lemma lift_zip {A B C} (f : A -> B -> C) da db dc a b : length a = n -> length b = n -> zip_with f (liftd da a) (liftd db b) = liftd dc (zip_with f a b).
Proof.
  intros Ha Hb. unfold liftd. assert (H : forall i, In i pi -> f (nth i a da) (nth i b db) = nth i (zip_with f a b) dc).
  { intros i Hi. apply Hpi in Hi. unfold zip_with. rewrite (nth_indep _ dc ((fun '(x, y) => f x y) (da, db))) by (rewrite map_length, combine_length; lia).
    refine (eq_sym (eq_trans (map_nth _ _ (da, db) i) _)). rewrite combine_nth by congruence. reflexivity. }
  revert H. generalize pi. intros l H. unfold zip_with at 1. induction l as [|i l IH]; [reflexivity|]. cbn [map combine]. rewrite (H i (or_introl eq_refl)), IH by (intros; apply H; right; assumption). reflexivity.
Qed.
Lemma lift_map {A B} (f : A -> B) da db l : length l = n -> map f (liftd da l) = liftd db (map f l).
Proof.
  intros Hl. unfold liftd. rewrite map_map. apply map_ext_in. intros i Hi. apply Hpi in Hi. rewrite (nth_indep _ db (f da)) by (rewrite map_length; lia). rewrite map_nth. reflexivity.
Qed.
Lemma lift_repeat {A} (d x : A) : liftd d (repeat x n) = repeat x (length pi).
Proof.
  unfold liftd. assert (H : forall i, In i pi -> nth i (repeat x n) d = x).
  { intros i Hi. apply Hpi in Hi. apply (repeat_spec n x). apply nth_In. rewrite repeat_length. exact Hi. }
  revert H. generalize pi. intros l H. induction l as [|i l IH]; [reflexivity|]. cbn. rewrite (H i (or_introl eq_refl)), IH by (intros; apply H; right; assumption). reflexivity.
Qed.
Lemma lift_zeros (l : list R) : map (fun _ => 0) (lift l) = lift (map (fun _ => 0) l).
Proof. unfold lift, liftd. rewrite map_map. apply map_ext. intros i. change 0 with ((fun _ : R => 0) 0) at 3. rewrite map_nth. reflexivity. Qed.

Definition wlift_row (r : R * list R) : R * list R := (fst r, lift (snd r)).
Definition wl (w : list (R * list R)) : list (R * list R) := map wlift_row w.
Lemma wl_length w : length (wl w) = length w.
Proof. apply map_length. Qed.
Lemma wl_vol w : map vol (wl w) = map vol w.
Proof. unfold wl. rewrite map_map. reflexivity. Qed.
Lemma upd_map {A B} (f : A -> B) l i x : upd (map f l) i (f x) = map f (upd l i x).
Proof. revert i. induction l as [|a l IH]; intros [|i]; cbn; [reflexivity..|]. rewrite IH. reflexivity. Qed.
Lemma wl_upd w i r : upd (wl w) i (wlift_row r) = wl (upd w i r).
Proof. apply upd_map. Qed.
Lemma wl_nth i w : (i < length w)%nat -> nth i (wl w) (n0, []) = wlift_row (nth i w (n0, [])).
Proof. intros H. rewrite (nth_indep _ _ (wlift_row (n0, []))) by (rewrite wl_length; exact H). apply map_nth. Qed.
Lemma wl_nth_vol i w : vol (nth i (wl w) (n0, [])) = vol (nth i w (n0, [])).
Proof.
  destruct (Nat.lt_ge_cases i (length w)) as [H|H]; [rewrite wl_nth by exact H; reflexivity|]. rewrite !nth_overflow by (rewrite ?wl_length; exact H). reflexivity.
Qed.
Lemma wl_roll w : roll1 (wl w) = wl (roll1 w).
Proof. unfold roll1, wl. rewrite <- map_rev. destruct (rev w) as [|r l]; [reflexivity|]. cbn. rewrite <- map_rev. reflexivity. Qed.
Lemma roll1_length (w : list (R * list R)) : length (roll1 w) = length w.
Proof. unfold roll1. rewrite <- (rev_length w). destruct (rev w) as [|r l]; [reflexivity|]. cbn. rewrite rev_length. reflexivity. Qed.
Lemma upd_length {A} (l : list A) i x : length (upd l i x) = length l.
Proof. revert i. induction l as [|a l IH]; intros [|i]; cbn; auto. Qed.
Lemma wl_copy k : forall i w, (i + k < length w)%nat -> copy_rows_up k i (wl w) = wl (copy_rows_up k i w).
Proof. induction k as [|k IH]; intros i w H; [reflexivity|]. cbn [copy_rows_up]. rewrite wl_nth by lia. rewrite wl_upd. apply IH. rewrite upd_length. lia. Qed.
Lemma wl_set_vol w i v : set_vol (wl w) i v = wl (set_vol w i v).
Proof.
  unfold set_vol. destruct (Nat.lt_ge_cases i (length w)) as [H|H].
  - rewrite wl_nth by exact H. rewrite <- wl_upd. reflexivity.
  - rewrite !upd_beyond by (rewrite ?wl_length; exact H). reflexivity.
Qed.
Lemma wl_firstn k w : firstn k (wl w) = wl (firstn k w).
Proof. apply firstn_map. Qed.
Lemma wl_update w cloud index : cy_update_volumes (wl w) cloud index = rmap wl (cy_update_volumes w cloud index).
Proof.
  unfold cy_update_volumes. rewrite wl_length. destruct (_ && _)%bool eqn:B; [|reflexivity]. apply andb_prop in B as [B1 B2]. apply Z.leb_le in B1. apply Z.ltb_lt in B2. cbn [rmap].
  rewrite wl_nth_vol, wl_roll, wl_copy, !wl_set_vol, wl_firstn, wl_vol by (rewrite roll1_length; lia). reflexivity.
Qed.
Lemma wl_split w wi cloud index mx :
  slow_split (wl w) (wl wi) cloud index mx = rmap (fun '(a, b, z) => (wl a, wl b, z)) (slow_split w wi cloud index mx).
Proof.
  unfold slow_split. rewrite wl_vol. destruct (_ && _)%bool; [|reflexivity]. rewrite !wl_update.
  destruct (cy_update_volumes w cloud index); [|reflexivity]. cbn [rmap bind]. destruct (cy_update_volumes wi cloud index); reflexivity.
Qed.
Lemma wl_first_zero w : first_zero_volume (wl w) = first_zero_volume w.
Proof. unfold first_zero_volume, wl. rewrite map_map. reflexivity. Qed.
Lemma wl_max w : max_watermark_index (wl w) = max_watermark_index w.
Proof. unfold max_watermark_index. rewrite wl_first_zero. reflexivity. Qed.
Lemma wl_index_loop cloud w : forall i total index, index_above_loop cloud (wl w) i total index = index_above_loop cloud w i total index.
Proof. induction w as [|r w IH]; intros; [reflexivity|]. cbn. apply IH. Qed.
Lemma wl_index cloud w mx : index_above_cloud cloud (wl w) mx = index_above_cloud cloud w mx.
Proof. unfold index_above_cloud, cy_index_above. rewrite wl_length, wl_index_loop. reflexivity. Qed.
Lemma combine_map_r {A B C} (f : B -> C) (l : list A) m : combine l (map f m) = map (fun '(x, y) => (x, f y)) (combine l m).
Proof. revert m. induction l as [|a l IH]; intros [|b m]; cbn; [reflexivity..|]. rewrite IH. reflexivity. Qed.
Definition width (w : list (R * list R)) : Prop := Forall (fun r => length (snd r) = n) w.
Lemma wl_slice a b f g w : width w -> (forall vs, length vs = n -> g (lift vs) = lift (f vs)) ->
  map_vals_slice a b g (wl w) = wl (map_vals_slice a b f w).
Proof.
  intros W H. unfold map_vals_slice. rewrite wl_length. unfold wl. rewrite combine_map_r, !map_map. apply map_ext_in. intros [i r] Hr. apply in_combine_r in Hr.
  unfold width in W. rewrite Forall_forall in W. destruct (_ && _)%bool; [|reflexivity]. unfold wlift_row at 1 2. cbn [vol vals fst snd]. rewrite H by (apply W, Hr). reflexivity.
Qed.
Lemma wl_collapse_index filled w : collapse_index filled (length pi) (wl w) = collapse_index filled n w.
Proof.
  unfold collapse_index. apply minl_same. intros x. rewrite !in_map_iff.
  assert (H : forall k i, nth_error pi k = Some i -> map (fun r => negb (nth k (vals r) n0 =? filled)%num) (wl w) = map (fun r => negb (nth i (vals r) n0 =? filled)%num) w).
  { intros k i Hk. unfold wl. rewrite map_map. apply map_ext. intros r. unfold wlift_row. cbn [vals snd]. unfold lift. rewrite (lift_nth 0 (snd r) i n0 k Hk). reflexivity. }
  split.
  - intros (k & <- & Hk). apply in_seq in Hk. destruct (nth_error pi k) as [i|] eqn:N; [|apply nth_error_None in N; lia]. exists i. rewrite (H k i N). split; [reflexivity|]. apply in_seq. pose proof (Hpi i (nth_error_In _ _ N)). lia.
  - intros (i & <- & Hi). apply in_seq in Hi. destruct (In_nth_error pi i (Hsurj i ltac:(lia))) as [k Hk]. exists k. rewrite (H k i Hk). split; [reflexivity|]. apply in_seq. pose proof (nth_error_Some pi k). rewrite Hk in H0. assert (k < length pi)%nat by (apply H0; discriminate). lia.
Qed.
Lemma wl_collapse_rows k v vs w : collapse_rows k v (lift vs) (wl w) = wl (collapse_rows k v vs w).
Proof.
  unfold collapse_rows. rewrite wl_length.
  assert (E : map (fun '(i, r) => if Nat.ltb i k then (n0, map (fun _ => n0) (vals r)) else r) (combine (seq 0 (length w)) (wl w))
    = wl (map (fun '(i, r) => if Nat.ltb i k then (n0, map (fun _ => n0) (vals r)) else r) (combine (seq 0 (length w)) w))).
  { unfold wl. rewrite combine_map_r, !map_map. apply map_ext. intros [i r]. destruct (Nat.ltb i k); [|reflexivity]. unfold wlift_row. cbn [vals fst snd]. rnum. rewrite lift_zeros. reflexivity. }
  rewrite E. set (z := map _ (combine _ w)). change (v, lift vs) with (wlift_row (v, vs)).
  unfold wl at 1 2. rewrite skipn_map, firstn_map, <- map_app. apply upd_map.
Qed.
Lemma wl_collapse filled w : collapse filled (length pi) (wl w) = wl (collapse filled n w).
Proof.
  unfold collapse. rewrite wl_collapse_index. destruct (Nat.leb _ 1); [reflexivity|].
  rewrite wl_firstn, wl_vol, <- wl_collapse_rows. unfold lift. rewrite lift_repeat. reflexivity.
Qed.
Lemma wl_copy_values k w : copy_fill_values k (length pi) (wl w) = lift (copy_fill_values k n w).
Proof.
  unfold copy_fill_values, lift, liftd. rewrite wl_firstn, wl_vol.
  apply (nth_ext _ _ 0 0); [rewrite !map_length, seq_length; reflexivity|]. intros i Hi. rewrite map_length, seq_length in Hi.
  destruct (nth_error pi i) as [j|] eqn:N; [|apply nth_error_None in N; lia].
  pose proof (Hpi j (nth_error_In _ _ N)) as Hj.
  rewrite (nth_error_nth _ i 0 (map_nth_error _ i pi N)).
  set (f1 := fun i0 => (sumF _ / _)%num). set (f2 := fun i0 : nat => (sumF (map _ (firstn k w)) / _)%num).
  rewrite (nth_indep (map f1 (seq 0 (length pi))) 0 (f1 0%nat)) by (rewrite map_length, seq_length; exact Hi). rewrite map_nth, seq_nth by exact Hi.
  rewrite (nth_indep (map f2 (seq 0 n)) 0 (f2 0%nat)) by (rewrite map_length, seq_length; exact Hj). rewrite map_nth, seq_nth by exact Hj.
  unfold f1, f2. f_equal. f_equal. unfold wl. rewrite map_map. apply map_ext. intros r. unfold wlift_row. cbn [vol vals fst snd Nat.add]. unfold lift. rewrite (lift_nth 0 (snd r) j n0 i N). reflexivity.
Qed.
Lemma wl_collapse_copy filled w wc :
  collapse_with_copy filled (length pi) (wl w) (wl wc) = rmap (fun '(a, b) => (wl a, wl b)) (collapse_with_copy filled n w wc).
Proof.
  unfold collapse_with_copy. rewrite wl_collapse_index. destruct (Nat.leb _ 1); [reflexivity|].
  rewrite !wl_firstn, !wl_vol. destruct (_ =? n0)%num; [reflexivity|]. cbn [bind rmap]. rewrite <- !wl_collapse_rows, wl_copy_values. unfold lift. rewrite lift_repeat. reflexivity.
Qed.
Lemma wl_top w wi cloud index :
  new_top_watermark (wl w) (wl wi) cloud index = rmap (fun '(a, b) => (wl a, wl b)) (new_top_watermark w wi cloud index).
Proof. unfold new_top_watermark. rewrite wl_length. destruct (_ && _)%bool; [|reflexivity]. cbn [rmap]. rewrite wl_vol, !wl_set_vol. reflexivity. Qed.
Lemma wl_empty w : map (fun r => (n0, map (fun _ => n0) (vals r))) (wl w) = wl (map (fun r => (n0, map (fun _ => n0) (vals r))) w).
Proof. unfold wl. rewrite !map_map. apply map_ext. intros r. unfold wlift_row. cbn [vals fst snd]. rnum. rewrite lift_zeros. reflexivity. Qed.
Lemma wl_blend e w wi : width w -> width wi -> blend e (wl w) (wl wi) = wl (blend e w wi).
Proof.
  intros W WI. unfold blend, wl. unfold zip_with at 1 3. revert wi WI. induction W as [|r w Hr W IH]; intros wi WI; [reflexivity|]. destruct WI as [|ri wi Hri WI]; [reflexivity|].
  cbn [map combine]. rewrite (IH wi WI). f_equal. unfold wlift_row. cbn [vol vals fst snd]. unfold lift. rewrite (lift_zip _ 0 0 0 (snd r) (snd ri) Hr Hri). reflexivity.
Qed.
End Lift.

(** ** Traps. *)
Definition key (t : trap R) := (t_release_timescale t, t_capture_rate t, t_emission_rate t, t_class t).
Definition of_key (k : R * rate R * R * trap_class R) : trap R := let '(a, b, c, d) := k in mkTrap 0 a b c false d.
(** [B] lists copies of the traps of [S], trap number [i] at the places where [pi] has [i],
    and the densities of the copies add up. *)
Record covers (pi : list nat) (S B : list (trap R)) : Prop := {
  cv_length : length pi = length B;
  cv_in : forall i, In i pi -> (i < length S)%nat;
  cv_all : forall j, (j < length S)%nat -> In j pi;
  cv_key : forall dk, map key B = liftd pi dk (map key S);
  cv_dot : forall vs, length vs = length S -> dot (lift pi vs) (map t_density B) = dot vs (map t_density S) }.

Lemma mapM_Ok {A B} (f : A -> result B) l ps : mapM f l = Ok ps <-> map f l = map Ok ps.
Proof.
  revert ps. induction l as [|a l IH]; intros ps; cbn; [destruct ps; cbn; split; congruence|].
  destruct (f a) as [b|e]; cbn; [|split; [discriminate|destruct ps; discriminate]].
  destruct (mapM f l) as [bs|e] eqn:E; cbn.
  - pose proof (proj1 (IH bs) eq_refl) as H. rewrite H. split; [intros X; injection X as <-; reflexivity|].
    destruct ps as [|p ps]; [discriminate|]. cbn. intros X. injection X as -> X. rewrite <- H in X. apply IH in X. congruence.
  - split; [discriminate|]. destruct ps as [|p ps]; [discriminate|]. cbn. intros X. injection X as -> X. apply IH in X. discriminate.
Qed.
Lemma mapM_Err {A B} (f : A -> result B) e0 l x : (forall x e, f x = Err e -> e = e0) -> In x l -> f x = Err e0 -> mapM f l = Err e0.
Proof.
  intros H. induction l as [|a l IH]; intros Hx E; [contradiction|]. cbn. destruct (f a) as [b|e] eqn:Ea; [|rewrite (H _ _ Ea); reflexivity].
  destruct Hx as [->|Hx]; [congruence|]. rewrite IH by assumption. reflexivity.
Qed.
Lemma mapM_Err_in {A B} (f : A -> result B) l e : mapM f l = Err e -> exists x, In x l /\ f x = Err e.
Proof.
  induction l as [|a l IH]; cbn; [discriminate|]. destruct (f a) as [b|e'] eqn:Ea; cbn; [|intros X; injection X as <-; exists a; auto].
  destruct (mapM f l); cbn; [discriminate|]. intros X. destruct (IH X) as (x & Hx & Ex). exists x; auto.
Qed.

Section Cover.
Variables (pi : list nat) (S B : list (trap R)).
Hypothesis C : covers pi S B.
Let n := length S.
Let Hpi := cv_in _ _ _ C : forall i, In i pi -> (i < n)%nat.
Let Hall := cv_all _ _ _ C : forall j, (j < n)%nat -> In j pi.
Lemma cover_map {A} (f : trap R -> A) d : (forall t, f t = f (of_key (key t))) -> map f B = liftd pi d (map f S).
Proof.
  intros H. assert (E : forall l, map f l = map (fun k => f (of_key k)) (map key l)) by (intros l; rewrite map_map; apply map_ext, H).
  rewrite !E, (cv_key _ _ _ C (0, RInf, 0, CTrap)). apply (lift_map pi n Hpi). apply map_length.
Qed.
Lemma cover_probs dwell : fill_probabilities B dwell = rmap (liftd pi (0, 0, 0)) (fill_probabilities S dwell).
Proof.
  unfold fill_probabilities. assert (K : forall t, fill_probabilities1 dwell t = fill_probabilities1 dwell (of_key (key t))) by (intros []; reflexivity).
  assert (HE : forall x e, fill_probabilities1 dwell x = Err e -> e = NotANumber).
  { intros t e. unfold fill_probabilities1. destruct (t_capture_rate t); destruct (_ : bool); cbn; congruence. }
  destruct (mapM _ S) as [ps|e] eqn:E; cbn [rmap].
  - apply mapM_Ok. apply mapM_Ok in E. rewrite (cover_map _ (Ok (0, 0, 0)) K), E. symmetry. apply (lift_map pi n Hpi). apply (f_equal (@length _)) in E. rewrite !map_length in E. symmetry. exact E.
  - apply mapM_Err_in in E as (x & Hx & Ex). pose proof (HE _ _ Ex) as ->.
    assert (HB : In (Err NotANumber) (map (fill_probabilities1 dwell) B)).
    { rewrite (cover_map _ (Ok (0, 0, 0)) K). apply In_nth_error in Hx as [j Hj]. unfold liftd. apply in_map_iff. exists j. split.
      - apply nth_error_nth. rewrite <- Ex. apply map_nth_error, Hj.
      - apply Hall. apply nth_error_Some. congruence. }
    apply in_map_iff in HB as (y & Ey & Hy). apply (mapM_Err _ _ _ y HE Hy Ey).
Qed.
Definition ml (m : manager R) : manager R := mkManager (m_kind m) B (wl pi (m_wm m)).
Lemma zip_map_r {A B' C' D} (f : A -> B' -> C') (g : D -> B') l r : zip_with (fun a d => f a (g d)) l r = zip_with f l (map g r).
Proof. unfold zip_with. rewrite combine_map_r, map_map. apply map_ext. intros []; reflexivity. Qed.
Lemma zip_map_l {A B' C' D} (f : A -> B' -> C') (g : D -> A) l r : zip_with (fun d b => f (g d) b) l r = zip_with f (map g l) r.
Proof. unfold zip_with. revert r. induction l as [|x l IH]; intros [|y r]; cbn; [reflexivity..|]. rewrite IH. reflexivity. Qed.
Lemma fractions_lift w : width n w -> to_fill_fractions B (wl pi w) = wl pi (to_fill_fractions S w).
Proof.
  intros W. unfold to_fill_fractions. rewrite wl_first_zero. apply (wl_slice pi n); [exact W|]. intros vs Hv.
  rewrite !(zip_map_l (fun (g : R -> R) x => g x) fill_fraction_from_time_elapsed). unfold lift.
  rewrite (cover_map fill_fraction_from_time_elapsed (fun x => x)) by (intros []; reflexivity). apply (lift_zip pi n Hpi); [apply map_length|exact Hv].
Qed.
Lemma fractions_width w : width n w -> width n (to_fill_fractions S w).
Proof.
  intros W. refine (proj2 (wshape_slice n (length w) _ _ _ w (conj eq_refl W) _)). intros fs Hf. apply zip_with_length; [reflexivity|exact Hf].
Qed.
Lemma trapped_lift w : width n w -> trapped (map t_density B) (wl pi w) = trapped (map t_density S) w.
Proof.
  intros W. unfold trapped, wl. rewrite map_map. f_equal. apply map_ext_in. intros r Hr. unfold width in W. rewrite Forall_forall in W.
  unfold row_trapped, wlift_row. cbn [fst snd]. rewrite (cv_dot _ _ _ C) by (apply W, Hr). reflexivity.
Qed.
Lemma n_trapped_lift m w : m_traps m = S -> width n w -> n_trapped (ml m) (wl pi w) = n_trapped m w.
Proof.
  intros HS W. unfold n_trapped, n_traps_per_pixel. cbn [ml m_kind m_traps]. rewrite HS.
  destruct (m_kind m); rewrite !cy_n_trapped_eq; [apply trapped_lift, W..|]. rewrite fractions_lift by exact W. apply trapped_lift, fractions_width, W.
Qed.
Lemma not_enough_lift m w wi e : width n w -> width n wi -> not_enough (ml m) (wl pi w) (wl pi wi) e = rmap (wl pi) (not_enough m w wi e).
Proof. intros W WI. unfold not_enough. cbn [ml m_kind]. rewrite (wl_blend pi n Hpi) by assumption. destruct (m_kind m); reflexivity. Qed.
Lemma ml_with m w : ml (with_wm m w) = with_wm (ml m) (wl pi w).
Proof. reflexivity. Qed.
Lemma lengthB : length B = length pi.
Proof. symmetry. apply (cv_length _ _ _ C). Qed.

Definition step_lift (r : result (R * manager R)) : result (R * manager R) := rmap (fun '(x, m) => (x, ml m)) r.

Variable k : nat.
Lemma slow_first_lift m x cloud wi probs : m_traps m = S -> wshape n k (m_wm m) -> wshape n k wi -> length probs = n ->
  slow_first_capture (ml m) x cloud (wl pi wi) (liftd pi (0, 0, 0) probs) = rmap (fun '(y, w) => (y, wl pi w)) (slow_first_capture m x cloud wi probs).
Proof.
  intros HS W WI Hp. unfold slow_first_capture. rewrite (lift_map pi n Hpi p_empty (0, 0, 0) 0) by exact Hp.
  assert (E : set_row0 (m_wm (ml m)) (cloud, liftd pi 0 (map p_empty probs)) = wl pi (set_row0 (m_wm m) (cloud, map p_empty probs))) by exact (wl_upd pi (m_wm m) 0 (cloud, map p_empty probs)).
  rewrite E, wl_set_vol.
  assert (W1 : wshape n k (set_row0 (m_wm m) (cloud, map p_empty probs))) by (apply wshape_upd; [exact W|]; cbn; rewrite map_length; exact Hp).
  assert (W2 : wshape n k (set_vol wi 0 cloud)) by (apply wshape_set_vol, WI).
  rewrite n_trapped_lift by (assumption || apply W1). destruct (_ =? _)%num; [reflexivity|]. destruct (_ <? _)%num; [|reflexivity].
  rewrite not_enough_lift by (apply W1 || apply W2). destruct (not_enough m _ _ _) as [w'|] eqn:N; [|reflexivity]. cbn [rmap bind].
  rewrite n_trapped_lift; [reflexivity|exact HS|]. apply (wshape_not_enough n k m _ _ _ _ W1 W2 N).
Qed.
Lemma zip_probs {A} (g : R -> R * R * R -> A) d vs probs : length vs = n -> length probs = n ->
  zip_with g (lift pi vs) (liftd pi (0, 0, 0) probs) = liftd pi d (zip_with g vs probs).
Proof. apply (lift_zip pi n Hpi). Qed.
Lemma slow_below_lift m x cloud wi index mx probs t0 fill : m_traps m = S -> wshape n k (m_wm m) -> wshape n k wi -> length probs = n ->
  slow_cloud_below (ml m) x cloud (wl pi wi) index mx (liftd pi (0, 0, 0) probs) t0 fill =
  rmap (fun o => mkSB (sb_free o) (wl pi (sb_wm o)) (wl pi (sb_wm_initial o)) (sb_cloud o) (sb_index o) (sb_max o)) (slow_cloud_below m x cloud wi index mx probs t0 fill).
Proof.
  intros HS W WI Hp. unfold slow_cloud_below. cbn [ml m_wm]. rewrite wl_split. destruct (slow_split _ wi _ _ _) as [[[w1 wi1] mx1]|] eqn:E; [|reflexivity]. cbn [rmap bind].
  apply (wshape_split n k) in E as [W1 WI1]; [|assumption..].
  rewrite (wl_slice pi n _ _ (fun fs => zip_with (fun f p => (f * p_release p)%num) fs probs)); [|apply W1|intros vs Hv; apply zip_probs; assumption].
  set (w2 := map_vals_slice _ _ _ w1).
  assert (W2 : wshape n k w2) by (apply wshape_slice; [exact W1|]; intros fs Hf; apply zip_with_length; assumption).
  change (mkManager (m_kind m) B (wl pi (m_wm m))) with (ml m). rewrite n_trapped_lift by (assumption || apply W2).
  destruct (fill _) as [cl|]; [|reflexivity]. cbn [bind]. rewrite wl_index, wl_split. destruct (slow_split w2 _ _ _ _) as [[[w3 wi3] mx3]|]; reflexivity.
Qed.
Lemma slow_below_shape m x cloud wi index mx probs t0 fill o : wshape n k (m_wm m) -> wshape n k wi -> length probs = n ->
  slow_cloud_below m x cloud wi index mx probs t0 fill = Ok o -> wshape n k (sb_wm o) /\ wshape n k (sb_wm_initial o).
Proof.
  intros W WI Hp E. unfold slow_cloud_below in E. apply bind_ok in E as ([[w1 wi1] mx1] & Ea & E). apply bind_ok in E as (cloud' & _ & E).
  apply bind_ok in E as ([[w3 wi3] mx3] & Eb & E). injection E as <-. cbn [sb_wm sb_wm_initial].
  apply (wshape_split n k) in Ea as [A1 A2]; [|assumption..]. apply (wshape_split n k) in Eb; [exact Eb| |exact A2].
  apply wshape_slice; [exact A1|]. intros fs Hfs. apply zip_with_length; assumption.
Qed.
Lemma slow_lift m x fill d : m_traps m = S -> wshape n k (m_wm m) -> slow_step (ml m) x fill d = step_lift (slow_step m x fill d).
Proof.
  intros HS W. unfold slow_step. cbn [ml m_wm m_traps m_kind]. change (mkManager (m_kind m) B (wl pi (m_wm m))) with (ml m). rewrite HS.
  rewrite cover_probs. destruct (fill_probabilities S d) as [probs|] eqn:EP; [|reflexivity]. cbn [rmap bind].
  assert (Hp : length probs = n) by (apply mapM_ok_length in EP; exact EP).
  destruct (fill x) as [cloud|]; [|reflexivity]. cbn [bind]. rewrite wl_max, wl_index. destruct (_ && (n0 <? x)%num)%bool.
  - rewrite slow_first_lift by assumption. destruct (slow_first_capture _ _ _ _ _) as [[y w]|]; reflexivity.
  - set (index := index_above_cloud _ _ _). set (mx := max_watermark_index _). rewrite n_trapped_lift by (assumption || apply W). set (t0 := n_trapped m (m_wm m)).
    assert (E : (if ((index <=? mx) || (mx =? -1))%Z
        then do o <- slow_cloud_below (ml m) x cloud (wl pi (m_wm m)) index mx (liftd pi (0, 0, 0) probs) t0 fill; Ok (sb_free o, sb_wm o, sb_wm_initial o, sb_index o)
        else do '(w, wi) <- new_top_watermark (wl pi (m_wm m)) (wl pi (m_wm m)) cloud index; Ok (x, w, wi, index)) =
      rmap (fun '(f, w, wi, i) => (f, wl pi w, wl pi wi, i)) (if ((index <=? mx) || (mx =? -1))%Z
        then do o <- slow_cloud_below m x cloud (m_wm m) index mx probs t0 fill; Ok (sb_free o, sb_wm o, sb_wm_initial o, sb_index o)
        else do '(w, wi) <- new_top_watermark (m_wm m) (m_wm m) cloud index; Ok (x, w, wi, index))).
    { destruct (_ || _)%bool.
      - rewrite slow_below_lift by assumption. destruct (slow_cloud_below m x _ _ _ _ _ _ _); reflexivity.
      - rewrite wl_top. destruct (new_top_watermark _ _ _ _) as [[? ?]|]; reflexivity. }
    rewrite E. clear E. match goal with |- context [rmap _ ?e] => destruct e as [[[[f w] wi] i]|] eqn:E end; [|reflexivity]. cbn [rmap bind].
    assert (HW : wshape n k w /\ wshape n k wi).
    { destruct (_ || _)%bool.
      - apply bind_ok in E as (o & E & E2). injection E2 as <- <- <- <-. apply (slow_below_shape _ _ _ _ _ _ _ _ _ _ W W Hp E).
      - apply bind_ok in E as ([w1 wi1] & E & E2). injection E2 as <- <- <- <-. apply (wshape_new_top n k) in E; auto. }
    destruct HW as [HW HWI]. clear E.
    rewrite (wl_slice pi n _ _ (fun fs => zip_with (fun f p => (f * p_full p + (n1 - f) * p_empty p)%num) fs probs)); [|apply HW|intros vs Hv; apply zip_probs; assumption].
    set (w1 := map_vals_slice _ _ _ w).
    assert (W1 : wshape n k w1) by (apply wshape_slice; [exact HW|]; intros fs Hf; apply zip_with_length; assumption).
    rewrite lengthB, (wl_collapse_copy pi n Hpi Hall). fold n. destruct (collapse_with_copy _ _ _ _) as [[w2 wi2]|] eqn:E; [|reflexivity]. cbn [rmap bind].
    apply (wshape_collapse_copy n k) in E as [W2 WI2]; [|assumption..].
    rewrite n_trapped_lift by (assumption || apply W2). set (T := n_trapped m w2). destruct (_ =? _)%num; [reflexivity|].
    destruct (_ && _)%bool.
    + rewrite not_enough_lift by (apply W2 || apply WI2). destruct (not_enough m _ _ _) as [w'|] eqn:N; [|reflexivity]. cbn [rmap bind].
      rewrite n_trapped_lift by (assumption || apply (wshape_not_enough n k m _ _ _ _ W2 WI2 N)). rewrite (wl_collapse pi n Hpi Hall). reflexivity.
    + cbn [bind]. rewrite (wl_collapse pi n Hpi Hall). reflexivity.
Qed.
Lemma released_lift m d vs : m_traps m = S -> length vs = n -> released_values (ml m) d (lift pi vs) = lift pi (released_values m d vs).
Proof.
  intros HS Hv. unfold released_values. cbn [ml m_kind m_traps]. rewrite HS.
  assert (E : forall fs l, zip_with (fun f t => (f * release_probability d t)%num) fs l = zip_with nmul fs (map (release_probability d) l)) by (intros; apply (zip_map_r nmul)).
  destruct (m_kind m).
  1, 2: rewrite !E, (cover_map (release_probability d) 0) by (intros []; reflexivity); apply (lift_zip pi n Hpi); [exact Hv|apply map_length].
  apply (lift_map pi n Hpi _ 0 0). exact Hv.
Qed.
Lemma released_width m d vs : m_traps m = S -> length vs = n -> length (released_values m d vs) = n.
Proof. intros HS Hv. unfold released_values. rewrite HS. destruct (m_kind m); [apply zip_with_length; [exact Hv|reflexivity]..|]. rewrite map_length. exact Hv. Qed.
Lemma n_released_lift m d : m_traps m = S -> wshape n k (m_wm m) ->
  n_electrons_released (ml m) d = (fst (n_electrons_released m d), ml (snd (n_electrons_released m d))).
Proof.
  intros HS W. unfold n_electrons_released. cbn [fst snd]. rewrite ml_with. cbn [ml m_wm]. change (mkManager (m_kind m) B (wl pi (m_wm m))) with (ml m).
  rewrite wl_max, (wl_slice pi n _ _ (released_values m d)); [|apply W|intros vs Hv; apply released_lift; assumption].
  assert (W1 : wshape n k (map_vals_slice 0 (Z.to_nat (max_watermark_index (m_wm m) + 1)) (released_values m d) (m_wm m))) by (apply wshape_slice; [exact W|]; intros fs Hf; apply released_width; assumption).
  rewrite !n_trapped_lift by (assumption || apply W || apply W1). reflexivity.
Qed.
Lemma fill_repeat (v : R) : repeat v (length B) = lift pi (repeat v n).
Proof. rewrite lengthB. symmetry. apply (lift_repeat pi n Hpi). Qed.
Lemma instant_first_lift m x cloud wi : m_traps m = S -> wshape n k (m_wm m) -> wshape n k wi ->
  instant_first_capture (ml m) x cloud (wl pi wi) = rmap (fun '(y, w) => (y, wl pi w)) (instant_first_capture m x cloud wi).
Proof.
  intros HS W WI. unfold instant_first_capture. cbn [ml m_wm m_kind m_traps]. change (mkManager (m_kind m) B (wl pi (m_wm m))) with (ml m). rewrite HS, fill_repeat. fold n.
  assert (E : set_row0 (wl pi (m_wm m)) (cloud, lift pi (repeat (filled_value (m_kind m)) n)) = wl pi (set_row0 (m_wm m) (cloud, repeat (filled_value (m_kind m)) n))) by exact (wl_upd pi (m_wm m) 0 (cloud, repeat (filled_value (m_kind m)) n)).
  rewrite E, wl_set_vol. set (w0 := set_row0 (m_wm m) _).
  assert (W1 : wshape n k w0) by (apply wshape_upd; [exact W|]; cbn; apply repeat_length).
  assert (W2 : wshape n k (set_vol wi 0 cloud)) by (apply wshape_set_vol, WI).
  rewrite n_trapped_lift by (assumption || apply W1). destruct (_ =? _)%num; [reflexivity|]. destruct (_ <? _)%num; [|reflexivity].
  rewrite not_enough_lift by (apply W1 || apply W2). destruct (not_enough m _ _ _) as [w'|] eqn:N; [|reflexivity]. cbn [rmap bind].
  rewrite n_trapped_lift; [reflexivity|exact HS|]. apply (wshape_not_enough n k m _ _ _ _ W1 W2 N).
Qed.
Lemma captured_lift m x fill : m_traps m = S -> wshape n k (m_wm m) -> n_electrons_captured (ml m) x fill = step_lift (n_electrons_captured m x fill).
Proof.
  intros HS W. unfold n_electrons_captured. cbn [ml m_wm m_traps m_kind]. change (mkManager (m_kind m) B (wl pi (m_wm m))) with (ml m). rewrite HS.
  destruct (fill x) as [cloud|]; [|reflexivity]. cbn [bind]. rewrite wl_max, wl_index. destruct (_ && (n0 <? x)%num)%bool.
  - rewrite instant_first_lift by assumption. destruct (instant_first_capture _ _ _ _) as [[y w]|]; reflexivity.
  - set (index := index_above_cloud _ _ _). set (mx := max_watermark_index _). rewrite n_trapped_lift by (assumption || apply W). set (t0 := n_trapped m (m_wm m)).
    assert (E : (if ((index <=? mx) || (mx =? -1))%Z
        then do '(w, wi, _) <- instant_cloud_below (wl pi (m_wm m)) (wl pi (m_wm m)) cloud index mx; Ok (w, wi)
        else new_top_watermark (wl pi (m_wm m)) (wl pi (m_wm m)) cloud index) =
      rmap (fun '(w, wi) => (wl pi w, wl pi wi)) (if ((index <=? mx) || (mx =? -1))%Z
        then do '(w, wi, _) <- instant_cloud_below (m_wm m) (m_wm m) cloud index mx; Ok (w, wi)
        else new_top_watermark (m_wm m) (m_wm m) cloud index)).
    { destruct (_ || _)%bool; [|apply wl_top]. unfold instant_cloud_below. rewrite wl_split. destruct (slow_split _ _ _ _ _) as [[[? ?] ?]|]; reflexivity. }
    rewrite E. clear E. match goal with |- context [rmap _ ?e] => destruct e as [[w wi]|] eqn:E end; [|reflexivity]. cbn [rmap bind].
    assert (HW : wshape n k w /\ wshape n k wi).
    { destruct (_ || _)%bool.
      - apply bind_ok in E as ([[w1 wi1] mx1] & Ea & E). injection E as <- <-. apply (wshape_split n k) in Ea; auto.
      - apply (wshape_new_top n k) in E; auto. }
    destruct HW as [HW HWI]. clear E.
    rewrite (wl_slice pi n _ _ (fun _ => repeat (filled_value (m_kind m)) n)); [|apply HW|intros vs Hv; apply fill_repeat].
    fold n. set (w1 := map_vals_slice _ _ _ w).
    assert (W1 : wshape n k w1) by (apply wshape_slice; [exact HW|]; intros fs Hf; apply repeat_length).
    rewrite lengthB, (wl_collapse_copy pi n Hpi Hall). destruct (collapse_with_copy _ _ _ _) as [[w2 wi2]|] eqn:E; [|reflexivity]. cbn [rmap bind].
    apply (wshape_collapse_copy n k) in E as [W2 WI2]; [|assumption..].
    rewrite n_trapped_lift by (assumption || apply W2). set (T := n_trapped m w2). destruct (_ =? _)%num; [reflexivity|].
    destruct (_ && _)%bool.
    + rewrite not_enough_lift by (apply W2 || apply WI2). destruct (not_enough m _ _ _) as [w'|] eqn:N; [|reflexivity]. cbn [rmap bind].
      rewrite n_trapped_lift by (assumption || apply (wshape_not_enough n k m _ _ _ _ W2 WI2 N)). rewrite (wl_collapse pi n Hpi Hall). reflexivity.
    + cbn [bind]. rewrite (wl_collapse pi n Hpi Hall). reflexivity.
Qed.
Lemma instant_lift m x fill d : m_traps m = S -> wshape n k (m_wm m) -> instant_step (ml m) x fill d = step_lift (instant_step m x fill d).
Proof.
  intros HS W. unfold instant_step. rewrite n_released_lift by assumption.
  assert (HS1 : m_traps (snd (n_electrons_released m d)) = S) by exact HS.
  assert (W1 : wshape n k (m_wm (snd (n_electrons_released m d)))) by (apply wshape_slice; [exact W|]; intros; apply released_width; assumption).
  destruct (n_electrons_released m d) as [y m1]. cbn [fst snd] in *. rewrite captured_lift by assumption. destruct (n_electrons_captured m1 _ fill) as [[z m2]|]; reflexivity.
Qed.
Lemma manager_step_lift m x fill d : m_traps m = S -> wshape n k (m_wm m) -> manager_step (ml m) x fill d = step_lift (manager_step m x fill d).
Proof. intros HS W. unfold manager_step. cbn [ml m_kind]. change (mkManager (m_kind m) B (wl pi (m_wm m))) with (ml m). destruct (m_kind m) eqn:K; [apply slow_lift|apply instant_lift..]; assumption. Qed.
Lemma empty_lift m : empty_all_traps (ml m) = ml (empty_all_traps m).
Proof. unfold empty_all_traps, ml, with_wm. cbn [m_kind m_traps m_wm]. rewrite wl_empty. reflexivity. Qed.
End Cover.
