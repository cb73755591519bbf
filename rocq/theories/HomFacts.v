(** * The slow manager commutes with any map between number types that keeps the arithmetic and
    the comparisons.  (Used to evaluate histories of real numbers by rational ones.) *)
From Coq Require Import ZArith List Bool Lia.
From Verif Require Import Num Py CCDModel TrapsModel ManagerModel.
Import ListNotations.

Section Hom.
Context {F G : Type} {numF : Num F} {numG : Num G}.
Variable h : F -> G.
Hypothesis h_0 : h n0 = n0.
Hypothesis h_1 : h n1 = n1.
Hypothesis h_add : forall a b, h (nadd a b) = nadd (h a) (h b).
Hypothesis h_sub : forall a b, h (nsub a b) = nsub (h a) (h b).
Hypothesis h_mul : forall a b, h (nmul a b) = nmul (h a) (h b).
Hypothesis h_div : forall a b, h (ndiv a b) = ndiv (h a) (h b).
Hypothesis h_opp : forall a, h (nopp a) = nopp (h a).
Hypothesis h_ltb : forall a b, nltb (h a) (h b) = nltb a b.
Hypothesis h_leb : forall a b, nleb (h a) (h b) = nleb a b.
Hypothesis h_eqb : forall a b, neqb (h a) (h b) = neqb a b.
Hypothesis h_nan : nnan = option_map h nnan.

Definition h_row (r : F * list F) : G * list G := (h (fst r), map h (snd r)).
Definition h_wm (w : list (F * list F)) : list (G * list G) := map h_row w.
Definition h_result {A B} (f : A -> B) (r : result A) : result B := match r with Ok a => Ok (f a) | Err e => Err e end.
Definition h_prob (p : F * F * F) : G * G * G := (h (fst (fst p)), h (snd (fst p)), h (snd p)).

Lemma h_bind {A B C D} (f : A -> B) (g : C -> D) (x : result A) y k k' :
  y = h_result f x -> (forall a, k' (f a) = h_result g (k a)) -> bind y k' = h_result g (bind x k).
Proof. intros -> H. destruct x; cbn; auto. Qed.
Lemma h_ltb_0 a : nltb n0 (h a) = nltb n0 a.
Proof. rewrite <- h_0. apply h_ltb. Qed.
Lemma h_eqb_0 a : neqb (h a) n0 = neqb a n0.
Proof. rewrite <- h_0. apply h_eqb. Qed.
Lemma h_ltb_1 a : nltb (h a) n1 = nltb a n1.
Proof. rewrite <- h_1. apply h_ltb. Qed.
Lemma h_vols w : map vol (h_wm w) = map h (map vol w).
Proof. unfold h_wm. rewrite !map_map. reflexivity. Qed.
Lemma h_length w : length (h_wm w) = length w.
Proof. apply map_length. Qed.
Lemma h_nth w i : nth i (h_wm w) (n0, []) = h_row (nth i w (n0, [])).
Proof. unfold h_wm. rewrite <- (map_nth h_row). unfold h_row. cbn [fst snd map]. now rewrite h_0. Qed.
Lemma h_upd w i r : upd (h_wm w) i (h_row r) = h_wm (upd w i r).
Proof. revert i. induction w as [|a w IH]; intros [|i]; cbn; auto. now rewrite <- IH. Qed.
Lemma h_set_vol w i v : set_vol (h_wm w) i (h v) = h_wm (set_vol w i v).
Proof. unfold set_vol. rewrite h_nth, <- h_upd. reflexivity. Qed.
Lemma h_fold_add l a : fold_left nadd (map h l) (h a) = h (fold_left nadd l a).
Proof. revert a. induction l as [|x l IH]; intros a; [reflexivity|]. cbn. now rewrite <- h_add, IH. Qed.
Lemma h_sumF l : sumF (map h l) = h (sumF l).
Proof. unfold sumF. rewrite <- h_0. apply h_fold_add. Qed.
Lemma h_firstn k w : firstn k (h_wm w) = h_wm (firstn k w).
Proof. apply firstn_map. Qed.

Lemma h_value_loop l x t : value_in_cumsum_loop (h x) (h t) (map h l) = value_in_cumsum_loop x t l.
Proof. revert t. induction l as [|a l IH]; intros t; cbn; rewrite h_eqb; [reflexivity|]. now rewrite <- h_add, IH. Qed.
Lemma h_value l x : cy_value_in_cumsum (h x) (map h l) = cy_value_in_cumsum x l.
Proof. destruct l as [|a l]; [reflexivity|]. apply h_value_loop. Qed.

Lemma h_trapped_row fs ds v t :
  fold_left (fun total '(f, d) => (total + h v * f * d)%num) (combine (map h fs) (map h ds)) (h t)
  = h (fold_left (fun total '(f, d) => (total + v * f * d)%num) (combine fs ds) t).
Proof.
  revert ds t. induction fs as [|f fs IH]; intros [|d ds] t; try reflexivity. cbn [map combine fold_left].
  rewrite <- !h_mul, <- h_add. apply IH.
Qed.
Lemma h_trapped w ds : cy_n_trapped (h_wm w) (map h ds) = h (cy_n_trapped w ds).
Proof.
  unfold cy_n_trapped. rewrite <- h_0. generalize (n0 : F). induction w as [|r w IH]; intros t; [reflexivity|].
  cbn [h_wm map fold_left]. change (map h_row w) with (h_wm w). rewrite <- IH. f_equal. apply h_trapped_row.
Qed.

Lemma h_index_loop c w i t ix : index_above_loop (h c) (h_wm w) i (h t) ix = (h (fst (index_above_loop c w i t ix)), snd (index_above_loop c w i t ix)).
Proof.
  revert i t ix. induction w as [|r w IH]; intros i t ix; [reflexivity|]. cbn. change (vol (h_row r)) with (h (vol r)). rewrite <- h_add, h_leb. apply IH.
Qed.
Lemma h_index c w m : index_above_cloud (h c) (h_wm w) m = index_above_cloud c w m.
Proof.
  unfold index_above_cloud. rewrite h_eqb_0. destruct (neqb c n0); [reflexivity|]. unfold cy_index_above. rewrite h_length, <- h_0, h_index_loop.
  destruct (index_above_loop c w 0 n0 (Z.of_nat (length w))) as [t ix]. cbn [fst snd]. now rewrite h_ltb.
Qed.
Lemma h_max_index w : max_watermark_index (h_wm w) = max_watermark_index w.
Proof.
  unfold max_watermark_index, first_zero_volume. do 3 f_equal. unfold h_wm. rewrite map_map. apply map_ext. intros r. apply h_eqb_0.
Qed.
Lemma h_roll w : roll1 (h_wm w) = h_wm (roll1 w).
Proof. unfold roll1, h_wm. rewrite <- map_rev. destruct (rev w) as [|a l]; [reflexivity|]. cbn. now rewrite map_rev. Qed.
Lemma h_copy n i w : copy_rows_up n i (h_wm w) = h_wm (copy_rows_up n i w).
Proof. revert i w. induction n as [|n IH]; intros i w; [reflexivity|]. cbn [copy_rows_up]. rewrite h_nth, h_upd. apply IH. Qed.
Lemma h_update w c k : cy_update_volumes (h_wm w) (h c) k = h_result h_wm (cy_update_volumes w c k).
Proof.
  unfold cy_update_volumes. rewrite h_length. destruct (_ && _)%bool; [|reflexivity]. cbn [h_result].
  rewrite h_nth, h_firstn, h_vols, h_roll, h_copy. change (vol (h_row ?r)) with (h (vol r)).
  change (fold_left nadd (map h ?l) n0) with (sumF (map h l)). rewrite h_sumF, <- !h_sub, !h_set_vol. reflexivity.
Qed.
Lemma h_split w wi c k m : slow_split (h_wm w) (h_wm wi) (h c) k m = h_result (fun p => (h_wm (fst (fst p)), h_wm (snd (fst p)), snd p)) (slow_split w wi c k m).
Proof.
  unfold slow_split. rewrite h_ltb_0, h_vols, h_value. destruct (_ && _)%bool; [|reflexivity].
  apply (h_bind h_wm); [apply h_update|]. intros a. apply (h_bind h_wm); [apply h_update|]. reflexivity.
Qed.

Lemma h_map_slice a b f g w : (forall fs, g (map h fs) = map h (f fs)) -> map_vals_slice a b g (h_wm w) = h_wm (map_vals_slice a b f w).
Proof.
  intros H. unfold map_vals_slice. rewrite h_length. generalize 0%nat at 1 2. revert w. generalize (@length (F * list F)) as len. intros len w.
  generalize (len w) as n. clear len. intros n. revert w. induction n as [|n IH]; intros [|r w] s; try reflexivity.
  cbn [seq combine map h_wm]. change (map h_row w) with (h_wm w). rewrite IH. f_equal. destruct (_ && _)%bool; [|reflexivity].
  destruct r as [v fs]. cbn. now rewrite H.
Qed.
Lemma h_zip_prob (f : F -> F * F * F -> F) (g : G -> G * G * G -> G) fs (ps : list (F * F * F)) :
  (forall x p, g (h x) (h_prob p) = h (f x p)) -> zip_with g (map h fs) (map h_prob ps) = map h (zip_with f fs ps).
Proof.
  intros H. unfold zip_with. revert ps. induction fs as [|x fs IH]; intros [|p ps]; try reflexivity. cbn [map combine]. now rewrite H, IH.
Qed.
Lemma h_blend e w wi : blend (h e) (h_wm w) (h_wm wi) = h_wm (blend e w wi).
Proof.
  unfold blend. unfold zip_with at 1 3. revert wi. induction w as [|r w IH]; intros [|r' wi]; try reflexivity.
  cbn [h_wm map combine]. change (map h_row w) with (h_wm w). change (map h_row wi) with (h_wm wi). rewrite IH. f_equal. unfold h_row. cbn [vol vals fst snd]. f_equal.
  destruct r as [v fs], r' as [v' fs']. cbn [vals snd]. clear IH. unfold zip_with. revert fs'. induction fs as [|x fs IH]; intros [|y fs']; try reflexivity.
  cbn [map combine]. rewrite IH. f_equal. now rewrite h_add, !h_mul, h_sub, h_1.
Qed.

Lemma np_argmax_ext l l' : l = l' -> np_argmax l = np_argmax l'.
Proof. now intros ->. Qed.
Lemma h_nth_vals i r : nth i (vals (h_row r)) n0 = h (nth i (vals r) n0).
Proof. unfold h_row. cbn [vals snd]. rewrite <- h_0. apply map_nth. Qed.
Lemma h_collapse_index v n w : collapse_index (h v) n (h_wm w) = collapse_index v n w.
Proof.
  unfold collapse_index. replace (map (fun i => np_argmax (map (fun r => negb (neqb (nth i (vals r) n0) (h v))) (h_wm w))) (seq 0 n))
    with (map (fun i => np_argmax (map (fun r => negb (neqb (nth i (vals r) n0) v)) w)) (seq 0 n)); [reflexivity|].
  apply map_ext. intros i. apply np_argmax_ext. unfold h_wm. rewrite map_map. apply map_ext. intros r. now rewrite h_nth_vals, h_eqb.
Qed.
Lemma h_zeroed k s n w : map (fun '(i, r) => if Nat.ltb i k then (n0, map (fun _ => n0) (vals r)) else r) (combine (seq s n) (h_wm w))
  = h_wm (map (fun '(i, r) => if Nat.ltb i k then (n0, map (fun _ => n0) (vals r)) else r) (combine (seq s n) w)).
Proof.
  revert s w. induction n as [|n IH]; intros s [|r w]; try reflexivity. cbn [seq combine map h_wm]. change (map h_row w) with (h_wm w). rewrite IH. f_equal.
  destruct (Nat.ltb s k); [|reflexivity]. unfold h_row at 2. cbn [fst snd]. rewrite h_0. f_equal. unfold h_row. cbn [vals snd]. rewrite !map_map. apply map_ext. intros _. symmetry. exact h_0.
Qed.
Lemma h_collapse_rows k v l w : collapse_rows k (h v) (map h l) (h_wm w) = h_wm (collapse_rows k v l w).
Proof.
  unfold collapse_rows. rewrite h_length, h_zeroed. unfold h_wm at 1 2. rewrite firstn_map, skipn_map, <- map_app. apply (h_upd _ 0 (v, l)).
Qed.
Lemma h_repeat v n : repeat (h v) n = map h (repeat v n).
Proof. induction n; cbn; congruence. Qed.
Lemma h_collapse v n w : collapse (h v) n (h_wm w) = h_wm (collapse v n w).
Proof.
  unfold collapse. rewrite h_collapse_index. destruct (Nat.leb _ 1); [reflexivity|]. rewrite h_firstn, h_vols, h_sumF, h_repeat. apply h_collapse_rows.
Qed.
Lemma h_copy_values k n w : copy_fill_values k n (h_wm w) = map h (copy_fill_values k n w).
Proof.
  unfold copy_fill_values. rewrite map_map. apply map_ext. intros i. rewrite h_firstn, h_vols, h_sumF, h_div. f_equal.
  rewrite <- h_sumF. f_equal. unfold h_wm. rewrite !map_map. apply map_ext. intros r. now rewrite h_nth_vals, h_mul.
Qed.
Lemma h_collapse_copy v n w wc : collapse_with_copy (h v) n (h_wm w) (h_wm wc) = h_result (fun p => (h_wm (fst p), h_wm (snd p))) (collapse_with_copy v n w wc).
Proof.
  unfold collapse_with_copy. rewrite h_collapse_index. destruct (Nat.leb _ 1); [reflexivity|]. rewrite !h_firstn, !h_vols, !h_sumF, h_eqb_0.
  unfold zero_over_zero. rewrite h_nan. destruct (neqb _ n0), (@nnan F _); cbn [option_map bind h_result fst snd]; try reflexivity; now rewrite h_repeat, !h_collapse_rows, h_copy_values, h_collapse_rows.
Qed.
Lemma h_top w wi c k : new_top_watermark (h_wm w) (h_wm wi) (h c) k = h_result (fun p => (h_wm (fst p), h_wm (snd p))) (new_top_watermark w wi c k).
Proof.
  unfold new_top_watermark. rewrite h_length. destruct (_ && _)%bool; [|reflexivity]. rewrite h_vols, h_sumF, <- h_sub, !h_set_vol. reflexivity.
Qed.

(** Managers of slow traps with the same densities. *)
Definition h_manager (m : manager F) (m' : manager G) : Prop :=
  m_kind m = KSlow /\ m_kind m' = KSlow /\ n_traps_per_pixel m' = map h (n_traps_per_pixel m) /\ m_wm m' = h_wm (m_wm m).
Lemma h_n_trapped m m' w : h_manager m m' -> n_trapped m' (h_wm w) = h (n_trapped m w).
Proof. intros (K & K' & D & _). unfold n_trapped. rewrite K, K', D. apply h_trapped. Qed.
Lemma h_species m m' : h_manager m m' -> length (m_traps m') = length (m_traps m).
Proof. intros (_ & _ & D & _). apply (f_equal (@length G)) in D. unfold n_traps_per_pixel in D. now rewrite !map_length in D. Qed.

Lemma h_step m m' n fill fill' d d' p :
  h_manager m m' -> (forall x, fill' (h x) = h_result h (fill x)) ->
  fill_probabilities (m_traps m) d = Ok p -> fill_probabilities (m_traps m') d' = Ok (map h_prob p) ->
  slow_step m' (h n) fill' d' = h_result (fun q => (h (fst q), with_wm m' (h_wm (m_wm (snd q))))) (slow_step m n fill d).
Proof.
  intros HM HF HP HP'. pose proof HM as (K & K' & D & W). unfold slow_step. rewrite HP, HP'. cbn [bind]. rewrite W, h_max_index, (h_n_trapped _ _ _ HM).
  apply (h_bind h); [apply HF|]. intros cloud. cbv zeta. rewrite h_index, h_ltb_0.
  destruct (_ && nltb n0 n)%bool.
  - apply (h_bind (fun q => (h (fst q), h_wm (snd q)))); [|intros [net w]; reflexivity].
    unfold slow_first_capture. rewrite W. unfold set_row0. replace (map p_empty (map h_prob p)) with (map h (map p_empty p)) by (rewrite !map_map; reflexivity).
    rewrite (h_upd _ 0 (cloud, map p_empty p)), h_set_vol, (h_n_trapped _ _ _ HM), h_eqb_0. destruct (neqb _ n0); [cbn; now rewrite h_0|].
    rewrite <- h_div, h_ltb_1. destruct (nltb _ n1); [|cbn; now rewrite h_opp].
    apply (h_bind h_wm); [unfold not_enough; rewrite K, K'; cbn; now rewrite h_blend|]. intros w. cbn. now rewrite (h_n_trapped _ _ _ HM), h_opp.
  - apply (h_bind (fun q => let '(a, b, c, i) := q in (h a, h_wm b, h_wm c, i))).
    + destruct (_ || _)%bool.
      * apply (h_bind (fun o => mkSB (h (sb_free o)) (h_wm (sb_wm o)) (h_wm (sb_wm_initial o)) (h (sb_cloud o)) (sb_index o) (sb_max o))); [|intros []; reflexivity].
        unfold slow_cloud_below. rewrite W. apply (h_bind (fun p => (h_wm (fst (fst p)), h_wm (snd (fst p)), snd p))); [apply h_split|]. intros [[w1 wi1] max1]. cbn [fst snd]. cbv zeta.
        rewrite (h_map_slice _ _ (fun fs => zip_with (fun f p0 => (f * p_release p0)%num) fs p)).
        2: { intros fs. apply h_zip_prob. intros x q. cbn [p_release h_prob snd]. now rewrite h_mul. }
        rewrite (h_n_trapped _ _ _ HM), <- h_sub, <- h_add. apply (h_bind h); [apply HF|]. intros cloud'. rewrite h_index.
        apply (h_bind (fun p => (h_wm (fst (fst p)), h_wm (snd (fst p)), snd p))); [apply h_split|]. intros [[w3 wi3] max3]. reflexivity.
      * apply (h_bind (fun p => (h_wm (fst p), h_wm (snd p)))); [apply h_top|]. intros [w wi]. reflexivity.
    + intros [[[n' w] wi] i]. cbv zeta. rewrite (h_species _ _ HM), K, K'. cbn [filled_value].
      rewrite (h_map_slice _ _ (fun fs => zip_with (fun f p0 => (f * p_full p0 + (n1 - f) * p_empty p0)%num) fs p)).
      2: { intros fs. apply h_zip_prob. intros x q. unfold p_full, p_empty, h_prob. cbn [fst snd]. now rewrite h_add, !h_mul, h_sub, h_1. }
      apply (h_bind (fun p => (h_wm (fst p), h_wm (snd p)))); [rewrite <- h_1; apply h_collapse_copy|]. intros [w2 wi2]. cbn [fst snd].
      rewrite (h_n_trapped _ _ _ HM), h_eqb. destruct (neqb _ _); [cbn; now rewrite h_0|].
      rewrite <- h_sub, <- h_div, h_ltb_0, h_ltb_1. apply (h_bind (fun p => (h_wm (fst p), h (snd p)))).
      * destruct (_ && _)%bool; [|reflexivity]. apply (h_bind h_wm); [unfold not_enough; rewrite K, K'; cbn; now rewrite h_blend|]. intros w'. cbn. now rewrite (h_n_trapped _ _ _ HM).
      * intros [w3 f3]. cbn [fst snd h_result with_wm m_wm]. rewrite <- h_1, h_collapse, h_sub. reflexivity.
Qed.
End Hom.
