(** * Every call returns the electrons held before minus the electrons held after. *)
From Coq Require Import ZArith List Bool Reals Lra Lia.
From Coquelicot Require Import Rcomplements Rbar Hierarchy RInt.
From Verif Require Import Num Py RFacts CCDModel TrapsModel ManagerModel Spec WmFacts ArrayFacts CutFacts
  InstantFacts ClockFacts ShapeFacts.
Import ListNotations.
Open Scope R_scope.

(** ** Collapsing keeps the number of trapped electrons of any rectangular array. *)
Lemma full_trapped_gen ds n filled f : width n f -> Forall (full_row filled n) f ->
  trapped ds f = volume f * dot (repeat filled n) ds.
Proof.
  intros Hw Hf. induction f as [|r f IH]; [rewrite trapped_nil, volume_nil; ring|].
  inversion Hw; inversion Hf; subst. rewrite trapped_cons, volume_cons, IH by auto.
  unfold row_trapped. rewrite (full_row_eq filled (length (snd r)) r) by auto. rewrite repeat_length. ring.
Qed.
Lemma trapped_map_zrow ds a : trapped ds (map zrow_of a) = 0.
Proof.
  induction a as [|r a IH]; [apply trapped_nil|]. cbn [map]. rewrite trapped_cons, IH.
  unfold row_trapped, zrow_of; cbn [fst]. ring.
Qed.
Lemma split_len {A} k (w : list A) : (k < length w)%nat -> exists a r b, w = a ++ r :: b /\ length a = k.
Proof.
  intros H. exists (firstn k w), (nth k w (hd (nth 0 w (nth 0 w ltac:(destruct w; [cbn in H; lia|assumption]))) w)).
  exists (skipn (S k) w). split.
  - set (d := hd _ _). clearbody d. revert k H. induction w as [|x w IH]; intros k H; [cbn in H; lia|].
    destruct k; cbn; [reflexivity|]. f_equal. apply IH. cbn in H. lia.
  - rewrite firstn_length. lia.
Qed.
Lemma collapse_trapped ds n filled w : width n w -> trapped ds (collapse filled n w) = trapped ds w.
Proof.
  intros Hw. unfold collapse. set (k := collapse_index filled n w).
  destruct (Nat.leb_spec k 1) as [|Hk]; [reflexivity|].
  assert (Hb : (k < length w)%nat).
  { apply collapse_index_bound. intros ->. unfold k, collapse_index in Hk.
    assert (E : forall l q, (q <= 1)%nat -> Forall (fun x => (x <= 1)%nat) l -> (fold_left Nat.min l q <= 1)%nat).
    { clear. induction l; cbn; intros q Hq Hf; [auto|]. inversion Hf; subst. apply IHl; auto. lia. }
    destruct (map _ (seq 0 n)) as [|q qs] eqn:Eq; [lia|].
    assert (Hall : Forall (fun x => (x <= 1)%nat) (q :: qs)).
    { rewrite <- Eq. apply Forall_forall. intros x Hx. apply in_map_iff in Hx as (i & <- & _). cbn. lia. }
    inversion Hall; subst. pose proof (E qs q ltac:(auto) ltac:(auto)). lia. }
  destruct (split_len (k - 1) w ltac:(lia)) as (a & r0 & b & E & Hl).
  pose proof (firstn_full filled n w) as Hf. fold k in Hf.
  replace k with (S (length a)) in * by lia. rewrite E in *.
  replace (a ++ r0 :: b) with ((a ++ [r0]) ++ b) in Hf by (now rewrite <- app_assoc).
  replace (S (length a)) with (length (a ++ [r0])) in Hf by (rewrite app_length; cbn; lia).
  rewrite firstn_app_exact in Hf.
  rewrite collapse_rows_at, sumF_Rsum.
  replace (a ++ r0 :: b) with ((a ++ [r0]) ++ b) by (now rewrite <- app_assoc).
  replace (S (length a)) with (length (a ++ [r0])) by (rewrite app_length; cbn; lia).
  rewrite firstn_app_exact. rewrite trapped_cons, !trapped_app, trapped_map_zrow.
  assert (Hw' : width n (a ++ [r0])).
  { unfold width in *. replace (a ++ r0 :: b) with ((a ++ [r0]) ++ b) in Hw by (now rewrite <- app_assoc).
    apply Forall_app in Hw. tauto. }
  pose proof (full_trapped_gen ds n filled (a ++ [r0]) Hw' Hf) as Et. rewrite trapped_app in Et.
  unfold row_trapped at 1; cbn [fst snd]. rewrite volume_vol in Et. rewrite Et. ring.
Qed.

Lemma wshape_width (w : wmarks R) n k : wshape n k w -> width n w.
Proof. now intros (_ & H). Qed.

(** Levels in use, then at least one free level. *)
Definition levelled (w : wmarks R) : Prop := exists l z, w = l ++ z /\
  Forall (fun r => fst r <> 0) l /\ z <> [] /\ Forall (fun r => fst r = 0) z.

Lemma levelled_max w : levelled w -> max_watermark_index w = (-1)%Z -> forall ds, trapped ds w = 0.
Proof.
  intros (l & z & -> & Hl & Hz & Hz0) Hm ds.
  assert (E : first_zero_volume (l ++ z) = length l).
  { unfold first_zero_volume, np_argmax. rewrite map_app. destruct z as [|r z]; [congruence|]. cbn [map].
    inversion Hz0; subst. unfold vol at 2. rnum.
    replace (Reqb (fst r) 0) with true by (symmetry; now apply Reqb_true).
    rewrite find_true_app; [now rewrite map_length|].
    apply Forall_forall. intros x Hx. apply in_map_iff in Hx as (y & <- & Hy).
    rewrite Forall_forall in Hl. apply Reqb_false. now apply Hl. }
  unfold max_watermark_index in Hm. rewrite E in Hm. destruct l; [|cbn [length] in Hm; lia]. cbn [app].
  clear -Hz0. induction z as [|r z IH]; [apply trapped_nil|]. inversion Hz0; subst.
  rewrite trapped_cons, IH by auto. unfold row_trapped. rewrite H1. ring.
Qed.
Lemma levelled_slice a b f w : levelled w -> levelled (map_vals_slice a b f w).
Proof.
  intros (l & z & -> & Hl & Hz & Hz0). unfold map_vals_slice.
  change (levelled (idx_map (fun i r => if (a <=? i)%nat && (i <? b)%nat then (vol r, f (vals r)) else r) 0 (l ++ z))).
  rewrite idx_map_app.
  assert (G : forall (Q : R -> Prop) k (x : wmarks R), Forall (fun r => Q (fst r)) x ->
    Forall (fun r => Q (fst r)) (idx_map (fun i r => if (a <=? i)%nat && (i <? b)%nat then (vol r, f (vals r)) else r) k x)).
  { intros Q k x. revert k. induction x as [|r x IH]; intros k Hx; [constructor|]. inversion Hx; subst.
    rewrite idx_map_cons. constructor; [|now apply IH]. now destruct (_ && _)%bool. }
  eexists _, _. split; [reflexivity|]. split; [apply (G (fun v => v <> 0)); auto|].
  split; [|apply (G (fun v => v = 0)); auto]. destruct z; [congruence|]. rewrite idx_map_cons. discriminate.
Qed.

(** ** The managers that store fill fractions. *)
Section Fractions.
Variable m : manager R.
Hypothesis Hk : m_kind m <> KTime.
Hypothesis Hs : mshape m.
Let ds := map (@t_density R) (m_traps m).
Lemma n_trapped_fractions (m' : manager R) w : m_kind m' = m_kind m -> m_traps m' = m_traps m -> n_trapped m' w = trapped ds w.
Proof.
  intros E1 E2. unfold n_trapped, n_traps_per_pixel. rewrite E1, E2, cy_n_trapped_eq. destruct (m_kind m); [reflexivity..|congruence].
Qed.


(** The end of both methods: collapse, correct if there are not enough electrons, collapse. *)
Lemma tail_trapped n_free initial (w wi w2 wi2 w3 : wmarks R) f3 : 
  let n := length (m_traps m) in
  wshape n (length (m_wm m)) w -> wshape n (length (m_wm m)) wi ->
  collapse_with_copy (filled_value (m_kind m)) n w wi = Ok (w2, wi2) ->
  (if (n0 <? n_free / (n_trapped m w2 - initial))%num && (n_free / (n_trapped m w2 - initial) <? n1)%num then
     do w' <- not_enough m w2 wi2 (n_free / (n_trapped m w2 - initial))%num; Ok (w', n_trapped m w')
   else Ok (w2, n_trapped m w2)) = Ok (w3, f3) ->
  f3 = trapped ds (collapse (filled_value (m_kind m)) n w3).
Proof.
  intros n Hw Hwi E2 E3. apply (wshape_collapse_copy _ _ _ _ _ _ _ Hw Hwi) in E2 as [H2 Hi2].
  assert (H3 : wshape n (length (m_wm m)) w3 /\ f3 = trapped ds w3).
  { destruct (_ && _)%bool in E3.
    - apply bind_ok in E3 as (w' & En & E3). injection E3 as <- <-. split; [|now apply n_trapped_fractions].
      now apply (wshape_not_enough _ _ _ _ _ _ _ H2 Hi2 En).
    - injection E3 as <- <-. split; [auto|now apply n_trapped_fractions]. }
  destruct H3 as [H3 ->]. symmetry. apply collapse_trapped. now apply wshape_width in H3.
Qed.

Lemma slow_balance n_free fill dwell net m' : levelled (m_wm m) ->
  slow_step m n_free fill dwell = Ok (net, m') ->
  net = n_trapped m (m_wm m) - n_trapped m' (m_wm m').
Proof.
  intros Hlev E. pose proof (slow_step_shape _ _ _ _ _ _ Hs E) as (K1 & K2 & _).
  rewrite (n_trapped_fractions m') by auto.
  unfold slow_step in E. cbv zeta in E.
  apply bind_ok in E as (probs & Ep & E). apply bind_ok in E as (cloud & Ec & E).
  assert (Hprobs : length probs = length (m_traps m)).
  { clear -Ep. revert probs Ep. unfold fill_probabilities. induction (m_traps m) as [|t l IH]; cbn; intros probs H.
    - now injection H as <-.
    - apply bind_ok in H as (p & _ & H). apply bind_ok in H as (ps & H1 & H). injection H as <-. cbn. now rewrite (IH ps). }
  destruct (_ && _)%bool eqn:Eb.
  - apply bind_ok in E as ([nt w] & E & E'). injection E' as <- <-. cbn [m_wm with_wm].
    rewrite (n_trapped_fractions m) by auto.
    apply andb_true_iff in Eb as [Eb _]. apply Z.eqb_eq in Eb. rewrite (levelled_max _ Hlev Eb).
    unfold slow_first_capture in E. cbv zeta in E. rewrite !(n_trapped_fractions m) in E by auto. rnum.
    destruct (Reqb_spec (trapped ds (set_row0 (m_wm m) (cloud, map p_empty probs))) 0) as [Z|Z].
    + injection E as <- <-. rewrite Z. ring.
    + destruct (Rltb _ _).
      * apply bind_ok in E as (w' & _ & E). rewrite (n_trapped_fractions m) in E by auto. injection E as <- <-. ring.
      * injection E as <- <-. ring.
  - apply bind_ok in E as ([[[nf w] wi] idx] & E1 & E).
    assert (Hw : wshape (length (m_traps m)) (length (m_wm m)) w /\ wshape (length (m_traps m)) (length (m_wm m)) wi).
    { destruct (_ || _)%bool in E1.
      - apply bind_ok in E1 as (o & E1 & E2). injection E2 as _ <- <- _.
        unfold slow_cloud_below in E1. cbv zeta in E1.
        apply bind_ok in E1 as ([[w1 wi1] max1] & S1 & E1). apply bind_ok in E1 as (cl & _ & E1).
        apply bind_ok in E1 as ([[w3 wi3] max3] & S3 & E1). injection E1 as <-. cbn [sb_wm sb_wm_initial].
        apply (wshape_split _ _ _ _ _ _ _ _ _ _ Hs Hs) in S1 as [A1 A2].
        eapply wshape_split in S3; [exact S3| |exact A2].
        apply wshape_slice; auto. intros fs Hfs. now apply zip_with_length.
      - apply bind_ok in E1 as ([w' wi'] & S1 & E1). injection E1 as _ <- <- _.
        now apply (wshape_new_top _ _ _ _ _ _ _ _ Hs Hs) in S1. }
    apply bind_ok in E as ([w2 wi2] & E2 & E).
    destruct (neqb (n_trapped m w2) _) eqn:Z.
    + rnum. apply Reqb_true in Z. injection E as <- <-. cbn [m_wm with_wm]. 
      rewrite (n_trapped_fractions m w2) in Z by auto. rewrite Z. ring.
    + apply bind_ok in E as ([w3 f3] & E3 & E). injection E as <- <-. cbn [m_wm with_wm].
      eapply tail_trapped in E3; [|apply wshape_slice; [exact (proj1 Hw)|]|exact (proj2 Hw)|exact E2].
      * rewrite E3. reflexivity.
      * intros fs Hfs. now apply zip_with_length.
Qed.

Lemma captured_balance n_free fill net m' : levelled (m_wm m) ->
  n_electrons_captured m n_free fill = Ok (net, m') ->
  net = n_trapped m' (m_wm m') - n_trapped m (m_wm m).
Proof.
  intros Hlev E. pose proof (captured_shape _ _ _ _ _ Hs E) as (K1 & K2 & _).
  rewrite (n_trapped_fractions m') by auto.
  unfold n_electrons_captured in E. cbv zeta in E. apply bind_ok in E as (cloud & Ec & E).
  destruct (_ && _)%bool eqn:Eb.
  - apply bind_ok in E as ([nt w] & E & E'). injection E' as <- <-. cbn [m_wm with_wm].
    rewrite (n_trapped_fractions m) by auto.
    apply andb_true_iff in Eb as [Eb _]. apply Z.eqb_eq in Eb. rewrite (levelled_max _ Hlev Eb).
    unfold instant_first_capture in E. cbv zeta in E. rewrite !(n_trapped_fractions m) in E by auto. rnum.
    destruct (Reqb_spec (trapped ds (set_row0 (m_wm m) (cloud, repeat (filled_value (m_kind m)) (length (m_traps m))))) 0) as [Z|Z].
    + injection E as <- <-. rewrite Z. ring.
    + destruct (Rltb _ _).
      * apply bind_ok in E as (w' & _ & E). rewrite (n_trapped_fractions m) in E by auto. injection E as <- <-. ring.
      * injection E as <- <-. ring.
  - apply bind_ok in E as ([w wi] & E1 & E).
    assert (Hw : wshape (length (m_traps m)) (length (m_wm m)) w /\ wshape (length (m_traps m)) (length (m_wm m)) wi).
    { destruct (_ || _)%bool in E1.
      - apply bind_ok in E1 as ([[w1 wi1] max1] & S1 & E1). injection E1 as <- <-.
        now apply (wshape_split _ _ _ _ _ _ _ _ _ _ Hs Hs) in S1.
      - now apply (wshape_new_top _ _ _ _ _ _ _ _ Hs Hs) in E1. }
    apply bind_ok in E as ([w2 wi2] & E2 & E).
    destruct (neqb (n_trapped m w2) _) eqn:Z.
    + rnum. apply Reqb_true in Z. injection E as <- <-. cbn [m_wm with_wm]. 
      rewrite (n_trapped_fractions m w2) in Z by auto. rewrite Z. ring.
    + apply bind_ok in E as ([w3 f3] & E3 & E). injection E as <- <-. cbn [m_wm with_wm].
      eapply tail_trapped in E3; [|apply wshape_slice; [exact (proj1 Hw)|]|exact (proj2 Hw)|exact E2].
      * rewrite E3. reflexivity.
      * intros fs Hfs. apply repeat_length.
Qed.
End Fractions.

Lemma step_balance m n_free fill dwell net m' : m_kind m <> KTime -> mshape m -> levelled (m_wm m) ->
  manager_step m n_free fill dwell = Ok (net, m') ->
  net = n_trapped m (m_wm m) - n_trapped m' (m_wm m').
Proof.
  intros Hk Hs Hlev E. unfold manager_step in E. destruct (m_kind m) eqn:Km; [| |congruence].
  - eapply slow_balance; eauto. now rewrite Km.
  - unfold instant_step in E. destruct (n_electrons_released m dwell) as [rl m1] eqn:Er.
    apply bind_ok in E as ([c m2] & Ec & E). injection E as <- <-.
    pose proof (released_shape m dwell Hs) as Hr. rewrite Er in Hr. cbn [snd] in Hr.
    assert (K1 : m_kind m1 <> KTime) by (destruct Hr as (-> & _); now rewrite Km).
    assert (L1 : levelled (m_wm m1)).
    { unfold n_electrons_released in Er. injection Er as _ <-. cbn [m_wm with_wm]. now apply levelled_slice. }
    apply captured_balance in Ec; auto; [|now apply keeps_shape in Hr].
    unfold n_electrons_released in Er. cbv zeta in Er. injection Er as <- <-.
    set (W := map_vals_slice _ _ _ _) in *.
    change (n_trapped (with_wm m W) (m_wm (with_wm m W))) with (n_trapped m W) in Ec. rewrite Ec. rnum. ring.
Qed.
