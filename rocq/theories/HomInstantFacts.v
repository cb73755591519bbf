(** * The instant-capture manager commutes with any map between number types that keeps the
    arithmetic and the comparisons. *)
From Coq Require Import ZArith List Bool Lia.
From Verif Require Import Num Py CCDModel TrapsModel ManagerModel HomFacts.
Import ListNotations.

Section Hom.
Context {F G : Type} {numF : Num F} {numG : Num G}.
Variable h : F -> G.
Hypothesis h_0 : h n0 = n0.
Hypothesis h_1 : h n1 = n1.
Hypothesis h_add : forall a b, h (nadd a b) = nadd (h a) (h b).
Hypothesis h_sub : forall a b, h (nsub a b) = nsub (h a) (h b).
Hypothesis h_mul : forall a b, h (nmul a b) = nmul (h a) (h b).
Hypothesis h_div : forall a b, h (ndiv a b) = ndiv (h a) (h b).
Hypothesis h_opp : forall a, h (nopp a) = nopp (h a).
Hypothesis h_ltb : forall a b, nltb (h a) (h b) = nltb a b.
Hypothesis h_leb : forall a b, nleb (h a) (h b) = nleb a b.
Hypothesis h_eqb : forall a b, neqb (h a) (h b) = neqb a b.
Hypothesis h_nan : nnan = option_map h nnan.

(** Managers of instant-capture traps with the same densities and the same release. *)
Definition hi_manager (d : F) (d' : G) (m : manager F) (m' : manager G) : Prop :=
  m_kind m = KInstant /\ m_kind m' = KInstant /\ n_traps_per_pixel m' = map h (n_traps_per_pixel m) /\
  map (release_probability d') (m_traps m') = map h (map (release_probability d) (m_traps m)) /\ m_wm m' = h_wm h (m_wm m).

Lemma hi_zip (fs : list F) (ts : list (trap F)) (ts' : list (trap G)) d d' :
  map (release_probability d') ts' = map h (map (release_probability d) ts) ->
  zip_with (fun f t => (f * release_probability d' t)%num) (map h fs) ts' = map h (zip_with (fun f t => (f * release_probability d t)%num) fs ts).
Proof.
  unfold zip_with. revert ts ts'. induction fs as [|f fs IH]; intros [|t ts] [|t' ts'] E; try discriminate; try reflexivity.
  cbn in *. injection E as E1 E2. rewrite E1, h_mul. f_equal. now apply IH.
Qed.
Lemma hi_n_trapped d d' m m' w : hi_manager d d' m m' -> n_trapped m' (h_wm h w) = h (n_trapped m w).
Proof. intros (K & K' & D & _). unfold n_trapped. rewrite K, K', D. now apply h_trapped. Qed.
Lemma hi_species d d' m m' : hi_manager d d' m m' -> length (m_traps m') = length (m_traps m).
Proof. intros (_ & _ & D & _). apply (f_equal (@length G)) in D. unfold n_traps_per_pixel in D. now rewrite !map_length in D. Qed.
Lemma hi_with d d' m m' w : hi_manager d d' m m' -> hi_manager d d' (with_wm m w) (with_wm m' (h_wm h w)).
Proof. intros (K & K' & D & P & _). repeat split; assumption. Qed.
Lemma hi_released d d' m m' : hi_manager d d' m m' ->
  fst (n_electrons_released m' d') = h (fst (n_electrons_released m d)) /\ hi_manager d d' (snd (n_electrons_released m d)) (snd (n_electrons_released m' d')).
Proof.
  intros HM. pose proof HM as (K & K' & D & P & W). unfold n_electrons_released. cbn [fst snd]. rewrite W, (h_max_index h h_0 h_eqb).
  rewrite (h_map_slice h _ _ (released_values m d)).
  2: { intros fs. unfold released_values. rewrite K, K'. now apply hi_zip. }
  rewrite !(hi_n_trapped d d' m m' _ HM), h_sub. split; [reflexivity|]. now apply hi_with.
Qed.
Lemma hi_captured d d' m m' n fill fill' :
  hi_manager d d' m m' -> (forall x, fill' (h x) = h_result h (fill x)) ->
  n_electrons_captured m' (h n) fill' = h_result (fun q => (h (fst q), with_wm m' (h_wm h (m_wm (snd q))))) (n_electrons_captured m n fill).
Proof.
  intros HM HF. pose proof HM as (K & K' & D & P & W). unfold n_electrons_captured. rewrite W, (h_max_index h h_0 h_eqb), (hi_n_trapped d d' m m' _ HM).
  apply (h_bind h); [apply HF|]. intros cloud. cbv zeta. rewrite (h_index h h_0 h_add h_ltb h_leb h_eqb), (h_ltb_0 h h_0 h_ltb).
  destruct (_ && nltb n0 n)%bool.
  - apply (h_bind (fun q => (h (fst q), h_wm h (snd q)))); [|intros [net w]; reflexivity].
    unfold instant_first_capture. rewrite W, K, K'. unfold set_row0. cbn [filled_value]. rewrite (hi_species d d' m m' HM), <- h_1, h_repeat.
    change (h cloud, map h (repeat n1 (length (m_traps m)))) with (h_row h (cloud, repeat n1 (length (m_traps m)))).
    rewrite (h_upd h), (h_set_vol h h_0), (hi_n_trapped d d' m m' _ HM), (h_eqb_0 h h_0 h_eqb). destruct (neqb _ n0); [cbn; now rewrite h_0|].
    rewrite <- h_div, h_ltb. destruct (nltb _ n1); [|reflexivity].
    apply (h_bind (h_wm h)); [unfold not_enough; rewrite K, K'; cbn; now rewrite (h_blend h h_1 h_add h_sub h_mul)|]. intros w. cbn. now rewrite (hi_n_trapped d d' m m' _ HM).
  - apply (h_bind (fun q => (h_wm h (fst q), h_wm h (snd q)))).
    + destruct (_ || _)%bool.
      * unfold instant_cloud_below. apply (h_bind (fun p => (h_wm h (fst (fst p)), h_wm h (snd (fst p)), snd p))); [now apply (h_split h)|]. intros [[w1 wi1] max1]. reflexivity.
      * now apply (h_top h).
    + intros [w wi]. cbv zeta. cbn [fst snd]. rewrite (hi_species d d' m m' HM), K, K'. cbn [filled_value].
      rewrite (h_map_slice h _ _ (fun _ => repeat n1 (length (m_traps m)))).
      2: { intros fs. now rewrite <- h_1, h_repeat. }
      apply (h_bind (fun p => (h_wm h (fst p), h_wm h (snd p)))); [rewrite <- h_1; now apply (h_collapse_copy h)|]. intros [w2 wi2]. cbn [fst snd].
      rewrite (hi_n_trapped d d' m m' _ HM), h_eqb. destruct (neqb _ _); [cbn; now rewrite h_0|].
      rewrite <- h_sub, <- h_div, (h_ltb_0 h h_0 h_ltb), (h_ltb_1 h h_1 h_ltb). apply (h_bind (fun p => (h_wm h (fst p), h (snd p)))).
      * destruct (_ && _)%bool; [|reflexivity]. apply (h_bind (h_wm h)); [unfold not_enough; rewrite K, K'; cbn; now rewrite (h_blend h h_1 h_add h_sub h_mul)|]. intros w'. cbn. now rewrite (hi_n_trapped d d' m m' _ HM).
      * intros [w3 f3]. cbn [fst snd h_result with_wm m_wm]. rewrite <- h_1, h_sub. rewrite (h_collapse h) by assumption. reflexivity.
Qed.
Lemma hi_step d d' m m' n fill fill' :
  hi_manager d d' m m' -> (forall x, fill' (h x) = h_result h (fill x)) ->
  match manager_step m n fill d with
  | Ok (net, m1) => exists m1', manager_step m' (h n) fill' d' = Ok (h net, m1') /\ hi_manager d d' m1 m1'
  | Err e => manager_step m' (h n) fill' d' = Err e
  end.
Proof.
  intros HM HF. pose proof HM as (K & K' & _). unfold manager_step, instant_step. rewrite K, K'.
  destruct (hi_released d d' m m' HM) as [R1 R2]. destruct (n_electrons_released m d) as [r m1] eqn:E1, (n_electrons_released m' d') as [r' m1'] eqn:E1'. cbn [fst snd] in R1, R2. subst r'.
  rewrite <- h_add. pose proof (hi_captured d d' m1 m1' (nadd n r) fill fill' R2 HF) as C.
  destruct (n_electrons_captured m1 (nadd n r) fill) as [[cap m2]|e] eqn:E2; cbn [h_result fst snd bind] in C |- *; rewrite C; cbn [bind]; [|reflexivity].
  exists (with_wm m1' (h_wm h (m_wm m2))). rewrite h_sub. split; [reflexivity|].
  assert (T : m_kind m2 = m_kind m1 /\ m_traps m2 = m_traps m1).
  { clear - E2. unfold n_electrons_captured in E2. destruct (fill (nadd n r)) as [cloud|]; [|discriminate]. cbn [bind] in E2. destruct (_ && _)%bool.
    - destruct (instant_first_capture _ _ _ _) as [[net w]|]; [|discriminate]. cbn [bind] in E2. injection E2 as _ <-. auto.
    - match type of E2 with bind ?x _ = _ => destruct x as [[w wi]|]; [|discriminate] end. cbn [bind] in E2.
      destruct (collapse_with_copy _ _ _ _) as [[w2 wi2]|]; [|discriminate]. cbn [bind] in E2. destruct (neqb _ _); [injection E2 as _ <-; auto|].
      match type of E2 with bind ?x _ = _ => destruct x as [[w3 f3]|]; [|discriminate] end. cbn [bind] in E2. injection E2 as _ <-. auto. }
  destruct T as [TK TT]. destruct R2 as (A & B & C1 & C2 & _). repeat split.
  - congruence.
  - exact B.
  - unfold n_traps_per_pixel in *. cbn [with_wm m_traps]. rewrite TT. exact C1.
  - cbn [with_wm m_traps]. rewrite TT. exact C2.
Qed.
End Hom.
