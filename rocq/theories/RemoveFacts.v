(** * remove_cti (main.py:236-313). *)
From Coq Require Import ZArith List Bool Lia.
From Verif Require Import Num Py CCDModel TrapsModel ManagerModel ROEModel ClockModel MainModel SpecImage ClockFacts MainFacts.
Import ListNotations.

Section Remove.
Context {F : Type} {num : Num F}.
Implicit Types (im est : image F) (r : roe F) (d : direction F).

(** Charge injection stores the number of transfers; a second call finds it there. *)
Lemma express_again r w e o tw r' em mon : express_and_monitor r w e o tw = Ok (r', em, mon) ->
  express_and_monitor r' w e o tw = Ok (r', em, mon).
Proof.
  intros H. unfold express_and_monitor in H. destruct (roe_kind_of r) as [ef|npt|n ef] eqn:Ek.
  - apply bind_ok in H as ([em' mon'] & E & H). injection H as <- <- <-. unfold express_and_monitor. rewrite Ek, E. reflexivity.
  - apply bind_ok in H as ([[n em'] mon'] & E & H). injection H as <- <- <-. unfold express_and_monitor. cbn [roe_kind_of roe_dtype roe_dwell_times roe_empty_between roe_force roe_clock_sequence roe_pixels].
    replace (injection_express (Some n) (roe_dtype r) w e o tw) with (Ok (n, em', mon')); [reflexivity|].
    rewrite <- E. unfold injection_express in *. destruct (n_pixels_of_window w) as [np|]; cbn [bind] in *; [|discriminate].
    assert (G : n = match npt with Some n => n | None => (np + o)%nat end).
    { destruct (Nat.eqb _ 0); [discriminate|]. destruct (roe_dtype r); [discriminate|].
      apply bind_ok in E as (rs & _ & E). injection E as <- _ _. reflexivity. }
    rewrite <- G. reflexivity.
  - apply bind_ok in H as ([em' mon'] & E & H). injection H as <- <- <-. unfold express_and_monitor. rewrite Ek, E. reflexivity.
Qed.

Lemma direction_again im d r traps w cols tw im' r' : clock_direction im d r traps w cols tw = Ok (im', r') ->
  forall im2 d2, d_ccd d2 = d_ccd d -> d_express d2 = d_express d -> d_offset d2 = d_offset d ->
  clock_direction im2 d2 r' traps w cols tw = clock_direction im2 d r traps w cols tw.
Proof.
  intros H im2 d2 H1 H2 H3. unfold clock_direction in *. rewrite H1, H2, H3. destruct (d_ccd d) as [c|].
  - unfold clock_charge_in_one_direction in *. apply bind_ok in H as ([[r1 em] mon] & E & H).
    apply bind_ok in H as (? & _ & H). apply bind_ok in H as (? & _ & H). apply bind_ok in H as (? & _ & H).
    apply bind_ok in H as ([? ?] & _ & H). injection H as _ ->. rewrite E, (express_again _ _ _ _ _ _ _ _ E). reflexivity.
  - apply bind_ok in H as ([[x y] z] & _ & H). apply bind_ok in H as (? & _ & H). discriminate.
Qed.

Lemma keep_fields d r : d_ccd (keep_roe d r) = d_ccd d /\ d_express (keep_roe d r) = d_express d /\ d_offset (keep_roe d r) = d_offset d /\
  d_window (keep_roe d r) = d_window d /\ d_traps (keep_roe d r) = d_traps d.
Proof. unfold keep_roe. destruct (d_roe d); repeat split; reflexivity. Qed.
Lemma keep_same d : keep_roe d (the_roe d) = d.
Proof. unfold keep_roe, the_roe. destruct d as [c [r|] t e o w]; reflexivity. Qed.
Lemma keep_keep d r r' : keep_roe (keep_roe d r) r' = keep_roe d r'.
Proof. unfold keep_roe. destruct d as [c [r0|] t e o w]; reflexivity. Qed.
Lemma the_keep d r : the_roe (keep_roe d r) = match d_roe d with Some _ => r | None => the_roe d end.
Proof. unfold keep_roe, the_roe. destruct d as [c [r0|] t e o w]; reflexivity. Qed.

Lemma direction_kept im d traps w cols tw im' r' : clock_direction im d (the_roe d) traps w cols tw = Ok (im', r') ->
  forall im2, clock_direction im2 (keep_roe d r') (the_roe (keep_roe d r')) traps w cols tw = clock_direction im2 d (the_roe d) traps w cols tw.
Proof.
  intros H im2. destruct (keep_fields d r') as (H1 & H2 & H3 & _). rewrite the_keep. destruct (d_roe d) eqn:E.
  - eapply direction_again; eassumption.
  - unfold clock_direction. rewrite H1, H2, H3. reflexivity.
Qed.

(** Calling add_cti again with the objects left by a first call is no different. *)
Lemma add_cti_again im p s tw im' pr sr : add_cti im p s tw = Ok (im', pr, sr) ->
  forall est, length est = length im -> n_columns est = n_columns im ->
  add_cti est (keep_roe p pr) (keep_roe s sr) tw = add_cti est p s tw.
Proof.
  intros H est Hl Hc. apply add_cti_halves in H as (tw' & columns & im1 & Etw & H1 & H2).
  unfold add_cti. destruct (keep_fields p pr) as (_ & _ & -> & -> & ->). destruct (keep_fields s sr) as (_ & _ & _ & -> & ->).
  rewrite Hl, Hc, !resolve_selected, Etw. cbn [bind].
  assert (G1 : match d_traps p with
    | None => Ok (est, the_roe (keep_roe p pr))
    | Some traps => clock_direction est (keep_roe p pr) (the_roe (keep_roe p pr)) traps (selected (d_window p) (length im)) (selected (d_window s) (n_columns im)) (Some tw')
    end = match d_traps p with
    | None => Ok (est, the_roe p)
    | Some traps => clock_direction est p (the_roe p) traps (selected (d_window p) (length im)) (selected (d_window s) (n_columns im)) (Some tw')
    end).
  { destruct (d_traps p) as [traps|].
    - exact (direction_kept _ _ _ _ _ _ _ _ H1 est).
    - destruct H1 as (_ & ->). rewrite keep_same. reflexivity. }
  rewrite G1.
  match goal with |- bind ?x _ = bind ?x _ => destruct x as [[i1 r1]|e]; cbn [bind]; [|reflexivity] end.
  destruct (d_traps s) as [traps|].
  - destruct H2 as (im2 & H2 & _). rewrite (direction_kept _ _ _ _ _ _ _ _ H2 (transpose i1)). reflexivity.
  - destruct H2 as (_ & ->). rewrite keep_same. reflexivity.
Qed.

(** ** Images of the same shape, pixel by pixel. *)
Lemma image_zip_shape (f : F -> F -> F) a b rows cols : shape rows cols a -> shape rows cols b -> shape rows cols (image_zip f a b).
Proof.
  unfold shape, image_zip. intros (La & Ha) (Lb & Hb). rewrite map_length, combine_length, La, Lb, Nat.min_id. split; [reflexivity|].
  rewrite Forall_forall in *. intros row Hr. apply in_map_iff in Hr as ([x y] & <- & Hin).
  rewrite map_length, combine_length, (Ha x), (Hb y), Nat.min_id; [reflexivity| |]; [eapply in_combine_r|eapply in_combine_l]; eassumption.
Qed.
Lemma map_nth' {A B} (f : A -> B) l da db i : (i < length l)%nat -> nth i (map f l) db = f (nth i l da).
Proof. intros H. rewrite (nth_indep _ db (f da)) by (rewrite map_length; exact H). apply map_nth. Qed.
Lemma image_zip_pixel (f : F -> F -> F) a b rows cols i j : shape rows cols a -> shape rows cols b -> (i < rows)%nat -> (j < cols)%nat ->
  pixel (image_zip f a b) i j = f (pixel a i j) (pixel b i j).
Proof.
  intros (La & Ha) (Lb & Hb) Hi Hj. unfold pixel, image_zip.
  rewrite (map_nth' _ _ ([], [])) by (rewrite combine_length; lia). rewrite combine_nth by lia.
  rewrite Forall_forall in *. assert (length (nth i a []) = cols /\ length (nth i b []) = cols) as (L1 & L2).
  { split; [apply Ha|apply Hb]; apply nth_In; lia. }
  rewrite (map_nth' _ _ (n0, n0)) by (rewrite combine_length; lia). rewrite combine_nth by lia. reflexivity.
Qed.
Lemma image_ext a b rows cols : shape rows cols a -> shape rows cols b -> (forall i j, (i < rows)%nat -> (j < cols)%nat -> pixel a i j = pixel b i j) -> a = b.
Proof.
  intros (La & Ha) (Lb & Hb) H. rewrite Forall_forall in *. apply (nth_ext _ _ [] []); [congruence|]. intros i Hi.
  assert (L1 : length (nth i a []) = cols) by (apply Ha, nth_In; lia). assert (L2 : length (nth i b []) = cols) by (apply Hb, nth_In; lia).
  apply (nth_ext _ _ n0 n0); [congruence|]. intros j Hj. apply H; lia.
Qed.
Lemma shape_columns rows cols im : shape rows cols im -> (0 < rows)%nat -> n_columns im = cols.
Proof. intros (L & H) Hr. destruct im as [|x im]; cbn in *; [lia|]. apply Forall_inv in H. exact H. Qed.

(** ** The iteration. *)
Section Loop.
Context (im : image F) (p s : direction F) (tw : option (list Z)) (rows cols : nat).
Hypothesis (Him : shape rows cols im) (Hr : (0 < rows)%nat) (Hc : (0 < cols)%nat).

Definition improve est : result (image F) :=
  do '(added, _, _) <- add_cti est p s tw; Ok (image_zip nadd est (image_zip nsub im added)).
Fixpoint iterate (n : nat) est : result (image F) :=
  match n with O => Ok est | S n => do est' <- improve est; iterate n est' end.
Lemma iterate_S n est : iterate (S n) est = do x <- iterate n est; improve x.
Proof.
  revert est. induction n as [|n IH]; intros est; cbn [iterate]; cbn [bind].
  - destruct (improve est); reflexivity.
  - destruct (improve est) as [e|]; cbn [bind]; [|reflexivity]. rewrite <- IH. reflexivity.
Qed.
Lemma improve_shape est out : shape rows cols est -> improve est = Ok out -> shape rows cols out.
Proof.
  intros H E. unfold improve in E. apply bind_ok in E as ([[added pr] sr] & E & E2). injection E2 as <-.
  apply image_zip_shape; [exact H|]. apply image_zip_shape; [exact Him|]. exact (proj1 (add_cti_shape_sign _ _ _ _ _ _ _ rows cols H Hr Hc E)).
Qed.
Lemma loop_iterate n : forall est p' s', shape rows cols est ->
  (p' = p /\ s' = s \/ exists im0 im1 pr sr, shape rows cols im0 /\ add_cti im0 p s tw = Ok (im1, pr, sr) /\ p' = keep_roe p pr /\ s' = keep_roe s sr) ->
  (do '(out, _, _) <- remove_cti_loop im n p' s' tw est; Ok out) = iterate n est.
Proof.
  induction n as [|n IH]; intros est p' s' He Hps; [reflexivity|]. cbn [remove_cti_loop iterate]. unfold improve.
  assert (E : add_cti est p' s' tw = add_cti est p s tw).
  { destruct Hps as [(-> & ->)|(im0 & im1 & pr & sr & H0 & H1 & -> & ->)]; [reflexivity|].
    apply (add_cti_again _ _ _ _ _ _ _ H1).
    - rewrite (proj1 He), (proj1 H0). reflexivity.
    - rewrite (shape_columns _ _ _ He Hr), (shape_columns _ _ _ H0 Hr). reflexivity. }
  rewrite E. destruct (add_cti est p s tw) as [[[added pr] sr]|e] eqn:E1; [|reflexivity]. cbn [bind].
  apply IH.
  - apply (improve_shape est); [exact He|]. unfold improve. rewrite E1. reflexivity.
  - right. exists est, added, pr, sr. split; [exact He|]. split; [exact E1|].
    destruct Hps as [(-> & ->)|(im0 & im1 & pr0 & sr0 & H0 & H1 & -> & ->)]; [split; reflexivity|]. rewrite !keep_keep. split; reflexivity.
Qed.
Lemma remove_iterate n : remove_cti im n p s tw = iterate n im.
Proof. unfold remove_cti. apply loop_iterate; [exact Him|]. left. split; reflexivity. Qed.
Lemma iterate_shape n out : iterate n im = Ok out -> shape rows cols out.
Proof.
  revert out. induction n as [|n IH]; intros out.
  - cbn. intros E. injection E as <-. exact Him.
  - rewrite iterate_S. intros E. apply bind_ok in E as (x & E & E1). exact (improve_shape x out (IH x E) E1).
Qed.

Lemma remove_0 : remove_cti im 0 p s tw = Ok im.
Proof. reflexivity. Qed.
Lemma remove_shape n out : remove_cti im n p s tw = Ok out -> shape rows cols out.
Proof. rewrite remove_iterate. apply iterate_shape. Qed.
Lemma remove_S n out : remove_cti im (S n) p s tw = Ok out <->
  exists est added pr sr, remove_cti im n p s tw = Ok est /\ add_cti est p s tw = Ok (added, pr, sr) /\ shape rows cols out /\
    forall i j, (i < rows)%nat -> (j < cols)%nat -> pixel out i j = (pixel est i j + (pixel im i j - pixel added i j))%num.
Proof.
  rewrite !remove_iterate, iterate_S. split.
  - intros E. apply bind_ok in E as (est & E & E1). pose proof (iterate_shape n est E) as He. pose proof (improve_shape _ _ He E1) as Ho. unfold improve in E1.
    apply bind_ok in E1 as ([[added pr] sr] & Ea & E1). injection E1 as <-. pose proof (proj1 (add_cti_shape_sign _ _ _ _ _ _ _ rows cols He Hr Hc Ea)) as Hadd.
    exists est, added, pr, sr. split; [exact E|]. split; [exact Ea|]. split; [exact Ho|].
    intros i j Hi Hj. rewrite (image_zip_pixel _ _ _ rows cols) by (try apply image_zip_shape; assumption). rewrite (image_zip_pixel _ _ _ rows cols) by assumption. reflexivity.
  - intros (est & added & pr & sr & E & Ea & Ho & Hp). rewrite E. cbn [bind]. unfold improve. rewrite Ea. cbn [bind]. f_equal.
    pose proof (iterate_shape n est E) as He. pose proof (proj1 (add_cti_shape_sign _ _ _ _ _ _ _ rows cols He Hr Hc Ea)) as Hadd.
    apply (image_ext _ _ rows cols); [repeat (apply image_zip_shape; try assumption)|exact Ho|].
    intros i j Hi Hj. rewrite Hp by assumption. rewrite (image_zip_pixel _ _ _ rows cols) by (try apply image_zip_shape; assumption). rewrite (image_zip_pixel _ _ _ rows cols) by assumption. reflexivity.
Qed.
Lemma remove_err n e : remove_cti im (S n) p s tw = Err e <->
  remove_cti im n p s tw = Err e \/ exists est, remove_cti im n p s tw = Ok est /\ add_cti est p s tw = Err e.
Proof.
  rewrite !remove_iterate, iterate_S. destruct (iterate n im) as [x|e']; cbn [bind].
  - unfold improve. split.
    + intros E. right. exists x. split; [reflexivity|]. destruct (add_cti x p s tw) as [[[a b] c]|]; [discriminate|]. cbn in E. congruence.
    + intros [E|(est & E & E1)]; [discriminate|]. injection E as <-. rewrite E1. reflexivity.
  - split; [intros E; left; congruence|]. intros [E|(est & E & _)]; [congruence|discriminate].
Qed.
End Loop.

(** Without traps nothing changes, provided that x + (y - y) = x. *)
Lemma remove_no_traps im p s rows cols n : shape rows cols im -> (0 < rows)%nat -> (0 < cols)%nat ->
  (forall x y : F, (x + (y - y))%num = x) -> d_traps p = None -> d_traps s = None -> remove_cti im n p s None = Ok im.
Proof.
  intros Him Hr Hc Hx Hp Hs. induction n as [|n IH]; [reflexivity|].
  apply (remove_S im p s None rows cols Him Hr Hc). exists im, im, (the_roe p), (the_roe s). split; [exact IH|]. split; [|split; [exact Him|intros; symmetry; apply Hx]].
  unfold add_cti. rewrite Hp, Hs. reflexivity.
Qed.
End Remove.
