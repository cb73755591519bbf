(** * Two calls in lock step, with the same images but other trap managers. *)
From Coq Require Import ZArith List Bool Lia.
From Verif Require Import Num Py CCDModel TrapsModel ManagerModel ROEModel ClockModel MainModel ClockFacts.
Import ListNotations.

(** Both return related values, or both raise related exceptions. *)
Definition rrel {A B} (E : exn -> exn -> Prop) (Rel : A -> B -> Prop) (x : result A) (y : result B) : Prop :=
  match x, y with Ok a, Ok b => Rel a b | Err e, Err e' => E e e' | _, _ => False end.
Lemma rrel_bind {A B C D} E (Rel : A -> B -> Prop) (Rel' : C -> D -> Prop) x y k k' :
  rrel E Rel x y -> (forall a b, x = Ok a -> y = Ok b -> Rel a b -> rrel E Rel' (k a) (k' b)) -> rrel E Rel' (bind x k) (bind y k').
Proof. destruct x as [a|e], y as [b|e']; cbn; try contradiction; auto. Qed.
Lemma rrel_foldM {A S T} E (Rel : S -> T -> Prop) (f : S -> A -> result S) (g : T -> A -> result T) l :
  (forall s t a, Rel s t -> rrel E Rel (f s a) (g t a)) -> forall s t, Rel s t -> rrel E Rel (foldM f l s) (foldM g l t).
Proof. intros H. induction l as [|a l IH]; intros s t HS; [exact HS|]. cbn [foldM]. apply (rrel_bind _ Rel); [apply H, HS|]. intros s' t' _ _ HS'. apply IH, HS'. Qed.
Lemma rrel_refl {A} (E : exn -> exn -> Prop) (x : result A) : (forall e, E e e) -> rrel E eq x x.
Proof. intros H. destruct x; cbn; auto. Qed.
Lemma rrel_weaken {A B} E (Rel Rel' : A -> B -> Prop) x y : (forall a b, Rel a b -> Rel' a b) -> rrel E Rel x y -> rrel E Rel' x y.
Proof. intros H. destruct x, y; cbn; auto. Qed.
Lemma rrel_eq {A} (x y : result A) : rrel eq eq x y -> x = y.
Proof. destruct x, y; cbn; try contradiction; intros ->; reflexivity. Qed.

Section Sim.
Context {F : Type} {num : Num F}.
Variable E : exn -> exn -> Prop.
Hypothesis E_refl : forall e, E e e.
(** [P gs hs]: the managers of one phase. *)
Variable P : list (manager F) -> list (manager F) -> Prop.
Hypothesis P_step : forall gs hs n fill d, P gs hs ->
  rrel E (fun p q => fst p = fst q /\ P (snd p) (snd q)) (step_groups gs n fill d n0) (step_groups hs n fill d n0).
Hypothesis P_count : forall gs hs acc, P gs hs ->
  fold_left (fun acc m => (acc + n_trapped m (m_wm m))%num) gs acc = fold_left (fun acc m => (acc + n_trapped m (m_wm m))%num) hs acc.
Hypothesis P_empty : forall gs hs, P gs hs -> P (map empty_all_traps gs) (map empty_all_traps hs).

Definition data_sim : list (list (manager F)) -> list (list (manager F)) -> Prop := Forall2 P.
Definition atm_sim (a b : all_managers F) : Prop :=
  data_sim (atm_data a) (atm_data b) /\
  match atm_saved a, atm_saved b with None, None => True | Some x, Some y => data_sim x y | _, _ => False end /\
  atm_in_save a = atm_in_save b /\ atm_previously a = atm_previously b.

Lemma Forall2_nth_error {A B} (Q : A -> B -> Prop) l l' i : Forall2 Q l l' ->
  match nth_error l i, nth_error l' i with Some a, Some b => Q a b | None, None => True | _, _ => False end.
Proof. intros H. revert i. induction H as [|a b l l' Hab H IH]; intros [|i]; cbn; auto. apply IH. Qed.
Lemma Forall2_upd {A B} (Q : A -> B -> Prop) l l' i a b : Forall2 Q l l' -> Q a b -> Forall2 Q (upd l i a) (upd l' i b).
Proof. intros H Hab. revert i. induction H as [|x y l l' Hxy H IH]; intros [|i]; cbn; constructor; auto. Qed.

Definition st_sim (s t : list F * list (list (manager F))) : Prop := fst s = fst t /\ data_sim (snd s) (snd t).
Lemma phase_sim c d rps row mult s t phase : st_sim s t ->
  rrel E st_sim (clock_one_phase c d rps row mult s phase) (clock_one_phase c d rps row mult t phase).
Proof.
  destruct s as [col data], t as [col' data']. intros [H1 H2]. cbn [fst snd] in *. subst col'. unfold clock_one_phase.
  apply (rrel_bind _ eq); [apply rrel_refl, E_refl|]. intros rp ? _ _ <-. apply (rrel_bind _ eq); [apply rrel_refl, E_refl|]. intros charge ? _ _ <-.
  apply (rrel_bind _ P). { pose proof (Forall2_nth_error _ _ _ phase H2) as N. destruct (nth_error data phase), (nth_error data' phase); cbn; try contradiction; auto. }
  intros gs hs _ _ HG. apply (rrel_bind _ (fun p q => fst p = fst q /\ P (snd p) (snd q))); [apply P_step, HG|].
  intros [x gs'] [y hs'] _ _ [Hx HG']. cbn [fst snd] in *. subst y.
  pose proof (Forall2_upd _ _ _ phase _ _ H2 HG') as HD. destruct (_ =? _)%num; [split; [reflexivity|exact HD]|].
  apply (rrel_bind _ eq); [apply rrel_refl, E_refl|]. intros col' ? _ _ <-. split; [reflexivity|exact HD].
Qed.
Lemma row_sim c r row mult s t : st_sim s t -> rrel E st_sim (clock_one_row c r row mult s) (clock_one_row c r row mult t).
Proof.
  apply rrel_foldM. intros s0 t0 [step d]. apply rrel_foldM. intros s1 t1 phase H. apply (rrel_bind _ eq); [apply rrel_refl, E_refl|]. intros rps ? _ _ <-. apply phase_sim, H.
Qed.
Lemma currently_sim x y : data_sim x y -> trapped_currently x = trapped_currently y.
Proof.
  unfold trapped_currently. intros H. generalize (n0 : F). induction H as [|gs hs x y Hg H IH]; intros acc; [reflexivity|]. cbn [fold_left]. rewrite (P_count _ _ acc Hg). apply IH.
Qed.
Lemma save_sim a b : atm_sim a b -> atm_sim (atm_save a) (atm_save b).
Proof. intros (H1 & _ & _ & H4). unfold atm_save. repeat split; cbn; auto. apply currently_sim, H1. Qed.
Lemma empty_data_sim x y : data_sim x y -> data_sim (map (map empty_all_traps) x) (map (map empty_all_traps) y).
Proof. intros H. induction H; constructor; auto. Qed.
Lemma empty_sim a b : atm_sim a b -> atm_sim (atm_empty a) (atm_empty b).
Proof. intros (H1 & H2 & H3 & H4). repeat split; cbn; auto. apply empty_data_sim, H1. Qed.
Lemma restore_sim a b : atm_sim a b -> atm_sim (atm_restore a) (atm_restore b).
Proof.
  intros (H1 & H2 & H3 & H4). unfold atm_restore. rewrite (currently_sim _ _ H1), H3, H4.
  destruct (atm_saved a) as [x|], (atm_saved b) as [y|]; try contradiction; repeat split; cbn; auto. apply empty_data_sim, H1.
Qed.
Definition both_sim (s t : list F * all_managers F) : Prop := fst s = fst t /\ atm_sim (snd s) (snd t).
Lemma cell_sim c r window s t cell : both_sim s t -> rrel E both_sim (clock_cell c r window s cell) (clock_cell c r window t cell).
Proof.
  destruct s as [col a], t as [col' b]. intros [H1 H2]. cbn [fst snd] in *. subst col'. destruct cell as [ri [[mult monitor] save]]. unfold clock_cell.
  destruct (negb monitor); [split; [reflexivity|exact H2]|].
  apply (rrel_bind _ st_sim).
  { destruct (nth_error window ri) as [row|]; [apply row_sim; split; [reflexivity|exact (proj1 H2)]|]. destruct (steps_with_dwell r), (phases_with_traps c); cbn; auto; (split; [reflexivity|exact (proj1 H2)]). }
  intros [c1 d1] [c2 d2] _ _ [Hc Hd]. cbn [fst snd] in *. subst c2.
  assert (HW : atm_sim (with_data a d1) (with_data b d2)) by (split; [exact Hd|exact (proj2 H2)]).
  destruct save; (split; [reflexivity|]); [apply save_sim|]; exact HW.
Qed.
Lemma column_sim c r window passes s t : both_sim s t -> rrel E both_sim (clock_column c r window passes s) (clock_column c r window passes t).
Proof.
  apply rrel_foldM. intros s0 t0 cells [H1 H2]. apply rrel_foldM; [intros; apply cell_sim; assumption|]. split; [exact H1|apply restore_sim, H2].
Qed.
Definition picture_sim (s t : image F * all_managers F) : Prop := fst s = fst t /\ atm_sim (snd s) (snd t).
Lemma columns_sim c r window cols passes s t : picture_sim s t -> rrel E picture_sim (clock_columns c r window cols passes s) (clock_columns c r window cols passes t).
Proof.
  apply rrel_foldM. intros [im a] [im' b] j [H1 H2]. cbn [fst snd] in *. subst im'. unfold clock_one_column. destruct (_ && _)%bool; [|apply E_refl].
  apply (rrel_bind _ both_sim); [apply column_sim; split; [reflexivity|exact H2]|]. intros [c1 a1] [c2 a2] _ _ [Hc Ha]. cbn [fst snd] in *. subst c2.
  split; [reflexivity|]. unfold end_of_column. cbn [snd]. apply save_sim. destruct (roe_empty_between r); [apply empty_sim|]; exact Ha.
Qed.
(** Two trap arguments that always make related managers. *)
Definition traps_sim (a b : traps_arg F) : Prop := forall N c, rrel E atm_sim (atm_init a N c) (atm_init b N c).
Lemma clock_sim im c r a b ex off wr wc tw : traps_sim a b ->
  rrel E eq (clock_charge_in_one_direction im c r a ex off wr wc tw) (clock_charge_in_one_direction im c r b ex off wr wc tw).
Proof.
  intros H. unfold clock_charge_in_one_direction. apply (rrel_bind _ eq); [apply rrel_refl, E_refl|]. intros [[r' em] mon] ? _ _ <-.
  apply (rrel_bind _ eq); [apply rrel_refl, E_refl|]. intros sav ? _ _ <-. apply (rrel_bind _ atm_sim); [apply H|]. intros x y _ _ HA.
  apply (rrel_bind _ eq); [apply rrel_refl, E_refl|]. intros n ? _ _ <-. apply (rrel_bind _ picture_sim); [apply columns_sim; split; [reflexivity|exact HA]|].
  intros [im1 a1] [im2 a2] _ _ [Hi _]. cbn [fst] in Hi. subst im2. reflexivity.
Qed.
(** Two directions that differ at most in such arguments. *)
Definition direction_sim (d e : direction F) : Prop :=
  d_ccd d = d_ccd e /\ d_roe d = d_roe e /\ d_express d = d_express e /\ d_offset d = d_offset e /\ d_window d = d_window e /\
  match d_traps d, d_traps e with None, None => True | Some a, Some b => traps_sim a b | _, _ => False end.
Lemma clock_direction_sim im d e r a b wr wc tw : direction_sim d e -> traps_sim a b ->
  rrel E eq (clock_direction im d r a wr wc tw) (clock_direction im e r b wr wc tw).
Proof.
  intros (H1 & _ & H2 & H3 & _ & _) H. unfold clock_direction. rewrite <- H1, <- H2, <- H3. destruct (d_ccd d) as [c|]; [apply clock_sim, H|apply rrel_refl, E_refl].
Qed.
Lemma the_roe_sim d e : direction_sim d e -> the_roe d = the_roe e.
Proof. intros (_ & H & _). unfold the_roe. rewrite H. reflexivity. Qed.
Lemma add_cti_sim im parallel serial parallel' serial' tw : direction_sim parallel parallel' -> direction_sim serial serial' ->
  rrel E eq (add_cti im parallel serial tw) (add_cti im parallel' serial' tw).
Proof.
  intros HP HS. pose proof HP as (_ & _ & _ & P4 & P5 & P6). pose proof HS as (_ & _ & _ & _ & S5 & S6). unfold add_cti. rewrite <- P4, <- P5, <- S5, (the_roe_sim _ _ HP), (the_roe_sim _ _ HS).
  apply (rrel_bind _ eq); [apply rrel_refl, E_refl|]. intros [t sc] ? _ _ <-. apply (rrel_bind _ eq).
  - destruct (d_traps parallel) as [a|], (d_traps parallel') as [b|]; try contradiction; [apply clock_direction_sim; assumption|reflexivity].
  - intros [im1 pr] ? _ _ <-. apply (rrel_bind _ eq); [|intros [im2 sr] ? _ _ <-; reflexivity].
    destruct (d_traps serial) as [a|], (d_traps serial') as [b|]; try contradiction; [|reflexivity].
    apply (rrel_bind _ eq); [apply clock_direction_sim; assumption|]. intros [im2 r] ? _ _ <-. reflexivity.
Qed.
End Sim.
