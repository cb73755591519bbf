(** * Facts about the clocking loops that hold for every kind of number, trap and setting. *)
From Coq Require Import ZArith List Bool Lia.
From Verif Require Import Num Py CCDModel TrapsModel ManagerModel ROEModel ClockModel SpecImage.
Import ListNotations.

(** ** Loops *)
Lemma bind_ok {A B} (m : result A) (k : A -> result B) b : bind m k = Ok b -> exists a, m = Ok a /\ k a = Ok b.
Proof. destruct m as [a|e]; cbn; [intros; exists a; auto|discriminate]. Qed.
Lemma foldM_inv {A St} (P : St -> Prop) (f : St -> A -> result St) l :
  (forall s a s', In a l -> P s -> f s a = Ok s' -> P s') ->
  forall s s', P s -> foldM f l s = Ok s' -> P s'.
Proof.
  induction l as [|a l IH]; intros H s s' Hs E; cbn in E; [congruence|].
  apply bind_ok in E as (s1 & E1 & E2). apply (IH (fun s0 a0 s0' Hin => H s0 a0 s0' (or_intror Hin)) s1 s'); auto.
  apply (H s a s1); auto. left; reflexivity.
Qed.
Lemma foldM_app {A St} (f : St -> A -> result St) l1 l2 s :
  foldM f (l1 ++ l2) s = bind (foldM f l1 s) (foldM f l2).
Proof.
  revert s. induction l1 as [|a l IH]; intros s; [reflexivity|]. cbn. destruct (f s a); cbn; [apply IH|reflexivity].
Qed.
(** Two loops in lock step. *)
Lemma foldM_rel {A S1 S2} (Rel : S1 -> S2 -> Prop) (f : S1 -> A -> result S1) (g : S2 -> A -> result S2) l :
  (forall s t a s', In a l -> Rel s t -> f s a = Ok s' -> exists t', g t a = Ok t' /\ Rel s' t') ->
  forall s t s', Rel s t -> foldM f l s = Ok s' -> exists t', foldM g l t = Ok t' /\ Rel s' t'.
Proof.
  induction l as [|a l IH]; intros H s t s' Hs E; cbn in E.
  - injection E as <-. exists t. split; [reflexivity|exact Hs].
  - apply bind_ok in E as (s1 & E1 & E2). destruct (H s t a s1 (or_introl eq_refl) Hs E1) as (t1 & F1 & H1).
    destruct (IH (fun s0 t0 a0 s0' Hin => H s0 t0 a0 s0' (or_intror Hin)) s1 t1 s' H1 E2) as (t' & F2 & H2).
    exists t'. split; [cbn; rewrite F1; exact F2|exact H2].
Qed.
Lemma mapM_ok_length {A B} (f : A -> result B) l l' : mapM f l = Ok l' -> length l' = length l.
Proof.
  revert l'. induction l as [|a l IH]; intros l' H; cbn in H; [injection H as <-; reflexivity|].
  apply bind_ok in H as (b & _ & H). apply bind_ok in H as (bs & H1 & H2). injection H2 as <-. cbn. f_equal. auto.
Qed.
Lemma mapM_ok_nth {A B} (f : A -> result B) l l' i a : mapM f l = Ok l' -> nth_error l i = Some a ->
  exists b, nth_error l' i = Some b /\ f a = Ok b.
Proof.
  revert l' i. induction l as [|x l IH]; intros l' i H Hi; cbn in H; [destruct i; discriminate|].
  apply bind_ok in H as (b & Hb & H). apply bind_ok in H as (bs & H1 & H2). injection H2 as <-.
  destruct i as [|i]; cbn in *; [injection Hi as ->; exists b; auto|apply (IH bs); auto].
Qed.
Lemma mapM_Forall {A B} (P : B -> Prop) (f : A -> result B) l l' : mapM f l = Ok l' ->
  (forall a b, In a l -> f a = Ok b -> P b) -> Forall P l'.
Proof.
  revert l'. induction l as [|x l IH]; intros l' H HP; cbn in H; [injection H as <-; constructor|].
  apply bind_ok in H as (b & Hb & H). apply bind_ok in H as (bs & H1 & H2). injection H2 as <-.
  constructor; [apply (HP x); [left; reflexivity|exact Hb]|apply IH; auto]. intros a b' Ha. apply HP. right; exact Ha.
Qed.

(** ** Lists *)
Lemma upd_len {A} (l : list A) i x : length (upd l i x) = length l.
Proof. revert i. induction l as [|a l IH]; intros [|i]; cbn; auto. Qed.
Lemma nth_upd {A} (l : list A) i j x d : nth j (upd l i x) d =
  if (Nat.eqb i j && Nat.ltb i (length l))%bool then x else nth j l d.
Proof.
  revert i j. induction l as [|a l IH]; intros i j.
  - cbn. replace (Nat.ltb i 0) with false by (symmetry; apply Nat.ltb_ge; lia). rewrite andb_false_r. destruct j; reflexivity.
  - destruct i as [|i], j as [|j]; cbn [upd nth length].
    + reflexivity.
    + reflexivity.
    + reflexivity.
    + rewrite IH. reflexivity.
Qed.
Lemma nth_error_upd {A} (l : list A) i j x : nth_error (upd l i x) j =
  if (Nat.eqb i j && Nat.ltb i (length l))%bool then Some x else nth_error l j.
Proof.
  revert i j. induction l as [|a l IH]; intros i j.
  - cbn. replace (Nat.ltb i 0) with false by (symmetry; apply Nat.ltb_ge; lia). rewrite andb_false_r. destruct j; reflexivity.
  - destruct i as [|i], j as [|j]; cbn [upd nth_error length]; try reflexivity. rewrite IH. reflexivity.
Qed.
Lemma cy_index_ok {A} (l : list A) i x : cy_index l i = Ok x -> (0 <= i < Z.of_nat (length l))%Z /\ nth_error l (Z.to_nat i) = Some x.
Proof.
  unfold cy_index. destruct (Z.leb_spec 0 i); [|discriminate]. destruct (Z.ltb_spec i (Z.of_nat (length l))); [|discriminate].
  cbn. destruct (nth_error l (Z.to_nat i)) as [y|] eqn:E; [|discriminate]. cbn. intros H1; injection H1 as ->. auto.
Qed.
Lemma cy_index_get {A} (l : list A) i d : (0 <= i < Z.of_nat (length l))%Z -> cy_index l i = Ok (nth (Z.to_nat i) l d).
Proof.
  intros H. unfold cy_index. destruct (Z.leb_spec 0 i); [|lia]. destruct (Z.ltb_spec i (Z.of_nat (length l))); [|lia].
  cbn. rewrite (nth_error_nth' l d) by lia. reflexivity.
Qed.
Lemma cy_upd_ok {A} (l : list A) i x l' : cy_upd l i x = Ok l' -> (0 <= i < Z.of_nat (length l))%Z /\ l' = upd l (Z.to_nat i) x.
Proof.
  unfold cy_upd. destruct (Z.leb_spec 0 i); [|discriminate]. destruct (Z.ltb_spec i (Z.of_nat (length l))); [|discriminate].
  cbn. intros E; injection E as <-. auto.
Qed.
Lemma cy_upd_get {A} (l : list A) i x : (0 <= i < Z.of_nat (length l))%Z -> cy_upd l i x = Ok (upd l (Z.to_nat i) x).
Proof.
  intros H. unfold cy_upd. destruct (Z.leb_spec 0 i); [|lia]. destruct (Z.ltb_spec i (Z.of_nat (length l))); [|lia]. reflexivity.
Qed.
Lemma nth_map_d {A B} (f : A -> B) l i d d' : (i < length l)%nat -> nth i (map f l) d = f (nth i l d').
Proof. intros H. rewrite (nth_indep _ d (f d')) by (rewrite map_length; exact H). apply map_nth. Qed.

Section Frame.
Context {F : Type} {num : Num F}.
Implicit Types (im : image F) (r : roe F) (col : list F).

(** ** One column: length, rows that receive nothing, and sign. *)
Record column_ok (r : roe F) (window : list Z) (col col' : list F) : Prop := {
  co_length : length col' = length col;
  co_frame : forall i, ~ receives r window i -> nth i col' n0 = nth i col n0;
  co_sign : (n0 <? n0)%num = false -> forall i, (nth i col n0 <? n0)%num = false ->
            (nth i col' n0 <? n0)%num = false
}.
Lemma column_ok_refl r window col : column_ok r window col col.
Proof. split; auto. Qed.
Lemma column_ok_trans r window c1 c2 c3 : column_ok r window c1 c2 -> column_ok r window c2 c3 -> column_ok r window c1 c3.
Proof.
  intros [A1 A2 A3] [B1 B2 B3]. split.
  - congruence.
  - intros i Hi. rewrite B2, A2 by exact Hi. reflexivity.
  - intros Hz i H. apply B3; auto.
Qed.

Lemma write_back_ok r window row net mult t col col' : In row window -> releases_to r (fst t) ->
  write_back col row net mult t = Ok col' -> column_ok r window col col'.
Proof.
  intros Hrow Hrel H. destruct t as [d frac]. cbn [fst] in Hrel. unfold write_back in H.
  apply bind_ok in H as (old & _ & H). apply cy_upd_ok in H as [Hb ->]. split.
  - apply upd_len.
  - intros i Hi. rewrite nth_upd. destruct (Nat.eqb_spec (Z.to_nat (row + d)) i) as [E|E]; [|reflexivity].
    exfalso. apply Hi. exists row, d. split; [exact Hrow|]. split; [exact Hrel|lia].
  - intros Hz i H. rewrite nth_upd. destruct (_ && _)%bool; [|exact H].
    destruct (nltb (old + net * frac * mult) n0)%num eqn:E; [exact Hz|exact E].
Qed.

Lemma clock_one_phase_ok c r window dwell step rps row mult st phase st' : In row window ->
  nth_error (roe_clock_sequence r) step = Some rps ->
  clock_one_phase c dwell rps row mult st phase = Ok st' -> column_ok r window (fst st) (fst st').
Proof.
  intros Hrow Hrps H. destruct st as [column data]. unfold clock_one_phase in H.
  apply bind_ok in H as (rp & Hrp & H). destruct (nth_error rps phase) as [rp'|] eqn:Erp; [|discriminate].
  cbn in Hrp. injection Hrp as ->.
  apply bind_ok in H as (charge & _ & H). apply bind_ok in H as (groups & _ & H).
  apply bind_ok in H as ([net groups'] & _ & H).
  destruct (mult =? n0)%num; [injection H as <-; apply column_ok_refl|].
  apply bind_ok in H as (column' & H & H'). injection H' as <-. cbn [fst].
  apply (foldM_inv (fun col' => column_ok r window column col')) in H; [exact H| |apply column_ok_refl].
  intros s [d frac] s' Hin Hs Hw. eapply column_ok_trans; [exact Hs|].
  eapply write_back_ok; [exact Hrow| |exact Hw]. cbn [fst]. apply in_combine_l in Hin.
  exists step, rps, rp. split; [exact Hrps|]. split; [eapply nth_error_In; exact Erp|exact Hin].
Qed.

Lemma clock_one_row_ok c r window row mult st st' : In row window ->
  clock_one_row c r row mult st = Ok st' -> column_ok r window (fst st) (fst st').
Proof.
  intros Hrow H. unfold clock_one_row in H.
  apply (foldM_inv (fun st' => column_ok r window (fst st) (fst st'))) in H; [exact H| |apply column_ok_refl].
  intros s [step dwell] s' _ Hs Hf.
  apply (foldM_inv (fun st' => column_ok r window (fst st) (fst st'))) in Hf; [exact Hf| |exact Hs].
  intros s1 phase s1' _ Hs1 Hp. apply bind_ok in Hp as (rps & Hr & Hp).
  destruct (nth_error (roe_clock_sequence r) step) as [rps'|] eqn:E; [|discriminate]. cbn in Hr. injection Hr as ->.
  eapply column_ok_trans; [exact Hs1|]. eapply clock_one_phase_ok; eauto.
Qed.

Lemma clock_cell_ok c r window st cell st' :
  clock_cell c r window st cell = Ok st' -> column_ok r window (fst st) (fst st').
Proof.
  destruct st as [column a], cell as [ri [[mult monitor] save]]. unfold clock_cell. destruct monitor; cbn [negb].
  2: { intros H; injection H as <-. apply column_ok_refl. }
  intros H. apply bind_ok in H as ([column' data'] & H & H'). injection H' as <-. cbn [fst].
  destruct (nth_error window ri) as [row|] eqn:E.
  - apply (clock_one_row_ok c r window row mult) in H; [exact H|eapply nth_error_In; eauto].
  - destruct (steps_with_dwell r), (phases_with_traps c); try discriminate; injection H as <- <-; apply column_ok_refl.
Qed.

Lemma clock_column_ok c r window passes st st' :
  clock_column c r window passes st = Ok st' -> column_ok r window (fst st) (fst st').
Proof.
  unfold clock_column. intros H.
  apply (foldM_inv (fun st' => column_ok r window (fst st) (fst st'))) in H; [exact H| |apply column_ok_refl].
  intros s cells s' _ Hs H1. unfold clock_pass_rows in H1.
  apply (foldM_inv (fun st' => column_ok r window (fst st) (fst st'))) in H1; [exact H1| |exact Hs].
  intros s1 cell s1' _ Hs1 H2. eapply column_ok_trans; [exact Hs1|]. eapply clock_cell_ok; eauto.
Qed.

(** ** Images and their columns *)
Lemma get_column_of im j : get_column im j = column_of im j.
Proof. reflexivity. Qed.
Lemma column_length im j : length (column_of im j) = length im.
Proof. apply map_length. Qed.
Lemma column_nth (im : image F) i j : nth i (column_of im j) n0 = pixel im i j.
Proof.
  unfold column_of, pixel. destruct (lt_dec i (length im)) as [H|H].
  - apply (nth_map_d (fun row => nth j row n0) im i n0 []). exact H.
  - rewrite nth_overflow by (rewrite map_length; lia). rewrite (nth_overflow im) by lia. destruct j; reflexivity.
Qed.
Lemma shape_row rows cols (im : image F) i : shape rows cols im -> (i < rows)%nat -> length (nth i im []) = cols.
Proof.
  intros [H1 H2] Hi. rewrite Forall_forall in H2. apply H2, nth_In. lia.
Qed.
Lemma shape_n_columns rows cols (im : image F) : shape rows cols im -> (0 < rows)%nat -> n_columns im = cols.
Proof. intros [H1 H2] Hr. destruct im as [|row im]; [cbn in H1; lia|]. inversion H2; assumption. Qed.
Lemma pixel_out rows cols (im : image F) i j : shape rows cols im -> ~ (i < rows /\ j < cols)%nat -> pixel im i j = n0.
Proof.
  intros Hs H. unfold pixel. destruct (lt_dec i rows) as [Hi|Hi].
  - apply nth_overflow. rewrite (shape_row rows cols im i Hs Hi). lia.
  - rewrite (nth_overflow im); [destruct j; reflexivity|destruct Hs; lia].
Qed.
Lemma image_ext rows cols (a b : image F) : shape rows cols a -> shape rows cols b ->
  (forall i j, (i < rows)%nat -> (j < cols)%nat -> pixel a i j = pixel b i j) -> a = b.
Proof.
  intros Ha Hb H. apply (nth_ext _ _ [] []); [destruct Ha, Hb; lia|]. intros i Hi.
  assert (Hi' : (i < rows)%nat) by (destruct Ha; lia).
  apply (nth_ext _ _ n0 n0); [rewrite (shape_row rows cols a), (shape_row rows cols b); auto|].
  intros j Hj. rewrite (shape_row rows cols a) in Hj by auto. apply H; auto.
Qed.

Lemma set_column_shape rows cols im j col : shape rows cols im -> length col = rows -> shape rows cols (set_column im j col).
Proof.
  intros [H1 H2] Hc. unfold set_column. split; [rewrite map_length, combine_length; lia|].
  apply Forall_forall. intros row Hr. apply in_map_iff in Hr as ([r0 x] & <- & Hr). rewrite upd_len.
  apply in_combine_l in Hr. rewrite Forall_forall in H2. apply H2, Hr.
Qed.
Lemma set_column_pixel rows cols im j col i k : shape rows cols im -> length col = rows -> (i < rows)%nat -> (k < cols)%nat ->
  pixel (set_column im j col) i k = if Nat.eqb j k then nth i col n0 else pixel im i k.
Proof.
  intros Hs Hc Hi Hk. unfold pixel, set_column.
  rewrite (nth_map_d _ _ i [] ([], n0)) by (rewrite combine_length; destruct Hs; lia).
  rewrite combine_nth by (destruct Hs; lia). rewrite nth_upd. rewrite (shape_row rows cols im i Hs Hi).
  destruct (Nat.eqb_spec j k) as [->|E]; cbn [andb]; [|reflexivity].
  destruct (Nat.ltb_spec k cols); [reflexivity|lia].
Qed.
Lemma set_column_same rows cols im j col : shape rows cols im -> length col = rows -> (j < cols)%nat ->
  column_of (set_column im j col) j = col.
Proof.
  intros Hs Hc Hj. apply (nth_ext _ _ n0 n0).
  - rewrite column_length. destruct (set_column_shape rows cols im j col Hs Hc). lia.
  - intros i Hi. rewrite column_length in Hi. destruct (set_column_shape rows cols im j col Hs Hc) as [H1 _].
    rewrite column_nth, (set_column_pixel rows cols) by (auto; lia). rewrite Nat.eqb_refl. reflexivity.
Qed.
Lemma set_column_other rows cols im j col k : shape rows cols im -> length col = rows -> (k < cols)%nat -> j <> k ->
  column_of (set_column im j col) k = column_of im k.
Proof.
  intros Hs Hc Hk Hne. apply (nth_ext _ _ n0 n0).
  - rewrite !column_length. destruct (set_column_shape rows cols im j col Hs Hc), Hs. lia.
  - intros i Hi. rewrite column_length in Hi. destruct (set_column_shape rows cols im j col Hs Hc) as [H1 _].
    rewrite !column_nth, (set_column_pixel rows cols) by (auto; lia). destruct (Nat.eqb_spec j k); [contradiction|reflexivity].
Qed.

Lemma pad_shape rows cols im n : shape rows cols im -> (0 < rows)%nat -> shape (rows + n) cols (pad im n).
Proof.
  intros Hs Hr. unfold pad. rewrite (shape_n_columns rows cols im Hs Hr). destruct Hs as [H1 H2].
  split; [rewrite app_length, repeat_length; lia|]. apply Forall_app. split; [exact H2|].
  apply Forall_forall. intros x Hx. apply repeat_spec in Hx. subst. apply repeat_length.
Qed.
Lemma nth_repeat_d {A} (x : A) n i d : (i < n)%nat -> nth i (repeat x n) d = x.
Proof. revert i. induction n as [|n IH]; intros [|i] H; cbn; try lia; auto. apply IH. lia. Qed.
Lemma pad_pixel rows cols im n i j : shape rows cols im -> (0 < rows)%nat ->
  pixel (pad im n) i j = pixel im i j.
Proof.
  intros Hs Hr. unfold pad, pixel. destruct (lt_dec i (length im)) as [H|H].
  - rewrite app_nth1 by exact H. reflexivity.
  - rewrite app_nth2 by lia. rewrite (nth_overflow im) by lia.
    destruct (lt_dec (i - length im) n) as [H'|H'].
    + rewrite nth_repeat_d by exact H'. 
      destruct (lt_dec j (n_columns im)); [rewrite nth_repeat_d by assumption|rewrite nth_overflow by (rewrite repeat_length; lia)]; destruct j; reflexivity.
    + rewrite (nth_overflow (repeat _ n)) by (rewrite repeat_length; lia). destruct j; reflexivity.
Qed.
Lemma unpad_shape rows cols im n : shape (rows + n) cols im -> shape rows cols (unpad im n).
Proof.
  intros [H1 H2]. unfold unpad. split; [rewrite firstn_length; lia|].
  apply Forall_forall. intros x Hx. rewrite Forall_forall in H2. apply H2. 
  rewrite <- (firstn_skipn (length im - n) im). apply in_or_app. left; exact Hx.
Qed.
Lemma unpad_pixel rows cols im n i j : shape (rows + n) cols im -> (i < rows)%nat -> pixel (unpad im n) i j = pixel im i j.
Proof.
  intros [H1 H2] Hi. unfold unpad, pixel. f_equal. rewrite H1.
  replace (rows + n - n)%nat with rows by lia. 
  rewrite <- (firstn_skipn rows im) at 2. rewrite app_nth1 by (rewrite firstn_length; lia). reflexivity.
Qed.

(** ** The image level *)
Record image_ok (r : roe F) (window columns : list Z) (rows cols : nat) (im im' : image F) : Prop := {
  io_shape : shape rows cols im';
  io_columns : forall i j, ~ In (Z.of_nat j) columns -> pixel im' i j = pixel im i j;
  io_rows : forall i j, ~ receives r window i -> pixel im' i j = pixel im i j;
  io_sign : (n0 <? n0)%num = false -> forall i j, (pixel im i j <? n0)%num = false -> (pixel im' i j <? n0)%num = false
}.
Lemma clock_columns_ok c r window columns passes rows cols im a im' a' : shape rows cols im -> (0 < rows)%nat ->
  clock_columns c r window columns passes (im, a) = Ok (im', a') -> image_ok r window columns rows cols im im'.
Proof.
  intros Hs Hr H. unfold clock_columns in H.
  apply (foldM_inv (fun st => image_ok r window columns rows cols im (fst st))) in H; [exact H| |split; auto].
  clear H im' a'. intros [im1 a1] j [im2 a2] Hj [S1 C1 R1 G1] H. cbn [fst] in *. unfold clock_one_column in H.
  destruct ((0 <=? j) && (j <? Z.of_nat (n_columns im1)))%Z eqn:Ej; [|discriminate].
  apply andb_prop in Ej as [Ej1 Ej2]. apply Z.leb_le in Ej1. apply Z.ltb_lt in Ej2.
  rewrite (shape_n_columns rows cols im1 S1 Hr) in Ej2.
  apply bind_ok in H as ([col1 a1'] & H & H'). injection H' as <- <-.
  apply clock_column_ok in H. cbn [fst] in H. destruct H as [L1 L2 L3].
  change (get_column im1 (Z.to_nat j)) with (column_of im1 (Z.to_nat j)) in *.
  rewrite column_length in L1. assert (Hl : length col1 = rows) by (destruct S1; lia).
  pose proof (set_column_shape rows cols im1 (Z.to_nat j) col1 S1 Hl) as S2.
  assert (G : forall i k, pixel (set_column im1 (Z.to_nat j) col1) i k = if (Nat.eqb (Z.to_nat j) k && Nat.ltb i rows)%bool then nth i col1 n0 else pixel im1 i k).
  { intros i k. destruct (lt_dec i rows) as [Hi|Hi].
    - destruct (lt_dec k cols) as [Hk|Hk].
      + rewrite (set_column_pixel rows cols) by auto. destruct (Nat.ltb_spec i rows); [|lia]. rewrite andb_true_r. reflexivity.
      + rewrite (pixel_out rows cols _ i k S2) by lia. rewrite (pixel_out rows cols im1 i k S1) by lia.
        destruct (Nat.eqb_spec (Z.to_nat j) k); [lia|reflexivity].
    - rewrite (pixel_out rows cols _ i k S2) by lia. rewrite (pixel_out rows cols im1 i k S1) by lia.
      destruct (Nat.ltb_spec i rows); [lia|]. rewrite andb_false_r. reflexivity. }
  split.
  - exact S2.
  - intros i k Hk. rewrite G. destruct (Nat.eqb_spec (Z.to_nat j) k) as [E|E]; [|apply C1; exact Hk].
    exfalso. apply Hk. rewrite <- E, Z2Nat.id by lia. exact Hj.
  - intros i k Hi. rewrite G. destruct (_ && _)%bool eqn:E; [|apply R1; exact Hi].
    apply andb_prop in E as [E _]. apply Nat.eqb_eq in E. rewrite L2 by exact Hi. rewrite column_nth, E. apply R1; exact Hi.
  - intros Hz i k Hn. specialize (G1 Hz i k Hn). rewrite G. destruct (_ && _)%bool eqn:E; [|exact G1].
    apply andb_prop in E as [E _]. apply Nat.eqb_eq in E.
    apply L3; [exact Hz|]. rewrite column_nth, E. exact G1.
Qed.

Lemma express_same_clock r window express offset tw r' em mon :
  express_and_monitor r window express offset tw = Ok (r', em, mon) ->
  roe_clock_sequence r' = roe_clock_sequence r /\ roe_pixels r' = roe_pixels r /\
  roe_dwell_times r' = roe_dwell_times r /\ roe_empty_between r' = roe_empty_between r.
Proof.
  unfold express_and_monitor. destruct (roe_kind_of r); intros H; apply bind_ok in H as (x & _ & H).
  - destruct x as [em' mon']. injection H as <- <- <-. auto.
  - destruct x as [[n em'] mon']. injection H as <- <- <-. auto.
  - destruct x as [em' mon']. injection H as <- <- <-. auto.
Qed.
Lemma receives_same r r' window i : roe_clock_sequence r' = roe_clock_sequence r -> receives r' window i -> receives r window i.
Proof. unfold receives, releases_to. intros ->. auto. Qed.

Lemma clocking_ok im c r traps express offset window columns tw im' r' rows cols :
  shape rows cols im -> (0 < rows)%nat ->
  clock_charge_in_one_direction im c r traps express offset window columns tw = Ok (im', r') ->
  image_ok r window columns rows cols im im'.
Proof.
  intros Hs Hr H. unfold clock_charge_in_one_direction in H.
  apply bind_ok in H as ([[r1 em] mon] & He & H). apply bind_ok in H as (sav & _ & H).
  apply bind_ok in H as (a & _ & H). apply bind_ok in H as (n & _ & H).
  apply bind_ok in H as ([im1 a1] & H & H'). injection H' as <- <-.
  apply express_same_clock in He as (Ec & _).
  apply (clock_columns_ok c r1 window columns _ (rows + n) cols) in H; [|apply pad_shape; auto|lia].
  destruct H as [S1 C1 R1 G1]. pose proof (unpad_shape rows cols im1 n S1) as S2.
  assert (G : forall i j, pixel (unpad im1 n) i j = if Nat.ltb i rows then pixel im1 i j else n0).
  { intros i j. destruct (Nat.ltb_spec i rows); [apply (unpad_pixel rows cols); auto|apply (pixel_out rows cols); auto; lia]. }
  assert (G0 : forall i j, ~ (i < rows)%nat -> pixel im i j = n0) by (intros; apply (pixel_out rows cols); auto; lia).
  split.
  - exact S2.
  - intros i j Hj. rewrite G. destruct (Nat.ltb_spec i rows); [|symmetry; apply G0; lia].
    rewrite C1 by exact Hj. apply (pad_pixel rows cols); auto.
  - intros i j Hi. rewrite G. destruct (Nat.ltb_spec i rows); [|symmetry; apply G0; lia].
    rewrite R1; [apply (pad_pixel rows cols); auto|]. intros Hx. apply Hi. eapply receives_same; eauto.
  - intros Hz i j Hn. rewrite G. destruct (Nat.ltb_spec i rows); [|exact Hz].
    apply G1; [exact Hz|]. rewrite (pad_pixel rows cols) by auto. exact Hn.
Qed.
End Frame.
