(** * Facts about add_cti (main.py) that hold for every kind of number, trap and setting. *)
From Coq Require Import ZArith List Bool Lia.
From Verif Require Import Num Py CCDModel TrapsModel ManagerModel ROEModel ClockModel MainModel SpecImage ClockFacts.
Import ListNotations.

Lemma in_py_range a b x : In x (py_range a b) <-> (a <= x < b)%Z.
Proof.
  unfold py_range. rewrite in_map_iff. split.
  - intros (k & <- & Hk). apply in_seq in Hk. lia.
  - intros H. exists (Z.to_nat (x - a)). split; [lia|]. apply in_seq. lia.
Qed.
Lemma py_range_0 n : py_range 0 (Z.of_nat n) = map Z.of_nat (seq 0 n).
Proof. unfold py_range. replace (Z.to_nat (Z.of_nat n - 0)) with n by lia. apply map_ext. intros; lia. Qed.

Section Main.
Context {F : Type} {num : Num F}.
Implicit Types (im : image F) (r : roe F) (d : direction F).

Lemma resolve_selected w n : resolve_window w n = selected w n.
Proof.
  destruct w as [|i|l]; cbn; [apply py_range_0| |reflexivity].
  unfold py_range. replace (Z.to_nat (i + 1 - i)) with 1%nat by lia. cbn. f_equal. lia.
Qed.

(** ** Transposition *)
Lemma transpose_shape rows cols im : shape rows cols im -> (0 < rows)%nat -> shape cols rows (transpose im).
Proof.
  intros Hs Hr. unfold transpose. rewrite (shape_n_columns rows cols im Hs Hr). split; [rewrite map_length, seq_length; reflexivity|].
  apply Forall_forall. intros x Hx. apply in_map_iff in Hx as (j & <- & _). rewrite map_length. apply Hs.
Qed.
Lemma transpose_pixel rows cols im i j : shape rows cols im -> (0 < rows)%nat -> (i < cols)%nat ->
  pixel (transpose im) i j = pixel im j i.
Proof.
  intros Hs Hr Hi. unfold transpose. rewrite (shape_n_columns rows cols im Hs Hr). unfold pixel at 1.
  rewrite (nth_map_d _ _ i [] 0%nat) by (rewrite seq_length; exact Hi). rewrite seq_nth by exact Hi.
  apply (column_nth im j i).
Qed.
Lemma transpose_pixel_all rows cols im i j : shape rows cols im -> (0 < rows)%nat ->
  pixel (transpose im) i j = pixel im j i.
Proof.
  intros Hs Hr. destruct (lt_dec i cols) as [H|H]; [apply (transpose_pixel rows cols); auto|].
  rewrite (pixel_out cols rows) by (try apply transpose_shape; auto; lia).
  symmetry. apply (pixel_out rows cols); auto. lia.
Qed.
Lemma transpose_twice rows cols im : shape rows cols im -> (0 < rows)%nat -> (0 < cols)%nat ->
  transpose (transpose im) = im.
Proof.
  intros Hs Hr Hc. pose proof (transpose_shape rows cols im Hs Hr) as Ht.
  pose proof (transpose_shape cols rows (transpose im) Ht Hc) as Htt.
  apply (image_ext rows cols); auto. intros i j Hi Hj.
  rewrite (transpose_pixel cols rows) by auto. apply (transpose_pixel rows cols); auto.
Qed.
Lemma column_transpose rows cols im j : shape rows cols im -> (0 < rows)%nat -> (j < rows)%nat ->
  column_of (transpose im) j = nth j im [].
Proof.
  intros Hs Hr Hj. pose proof (transpose_shape rows cols im Hs Hr) as Ht. apply (nth_ext _ _ n0 n0).
  - rewrite column_length. destruct Ht as [-> _]. symmetry. apply (shape_row rows cols); auto.
  - intros i Hi. rewrite column_length in Hi. destruct Ht as [Ht _]. rewrite column_nth.
    rewrite (transpose_pixel rows cols) by (auto; lia). reflexivity.
Qed.

(** ** add_cti *)
Lemma clock_direction_ok im d r traps window columns tw im' r' rows cols :
  shape rows cols im -> (0 < rows)%nat ->
  clock_direction im d r traps window columns tw = Ok (im', r') -> image_ok r window columns rows cols im im'.
Proof.
  intros Hs Hr H. unfold clock_direction in H. destruct (d_ccd d) as [c|].
  - eapply clocking_ok; eauto.
  - apply bind_ok in H as ([[? ?] ?] & _ & H). apply bind_ok in H as (? & _ & H). discriminate.
Qed.

(** The two halves of add_cti. *)
Lemma add_cti_halves im parallel serial tw im' pr sr : add_cti im parallel serial tw = Ok (im', pr, sr) ->
  exists tw' columns im1,
    resolve_time_window tw (selected (d_window parallel) (length im)) (length im) (d_offset parallel) = Ok (tw', columns) /\
    match d_traps parallel with
    | None => im1 = im /\ pr = the_roe parallel
    | Some traps => clock_direction im parallel (the_roe parallel) traps (selected (d_window parallel) (length im))
                      (selected (d_window serial) (n_columns im)) (Some tw') = Ok (im1, pr)
    end /\
    match d_traps serial with
    | None => im' = im1 /\ sr = the_roe serial
    | Some traps => exists im2, clock_direction (transpose im1) serial (the_roe serial) traps
                      (selected (d_window serial) (n_columns im)) columns None = Ok (im2, sr) /\ im' = transpose im2
    end.
Proof.
  unfold add_cti. rewrite !resolve_selected. intros H. apply bind_ok in H as ([tw' columns] & Ht & H).
  apply bind_ok in H as ([im1 pr1] & H1 & H). apply bind_ok in H as ([im2 sr1] & H2 & H). injection H as <- <- <-.
  exists tw', columns, im1. split; [exact Ht|]. split.
  - destruct (d_traps parallel); [exact H1|injection H1 as <- <-; auto].
  - destruct (d_traps serial); [|injection H2 as <- <-; auto].
    apply bind_ok in H2 as ([im3 r3] & H3 & H4). injection H4 as <- <-. exists im3. auto.
Qed.

Lemma add_cti_shape_sign im parallel serial tw im' pr sr rows cols :
  shape rows cols im -> (0 < rows)%nat -> (0 < cols)%nat ->
  add_cti im parallel serial tw = Ok (im', pr, sr) ->
  shape rows cols im' /\ ((n0 <? n0)%num = false -> forall i j, (pixel im i j <? n0)%num = false -> (pixel im' i j <? n0)%num = false).
Proof.
  intros Hs Hr Hc H. apply add_cti_halves in H as (tw' & columns & im1 & _ & H1 & H2).
  assert (G1 : shape rows cols im1 /\ ((n0 <? n0)%num = false -> forall i j, (pixel im i j <? n0)%num = false -> (pixel im1 i j <? n0)%num = false)).
  { destruct (d_traps parallel); [|destruct H1 as [-> _]; auto].
    apply (clock_direction_ok _ _ _ _ _ _ _ _ _ rows cols) in H1 as [S1 _ _ N1]; auto. }
  destruct G1 as [S1 N1]. destruct (d_traps serial); [|destruct H2 as [-> _]; auto].
  destruct H2 as (im2 & H2 & ->). pose proof (transpose_shape rows cols im1 S1 Hr) as ST.
  apply (clock_direction_ok _ _ _ _ _ _ _ _ _ cols rows) in H2 as [S2 _ _ N2]; auto.
  split; [apply (transpose_shape cols rows); auto|]. intros Hz i j Hn.
  rewrite (transpose_pixel_all cols rows) by auto. apply N2; [exact Hz|].
  rewrite (transpose_pixel_all rows cols) by auto. apply N1; auto.
Qed.

Lemma add_cti_frame im parallel serial im' pr sr rows cols i j :
  shape rows cols im -> (0 < rows)%nat -> (0 < cols)%nat ->
  add_cti im parallel serial None = Ok (im', pr, sr) ->
  (d_traps parallel = None \/ ~ In (Z.of_nat j) (selected (d_window serial) cols) \/
   ~ receives (the_roe parallel) (selected (d_window parallel) rows) i) ->
  (d_traps serial = None \/ ~ In (Z.of_nat i) (selected (d_window parallel) rows) \/
   ~ receives (the_roe serial) (selected (d_window serial) cols) j) ->
  pixel im' i j = pixel im i j.
Proof.
  intros Hs Hr Hc H Hp Hq. apply add_cti_halves in H as (tw' & columns & im1 & Ht & H1 & H2).
  rewrite (shape_n_columns rows cols im Hs Hr) in H1, H2. pose proof Hs as [Hl _]. rewrite Hl in *.
  cbn [resolve_time_window] in Ht. injection Ht as <- <-.
  assert (G1 : shape rows cols im1 /\ pixel im1 i j = pixel im i j).
  { destruct (d_traps parallel) as [traps|]; [|destruct H1 as [-> _]; auto].
    apply (clock_direction_ok _ _ _ _ _ _ _ _ _ rows cols) in H1 as [S1 C1 R1 _]; auto.
    split; [exact S1|]. destruct Hp as [Hp|[Hp|Hp]]; [discriminate|apply C1; exact Hp|apply R1; exact Hp]. }
  destruct G1 as [S1 <-]. destruct (d_traps serial) as [traps|]; [|destruct H2 as [-> _]; reflexivity].
  destruct H2 as (im2 & H2 & ->). pose proof (transpose_shape rows cols im1 S1 Hr) as ST.
  apply (clock_direction_ok _ _ _ _ _ _ _ _ _ cols rows) in H2 as [S2 C2 R2 _]; auto.
  rewrite (transpose_pixel_all cols rows) by auto.
  transitivity (pixel (transpose im1) j i); [|apply (transpose_pixel_all rows cols); auto].
  destruct Hq as [Hq|[Hq|Hq]]; [discriminate|apply C2; exact Hq|apply R2; exact Hq].
Qed.
End Main.
