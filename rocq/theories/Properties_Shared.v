(** * Property C99: traps that keep their charge from one column to the next
    (empty_traps_between_columns = False, roe.py:373-378, main_utils.pyx:253-257). *)
From Coq Require Import ZArith List Bool Reals Lra Lia.
From Verif Require Import Num Py RFacts CCDModel TrapsModel ManagerModel ROEModel ClockModel MainModel Spec SpecImage SpecReadout SpecColumn SpecShared
  ClockFacts ReadoutExamples ZeroCaptureExample SharedFacts SharedExample.
Import ListNotations.

(** C99: what a column becomes does not depend on the columns that are read out after it,
    whatever the trap types, readout modes, windows and numbers are. *)
Theorem C99_later_columns_do_not_matter {F} {num : Num F} (im1 im2 : image F) parallel serial tw im1' im2' pr1 sr1 pr2 sr2 rows cols js1 js2 :
  shape rows cols im1 -> shape rows cols im2 -> (0 < rows)%nat -> d_traps serial = None ->
  selected (d_window serial) cols = js1 ++ js2 -> NoDup (js1 ++ js2) -> (forall j, In (Z.of_nat j) js1 -> column_of im1 j = column_of im2 j) ->
  add_cti im1 parallel serial tw = Ok (im1', pr1, sr1) -> add_cti im2 parallel serial tw = Ok (im2', pr2, sr2) ->
  forall j, In (Z.of_nat j) js1 -> column_of im1' j = column_of im2' j.
Proof. exact (later_columns im1 im2 parallel serial tw im1' im2' pr1 sr1 pr2 sr2 rows cols js1 js2). Qed.
Print Assumptions C99_later_columns_do_not_matter.

(** C99: the first column that is read out is the same whether or not the traps are emptied
    after it, again for all of these. *)
Theorem C99_emptying_does_not_matter_to_the_first_column {F} {num : Num F} (im : image F) parallel r serial tw im1' im2' pr1 sr1 pr2 sr2 rows cols j js b1 b2 :
  shape rows cols im -> (0 < rows)%nat -> d_traps serial = None -> selected (d_window serial) cols = j :: js -> NoDup (j :: js) ->
  add_cti im (with_roe parallel (emptying b1 r)) serial tw = Ok (im1', pr1, sr1) -> add_cti im (with_roe parallel (emptying b2 r)) serial tw = Ok (im2', pr2, sr2) ->
  column_of im1' (Z.to_nat j) = column_of im2' (Z.to_nat j).
Proof. exact (first_of_the_columns im parallel r serial tw im1' im2' pr1 sr1 pr2 sr2 rows cols j js b1 b2). Qed.
Print Assumptions C99_emptying_does_not_matter_to_the_first_column.

Open Scope R_scope.
(** C99: the first column is read out past traps that are empty, each pixel's on their own,
    whether or not the traps are emptied after it. *)
Theorem C99_the_first_column im parallel serial c traps group d keep dt rows cols im' pr sr :
  shape rows cols im -> (0 < rows)%nat -> (0 < cols)%nat -> (forall i j, 0 <= pixel im i j) ->
  d_ccd parallel = Some c -> d_traps parallel = Some traps -> d_roe parallel = Some (roe_init [d] true (negb keep) true dt) -> d_window parallel = WNone ->
  d_offset parallel = 0%nat -> computes_all parallel rows -> d_traps serial = None -> d_window serial = WNone ->
  plain_ccd c -> ccd_n_phases c = 1%nat -> 0 < share c 0 -> 0 < d -> instant_group group -> groups_in traps = [group] ->
  add_cti im parallel serial None = Ok (im', pr, sr) ->
  column_of im' 0 = nth 0 (shared_readout (map (thinned (share c 0)) group) (depth (nth 0 (ccd_full_well c) 1) (nth 0 (ccd_fill_power c) 1)) d rows
    (map (column_of im) (seq 0 cols))) [].
Proof.
  intros Hs Hr Hc Hp Ec Et Er Ew Eo Ha Sn Sw Pc P1 Hsh Hd Hg Eg E.
  rewrite (first_column im parallel serial c traps group d keep dt rows cols im' pr sr) by assumption. rewrite Eo.
  destruct cols as [|cols]; [lia|]. cbn [seq map]. symmetry. apply shared_first. unfold column_of. rewrite map_length. apply Hs.
Qed.
Print Assumptions C99_the_first_column.

(** The next columns are not: every pixel of a column starts from the traps of the pixel that
    was read out last, not from its own.  Two columns, one electron at (1, 0): the trail at
    (0, 1) is 3/32, where the charge left by the first column in that pixel's traps gives 3/16. *)
Theorem C99_each_pixel_keeps_its_own_traps_refuted : let d := keeps (ln 2) (1 / 2) in
  exists im im', shape 2 2 im /\ (forall i j, 0 <= pixel im i j) /\ add_cti im d no_direction None = Ok (im', the_roe d, the_roe no_direction) /\
    pixel im' 0 1 = 3 / 32 /\
    nth 0 (nth 1 (shared_readout half small_well (ln 2) 2 (map (column_of im) (seq 0 2))) []) 0 = 3 / 16.
Proof.
  intros d. destruct square_readout as (im' & E & H). exists square, im'. split; [split; [reflexivity|repeat constructor]|].
  split; [intros [|[|[|i]]] [|[|[|[|j]]]]; cbn; lra|]. split; [exact E|]. split; [exact H|]. exact shared_square.
Qed.
Print Assumptions C99_each_pixel_keeps_its_own_traps_refuted.

(** A single row, where there is only one set of traps: its trail ends after the second column,
    for every number of columns, where the third still gets 15/128 of the first electron. *)
Theorem C99_the_trail_goes_on_refuted n : let d := keeps (ln 2) (1 / 2) in let im := [1 :: 0 :: 0 :: repeat 0 n] in
  add_cti im d no_direction None = Ok ([1 / 2 :: 3 / 16 :: 0 :: repeat 0 n], the_roe d, the_roe no_direction) /\
  nth 0 (nth 2 (shared_readout half small_well (ln 2) 1 (map (column_of im) (seq 0 (3 + n)))) []) 0 = 15 / 128.
Proof. intros d im. split; [exact (row_readout n)|]. exact (shared_row n). Qed.
Print Assumptions C99_the_trail_goes_on_refuted.

(** With more than one row the traps that are kept create charge, without express: the state of
    the last pixel is given to all the pixels of the next column. *)
Theorem C99_kept_traps_create_no_charge_refuted : let d := keeps (ln 4) (1 / 64) in
  exists im im', shape 2 3 im /\ (forall i j, 0 <= pixel im i j) /\ add_cti im d no_direction None = Ok (im', the_roe d, the_roe no_direction) /\ charge im < charge im'.
Proof.
  intros d. destruct wide_readout as (im' & E & H). exists wide, im'. split; [exact wide_shape|].
  split; [|split; [exact E|exact H]]. intros [|[|[|i]]] [|[|[|[|j]]]]; cbn; lra.
Qed.
Print Assumptions C99_kept_traps_create_no_charge_refuted.

(** The first column of the row above, by the theorem; and another row with the same first two
    pixels. *)
Example C99_example_first : let d := keeps (ln 2) (1 / 2) in
  nth 0 (nth 0 (shared_readout half small_well (ln 2) 1 (map (column_of [[1; 0; 0]]) (seq 0 3))) []) 0 = 1 / 2.
Proof.
  intros d. pose proof (row_readout 0) as E. cbn [repeat] in E. cbv zeta in E.
  assert (H := C99_the_first_column [[1; 0; 0]] d no_direction small_ccd (TOne (small_trap (1 / 2))) [small_trap (1 / 2)] (ln 2) true DFloat 1 3 [[1 / 2; 3 / 16; 0]] (the_roe d) (the_roe no_direction) (long_shape 0) ltac:(lia) ltac:(lia)).
  assert (G : column_of [[1 / 2; 3 / 16; 0]] 0 = nth 0 (shared_readout half small_well (ln 2) 1 (map (column_of [[1; 0; 0]]) (seq 0 3))) []).
  { refine (H _ eq_refl eq_refl eq_refl eq_refl eq_refl _ eq_refl eq_refl small_plain eq_refl _ (ln_pos 2 ltac:(lra)) (small_group (1 / 2) ltac:(lra)) eq_refl E).
    - intros [|[|[|i]]] [|[|[|[|j]]]]; cbn; lra.
    - left. reflexivity.
    - unfold share. cbn. lra. }
  rewrite <- G. reflexivity.
Qed.
Example C99_example_later im' pr sr x : add_cti [[1; 0; x]] (keeps (ln 2) (1 / 2)) no_direction None = Ok (im', pr, sr) -> pixel im' 0 0 = 1 / 2 /\ pixel im' 0 1 = 3 / 16.
Proof.
  intros E. pose proof (row_readout 0) as E0. cbn [repeat] in E0. cbv zeta in E0.
  assert (H := C99_later_columns_do_not_matter [[1; 0; x]] [[1; 0; 0]] (keeps (ln 2) (1 / 2)) no_direction None im' [[1 / 2; 3 / 16; 0]] pr sr (the_roe (keeps (ln 2) (1 / 2))) (the_roe no_direction) 1 3 [0; 1]%Z [2%Z] ltac:(split; [reflexivity|repeat constructor]) (long_shape 0) ltac:(lia) eq_refl eq_refl).
  assert (G : forall j, In (Z.of_nat j) [0; 1]%Z -> column_of im' j = column_of [[1 / 2; 3 / 16; 0]] j).
  { refine (H _ _ E E0).
    - repeat constructor; cbn; intuition lia.
    - intros j [Hj|[Hj|[]]]; [assert (j = 0%nat) as -> by lia|assert (j = 1%nat) as -> by lia]; reflexivity. }
  rewrite <- !column_nth, (G 0%nat), (G 1%nat) by (cbn; auto). split; reflexivity.
Qed.
(** The same row with the traps emptied after every column. *)
Example C99_example_emptying im' pr sr : add_cti [[1; 0; 0]] (small_direction small_roe (TOne (small_trap (1 / 2)))) no_direction None = Ok (im', pr, sr) -> pixel im' 0 0 = 1 / 2.
Proof.
  intros E. pose proof (row_readout 0) as E0. cbn [repeat] in E0. cbv zeta in E0.
  assert (G : column_of im' 0 = column_of [[1 / 2; 3 / 16; 0]] 0).
  { refine (C99_emptying_does_not_matter_to_the_first_column [[1; 0; 0]] (keeps (ln 2) (1 / 2)) small_roe no_direction None im' [[1 / 2; 3 / 16; 0]] _ _ _ _ 1 3 0 [1; 2]%Z true false (long_shape 0) _ eq_refl eq_refl _ E E0); [lia|].
    repeat constructor; cbn; intuition lia. }
  rewrite <- column_nth, G. reflexivity.
Qed.
