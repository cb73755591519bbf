(** * C100-C101: any number of phases, in both directions: order, differences and recovery. *)
From Coq Require Import ZArith List Bool Reals Lra Lia.
From Verif Require Import Num Py RFacts CCDModel TrapsModel ManagerModel ROEModel ClockModel MainModel Spec SpecImage SpecReadout SpecColumn SpecBound SpecRecovery SpecPhases
  ReadoutExamples GridFacts.
Import ListNotations.
Open Scope R_scope.

(** ** C100: more charge in gives more charge out, and two images do not drift apart. *)
Theorem C100_more_charge_in_more_charge_out a b parallel serial rows cols : (0 < rows)%nat -> (0 < cols)%nat ->
  gentle_direction parallel rows -> gentle_direction serial cols -> shape rows cols a -> shape rows cols b ->
  (forall i j, 0 <= pixel a i j) -> (forall i j, (i < rows)%nat -> (j < cols)%nat -> pixel a i j <= pixel b i j) ->
  exists a' b', add_cti a parallel serial None = Ok (a', the_roe parallel, the_roe serial) /\
    add_cti b parallel serial None = Ok (b', the_roe parallel, the_roe serial) /\
    forall i j, (i < rows)%nat -> (j < cols)%nat -> pixel a' i j <= pixel b' i j.
Proof. intros Hr Hc Hp Hs Sa Sb. exact (grid_order parallel serial rows cols Hr Hc Hp Hs a b Sa Sb). Qed.
Print Assumptions C100_more_charge_in_more_charge_out.
Theorem C100_differences_do_not_grow a b parallel serial rows cols : (0 < rows)%nat -> (0 < cols)%nat ->
  gentle_direction parallel rows -> gentle_direction serial cols -> shape rows cols a -> shape rows cols b ->
  (forall i j, 0 <= pixel a i j) -> (forall i j, 0 <= pixel b i j) ->
  exists a' b', add_cti a parallel serial None = Ok (a', the_roe parallel, the_roe serial) /\
    add_cti b parallel serial None = Ok (b', the_roe parallel, the_roe serial) /\ image_apart a' b' <= image_apart a b.
Proof. intros Hr Hc Hp Hs Sa Sb. exact (grid_apart parallel serial rows cols Hr Hc Hp Hs a b Sa Sb). Qed.
Print Assumptions C100_differences_do_not_grow.
Theorem C100_different_images_stay_different a b out pr sr pr' sr' parallel serial rows cols : (0 < rows)%nat -> (0 < cols)%nat ->
  gentle_direction parallel rows -> gentle_direction serial cols -> shape rows cols a -> shape rows cols b ->
  (forall i j, 0 <= pixel a i j) -> (forall i j, 0 <= pixel b i j) ->
  add_cti a parallel serial None = Ok (out, pr, sr) -> add_cti b parallel serial None = Ok (out, pr', sr') -> a = b.
Proof. intros Hr Hc Hp Hs Sa Sb. exact (grid_injective parallel serial rows cols Hr Hc Hp Hs a b out pr sr pr' sr' Sa Sb). Qed.
Print Assumptions C100_different_images_stay_different.

(** ** C101: remove_cti recovers the image that was read out, at a geometric rate. *)
Theorem C101_correction_recovers_the_image x parallel serial rows cols : (0 < rows)%nat -> (0 < cols)%nat ->
  gentle_direction parallel rows -> gentle_direction serial cols -> shape rows cols x ->
  enough_charge parallel serial rows cols x ->
  exists im, add_cti x parallel serial None = Ok (im, the_roe parallel, the_roe serial) /\
  exists C r, 0 <= C /\ 0 <= r < 1 /\ forall n, exists est, remove_cti im n parallel serial None = Ok est /\ shape rows cols est /\
    image_apart est x <= C * r ^ n.
Proof. intros Hr Hc Hp Hs. exact (grid_recover parallel serial rows cols Hr Hc Hp Hs x). Qed.
Print Assumptions C101_correction_recovers_the_image.

(** ** Devices and images that meet the conditions: three phases with different wells and two
    species of traps for the rows, two phases with a far-away register for the columns. *)
Definition trio_ccd : ccd R := mkCCD [1 / 2; 1 / 3; 1 / 6] 3 [100; 200; 50] [1; 2; 1] [0; 0; 0] (repeat (BList [100; 200; 50]) 3).
Definition trio_traps : traps_arg R := TFlat [small_trap (1 / 10); small_trap (1 / 5)].
Definition trio_direction : direction R := mkDir (Some trio_ccd) (Some (roe_init [1; 2; 1 / 2] true true true DFloat)) (Some trio_traps) 0 0 WNone.
Definition pair_ccd : ccd R := mkCCD [1 / 2; 1 / 2] 2 [10; 10] [1; 1] [0; 0] [BList [10; 10]; BList [10; 10]].
Definition pair_direction : direction R := mkDir (Some pair_ccd) (Some (roe_init [1; 1] true true true DFloat)) (Some (TOne (small_trap (1 / 8)))) 0 1 WNone.
Lemma trio_setting n : plain_setting trio_direction n trio_ccd trio_traps [1; 2; 1 / 2] DFloat.
Proof.
  split; try reflexivity; [left; reflexivity| | |left; reflexivity].
  - split; [reflexivity| |].
    + intros [|[|[|k]]]; unfold share, trio_ccd; cbn; try lra. destruct k; lra.
    + intros k Hk. cbn in Hk. destruct k as [|[|[|k]]]; [exists 100, 1|exists 200, 2|exists 50, 1|lia]; (split; [repeat split|lra]).
  - split; [discriminate|]. constructor; [|constructor]. split; [discriminate|]. constructor; [|constructor; [|constructor]].
    + destruct (small_group (1 / 10) ltac:(lra)) as [_ H]. now inversion H.
    + destruct (small_group (1 / 5) ltac:(lra)) as [_ H]. now inversion H.
Qed.
Lemma pair_setting n : plain_setting pair_direction n pair_ccd (TOne (small_trap (1 / 8))) [1; 1] DFloat.
Proof.
  split; try reflexivity; [left; reflexivity| | |left; reflexivity].
  - split; [reflexivity| |].
    + intros [|[|k]]; unfold share, pair_ccd; cbn; try lra. destruct k; lra.
    + intros k Hk. cbn in Hk. exists 10, 1. destruct k as [|[|k]]; [| |lia]; (split; [repeat split|lra]).
  - apply small_instant. lra.
Qed.
Lemma trio_gentle n : gentle_direction trio_direction n.
Proof.
  split; [reflexivity|right]. exists trio_ccd, trio_traps, [1; 2; 1 / 2], DFloat, [small_trap (1 / 10); small_trap (1 / 5)].
  split; [apply trio_setting|]. split; [left; reflexivity|]. split; [reflexivity|]. intros k Hk. cbn in Hk.
  destruct k as [|[|[|k]]]; [exists 100, 1|exists 200, 2|exists 50, 1|lia]; (split; [repeat split|]); cbn; lra.
Qed.
Lemma pair_gentle n : gentle_direction pair_direction n.
Proof.
  split; [reflexivity|right]. exists pair_ccd, (TOne (small_trap (1 / 8))), [1; 1], DFloat, [small_trap (1 / 8)].
  split; [apply pair_setting|]. split; [left; reflexivity|]. split; [reflexivity|]. intros k Hk. cbn in Hk.
  destruct k as [|[|k]]; [| |lia]; exists 10, 1; (split; [repeat split|]); cbn; lra.
Qed.
Definition faint : image R := [[10; 7; 12]; [11; 30; 90]].
Definition bright : image R := [[10; 8; 12]; [200; 30; 91]].
Example C100_example : gentle_direction trio_direction 2 /\ gentle_direction pair_direction 3 /\ shape 2 3 faint /\ shape 2 3 bright /\
  (forall i j, 0 <= pixel faint i j) /\ (forall i j, (i < 2)%nat -> (j < 3)%nat -> pixel faint i j <= pixel bright i j) /\
  faint <> bright /\ image_apart faint bright = 191.
Proof.
  split; [apply trio_gentle|]. split; [apply pair_gentle|]. split; [repeat constructor|]. split; [repeat constructor|].
  split; [intros [|[|[|i]]] [|[|[|[|j]]]]; cbn; lra|]. split; [intros [|[|i]] [|[|[|j]]] Hi Hj; try lia; cbn; lra|]. split.
  - intros E. injection E. lra.
  - unfold image_apart, faint, bright. cbn [concat app apart]. unfold Rabs. repeat destruct (Rcase_abs _); lra.
Qed.
Example C101_example : enough_charge trio_direction pair_direction 2 3 faint.
Proof.
  intros i j Hi Hj. eexists _, _. split; [apply (limit_steps trio_direction 2 i trio_ccd trio_traps [1; 2; 1 / 2] DFloat), trio_setting|].
  split; [apply (limit_steps pair_direction 3 j pair_ccd (TOne (small_trap (1 / 8))) [1; 1] DFloat), pair_setting|].
  destruct i as [|[|i]]; [| |lia]; (destruct j as [|[|[|j]]]; [| | |lia]); cbn; lra.
Qed.
