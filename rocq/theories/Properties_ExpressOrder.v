(** * C102-C103: any express value, in both directions: order, differences and recovery. *)
From Coq Require Import ZArith List Bool Reals Lra Lia.
From Verif Require Import Num Py RFacts CCDModel TrapsModel ManagerModel ROEModel ClockModel MainModel Spec SpecImage SpecReadout SpecColumn SpecBound SpecRecovery SpecPhases SpecWork SpecExpressOrder
  ReadoutExamples GridFacts ExpressGridFacts Properties_Phases.
Import ListNotations.
Open Scope R_scope.

(** ** C102: more charge in gives more charge out, small changes have small effects, and no two
    images give the same result. *)
Theorem C102_more_charge_in_more_charge_out a b parallel serial rows cols : (0 < rows)%nat -> (0 < cols)%nat ->
  gentle_express parallel rows -> gentle_express serial cols -> shape rows cols a -> shape rows cols b ->
  (forall i j, 0 <= pixel a i j) -> (forall i j, (i < rows)%nat -> (j < cols)%nat -> pixel a i j <= pixel b i j) ->
  exists a' b', add_cti a parallel serial None = Ok (a', the_roe parallel, the_roe serial) /\
    add_cti b parallel serial None = Ok (b', the_roe parallel, the_roe serial) /\
    forall i j, (i < rows)%nat -> (j < cols)%nat -> pixel a' i j <= pixel b' i j.
Proof. intros Hr Hc Hp Hs Sa Sb. exact (express_order parallel serial rows cols Hr Hc Hp Hs a b Sa Sb). Qed.
Print Assumptions C102_more_charge_in_more_charge_out.
(** The factor depends on the devices and the size of the images, not on the images. *)
Theorem C102_differences_grow_at_most_by_a_factor parallel serial rows cols : (0 < rows)%nat -> (0 < cols)%nat ->
  gentle_express parallel rows -> gentle_express serial cols ->
  exists K, 0 <= K /\ forall a b, shape rows cols a -> shape rows cols b ->
  (forall i j, 0 <= pixel a i j) -> (forall i j, 0 <= pixel b i j) ->
  exists a' b', add_cti a parallel serial None = Ok (a', the_roe parallel, the_roe serial) /\
    add_cti b parallel serial None = Ok (b', the_roe parallel, the_roe serial) /\ image_apart a' b' <= K * image_apart a b.
Proof. exact (express_apart parallel serial rows cols). Qed.
Print Assumptions C102_differences_grow_at_most_by_a_factor.
Theorem C102_different_images_stay_different a b out pr sr pr' sr' parallel serial rows cols : (0 < rows)%nat -> (0 < cols)%nat ->
  gentle_express parallel rows -> gentle_express serial cols -> shape rows cols a -> shape rows cols b ->
  (forall i j, 0 <= pixel a i j) -> (forall i j, 0 <= pixel b i j) ->
  add_cti a parallel serial None = Ok (out, pr, sr) -> add_cti b parallel serial None = Ok (out, pr', sr') -> a = b.
Proof. intros Hr Hc Hp Hs Sa Sb. exact (express_injective parallel serial rows cols Hr Hc Hp Hs a b out pr sr pr' sr' Sa Sb). Qed.
Print Assumptions C102_different_images_stay_different.

(** ** C103: remove_cti recovers the image that was read out, at a geometric rate. *)
Theorem C103_correction_recovers_the_image x parallel serial rows cols : (0 < rows)%nat -> (0 < cols)%nat ->
  gentle_express parallel rows -> gentle_express serial cols -> shape rows cols x ->
  enough_charge parallel serial rows cols x ->
  exists im, add_cti x parallel serial None = Ok (im, the_roe parallel, the_roe serial) /\
  exists C r, 0 <= C /\ 0 <= r < 1 /\ forall n, exists est, remove_cti im n parallel serial None = Ok est /\ shape rows cols est /\
    image_apart est x <= C * r ^ n.
Proof. intros Hr Hc Hp Hs. exact (express_recover parallel serial rows cols Hr Hc Hp Hs x). Qed.
Print Assumptions C103_correction_recovers_the_image.
(** The devices of C100 and C101, in which every transfer is computed, are among these. *)
Theorem C102_covers_every_transfer_computed d n : (0 < n)%nat -> gentle_direction d n -> gentle_express d n.
Proof. exact (gentle_computed d n). Qed.
Print Assumptions C102_covers_every_transfer_computed.

(** ** Devices and images that meet the conditions: the rows of Properties_Phases.v with two
    passes for four transfers (and the first one apart), the columns with one pass, and as
    many transfers per pass in whole numbers. *)
Definition trio_fast : direction R := mkDir (Some trio_ccd) (Some (roe_init [1; 2; 1 / 2] true true true DFloat)) (Some trio_traps) 2 0 WNone.
Definition pair_fast : direction R := mkDir (Some pair_ccd) (Some (roe_init [1; 1] true true true DInt)) (Some (TOne (small_trap (1 / 8)))) 1 1 WNone.
Lemma trio_fast_setting : plain_setting trio_fast 4 trio_ccd trio_traps [1; 2; 1 / 2] DFloat.
Proof. destruct (trio_setting 4) as [E1 E2 E3 E4 E5 E6 _]. split; try assumption. right. cbn. discriminate. Qed.
Lemma pair_fast_setting : plain_setting pair_fast 3 pair_ccd (TOne (small_trap (1 / 8))) [1; 1] DInt.
Proof. destruct (pair_setting 3) as [E1 E2 _ E4 E5 E6 _]. split; try assumption; [left; reflexivity|]. right. cbn. discriminate. Qed.
Lemma trio_fast_gentle : gentle_express trio_fast 4.
Proof.
  split; [reflexivity|right]. exists trio_ccd, trio_traps, [1; 2; 1 / 2], DFloat, [small_trap (1 / 10); small_trap (1 / 5)].
  split; [apply trio_fast_setting|]. split; [reflexivity|]. intros k x Hk Hx. cbn in Hk, Hx. subst x.
  destruct k as [|[|[|k]]]; [exists 100, 1|exists 200, 2|exists 50, 1|lia]; (split; [repeat split|]); cbn; lra.
Qed.
Lemma pair_fast_gentle : gentle_express pair_fast 3.
Proof.
  split; [reflexivity|right]. exists pair_ccd, (TOne (small_trap (1 / 8))), [1; 1], DInt, [small_trap (1 / 8)].
  split; [apply pair_fast_setting|]. split; [reflexivity|]. intros k x Hk (m & -> & L & _). cbn in Hk. replace (INR (3 + d_offset pair_fast) / INR (passes_for (3 + d_offset pair_fast) (d_express pair_fast))) with 4 in L by (cbn; lra). generalize dependent (INR m). intros x L.
  destruct k as [|[|k]]; [| |lia]; exists 10, 1; (split; [repeat split|]); cbn; lra.
Qed.
Definition dim : image R := [[20; 17; 22]; [21; 40; 90]; [15; 15; 15]; [30; 22; 24]].
Definition lit : image R := [[20; 18; 22]; [200; 40; 91]; [15; 15; 15]; [30; 22; 24]].
Example C102_example : gentle_express trio_fast 4 /\ gentle_express pair_fast 3 /\ shape 4 3 dim /\ shape 4 3 lit /\
  (forall i j, 0 <= pixel dim i j) /\ (forall i j, (i < 4)%nat -> (j < 3)%nat -> pixel dim i j <= pixel lit i j) /\
  dim <> lit /\ image_apart dim lit = 181.
Proof.
  split; [apply trio_fast_gentle|]. split; [apply pair_fast_gentle|]. split; [repeat constructor|]. split; [repeat constructor|].
  split; [intros [|[|[|[|[|i]]]]] [|[|[|[|j]]]]; cbn; lra|]. split; [intros [|[|[|[|i]]]] [|[|[|j]]] Hi Hj; try lia; cbn; lra|]. split.
  - intros E. injection E. lra.
  - unfold image_apart, dim, lit. cbn [concat app apart]. unfold Rabs. repeat destruct (Rcase_abs _); lra.
Qed.
Example C103_example : enough_charge trio_fast pair_fast 4 3 dim.
Proof.
  intros i j Hi Hj. eexists _, _. split; [apply (limit_steps trio_fast 4 i trio_ccd trio_traps [1; 2; 1 / 2] DFloat), trio_fast_setting|].
  split; [apply (limit_steps pair_fast 3 j pair_ccd (TOne (small_trap (1 / 8))) [1; 1] DInt), pair_fast_setting|].
  destruct i as [|[|[|[|i]]]]; [| | | |lia]; (destruct j as [|[|[|j]]]; [| | |lia]); cbn; lra.
Qed.
