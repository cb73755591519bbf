(** * C104-C105: charge injection in either direction: order, differences and recovery. *)
From Coq Require Import ZArith List Bool Reals Lra Lia.
From Verif Require Import Num Py RFacts CCDModel TrapsModel ManagerModel ROEModel ClockModel MainModel Spec SpecROE SpecImage SpecReadout SpecColumn SpecBound SpecRecovery SpecPhases SpecWork SpecExpressOrder SpecInjectionOrder
  ROEExpressFacts ReadoutExamples GridFacts ExpressGridFacts InjectionGridFacts Properties_Phases Properties_ExpressOrder.
Import ListNotations.
Open Scope R_scope.

(** ** C104: more charge in gives more charge out, small changes have small effects, and no two
    images give the same result.  The clock of a charge injection remembers the number of
    transfers (roe.py 691-692), so the clocks returned are those of the call, not always those given. *)
Theorem C104_more_charge_in_more_charge_out a b parallel serial rows cols : (0 < rows)%nat -> (0 < cols)%nat ->
  gentle_readout parallel rows -> gentle_readout serial cols -> shape rows cols a -> shape rows cols b ->
  (forall i j, 0 <= pixel a i j) -> (forall i j, (i < rows)%nat -> (j < cols)%nat -> pixel a i j <= pixel b i j) ->
  exists a' b' pr sr, add_cti a parallel serial None = Ok (a', pr, sr) /\ add_cti b parallel serial None = Ok (b', pr, sr) /\
    forall i j, (i < rows)%nat -> (j < cols)%nat -> pixel a' i j <= pixel b' i j.
Proof.
  intros Hr Hc Hp Hs Sa Sb Pa Hab.
  destruct (acts_readout parallel rows (Some (0%Z, Z.of_nat (rows + d_offset parallel))) Hr (or_intror eq_refl) Hp) as [rp Ap]. destruct (acts_readout serial cols None Hc (or_introl eq_refl) Hs) as [rs As].
  destruct (readout_order parallel serial rows cols Hr Hc rp rs (gentle_window _ _ Hp) (gentle_window _ _ Hs) Ap As a b Sa Sb Pa Hab) as (a' & b' & H). exists a', b', rp, rs. exact H.
Qed.
Print Assumptions C104_more_charge_in_more_charge_out.
Theorem C104_differences_grow_at_most_by_a_factor parallel serial rows cols : (0 < rows)%nat -> (0 < cols)%nat ->
  gentle_readout parallel rows -> gentle_readout serial cols ->
  exists K, 0 <= K /\ forall a b, shape rows cols a -> shape rows cols b ->
  (forall i j, 0 <= pixel a i j) -> (forall i j, 0 <= pixel b i j) ->
  exists a' b' pr sr, add_cti a parallel serial None = Ok (a', pr, sr) /\ add_cti b parallel serial None = Ok (b', pr, sr) /\
    image_apart a' b' <= K * image_apart a b.
Proof.
  intros Hr Hc Hp Hs.
  destruct (acts_readout parallel rows (Some (0%Z, Z.of_nat (rows + d_offset parallel))) Hr (or_intror eq_refl) Hp) as [rp Ap]. destruct (acts_readout serial cols None Hc (or_introl eq_refl) Hs) as [rs As].
  destruct (readout_apart parallel serial rows cols Hr Hc rp rs (gentle_window _ _ Hp) (gentle_window _ _ Hs) Ap As) as (K & HK & H). exists K. split; [exact HK|].
  intros a b Sa Sb Pa Pb. destruct (H a b Sa Sb Pa Pb) as (a' & b' & H'). exists a', b', rp, rs. exact H'.
Qed.
Print Assumptions C104_differences_grow_at_most_by_a_factor.
Theorem C104_different_images_stay_different a b out pr sr pr' sr' parallel serial rows cols : (0 < rows)%nat -> (0 < cols)%nat ->
  gentle_readout parallel rows -> gentle_readout serial cols -> shape rows cols a -> shape rows cols b ->
  (forall i j, 0 <= pixel a i j) -> (forall i j, 0 <= pixel b i j) ->
  add_cti a parallel serial None = Ok (out, pr, sr) -> add_cti b parallel serial None = Ok (out, pr', sr') -> a = b.
Proof.
  intros Hr Hc Hp Hs.
  destruct (acts_readout parallel rows (Some (0%Z, Z.of_nat (rows + d_offset parallel))) Hr (or_intror eq_refl) Hp) as [rp Ap]. destruct (acts_readout serial cols None Hc (or_introl eq_refl) Hs) as [rs As].
  intros Sa Sb Pa Pb. exact (readout_injective parallel serial rows cols Hr Hc rp rs (gentle_window _ _ Hp) (gentle_window _ _ Hs) Ap As a b out pr sr pr' sr' Sa Sb Pa Pb).
Qed.
Print Assumptions C104_different_images_stay_different.
(** What a charge injection can do to one pixel. *)
Theorem C104_no_pixel_changes_by_more_than_the_traps_it_passes im parallel serial rows cols : (0 < rows)%nat -> (0 < cols)%nat ->
  gentle_readout parallel rows -> gentle_readout serial cols -> shape rows cols im -> (forall i j, 0 <= pixel im i j) ->
  exists im' pr sr, add_cti im parallel serial None = Ok (im', pr, sr) /\ shape rows cols im' /\ (forall i j, 0 <= pixel im' i j) /\
    forall i j p s, (i < rows)%nat -> (j < cols)%nat -> readout_limit parallel rows i p -> readout_limit serial cols j s ->
      Rabs (pixel im' i j - pixel im i j) <= p + s.
Proof.
  intros Hr Hc Hp Hs Si Pi.
  destruct (acts_readout parallel rows (Some (0%Z, Z.of_nat (rows + d_offset parallel))) Hr (or_intror eq_refl) Hp) as [rp Ap]. destruct (acts_readout serial cols None Hc (or_introl eq_refl) Hs) as [rs As].
  destruct (readout_map parallel serial rows cols Hr Hc rp rs (gentle_window _ _ Hp) (gentle_window _ _ Hs) Ap As) as (gain & big & F & _ & _ & _ & HF).
  destruct (HF im Si Pi) as (im' & E & S' & P' & _ & B). exists im', rp, rs. auto.
Qed.
Print Assumptions C104_no_pixel_changes_by_more_than_the_traps_it_passes.

(** ** C105: remove_cti recovers the image that was read out, at a geometric rate. *)
Theorem C105_correction_recovers_the_image x parallel serial rows cols : (0 < rows)%nat -> (0 < cols)%nat ->
  gentle_readout parallel rows -> gentle_readout serial cols -> shape rows cols x ->
  charged_enough parallel serial rows cols x ->
  exists im pr sr, add_cti x parallel serial None = Ok (im, pr, sr) /\
  exists C r, 0 <= C /\ 0 <= r < 1 /\ forall n, exists est, remove_cti im n parallel serial None = Ok est /\ shape rows cols est /\
    image_apart est x <= C * r ^ n.
Proof.
  intros Hr Hc Hp Hs Sx Hx.
  destruct (acts_readout parallel rows (Some (0%Z, Z.of_nat (rows + d_offset parallel))) Hr (or_intror eq_refl) Hp) as [rp Ap]. destruct (acts_readout serial cols None Hc (or_introl eq_refl) Hs) as [rs As].
  destruct (readout_recover parallel serial rows cols Hr Hc rp rs (gentle_window _ _ Hp) (gentle_window _ _ Hs) Ap As x Sx Hx) as (im & H1 & H2). exists im, rp, rs. split; [exact H1|exact H2].
Qed.
Print Assumptions C105_correction_recovers_the_image.

(** ** Devices and images that meet the conditions: lines of three phases injected through six
    pixels in two passes, and rows of two phases injected through as many pixels as they
    have, or read out as in Properties_ExpressOrder.v. *)
Definition trio_injected : direction R := mkDir (Some trio_ccd) (Some (roe_injection_init [1; 2; 1 / 2] (Some 6%nat) true true DFloat)) (Some trio_traps) 2 0 WNone.
Definition pair_injected : direction R := mkDir (Some pair_ccd) (Some (roe_injection_init [1; 1] None true true DFloat)) (Some (TOne (small_trap (1 / 8)))) 0 2 WNone.
Lemma trio_injected_setting : injection_setting trio_injected 4 trio_ccd trio_traps [1; 2; 1 / 2] (Some 6%nat).
Proof. destruct (trio_setting 4) as [E1 E2 _ E4 E5 E6 _]. split; try assumption; [reflexivity|]. cbn. lia. Qed.
Lemma pair_injected_setting : injection_setting pair_injected 3 pair_ccd (TOne (small_trap (1 / 8))) [1; 1] None.
Proof. destruct (pair_setting 3) as [E1 E2 _ E4 E5 E6 _]. split; try assumption; [reflexivity|]. cbn. lia. Qed.
Lemma trio_injected_gentle : gentle_injection trio_injected 4.
Proof.
  split; [reflexivity|]. exists trio_ccd, trio_traps, [1; 2; 1 / 2], (Some 6%nat), [small_trap (1 / 10); small_trap (1 / 5)].
  split; [apply trio_injected_setting|]. split; [reflexivity|]. intros N k Hk. cbn in Hk.
  destruct k as [|[|[|k]]]; [exists 100, 1|exists 200, 2|exists 50, 1|lia]; (split; [repeat split|]); cbn; lra.
Qed.
Lemma pair_injected_gentle : gentle_injection pair_injected 3.
Proof.
  split; [reflexivity|]. exists pair_ccd, (TOne (small_trap (1 / 8))), [1; 1], None, [small_trap (1 / 8)].
  split; [apply pair_injected_setting|]. split; [reflexivity|]. intros N k Hk. cbn in Hk.
  destruct k as [|[|k]]; [| |lia]; exists 10, 1; (split; [repeat split|]); cbn; lra.
Qed.
Definition glow : image R := [[200; 170; 220]; [210; 400; 900]; [150; 150; 150]; [300; 220; 240]].
Definition glare : image R := [[200; 180; 220]; [2000; 400; 910]; [150; 150; 150]; [300; 220; 240]].
Example C104_example : gentle_readout trio_injected 4 /\ gentle_readout pair_injected 3 /\ gentle_readout pair_fast 3 /\ shape 4 3 glow /\ shape 4 3 glare /\
  (forall i j, 0 <= pixel glow i j) /\ (forall i j, (i < 4)%nat -> (j < 3)%nat -> pixel glow i j <= pixel glare i j) /\ glow <> glare.
Proof.
  split; [right; apply trio_injected_gentle|]. split; [right; apply pair_injected_gentle|]. split; [left; apply pair_fast_gentle|]. split; [repeat constructor|]. split; [repeat constructor|].
  split; [intros [|[|[|[|[|i]]]]] [|[|[|[|j]]]]; cbn; lra|]. split; [intros [|[|[|[|i]]]] [|[|[|j]]] Hi Hj; try lia; cbn; lra|].
  intros E. injection E. lra.
Qed.
Example C105_example : charged_enough trio_injected pair_injected 4 3 glow /\ charged_enough trio_injected pair_fast 4 3 glow.
Proof.
  split; intros i j Hi Hj; eexists _, _; (split; [right; apply (injection_steps trio_injected 4 i trio_ccd trio_traps [1; 2; 1 / 2] (Some 6%nat)), trio_injected_setting|]).
  - split; [right; apply (injection_steps pair_injected 3 j pair_ccd (TOne (small_trap (1 / 8))) [1; 1] None), pair_injected_setting|].
    destruct i as [|[|[|[|i]]]]; [| | | |lia]; (destruct j as [|[|[|j]]]; [| | |lia]); cbn; lra.
  - split; [left; apply (limit_steps pair_fast 3 j pair_ccd (TOne (small_trap (1 / 8))) [1; 1] DInt), pair_fast_setting|].
    destruct i as [|[|[|[|i]]]]; [| | | |lia]; (destruct j as [|[|[|j]]]; [| | |lia]); cbn; lra.
Qed.
