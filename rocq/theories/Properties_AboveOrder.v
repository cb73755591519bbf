(** * C108-C109: wells of any power, for images in which every pixel keeps some charge. *)
From Coq Require Import ZArith List Bool Reals Lra Lia Sorted.
From Verif Require Import Num Py RFacts CCDModel TrapsModel ManagerModel ROEModel ClockModel MainModel Spec SpecROE SpecImage SpecReadout SpecColumn SpecBound SpecRecovery SpecPhases SpecWork SpecExpressOrder SpecInjectionOrder SpecWindowOrder SpecAbove
  ROEExpressFacts ReadoutExamples GridFacts ExpressGridFacts InjectionGridFacts WindowGridFacts AboveGridFacts Properties_Phases Properties_InjectionOrder.
Import ListNotations.
Open Scope R_scope.

(** ** C108: if every pixel keeps [floor] electrons, more charge in gives more charge out, small
    changes have small effects, no two images give the same result, and no pixel changes by more
    than the traps it passes. *)
Theorem C108_more_charge_in_more_charge_out a b parallel serial time rows cols floor : 0 < floor -> (0 < rows)%nat -> (0 < cols)%nat ->
  time_range time -> slow_call floor parallel rows -> slow_call floor serial cols -> shape rows cols a -> shape rows cols b ->
  (forall i j, 0 <= pixel a i j) -> charged_above floor 1 parallel serial rows cols a -> (forall i j, (i < rows)%nat -> (j < cols)%nat -> pixel a i j <= pixel b i j) ->
  exists a' b' pr sr, add_cti a parallel serial time = Ok (a', pr, sr) /\ add_cti b parallel serial time = Ok (b', pr, sr) /\
    forall i j, (i < rows)%nat -> (j < cols)%nat -> pixel a' i j <= pixel b' i j.
Proof.
  intros Hfl Hr Hc Ht Hp Hs Sa Sb Pa Ca Hab. destruct (slow_ready _ _ _ _ _ _ Hfl Hr Hc Ht Hp Hs) as (rp & rs & tw & lines & [D1 D2 D3 D4 D5]).
  destruct (slow_order floor parallel serial rows cols Hr Hc rp rs time tw lines D1 D2 D3 D4 D5 a b Sa Sb Pa Ca Hab) as (a' & b' & H). exists a', b', rp, rs. exact H.
Qed.
Print Assumptions C108_more_charge_in_more_charge_out.
Theorem C108_differences_grow_at_most_by_a_factor parallel serial time rows cols floor : 0 < floor -> (0 < rows)%nat -> (0 < cols)%nat ->
  time_range time -> slow_call floor parallel rows -> slow_call floor serial cols ->
  exists K, 0 <= K /\ forall a b, shape rows cols a -> shape rows cols b ->
  (forall i j, 0 <= pixel a i j) -> (forall i j, 0 <= pixel b i j) ->
  charged_above floor 1 parallel serial rows cols a -> charged_above floor 1 parallel serial rows cols b ->
  exists a' b' pr sr, add_cti a parallel serial time = Ok (a', pr, sr) /\ add_cti b parallel serial time = Ok (b', pr, sr) /\
    image_apart a' b' <= K * image_apart a b.
Proof.
  intros Hfl Hr Hc Ht Hp Hs. destruct (slow_ready _ _ _ _ _ _ Hfl Hr Hc Ht Hp Hs) as (rp & rs & tw & lines & [D1 D2 D3 D4 D5]).
  destruct (slow_apart floor parallel serial rows cols Hr Hc rp rs time tw lines D1 D2 D3 D4 D5) as (K & HK & H). exists K. split; [exact HK|].
  intros a b Sa Sb Pa Pb Ca Cb. destruct (H a b Sa Sb Pa Pb Ca Cb) as (a' & b' & H'). exists a', b', rp, rs. exact H'.
Qed.
Print Assumptions C108_differences_grow_at_most_by_a_factor.
Theorem C108_different_images_stay_different a b out pr sr pr' sr' parallel serial time rows cols floor : 0 < floor -> (0 < rows)%nat -> (0 < cols)%nat ->
  time_range time -> slow_call floor parallel rows -> slow_call floor serial cols -> shape rows cols a -> shape rows cols b ->
  (forall i j, 0 <= pixel a i j) -> (forall i j, 0 <= pixel b i j) ->
  charged_above floor 1 parallel serial rows cols a -> charged_above floor 1 parallel serial rows cols b ->
  add_cti a parallel serial time = Ok (out, pr, sr) -> add_cti b parallel serial time = Ok (out, pr', sr') -> a = b.
Proof.
  intros Hfl Hr Hc Ht Hp Hs Sa Sb Pa Pb Ca Cb. destruct (slow_ready _ _ _ _ _ _ Hfl Hr Hc Ht Hp Hs) as (rp & rs & tw & lines & [D1 D2 D3 D4 D5]).
  exact (slow_injective floor parallel serial rows cols Hr Hc rp rs time tw lines D1 D2 D3 D4 D5 a b out pr sr pr' sr' Sa Sb Pa Pb Ca Cb).
Qed.
Print Assumptions C108_different_images_stay_different.
Theorem C108_no_pixel_changes_by_more_than_the_traps_it_passes im parallel serial time rows cols floor : 0 < floor -> (0 < rows)%nat -> (0 < cols)%nat ->
  time_range time -> slow_call floor parallel rows -> slow_call floor serial cols -> shape rows cols im -> (forall i j, 0 <= pixel im i j) ->
  charged_above floor 1 parallel serial rows cols im ->
  exists im' pr sr, add_cti im parallel serial time = Ok (im', pr, sr) /\ shape rows cols im' /\ (forall i j, 0 <= pixel im' i j) /\
    forall i j p s, (i < rows)%nat -> (j < cols)%nat -> call_limit parallel rows i p -> call_limit serial cols j s ->
      Rabs (pixel im' i j - pixel im i j) <= p + s.
Proof.
  intros Hfl Hr Hc Ht Hp Hs Si Pi Ci. destruct (slow_ready _ _ _ _ _ _ Hfl Hr Hc Ht Hp Hs) as (rp & rs & tw & lines & [D1 D2 D3 D4 D5]).
  destruct (slow_map floor parallel serial rows cols Hr Hc rp rs time tw lines D1 D2 D3 D4 D5) as (gain & big & F & _ & _ & _ & HF).
  destruct (HF im Si Pi Ci) as (im' & E & S' & P' & _ & B). exists im', rp, rs. auto.
Qed.
Print Assumptions C108_no_pixel_changes_by_more_than_the_traps_it_passes.

(** ** C109: remove_cti recovers the image that was read out, at a geometric rate. *)
Theorem C109_correction_recovers_the_image x parallel serial time rows cols floor : 0 < floor -> (0 < rows)%nat -> (0 < cols)%nat ->
  time_range time -> slow_call floor parallel rows -> slow_call floor serial cols -> shape rows cols x ->
  charged_above floor 3 parallel serial rows cols x ->
  exists im pr sr, add_cti x parallel serial time = Ok (im, pr, sr) /\
  exists C r, 0 <= C /\ 0 <= r < 1 /\ forall n, exists est, remove_cti im n parallel serial time = Ok est /\ shape rows cols est /\
    image_apart est x <= C * r ^ n.
Proof.
  intros Hfl Hr Hc Ht Hp Hs Sx Hx. destruct (slow_ready _ _ _ _ _ _ Hfl Hr Hc Ht Hp Hs) as (rp & rs & tw & lines & [D1 D2 D3 D4 D5]).
  destruct (slow_recover floor parallel serial rows cols Hfl Hr Hc rp rs time tw lines D1 D2 D3 D4 D5 x Sx Hx) as (im & H1 & H2). exists im, rp, rs. split; [exact H1|exact H2].
Qed.
Print Assumptions C109_correction_recovers_the_image.

(** ** A device whose wells fill as the square root of the charge; a tenth of the traps are
    reached by one electron.  Two of four rows, a charge injection, and the default readout. *)
Definition root_ccd : ccd R := mkCCD [1] 1 [100] [1 / 2] [0] [BList [100]].
Definition root_traps : traps_arg R := TOne (small_trap (1 / 8)).
Definition root_rows : direction R := mkDir (Some root_ccd) (Some (roe_init [2] true true true DFloat)) (Some root_traps) 1 0 (WRange [1; 2]%Z).
Definition root_injected : direction R := mkDir (Some root_ccd) (Some (roe_injection_init [1] (Some 6%nat) true true DFloat)) (Some root_traps) 2 0 WNone.
Definition root_columns : direction R := mkDir (Some root_ccd) None (Some root_traps) 0 1 WNone.
Lemma root_built : ccd_init (PList [1]) (Scalar 100) (Scalar 0) (Scalar (1 / 2)) None = Ok root_ccd.
Proof. reflexivity. Qed.
Lemma root_depth : depth 100 (1 / 2) 1 = 1 / 10.
Proof.
  unfold depth. destruct (Rle_dec 1 0); [lra|]. rewrite Rmin_right by lra. replace (1 / 2) with (/ 2) by lra. rewrite Rpower_sqrt by lra. replace (1 / 100) with ((1 / 10) * (1 / 10)) by lra. apply sqrt_square. lra.
Qed.
Lemma root_plain : plain_ccd root_ccd.
Proof.
  constructor; [reflexivity| |].
  - intros [|[|k]]; unfold share; cbn; lra.
  - intros [|k] Hk; [|cbn in Hk; lia]. exists 100, (1 / 2). split; [constructor; reflexivity|lra].
Qed.
Lemma root_instant : instant_traps root_traps.
Proof. split; [discriminate|]. repeat constructor; try discriminate; cbn; lra. Qed.
Lemma root_rows_setting : plain_setting root_rows 3 root_ccd root_traps [2] DFloat.
Proof. split; try reflexivity; [left; reflexivity|apply root_plain|apply root_instant|]. right. cbn. discriminate. Qed.
Lemma root_columns_setting : plain_setting root_columns 3 root_ccd root_traps [1] DFloat.
Proof. split; try reflexivity; [right; auto|apply root_plain|apply root_instant|]. left. reflexivity. Qed.
Lemma root_injected_setting : injection_setting root_injected 4 root_ccd root_traps [1] (Some 6%nat).
Proof. split; try reflexivity; [apply root_plain|apply root_instant|]. cbn. lia. Qed.
Lemma root_rows_ok : window_ok (selected (d_window root_rows) 4) 3.
Proof. split; [repeat constructor; cbn; lia|cbn; auto]. Qed.
Lemma root_columns_ok : window_ok (selected (d_window root_columns) 3) 3.
Proof. split; [repeat constructor; cbn; lia|cbn; auto]. Qed.
Lemma root_rows_slow : slow_in_window 1 root_rows 4.
Proof.
  exists 3%nat. split; [repeat constructor|]. split; [apply root_rows_ok|]. split; [lia|]. exists root_ccd, root_traps, 2, DFloat, [small_trap (1 / 8)].
  split; [apply root_rows_setting|]. split; [reflexivity|]. intros k x Hk Hx. cbn in Hk, Hx. subst x. destruct k; [|lia]. exists 100, (1 / 2). split; [constructor; reflexivity|]. right. rewrite root_depth. cbn. lra.
Qed.
Lemma root_columns_slow : slow_in_window 1 root_columns 3.
Proof.
  exists 3%nat. split; [repeat constructor|]. split; [apply root_columns_ok|]. split; [lia|]. exists root_ccd, root_traps, 1, DFloat, [small_trap (1 / 8)].
  split; [apply root_columns_setting|]. split; [reflexivity|]. intros k x Hk Hx. cbn in Hk, Hx. subst x. destruct k; [|lia]. exists 100, (1 / 2). split; [constructor; reflexivity|]. right. rewrite root_depth. cbn. lra.
Qed.
Lemma root_injected_slow : slow_injection 1 root_injected 4.
Proof.
  split; [reflexivity|]. exists root_ccd, root_traps, 1, (Some 6%nat), [small_trap (1 / 8)].
  split; [apply root_injected_setting|]. split; [reflexivity|]. intros N k Hk. cbn in Hk. destruct k; [|lia]. exists 100, (1 / 2). split; [constructor; reflexivity|]. right. rewrite root_depth. cbn. lra.
Qed.
Lemma root_rows_limit i : (i < 4)%nat -> exists p, call_limit root_rows 4 i p /\ 0 <= p <= 1.
Proof.
  intros Hi. destruct i as [|i]; [exists 0; split; [apply limit_out; cbn; intuition discriminate|lra]|].
  eexists. split; [apply (limit_in _ _ _ 3 _ root_rows_ok), (limit_one_step root_rows 3 (S i) root_ccd root_traps 2 DFloat), root_rows_setting|]. destruct i as [|[|[|i]]]; [| | |lia]; cbn; lra.
Qed.
Lemma root_columns_limit j : (j < 3)%nat -> exists s, call_limit root_columns 3 j s /\ 0 <= s <= 1.
Proof.
  intros Hj. eexists. split; [apply (limit_in _ _ _ 3 _ root_columns_ok), (limit_one_step root_columns 3 j root_ccd root_traps 1 DFloat), root_columns_setting|]. destruct j as [|[|[|j]]]; [| | |lia]; cbn; lra.
Qed.
Lemma root_injected_limit i : exists p, call_limit root_injected 4 i p /\ 0 <= p <= 1.
Proof. eexists. split; [apply limit_injection, (injection_one_step root_injected 4 i root_ccd root_traps 1 (Some 6%nat)), root_injected_setting|]. cbn. lra. Qed.
Definition faint : image R := [[8; 7; 11]; [10; 9; 13]; [7; 8; 15]; [30; 22; 24]].
Definition faint_more : image R := [[8; 7; 12]; [100; 9; 13]; [7; 8; 15]; [30; 22; 25]].
Lemma faint_charged parallel : (forall i, (i < 4)%nat -> exists p, call_limit parallel 4 i p /\ 0 <= p <= 1) -> charged_above 1 3 parallel root_columns 4 3 faint.
Proof.
  intros HP i j Hi Hj. destruct (HP i Hi) as (p & Lp & Bp). destruct (root_columns_limit j Hj) as (s & Ls & Bs). exists p, s. split; [exact Lp|]. split; [exact Ls|].
  destruct i as [|[|[|[|i]]]]; [| | | |lia]; (destruct j as [|[|[|j]]]; [| | |lia]); unfold pixel; cbn; lra.
Qed.
Lemma less_charged floor parallel serial rows cols im : charged_above floor 3 parallel serial rows cols im -> charged_above floor 1 parallel serial rows cols im.
Proof. intros H i j Hi Hj. destruct (H i j Hi Hj) as (p & s & Lp & Ls & B). exists p, s. split; [exact Lp|]. split; [exact Ls|]. apply call_limit_nonneg in Lp. apply call_limit_nonneg in Ls. lra. Qed.
Example C108_example : time_range (Some (py_range 1 3)) /\ slow_call 1 root_rows 4 /\ slow_call 1 root_columns 3 /\ slow_call 1 root_injected 4 /\ slow_call 1 trio_injected 4 /\
  shape 4 3 faint /\ shape 4 3 faint_more /\ (forall i j, 0 <= pixel faint i j) /\
  charged_above 1 1 root_rows root_columns 4 3 faint /\ charged_above 1 1 root_injected root_columns 4 3 faint /\
  (forall i j, (i < 4)%nat -> (j < 3)%nat -> pixel faint i j <= pixel faint_more i j) /\ faint <> faint_more.
Proof.
  split; [constructor; lia|]. split; [right; left; apply root_rows_slow|]. split; [right; left; apply root_columns_slow|]. split; [right; right; apply root_injected_slow|]. split; [left; right; apply trio_injected_gentle|].
  split; [repeat constructor|]. split; [repeat constructor|]. split; [intros [|[|[|[|[|i]]]]] [|[|[|[|j]]]]; cbn; lra|].
  split; [apply less_charged, faint_charged, root_rows_limit|]. split; [apply less_charged, faint_charged; intros i _; apply root_injected_limit|].
  split; [intros [|[|[|[|i]]]] [|[|[|j]]] Hi Hj; try lia; cbn; lra|]. intros E. injection E. lra.
Qed.
Example C109_example : charged_above 1 3 root_rows root_columns 4 3 faint /\ charged_above 1 3 root_injected root_columns 4 3 faint.
Proof. split; apply faint_charged; [apply root_rows_limit|intros i _; apply root_injected_limit]. Qed.
