(** * C106-C107: calls with any windows and time windows: order, differences and recovery. *)
From Coq Require Import ZArith List Bool Reals Lra Lia Sorted.
From Verif Require Import Num Py RFacts CCDModel TrapsModel ManagerModel ROEModel ClockModel MainModel Spec SpecROE SpecImage SpecReadout SpecColumn SpecBound SpecRecovery SpecPhases SpecWork SpecExpressOrder SpecInjectionOrder SpecWindowOrder
  ROEExpressFacts ReadoutExamples GridFacts ExpressGridFacts InjectionGridFacts WindowGridFacts Properties_Phases Properties_ExpressOrder Properties_InjectionOrder.
Import ListNotations.
Open Scope R_scope.

(** ** C106: more charge in gives more charge out, small changes have small effects, no two images
    give the same result, and no pixel changes by more than the traps it passes. *)
Theorem C106_more_charge_in_more_charge_out a b parallel serial time rows cols : (0 < rows)%nat -> (0 < cols)%nat ->
  time_range time -> gentle_call parallel rows -> gentle_call serial cols -> shape rows cols a -> shape rows cols b ->
  (forall i j, 0 <= pixel a i j) -> (forall i j, (i < rows)%nat -> (j < cols)%nat -> pixel a i j <= pixel b i j) ->
  exists a' b' pr sr, add_cti a parallel serial time = Ok (a', pr, sr) /\ add_cti b parallel serial time = Ok (b', pr, sr) /\
    forall i j, (i < rows)%nat -> (j < cols)%nat -> pixel a' i j <= pixel b' i j.
Proof.
  intros Hr Hc Ht Hp Hs Sa Sb Pa Hab. destruct (call_ready _ _ _ _ _ Hr Hc Ht Hp Hs) as (rp & rs & tw & lines & [D1 D2 D3 D4 D5]).
  destruct (call_order parallel serial rows cols Hr Hc rp rs time tw lines D1 D2 D3 D4 D5 a b Sa Sb Pa Hab) as (a' & b' & H). exists a', b', rp, rs. exact H.
Qed.
Print Assumptions C106_more_charge_in_more_charge_out.
Theorem C106_differences_grow_at_most_by_a_factor parallel serial time rows cols : (0 < rows)%nat -> (0 < cols)%nat ->
  time_range time -> gentle_call parallel rows -> gentle_call serial cols ->
  exists K, 0 <= K /\ forall a b, shape rows cols a -> shape rows cols b ->
  (forall i j, 0 <= pixel a i j) -> (forall i j, 0 <= pixel b i j) ->
  exists a' b' pr sr, add_cti a parallel serial time = Ok (a', pr, sr) /\ add_cti b parallel serial time = Ok (b', pr, sr) /\
    image_apart a' b' <= K * image_apart a b.
Proof.
  intros Hr Hc Ht Hp Hs. destruct (call_ready _ _ _ _ _ Hr Hc Ht Hp Hs) as (rp & rs & tw & lines & [D1 D2 D3 D4 D5]).
  destruct (call_apart parallel serial rows cols Hr Hc rp rs time tw lines D1 D2 D3 D4 D5) as (K & HK & H). exists K. split; [exact HK|].
  intros a b Sa Sb Pa Pb. destruct (H a b Sa Sb Pa Pb) as (a' & b' & H'). exists a', b', rp, rs. exact H'.
Qed.
Print Assumptions C106_differences_grow_at_most_by_a_factor.
Theorem C106_different_images_stay_different a b out pr sr pr' sr' parallel serial time rows cols : (0 < rows)%nat -> (0 < cols)%nat ->
  time_range time -> gentle_call parallel rows -> gentle_call serial cols -> shape rows cols a -> shape rows cols b ->
  (forall i j, 0 <= pixel a i j) -> (forall i j, 0 <= pixel b i j) ->
  add_cti a parallel serial time = Ok (out, pr, sr) -> add_cti b parallel serial time = Ok (out, pr', sr') -> a = b.
Proof.
  intros Hr Hc Ht Hp Hs Sa Sb Pa Pb. destruct (call_ready _ _ _ _ _ Hr Hc Ht Hp Hs) as (rp & rs & tw & lines & [D1 D2 D3 D4 D5]).
  exact (call_injective parallel serial rows cols Hr Hc rp rs time tw lines D1 D2 D3 D4 D5 a b out pr sr pr' sr' Sa Sb Pa Pb).
Qed.
Print Assumptions C106_different_images_stay_different.
Theorem C106_no_pixel_changes_by_more_than_the_traps_it_passes im parallel serial time rows cols : (0 < rows)%nat -> (0 < cols)%nat ->
  time_range time -> gentle_call parallel rows -> gentle_call serial cols -> shape rows cols im -> (forall i j, 0 <= pixel im i j) ->
  exists im' pr sr, add_cti im parallel serial time = Ok (im', pr, sr) /\ shape rows cols im' /\ (forall i j, 0 <= pixel im' i j) /\
    forall i j p s, (i < rows)%nat -> (j < cols)%nat -> call_limit parallel rows i p -> call_limit serial cols j s ->
      Rabs (pixel im' i j - pixel im i j) <= p + s.
Proof.
  intros Hr Hc Ht Hp Hs Si Pi. destruct (call_ready _ _ _ _ _ Hr Hc Ht Hp Hs) as (rp & rs & tw & lines & [D1 D2 D3 D4 D5]).
  destruct (call_map parallel serial rows cols Hr Hc rp rs time tw lines D1 D2 D3 D4 D5) as (gain & big & F & _ & _ & _ & HF).
  destruct (HF im Si Pi) as (im' & E & S' & P' & _ & B). exists im', rp, rs. auto.
Qed.
Print Assumptions C106_no_pixel_changes_by_more_than_the_traps_it_passes.

(** ** C107: remove_cti with the same windows recovers the image that was read out, at a geometric
    rate. *)
Theorem C107_correction_recovers_the_image x parallel serial time rows cols : (0 < rows)%nat -> (0 < cols)%nat ->
  time_range time -> gentle_call parallel rows -> gentle_call serial cols -> shape rows cols x ->
  enough_for_call parallel serial rows cols x ->
  exists im pr sr, add_cti x parallel serial time = Ok (im, pr, sr) /\
  exists C r, 0 <= C /\ 0 <= r < 1 /\ forall n, exists est, remove_cti im n parallel serial time = Ok est /\ shape rows cols est /\
    image_apart est x <= C * r ^ n.
Proof.
  intros Hr Hc Ht Hp Hs Sx Hx. destruct (call_ready _ _ _ _ _ Hr Hc Ht Hp Hs) as (rp & rs & tw & lines & [D1 D2 D3 D4 D5]).
  destruct (call_recover parallel serial rows cols Hr Hc rp rs time tw lines D1 D2 D3 D4 D5 x Sx Hx) as (im & H1 & H2). exists im, rp, rs. split; [exact H1|exact H2].
Qed.
Print Assumptions C107_correction_recovers_the_image.

(** ** Devices, windows and images that meet the conditions: two of four rows, one of three
    columns, and two rows with a gap between them; the times 1 and 2. *)
Definition trio_rows : direction R := mkDir (Some trio_ccd) (Some (roe_init [1; 2; 1 / 2] true true true DFloat)) (Some trio_traps) 1 0 (WRange [1; 2]%Z).
Definition trio_gap : direction R := mkDir (Some trio_ccd) (Some (roe_init [1; 2; 1 / 2] true true true DFloat)) (Some trio_traps) 0 2 (WRange [0; 2]%Z).
Definition pair_column : direction R := mkDir (Some pair_ccd) (Some (roe_init [1; 1] true true true DInt)) (Some (TOne (small_trap (1 / 8)))) 2 1 (WInt 1).
Lemma trio_rows_setting : plain_setting trio_rows 3 trio_ccd trio_traps [1; 2; 1 / 2] DFloat.
Proof. destruct (trio_setting 3) as [E1 E2 E3 E4 E5 E6 _]. split; try assumption. right. cbn. discriminate. Qed.
Lemma trio_gap_setting : plain_setting trio_gap 3 trio_ccd trio_traps [1; 2; 1 / 2] DFloat.
Proof. destruct (trio_setting 3) as [E1 E2 E3 E4 E5 E6 _]. split; try assumption. left. reflexivity. Qed.
Lemma pair_column_setting : plain_setting pair_column 2 pair_ccd (TOne (small_trap (1 / 8))) [1; 1] DInt.
Proof. destruct (pair_setting 2) as [E1 E2 _ E4 E5 E6 _]. split; try assumption; [left; reflexivity|]. right. cbn. discriminate. Qed.
Lemma trio_rows_ok : window_ok (selected (d_window trio_rows) 4) 3.
Proof. split; [repeat constructor; cbn; lia|cbn; auto]. Qed.
Lemma trio_gap_ok : window_ok (selected (d_window trio_gap) 4) 3.
Proof. split; [repeat constructor; cbn; lia|cbn; auto]. Qed.
Lemma pair_column_ok : window_ok (selected (d_window pair_column) 3) 2.
Proof. split; [repeat constructor; cbn; lia|cbn; auto]. Qed.
Lemma trio_rows_gentle : gentle_in_window trio_rows 4.
Proof.
  exists 3%nat. split; [repeat constructor|]. split; [apply trio_rows_ok|]. split; [lia|right]. exists trio_ccd, trio_traps, [1; 2; 1 / 2], DFloat, [small_trap (1 / 10); small_trap (1 / 5)].
  split; [apply trio_rows_setting|]. split; [reflexivity|]. intros k x Hk Hx. cbn in Hk, Hx. subst x.
  destruct k as [|[|[|k]]]; [exists 100, 1|exists 200, 2|exists 50, 1|lia]; (split; [repeat split|]); cbn; lra.
Qed.
Lemma trio_gap_gentle : gentle_in_window trio_gap 4.
Proof.
  exists 3%nat. split; [repeat constructor|]. split; [apply trio_gap_ok|]. split; [lia|right]. exists trio_ccd, trio_traps, [1; 2; 1 / 2], DFloat, [small_trap (1 / 10); small_trap (1 / 5)].
  split; [apply trio_gap_setting|]. split; [reflexivity|]. intros k x Hk Hx. cbn in Hk, Hx. subst x.
  destruct k as [|[|[|k]]]; [exists 100, 1|exists 200, 2|exists 50, 1|lia]; (split; [repeat split|]); cbn; lra.
Qed.
Lemma pair_column_gentle : gentle_in_window pair_column 3.
Proof.
  exists 2%nat. split; [repeat constructor|]. split; [apply pair_column_ok|]. split; [lia|right]. exists pair_ccd, (TOne (small_trap (1 / 8))), [1; 1], DInt, [small_trap (1 / 8)].
  split; [apply pair_column_setting|]. split; [reflexivity|]. intros k x Hk (m & -> & L & _). cbn in Hk. replace (INR (2 + d_offset pair_column) / INR (passes_for (2 + d_offset pair_column) (d_express pair_column))) with (3 / 2) in L by (cbn; lra). generalize dependent (INR m). intros x L.
  destruct k as [|[|k]]; [| |lia]; exists 10, 1; (split; [repeat split|]); cbn; lra.
Qed.
Example C106_example : time_range (Some (py_range 1 3)) /\ gentle_call trio_rows 4 /\ gentle_call trio_gap 4 /\ gentle_call pair_column 3 /\ gentle_call trio_injected 4 /\
  shape 4 3 glow /\ shape 4 3 glare /\ (forall i j, 0 <= pixel glow i j) /\ (forall i j, (i < 4)%nat -> (j < 3)%nat -> pixel glow i j <= pixel glare i j) /\ glow <> glare.
Proof.
  split; [constructor; lia|]. split; [left; apply trio_rows_gentle|]. split; [left; apply trio_gap_gentle|]. split; [left; apply pair_column_gentle|]. split; [right; apply trio_injected_gentle|].
  destruct C104_example as (_ & _ & _ & H). exact H.
Qed.
Example C107_example : enough_for_call trio_rows pair_column 4 3 glow.
Proof.
  intros i j Hi Hj.
  assert (P : exists p, call_limit trio_rows 4 i p /\ p <= INR i * 6).
  { destruct i as [|i]; [exists 0; split; [apply limit_out; cbn; intuition discriminate|cbn; lra]|].
    eexists. split; [apply (limit_in _ _ _ 3 _ trio_rows_ok), (limit_steps trio_rows 3 (S i) trio_ccd trio_traps [1; 2; 1 / 2] DFloat), trio_rows_setting|].
    destruct i as [|[|[|i]]]; [| | |lia]; cbn; lra. }
  assert (S : exists s, call_limit pair_column 3 j s /\ s <= INR j * 3).
  { destruct j as [|j]; [exists 0; split; [apply limit_out; cbn; intuition discriminate|cbn; lra]|].
    eexists. split; [apply (limit_in _ _ _ 2 _ pair_column_ok), (limit_steps pair_column 2 (S j) pair_ccd (TOne (small_trap (1 / 8))) [1; 1] DInt), pair_column_setting|].
    destruct j as [|[|j]]; [| |lia]; cbn; lra. }
  destruct P as (p & Lp & Hp). destruct S as (s & Ls & Hs). exists p, s. split; [exact Lp|]. split; [exact Ls|].
  destruct i as [|[|[|[|i]]]]; [| | | |lia]; (destruct j as [|[|[|j]]]; [| | |lia]); cbn in *; lra.
Qed.
