(** * C110-C111: every image with enough charge is the readout of exactly one image, which
    remove_cti finds; noise is amplified by a bounded factor. *)
From Coq Require Import ZArith List Bool Reals Lra Lia Sorted.
From Verif Require Import Num Py RFacts CCDModel TrapsModel ManagerModel ROEModel ClockModel MainModel Spec SpecROE SpecImage SpecReadout SpecColumn SpecBound SpecRecovery SpecPhases SpecWork SpecExpressOrder SpecInjectionOrder SpecWindowOrder SpecAbove
  GridFacts SteadyFacts ContractFacts WindowGridFacts AboveGridFacts InverseFacts Properties_Phases Properties_ExpressOrder Properties_InjectionOrder Properties_WindowOrder Properties_AboveOrder.
Import ListNotations.
Open Scope R_scope.

(** ** C110: existence, uniqueness and a geometric rate that is the same for all images.  Every
    pixel must have what the traps it passes can take or give. *)
Theorem C110_every_image_is_the_readout_of_one_image parallel serial time rows cols : (0 < rows)%nat -> (0 < cols)%nat ->
  time_range time -> gentle_call parallel rows -> gentle_call serial cols ->
  exists C r, 0 <= C /\ 0 <= r < 1 /\ forall im, shape rows cols im -> charged_above 0 1 parallel serial rows cols im ->
  exists x pr sr, shape rows cols x /\ (forall i j, 0 <= pixel x i j) /\ add_cti x parallel serial time = Ok (im, pr, sr) /\
    (forall y pr' sr', shape rows cols y -> (forall i j, 0 <= pixel y i j) -> add_cti y parallel serial time = Ok (im, pr', sr') -> y = x) /\
    forall n, exists est, remove_cti im n parallel serial time = Ok est /\ shape rows cols est /\
      image_apart est x <= C * r ^ n * image_apart im x.
Proof.
  intros Hr Hc Ht Hp Hs. destruct (call_ready _ _ _ _ _ Hr Hc Ht Hp Hs) as (rp & rs & tw & lines & [D1 D2 D3 D4 D5]).
  destruct (call_map parallel serial rows cols Hr Hc rp rs time tw lines D1 D2 D3 D4 D5) as (gain & big & F & Hg & Hb & HT & HF).
  exists (scale_of gain big (rows * cols)), (1 - gain / 2). split; [left; now apply scale_pos|]. split; [now apply rate_range|]. intros im Si Ci.
  destruct (undone 0 0 parallel serial rows cols (Rle_refl 0) (Rle_refl 0) Hr Hc rp rs time gain big F Hg Hb HT (fun im S N _ => HF im S N) im Si ltac:(rewrite Rplus_0_l; exact Ci)) as (x & Sx & Nx & _ & Ex & Ux & Ax).
  exists x, rp, rs. split; [exact Sx|]. split; [exact Nx|]. split; [exact Ex|]. split; [|exact Ax]. intros y pr sr Sy Ny Ey. apply (Ux y pr sr Sy Ny); [|exact Ey].
  intros i j Hi Hj. destruct (Ci i j Hi Hj) as (p & s & Lp & Ls & _). exists p, s. split; [exact Lp|]. split; [exact Ls|]. specialize (Ny i j). lra.
Qed.
Print Assumptions C110_every_image_is_the_readout_of_one_image.
(** Past wells of any power, among images in which every pixel keeps [floor] electrons. *)
Theorem C110_every_image_is_the_readout_of_one_image_past_any_wells parallel serial time rows cols floor : 0 < floor -> (0 < rows)%nat -> (0 < cols)%nat ->
  time_range time -> slow_call floor parallel rows -> slow_call floor serial cols ->
  exists C r, 0 <= C /\ 0 <= r < 1 /\ forall im, shape rows cols im -> charged_above floor 2 parallel serial rows cols im ->
  exists x pr sr, shape rows cols x /\ charged_above floor 1 parallel serial rows cols x /\ add_cti x parallel serial time = Ok (im, pr, sr) /\
    (forall y pr' sr', shape rows cols y -> (forall i j, 0 <= pixel y i j) -> charged_above floor 1 parallel serial rows cols y -> add_cti y parallel serial time = Ok (im, pr', sr') -> y = x) /\
    forall n, exists est, remove_cti im n parallel serial time = Ok est /\ shape rows cols est /\
      image_apart est x <= C * r ^ n * image_apart im x.
Proof.
  intros Hfl Hr Hc Ht Hp Hs. destruct (slow_ready _ _ _ _ _ _ Hfl Hr Hc Ht Hp Hs) as (rp & rs & tw & lines & [D1 D2 D3 D4 D5]).
  destruct (slow_map floor parallel serial rows cols Hr Hc rp rs time tw lines D1 D2 D3 D4 D5) as (gain & big & F & Hg & Hb & HT & HF).
  exists (scale_of gain big (rows * cols)), (1 - gain / 2). split; [left; now apply scale_pos|]. split; [now apply rate_range|]. intros im Si Ci.
  destruct (undone floor 1 parallel serial rows cols (Rlt_le _ _ Hfl) Rle_0_1 Hr Hc rp rs time gain big F Hg Hb HT HF im Si ltac:(replace (1 + 1) with 2 by lra; exact Ci)) as (x & Sx & Nx & Cx & Ex & Ux & Ax).
  exists x, rp, rs. split; [exact Sx|]. split; [exact Cx|]. split; [exact Ex|]. split; [exact Ux|exact Ax].
Qed.
Print Assumptions C110_every_image_is_the_readout_of_one_image_past_any_wells.

(** ** C111: however many iterations, remove_cti enlarges differences by a bounded factor. *)
Theorem C111_noise_is_amplified_by_a_bounded_factor parallel serial time rows cols : (0 < rows)%nat -> (0 < cols)%nat ->
  time_range time -> gentle_call parallel rows -> gentle_call serial cols ->
  exists K, 0 <= K /\ forall a b n, shape rows cols a -> shape rows cols b -> charged_above 0 1 parallel serial rows cols a -> charged_above 0 1 parallel serial rows cols b ->
  exists a' b', remove_cti a n parallel serial time = Ok a' /\ remove_cti b n parallel serial time = Ok b' /\ image_apart a' b' <= K * image_apart a b.
Proof.
  intros Hr Hc Ht Hp Hs. destruct (call_ready _ _ _ _ _ Hr Hc Ht Hp Hs) as (rp & rs & tw & lines & [D1 D2 D3 D4 D5]).
  destruct (call_map parallel serial rows cols Hr Hc rp rs time tw lines D1 D2 D3 D4 D5) as (gain & big & F & Hg & Hb & HT & HF).
  exists (scale_of gain big (rows * cols) * (1 + 2 / gain)). split.
  { apply Rmult_le_pos; [left; now apply scale_pos|]. assert (0 < 2 / gain) by (apply Rdiv_lt_0_compat; lra). lra. }
  intros a b n Sa Sb Ca Cb. apply (noise 0 0 parallel serial rows cols (Rle_refl 0) (Rle_refl 0) Hr Hc rp rs time gain big F Hg Hb HT (fun im S N _ => HF im S N) a b Sa Sb); rewrite Rplus_0_l; assumption.
Qed.
Print Assumptions C111_noise_is_amplified_by_a_bounded_factor.
Theorem C111_noise_is_amplified_by_a_bounded_factor_past_any_wells parallel serial time rows cols floor : 0 < floor -> (0 < rows)%nat -> (0 < cols)%nat ->
  time_range time -> slow_call floor parallel rows -> slow_call floor serial cols ->
  exists K, 0 <= K /\ forall a b n, shape rows cols a -> shape rows cols b -> charged_above floor 2 parallel serial rows cols a -> charged_above floor 2 parallel serial rows cols b ->
  exists a' b', remove_cti a n parallel serial time = Ok a' /\ remove_cti b n parallel serial time = Ok b' /\ image_apart a' b' <= K * image_apart a b.
Proof.
  intros Hfl Hr Hc Ht Hp Hs. destruct (slow_ready _ _ _ _ _ _ Hfl Hr Hc Ht Hp Hs) as (rp & rs & tw & lines & [D1 D2 D3 D4 D5]).
  destruct (slow_map floor parallel serial rows cols Hr Hc rp rs time tw lines D1 D2 D3 D4 D5) as (gain & big & F & Hg & Hb & HT & HF).
  exists (scale_of gain big (rows * cols) * (1 + 2 / gain)). split.
  { apply Rmult_le_pos; [left; now apply scale_pos|]. assert (0 < 2 / gain) by (apply Rdiv_lt_0_compat; lra). lra. }
  intros a b n Sa Sb Ca Cb. apply (noise floor 1 parallel serial rows cols (Rlt_le _ _ Hfl) Rle_0_1 Hr Hc rp rs time gain big F Hg Hb HT HF a b Sa Sb); replace (1 + 1) with 2 by lra; assumption.
Qed.
Print Assumptions C111_noise_is_amplified_by_a_bounded_factor_past_any_wells.

(** ** Images that meet the conditions *)
Example C110_example : time_range (Some (py_range 1 3)) /\ gentle_call trio_rows 4 /\ gentle_call pair_column 3 /\ charged_above 0 1 trio_rows pair_column 4 3 glow /\
  slow_call 1 root_rows 4 /\ slow_call 1 root_columns 3 /\ charged_above 1 2 root_rows root_columns 4 3 faint.
Proof.
  destruct C106_example as (H1 & H2 & _ & H3 & _). destruct C108_example as (_ & H4 & H5 & _). split; [exact H1|]. split; [exact H2|]. split; [exact H3|]. split; [|split; [exact H4|split; [exact H5|]]].
  - intros i j Hi Hj. destruct (C107_example i j Hi Hj) as (p & s & Lp & Ls & B). exists p, s. split; [exact Lp|]. split; [exact Ls|]. apply call_limit_nonneg in Lp. apply call_limit_nonneg in Ls. lra.
  - intros i j Hi Hj. destruct (proj1 C109_example i j Hi Hj) as (p & s & Lp & Ls & B). exists p, s. split; [exact Lp|]. split; [exact Ls|]. apply call_limit_nonneg in Lp. apply call_limit_nonneg in Ls. lra.
Qed.
Example C111_example : exists K, 0 <= K /\ forall n, exists a' b', remove_cti glow n trio_rows pair_column (Some (py_range 1 3)) = Ok a' /\ remove_cti glare n trio_rows pair_column (Some (py_range 1 3)) = Ok b' /\
  image_apart a' b' <= K * image_apart glow glare.
Proof.
  destruct C110_example as (H1 & H2 & H3 & H4 & _). destruct (C111_noise_is_amplified_by_a_bounded_factor trio_rows pair_column (Some (py_range 1 3)) 4 3 ltac:(lia) ltac:(lia) H1 H2 H3) as (K & HK & H).
  exists K. split; [exact HK|]. intros n. destruct C106_example as (_ & _ & _ & _ & _ & S1 & S2 & _ & L & _). apply H; [exact S1|exact S2|exact H4|].
  intros i j Hi Hj. destruct (H4 i j Hi Hj) as (p & s & Lp & Ls & B). exists p, s. split; [exact Lp|]. split; [exact Ls|]. specialize (L i j Hi Hj). lra.
Qed.
