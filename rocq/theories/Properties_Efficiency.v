
(** * C143: the share of the first packet that reaches the output. *)
From Coq Require Import ZArith List Bool Reals Lra Lia.
From Coquelicot Require Import Rcomplements.
From Verif Require Import Num Py RFacts CCDModel TrapsModel ManagerModel ROEModel ClockModel MainModel Spec SpecImage SpecReadout SpecHistory SpecRecovery SpecFirst
  InstantFacts OrderFacts TameFacts RecoverFacts DepthFacts AboveFacts RecoverImageFacts ReadoutImage ReadoutExamples DivergeExample FirstFacts EfficiencyFacts.
Import ListNotations.
Open Scope R_scope.

Lemma trapped_share d n c fraction group dwell : single_phase d n c fraction group dwell false -> instant_group group -> 0 <= fraction * traps_per_pixel group.
Proof.
  intros S [_ G]. apply Rmult_le_pos; [left; exact (sp_share _ _ _ _ _ _ _ S)|]. apply density_nonneg. eapply Forall_impl; [|exact G]. intros t Ht. apply Ht.
Qed.

Lemma shares x a y b : 0 < a -> 0 < b -> x * b <= y * a -> x / a <= y / b.
Proof. intros Ha Hb H. apply Rle_div_l; [exact Ha|]. replace (y / b * a) with (y * a / b) by (field; lra). now apply Rle_div_r. Qed.

(** In wells that fill evenly every pixel on the way takes the same share of the packet, as a
    charge transfer efficiency has it. *)
Theorem C143_linear_wells_have_a_charge_transfer_efficiency (im : image R) parallel serial c fraction group dwell full rows cols i j :
  shape rows cols im -> (i < rows)%nat -> (j < cols)%nat -> single_phase parallel rows c fraction group dwell false -> instant_group group ->
  phase_params c 0 0 1 full -> 0 < full -> fraction * traps_per_pixel group <= full -> d_traps serial = None -> d_window serial = WNone ->
  leads im i j -> 0 <= pixel im i j <= full ->
  exists im', add_cti im parallel serial None = Ok (im', the_roe parallel, the_roe serial) /\ shape rows cols im' /\
    pixel im' i j = pixel im i j * (1 - fraction * traps_per_pixel group / full) ^ (i + 1 + d_offset parallel).
Proof.
  intros Hs Hi Hj S G P Hf Hr Hst Hsw Hl Ha. pose proof (trapped_share _ _ _ _ _ _ S G) as H0.
  destruct (first_packet im parallel serial c fraction group dwell full 1 rows cols i j Hs Hi Hj S G P Hf ltac:(lra) Hst Hsw Hl ltac:(lra)) as (im' & E & Sh & K).
  exists im'. split; [exact E|]. split; [exact Sh|]. rewrite K. apply pixels_linear; [split; assumption|exact Hf|exact Ha].
Qed.
Print Assumptions C143_linear_wells_have_a_charge_transfer_efficiency.

(** While it fills the wells, whichever way they fill, it loses the same number of electrons in every pixel. *)
Theorem C143_full_wells_lose_the_same_in_every_pixel (im : image R) parallel serial c fraction group dwell full beta rows cols i j :
  shape rows cols im -> (i < rows)%nat -> (j < cols)%nat -> single_phase parallel rows c fraction group dwell false -> instant_group group ->
  phase_params c 0 0 beta full -> 0 < full -> 0 < beta -> fraction * traps_per_pixel group <= full -> d_traps serial = None -> d_window serial = WNone ->
  leads im i j -> full + INR (i + d_offset parallel) * (fraction * traps_per_pixel group) <= pixel im i j ->
  exists im', add_cti im parallel serial None = Ok (im', the_roe parallel, the_roe serial) /\ shape rows cols im' /\
    pixel im' i j = pixel im i j - INR (i + 1 + d_offset parallel) * (fraction * traps_per_pixel group).
Proof.
  intros Hs Hi Hj S G P Hf Hb Hr Hst Hsw Hl Ha. pose proof (trapped_share _ _ _ _ _ _ S G) as H0.
  assert (H1 : 0 <= INR (i + d_offset parallel) * (fraction * traps_per_pixel group)) by (apply Rmult_le_pos; [apply pos_INR|exact H0]).
  destruct (first_packet im parallel serial c fraction group dwell full beta rows cols i j Hs Hi Hj S G P Hf Hb Hst Hsw Hl ltac:(lra)) as (im' & E & Sh & K).
  exists im'. split; [exact E|]. split; [exact Sh|]. rewrite K. apply pixels_full; auto.
  replace (i + 1 + d_offset parallel)%nat with (Datatypes.S (i + d_offset parallel)) by lia. rewrite S_INR. lra.
Qed.
Print Assumptions C143_full_wells_lose_the_same_in_every_pixel.

(** However few the traps, next to nothing is left of a packet from far enough away: how far depends on
    how bright it is, on the wells and on the number of traps. *)
Theorem C143_distant_packets_are_lost full beta fraction group brightest eps :
  0 < full -> 0 < beta -> 0 < fraction * traps_per_pixel group -> 0 <= brightest -> 0 < eps ->
  exists far, forall (im : image R) parallel serial c dwell rows cols i j,
    shape rows cols im -> (i < rows)%nat -> (j < cols)%nat -> single_phase parallel rows c fraction group dwell false -> instant_group group ->
    phase_params c 0 0 beta full -> d_traps serial = None -> d_window serial = WNone ->
    leads im i j -> 0 <= pixel im i j <= brightest -> (far <= i + 1 + d_offset parallel)%nat ->
    exists im', add_cti im parallel serial None = Ok (im', the_roe parallel, the_roe serial) /\ shape rows cols im' /\ 0 <= pixel im' i j <= eps.
Proof.
  intros Hf Hb Hr Hbr He. destruct (pixels_vanish _ full beta ltac:(left; exact Hr) Hf Hb brightest eps Hr Hbr He) as (N & HN). exists N.
  intros im parallel serial c dwell rows cols i j Hs Hi Hj S G P Hst Hsw Hl Ha Hfar.
  destruct (first_packet im parallel serial c fraction group dwell full beta rows cols i j Hs Hi Hj S G P Hf Hb Hst Hsw Hl ltac:(lra)) as (im' & E & Sh & K).
  exists im'. split; [exact E|]. split; [exact Sh|]. rewrite K. split; [apply pixels_pos; lra|]. now apply HN.
Qed.
Print Assumptions C143_distant_packets_are_lost.

(** In wells whose fill power is at most 1 a brighter packet keeps a larger share: the faint ones suffer most.
    The two images may differ in every pixel behind the packets, and in the other columns. *)
Theorem C143_brighter_packets_keep_a_larger_share (faint bright : image R) parallel serial c fraction group dwell full beta rows cols i j :
  shape rows cols faint -> shape rows cols bright -> (i < rows)%nat -> (j < cols)%nat -> single_phase parallel rows c fraction group dwell false -> instant_group group ->
  phase_params c 0 0 beta full -> 0 < full -> 0 < beta <= 1 -> d_traps serial = None -> d_window serial = WNone ->
  leads faint i j -> leads bright i j -> 0 < pixel faint i j <= pixel bright i j ->
  exists faint' bright', add_cti faint parallel serial None = Ok (faint', the_roe parallel, the_roe serial) /\ add_cti bright parallel serial None = Ok (bright', the_roe parallel, the_roe serial) /\
    pixel faint' i j / pixel faint i j <= pixel bright' i j / pixel bright i j.
Proof.
  intros Hs1 Hs2 Hi Hj S G P Hf Hb Hst Hsw Hl1 Hl2 Ha. pose proof (trapped_share _ _ _ _ _ _ S G) as H0.
  destruct (first_packet faint parallel serial c fraction group dwell full beta rows cols i j Hs1 Hi Hj S G P Hf ltac:(lra) Hst Hsw Hl1 ltac:(lra)) as (im1 & E1 & _ & K1).
  destruct (first_packet bright parallel serial c fraction group dwell full beta rows cols i j Hs2 Hi Hj S G P Hf ltac:(lra) Hst Hsw Hl2 ltac:(lra)) as (im2 & E2 & _ & K2).
  exists im1, im2. split; [exact E1|]. split; [exact E2|]. rewrite K1, K2.
  assert (Hab : 0 <= pixel faint i j <= pixel bright i j) by (split; [left|]; apply Ha).
  pose proof (pixels_share _ full beta H0 Hf ltac:(lra) (i + 1 + d_offset parallel) (pixel faint i j) (pixel bright i j) Hab) as L.
  apply shares; [lra|lra|exact L].
Qed.
Print Assumptions C143_brighter_packets_keep_a_larger_share.

(** In wells whose fill power is at least 1 it is the fainter packet that does, up to the full well. *)
Theorem C143_fainter_packets_keep_a_larger_share_in_steep_wells (faint bright : image R) parallel serial c fraction group dwell full beta rows cols i j :
  shape rows cols faint -> shape rows cols bright -> (i < rows)%nat -> (j < cols)%nat -> single_phase parallel rows c fraction group dwell false -> instant_group group ->
  phase_params c 0 0 beta full -> 0 < full -> 1 <= beta -> fraction * traps_per_pixel group * beta <= full -> d_traps serial = None -> d_window serial = WNone ->
  leads faint i j -> leads bright i j -> 0 < pixel faint i j <= pixel bright i j -> pixel bright i j <= full ->
  exists faint' bright', add_cti faint parallel serial None = Ok (faint', the_roe parallel, the_roe serial) /\ add_cti bright parallel serial None = Ok (bright', the_roe parallel, the_roe serial) /\
    pixel bright' i j / pixel bright i j <= pixel faint' i j / pixel faint i j.
Proof.
  intros Hs1 Hs2 Hi Hj S G P Hf Hb Hr Hst Hsw Hl1 Hl2 Ha Hfu. pose proof (trapped_share _ _ _ _ _ _ S G) as H0.
  destruct (first_packet faint parallel serial c fraction group dwell full beta rows cols i j Hs1 Hi Hj S G P Hf ltac:(lra) Hst Hsw Hl1 ltac:(lra)) as (im1 & E1 & _ & K1).
  destruct (first_packet bright parallel serial c fraction group dwell full beta rows cols i j Hs2 Hi Hj S G P Hf ltac:(lra) Hst Hsw Hl2 ltac:(lra)) as (im2 & E2 & _ & K2).
  exists im1, im2. split; [exact E1|]. split; [exact E2|]. rewrite K1, K2.
  assert (Hab : 0 <= pixel faint i j <= pixel bright i j) by (split; [left|]; apply Ha).
  pose proof (pixels_share_steep _ full beta H0 Hf ltac:(lra) Hb Hr (i + 1 + d_offset parallel) (pixel faint i j) (pixel bright i j) Hab Hfu) as L.
  apply shares; [lra|lra|exact L].
Qed.
Print Assumptions C143_fainter_packets_keep_a_larger_share_in_steep_wells.

(** ** A quarter of a trap in every pixel, two pixels away from the output. *)
Definition far_direction (offset : nat) : direction R := mkDir (Some small_ccd) (Some small_roe) (Some (TOne (small_trap (1 / 4)))) 0 offset WNone.
Definition one_row (a : R) : image R := [[a]].
Lemma far_setting offset : single_phase (far_direction offset) 1 small_ccd 1 [small_trap (1 / 4)] (ln 2) false.
Proof. constructor; try reflexivity; try lra; [exists (TOne (small_trap (1 / 4))); auto|discriminate|exists true, DFloat; reflexivity|apply ln_pos; lra|left; reflexivity]. Qed.
Lemma far_density : 1 * traps_per_pixel [small_trap (1 / 4)] = 1 / 4.
Proof. unfold traps_per_pixel, Rsum. cbn. lra. Qed.
Lemma one_row_shape a : shape 1 1 (one_row a). Proof. split; [reflexivity|repeat constructor]. Qed.
Lemma one_row_leads a : leads (one_row a) 0 0. Proof. intros k Hk. lia. Qed.

(** In wells that fill evenly the share is no longer the same above the full well, where
    it is the brighter packet that keeps more. *)
Theorem C143_overfull_packets_keep_the_same_share_refuted : exists (faint bright faint' bright' : image R) parallel c group dwell,
  single_phase parallel 1 c 1 group dwell false /\ instant_group group /\ phase_params c 0 0 1 1 /\ 1 * traps_per_pixel group * 1 <= 1 /\
  shape 1 1 faint /\ shape 1 1 bright /\ leads faint 0 0 /\ leads bright 0 0 /\ 0 < pixel faint 0 0 <= pixel bright 0 0 /\ pixel faint 0 0 <= 1 /\
  add_cti faint parallel no_direction None = Ok (faint', the_roe parallel, the_roe no_direction) /\ add_cti bright parallel no_direction None = Ok (bright', the_roe parallel, the_roe no_direction) /\
  pixel faint' 0 0 / pixel faint 0 0 < pixel bright' 0 0 / pixel bright 0 0.
Proof.
  pose proof far_density as D. assert (P : phase_params small_ccd 0 0 1 1) by (constructor; reflexivity). assert (G : instant_group [small_trap (1 / 4)]) by (apply small_group; lra).
  destruct (C143_linear_wells_have_a_charge_transfer_efficiency (one_row 1) (far_direction 1) no_direction small_ccd 1 [small_trap (1 / 4)] (ln 2) 1 1 1 0 0 (one_row_shape 1) ltac:(lia) ltac:(lia) (far_setting 1) G P ltac:(lra) ltac:(rewrite D; lra) eq_refl eq_refl (one_row_leads 1) ltac:(unfold pixel; cbn; lra)) as (im1 & E1 & _ & K1).
  destruct (C143_full_wells_lose_the_same_in_every_pixel (one_row 2) (far_direction 1) no_direction small_ccd 1 [small_trap (1 / 4)] (ln 2) 1 1 1 1 0 0 (one_row_shape 2) ltac:(lia) ltac:(lia) (far_setting 1) G P ltac:(lra) ltac:(lra) ltac:(rewrite D; lra) eq_refl eq_refl (one_row_leads 2)) as (im2 & E2 & _ & K2).
  { rewrite D. unfold pixel. cbn. lra. }
  exists (one_row 1), (one_row 2), im1, im2, (far_direction 1), small_ccd, [small_trap (1 / 4)], (ln 2).
  split; [apply far_setting|]. split; [exact G|]. split; [exact P|]. split; [rewrite D; lra|]. split; [apply one_row_shape|]. split; [apply one_row_shape|]. split; [apply one_row_leads|]. split; [apply one_row_leads|].
  split; [unfold pixel; cbn; lra|]. split; [unfold pixel; cbn; lra|]. split; [exact E1|]. split; [exact E2|]. rewrite K1, K2, D. unfold pixel. cbn. lra.
Qed.
Print Assumptions C143_overfull_packets_keep_the_same_share_refuted.

(** Half an electron loses a quarter to each of the two pixels; fifteen away less than a hundredth of an electron is left. *)
Example C143_example : exists im1 im2,
  add_cti (one_row (1 / 2)) (far_direction 1) no_direction None = Ok (im1, the_roe (far_direction 1), the_roe no_direction) /\ pixel im1 0 0 = 9 / 32 /\
  add_cti (one_row (1 / 2)) (far_direction 14) no_direction None = Ok (im2, the_roe (far_direction 14), the_roe no_direction) /\ 0 < pixel im2 0 0 <= 1 / 100 /\
  0 < 1 * traps_per_pixel [small_trap (1 / 4)] /\ leads (one_row (1 / 2)) 0 0 /\ 0 < pixel (one_row (1 / 4)) 0 0 <= pixel (one_row (1 / 2)) 0 0.
Proof.
  pose proof far_density as D. assert (P : phase_params small_ccd 0 0 1 1) by (constructor; reflexivity). assert (G : instant_group [small_trap (1 / 4)]) by (apply small_group; lra).
  assert (X : forall offset, exists im', add_cti (one_row (1 / 2)) (far_direction offset) no_direction None = Ok (im', the_roe (far_direction offset), the_roe no_direction) /\ pixel im' 0 0 = 1 / 2 * (3 / 4) ^ S offset).
  { intros offset. destruct (C143_linear_wells_have_a_charge_transfer_efficiency (one_row (1 / 2)) (far_direction offset) no_direction small_ccd 1 [small_trap (1 / 4)] (ln 2) 1 1 1 0 0 (one_row_shape _) ltac:(lia) ltac:(lia) (far_setting offset) G P ltac:(lra) ltac:(rewrite D; lra) eq_refl eq_refl (one_row_leads _) ltac:(unfold pixel; cbn; lra)) as (im' & E & _ & K).
    exists im'. split; [exact E|]. rewrite K, D. replace (1 - 1 / 4 / 1) with (3 / 4) by field. reflexivity. }
  destruct (X 1%nat) as (im1 & E1 & K1). destruct (X 14%nat) as (im2 & E2 & K2). exists im1, im2. split; [exact E1|]. split; [rewrite K1; cbn; lra|]. split; [exact E2|]. split; [rewrite K2; cbn; lra|].
  rewrite D. split; [lra|]. split; [apply one_row_leads|]. unfold pixel. cbn. lra.
Qed.
