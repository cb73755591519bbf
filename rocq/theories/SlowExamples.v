(** * Concrete histories of capture that takes time, for one species with capture rate 1 and
    release timescale 1. *)
From Coq Require Import ZArith List Bool Reals Lra Lia.
From Coquelicot Require Import Rcomplements Rbar Hierarchy RInt.
From Verif Require Import Num Py RFacts CCDModel TrapsModel ManagerModel Spec SpecSlow WmFacts ArrayFacts CutFacts
  InstantFacts BalanceFacts TimeFacts SlowFacts SlowSpecFacts SlowNegativeFacts ReadoutExamples.
Import ListNotations.
Open Scope R_scope.

Definition slow_trap (density : R) : trap R := mkTrap density 1 (RFin (1 / 1)) (1 / 1) false CTrap.
Lemma slow_trap_init density : trap_init density 1 1 false = Ok (slow_trap density).
Proof.
  unfold trap_init, trap_init_class, slow_trap. rnum.
  replace (Reqb 1 0) with false by (symmetry; apply Reqb_false; lra). reflexivity.
Qed.
Lemma slow_trap_finite density : 0 <= density -> Forall finite_capture [slow_trap density].
Proof.
  intros H. constructor; [|constructor]. split; [constructor; cbn; lra|]. exists (1 / 1). split; [reflexivity|lra].
Qed.
Lemma slow_trap_capturing density : 0 <= density -> Forall capturing [slow_trap density].
Proof.
  intros H. constructor; [|constructor]. split; [constructor; cbn; lra|]. cbn. lra.
Qed.
(** Trap(density, 1), with the default capture timescale of 0. *)
Definition prompt_trap (density : R) : trap R := mkTrap density 1 RInf (1 / 1) false CTrap.
Lemma prompt_trap_init density : trap_init density 1 0 false = Ok (prompt_trap density).
Proof.
  unfold trap_init, trap_init_class, prompt_trap. rnum.
  replace (Reqb 1 0) with false by (symmetry; apply Reqb_false; lra). replace (Reqb 0 0) with true by (symmetry; now apply Reqb_true). reflexivity.
Qed.
Lemma prompt_trap_capturing density : 0 <= density -> Forall capturing [prompt_trap density].
Proof.
  intros H. constructor; [|constructor]. split; [constructor; cbn; lra|]. cbn. exact I.
Qed.
Lemma exp_twice d : exp (- (1 / 1 + 1 / 1) * d) = exp (- d) * exp (- d).
Proof. rewrite <- exp_plus. f_equal. field. Qed.
Lemma slow_trap_empty density d : if_empty (slow_trap density) d = (1 - exp (- d) * exp (- d)) / 2.
Proof. unfold if_empty. cbn [slow_trap t_capture_rate t_emission_rate]. cbv zeta. rewrite exp_twice. field. Qed.
Lemma slow_trap_full density d : if_full (slow_trap density) d = (1 + exp (- d) * exp (- d)) / 2.
Proof. unfold if_full. cbn [slow_trap t_capture_rate t_emission_rate]. cbv zeta. rewrite exp_twice. field. Qed.
(** A dwell time after which an empty trap inside the cloud is filled with probability 1/8. *)
Definition brief : R := ln (4 / 3) / 2.
Lemma brief_pos : 0 < brief.
Proof. unfold brief. pose proof (ln_pos (4 / 3) ltac:(lra)). lra. Qed.
Lemma exp_brief : exp (- brief) * exp (- brief) = 3 / 4.
Proof.
  rewrite <- exp_plus. unfold brief. replace (- (ln (4 / 3) / 2) + - (ln (4 / 3) / 2)) with (- ln (4 / 3)) by lra.
  rewrite exp_Ropp, exp_ln by lra. lra.
Qed.

(** Profiles with finitely many steps. *)
Definition levels (a : list (R * R)) : wmarks R := map (fun '(w, f) => (w, [f])) a.
Definition steps (a : list (R * R)) (P : profile) : Prop :=
  Forall (fun '(w, f) => 0 < w /\ 0 <= f <= 1) a /\ Rsum (map fst a) <= 1 /\
  forall x, 0 <= x < 1 -> P 0%nat x = occupancy (levels a) 0 x.
Definition area (a : list (R * R)) : R := Rsum (map (fun '(w, f) => w * f) a).
Lemma levels_volume a : volume (levels a) = Rsum (map fst a).
Proof. unfold volume, levels. rewrite map_map. f_equal. apply map_ext. now intros []. Qed.
Lemma levels_good a : Forall (fun '(w, f) => 0 < w /\ 0 <= f <= 1) a -> good 1 (levels a).
Proof.
  intros H. unfold good, levels. apply Forall_map. eapply Forall_impl; [|exact H]. intros [w f] [H1 H2].
  repeat split; cbn; auto.
Qed.
Lemma steps_electrons t a P : steps a P -> electrons [t] P 0 1 = t_density t * area a.
Proof.
  intros (Ha & Hv & HP). rewrite (electrons_levels [t] (levels a) P).
  - unfold trapped, area, levels. rewrite map_map. clear. induction a as [|[w f] a IH]; [cbn; lra|].
    cbn [map Rsum fold_right]. unfold Rsum in IH. cbn [dens map] in *. rewrite IH. unfold row_trapped, dot, Rsum. cbn. lra.
  - now apply levels_good.
  - now rewrite levels_volume.
  - intros [|s] x Hs Hx; [symmetry; now apply HP|cbn in Hs; lia].
Qed.
Lemma steps_empty : steps [] empty_profile.
Proof. split; [constructor|]. split; [cbn; lra|]. reflexivity. Qed.

Lemma slow_call rho well d n P a b c v n' v' :
  let t := slow_trap rho in
  steps a P -> well n = v -> steps b (release_above [t] d v P) ->
  n' = n + rho * (area a - area b) -> well n' = v' -> steps c (exchange_below [t] d v' (release_above [t] d v P)) ->
  cloud_then [t] well d n P = n' /\ gain [t] well d n P = rho * (area c - area a) /\ steps c (exchanged [t] well d n P).
Proof.
  intros t Ha Hv Hb Hn' Hv' Hc.
  assert (E : cloud_then [t] well d n P = n').
  { unfold cloud_then. rewrite Hv, (steps_electrons t a P Ha), (steps_electrons t b _ Hb). cbn [t t_density slow_trap]. lra. }
  assert (Hc' : steps c (exchanged [t] well d n P)) by (unfold exchanged; now rewrite E, Hv, Hv').
  split; [exact E|]. split; [|exact Hc']. unfold gain.
  rewrite (steps_electrons t a P Ha), (steps_electrons t c _ Hc'). cbn [t t_density slow_trap]. lra.
Qed.

(** The values below and above the two depths. *)
Lemma release_value rho d v P x : release_above [slow_trap rho] d v P 0%nat x = if Rlt_dec x v then P 0%nat x else P 0%nat x * exp (- d).
Proof. unfold release_above, timescale. cbn. now rewrite Rdiv_1. Qed.
Lemma exchange_value rho d v P x : exchange_below [slow_trap rho] d v P 0%nat x =
  if Rlt_dec x v then P 0%nat x * ((1 + exp (- d) * exp (- d)) / 2) + (1 - P 0%nat x) * ((1 - exp (- d) * exp (- d)) / 2) else P 0%nat x.
Proof. unfold exchange_below. cbn [nth_error]. now rewrite slow_trap_empty, slow_trap_full. Qed.

Ltac steps_tac := intros; unfold levels; cbn [map occupancy nth]; repeat (destruct (Rlt_dec _ _)); try lra.
Ltac steps_by := split; [repeat constructor; lra|split; [cbn; lra|]].

(** From empty traps. *)
Lemma slow_call_1 rho well n v : well n = v -> 0 < v <= 1 ->
  let t := slow_trap rho in
  cloud_then [t] well brief n empty_profile = n /\ gain [t] well brief n empty_profile = rho * (v / 8) /\
  steps [(v, 1 / 8)] (exchanged [t] well brief n empty_profile).
Proof.
  intros Hv Hr t.
  assert (Hb : steps [] (release_above [t] brief v empty_profile)).
  { split; [constructor|]. split; [cbn; lra|]. intros x Hx. unfold t. rewrite release_value. unfold empty_profile. cbn. destruct (Rlt_dec _ _); lra. }
  destruct (slow_call rho well brief n empty_profile [] [] [(v, 1 / 8)] v n v steps_empty Hv Hb) as (E1 & E2 & E3).
  - unfold area. cbn. lra.
  - exact Hv.
  - split; [repeat constructor; lra|]. split; [cbn; lra|]. intros x Hx. fold t. unfold t. rewrite exchange_value, exp_brief, release_value.
    unfold empty_profile. steps_tac.
  - split; [exact E1|]. split; [|exact E3]. unfold t. rewrite E2. unfold area. cbn. lra.
Qed.

(** Then a smaller cloud that stays long enough to release half of what is above it. *)
Lemma slow_call_2 rho well n h v n' v' P : steps [(h, 1 / 8)] P -> h <= 1 -> well n = v -> 0 < v < v' -> v' < h ->
  n' = n + rho * ((h - v) / 16) -> well n' = v' ->
  let t := slow_trap rho in
  cloud_then [t] well (ln 2) n P = n' /\
  gain [t] well (ln 2) n P = rho * (v * (13 / 32) + (v' - v) * (25 / 64) + (h - v') / 16 - h / 8) /\
  steps [(v, 13 / 32); (v' - v, 25 / 64); (h - v', 1 / 16)] (exchanged [t] well (ln 2) n P).
Proof.
  intros HP Hh Hv Hv1 Hv2 Hn' Hv' t. pose proof HP as (_ & _ & HP').
  assert (Hb : steps [(v, 1 / 8); (h - v, 1 / 16)] (release_above [t] (ln 2) v P)).
  { steps_by. intros x Hx. unfold t. rewrite release_value, exp_ln2, HP' by exact Hx. steps_tac. }
  destruct (slow_call rho well (ln 2) n P [(h, 1 / 8)] [(v, 1 / 8); (h - v, 1 / 16)] [(v, 13 / 32); (v' - v, 25 / 64); (h - v', 1 / 16)] v n' v' HP Hv Hb) as (E1 & E2 & E3).
  - rewrite Hn'. unfold area. cbn. lra.
  - exact Hv'.
  - steps_by. intros x Hx. fold t. unfold t. rewrite exchange_value, release_value, exp_ln2, HP' by exact Hx. steps_tac.
  - split; [exact E1|]. split; [|exact E3]. unfold t. rewrite E2. unfold area. cbn. lra.
Qed.
Lemma slow_cloud_2 rho well n h v P : steps [(h, 1 / 8)] P -> h <= 1 -> well n = v -> 0 < v < h ->
  cloud_then [slow_trap rho] well (ln 2) n P = n + rho * ((h - v) / 16).
Proof.
  intros HP Hh Hv Hv1. pose proof HP as (_ & _ & HP').
  assert (Hb : steps [(v, 1 / 8); (h - v, 1 / 16)] (release_above [slow_trap rho] (ln 2) v P)).
  { steps_by. intros x Hx. rewrite release_value, exp_ln2, HP' by exact Hx. steps_tac. }
  unfold cloud_then. rewrite Hv, (steps_electrons _ _ _ HP), (steps_electrons _ _ _ Hb). unfold area. cbn. lra.
Qed.
