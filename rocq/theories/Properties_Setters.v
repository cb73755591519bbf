(** * C147: changing a well parameter of a CCD afterwards (ccd.py:108-164). *)
From Coq Require Import ZArith List Bool Reals Lra Lia.
From Verif Require Import Num Py RFacts CCDModel Spec CCDFacts.
Import ListNotations.
Open Scope R_scope.

Section AnyNumbers.
Context {F : Type} {num : Num F}.
Local Lemma bind_ok {A B} (m : result A) (k : A -> result B) b : bind m k = Ok b -> exists a, m = Ok a /\ k a = Ok b.
Proof. destruct m; [eauto|discriminate]. Qed.
Lemma broadcast_cases n (v : param F) : (fits n v /\ exists l, broadcast n v = Ok l /\ length l = n /\ forall i, (i < n)%nat -> nth_error l i = value_at v i) \/ (~ fits n v /\ broadcast n v = Err ValueError).
Proof.
  destruct (broadcast n v) as [l|e] eqn:E.
  - left. apply broadcast_ok in E as (A & B & C). eauto.
  - right. apply broadcast_err in E as (-> & B). auto.
Qed.
(** What the constructor makes of its arguments, when they fit. *)
Lemma init_parts (fr fw no fp : param F) bl c : ccd_init fr fw no fp bl = Ok c ->
  exists lfw lfp lno, broadcast (n_phases_of fr) fw = Ok lfw /\ broadcast (n_phases_of fr) fp = Ok lfp /\ broadcast (n_phases_of fr) no = Ok lno /\
    set_bloom (mkCCD (match fr with PList l => l | Scalar x => [x] end) (n_phases_of fr) lfw lfp lno []) bl = Ok c.
Proof.
  unfold ccd_init, set_full_well, set_fill_power, set_notch. set (c0 := set_fractions _ _). assert (E0 : c0 = mkCCD (match fr with PList l => l | Scalar x => [x] end) (n_phases_of fr) [] [] [] []) by (subst c0; destruct fr; reflexivity).
  rewrite E0. cbn [ccd_n_phases ccd_fractions ccd_full_well ccd_fill_power ccd_notch ccd_bloom]. intros H.
  apply bind_ok in H as (c1 & H1 & H). apply bind_ok in H1 as (lfw & E1 & H1). injection H1 as <-. cbn [ccd_n_phases ccd_fractions ccd_full_well ccd_fill_power ccd_notch ccd_bloom] in H.
  apply bind_ok in H as (c2 & H2 & H). apply bind_ok in H2 as (lfp & E2 & H2). injection H2 as <-. cbn [ccd_n_phases ccd_fractions ccd_full_well ccd_fill_power ccd_notch ccd_bloom] in H.
  apply bind_ok in H as (c3 & H3 & H). apply bind_ok in H3 as (lno & E3 & H3). injection H3 as <-. cbn [ccd_n_phases ccd_fractions ccd_full_well ccd_fill_power ccd_notch ccd_bloom] in H.
  exists lfw, lfp, lno. auto.
Qed.
Lemma init_from (fr fw no fp : param F) bl : ccd_init fr fw no fp bl =
  do lfw <- broadcast (n_phases_of fr) fw; do lfp <- broadcast (n_phases_of fr) fp; do lno <- broadcast (n_phases_of fr) no;
  set_bloom (mkCCD (match fr with PList l => l | Scalar x => [x] end) (n_phases_of fr) lfw lfp lno []) bl.
Proof.
  unfold ccd_init, set_full_well, set_fill_power, set_notch. set (c0 := set_fractions _ _). assert (E0 : c0 = mkCCD (match fr with PList l => l | Scalar x => [x] end) (n_phases_of fr) [] [] [] []) by (subst c0; destruct fr; reflexivity).
  rewrite E0. cbn [ccd_n_phases ccd_fractions ccd_full_well ccd_fill_power ccd_notch ccd_bloom].
  destruct (broadcast _ fw) as [lfw|]; [|reflexivity]. cbn [bind ccd_n_phases ccd_fractions ccd_full_well ccd_fill_power ccd_notch ccd_bloom].
  destruct (broadcast _ fp) as [lfp|]; [|reflexivity]. cbn [bind ccd_n_phases ccd_fractions ccd_full_well ccd_fill_power ccd_notch ccd_bloom].
  destruct (broadcast _ no) as [lno|]; reflexivity.
Qed.
End AnyNumbers.

(** Assigning the full well depth, the fill power or the notch depth: a number, or a list of the
    right length, gives every phase its value and changes nothing else. *)
Theorem C147_assigning_full_well_depth {F} {num : Num F} (c : ccd F) v : let n := ccd_n_phases c in
  (~ fits n v -> set_full_well c v = Err ValueError) /\
  (fits n v -> exists c', set_full_well c v = Ok c' /\ length (ccd_full_well c') = n /\ (forall i, (i < n)%nat -> nth_error (ccd_full_well c') i = value_at v i) /\
    ccd_n_phases c' = n /\ ccd_fractions c' = ccd_fractions c /\ ccd_fill_power c' = ccd_fill_power c /\ ccd_notch c' = ccd_notch c /\ ccd_bloom c' = ccd_bloom c).
Proof.
  intros n. unfold set_full_well. fold n. destruct (broadcast_cases n v) as [(A & l & -> & L & V)|(A & ->)]; split; intros H; try contradiction; [|reflexivity]. cbn [bind]. eexists. split; [reflexivity|]. cbn. auto 10.
Qed.
Print Assumptions C147_assigning_full_well_depth.
Theorem C147_assigning_well_fill_power {F} {num : Num F} (c : ccd F) v : let n := ccd_n_phases c in
  (~ fits n v -> set_fill_power c v = Err ValueError) /\
  (fits n v -> exists c', set_fill_power c v = Ok c' /\ length (ccd_fill_power c') = n /\ (forall i, (i < n)%nat -> nth_error (ccd_fill_power c') i = value_at v i) /\
    ccd_n_phases c' = n /\ ccd_fractions c' = ccd_fractions c /\ ccd_full_well c' = ccd_full_well c /\ ccd_notch c' = ccd_notch c /\ ccd_bloom c' = ccd_bloom c).
Proof.
  intros n. unfold set_fill_power. fold n. destruct (broadcast_cases n v) as [(A & l & -> & L & V)|(A & ->)]; split; intros H; try contradiction; [|reflexivity]. cbn [bind]. eexists. split; [reflexivity|]. cbn. auto 10.
Qed.
Print Assumptions C147_assigning_well_fill_power.
Theorem C147_assigning_well_notch_depth {F} {num : Num F} (c : ccd F) v : let n := ccd_n_phases c in
  (~ fits n v -> set_notch c v = Err ValueError) /\
  (fits n v -> exists c', set_notch c v = Ok c' /\ length (ccd_notch c') = n /\ (forall i, (i < n)%nat -> nth_error (ccd_notch c') i = value_at v i) /\
    ccd_n_phases c' = n /\ ccd_fractions c' = ccd_fractions c /\ ccd_full_well c' = ccd_full_well c /\ ccd_fill_power c' = ccd_fill_power c /\ ccd_bloom c' = ccd_bloom c).
Proof.
  intros n. unfold set_notch. fold n. destruct (broadcast_cases n v) as [(A & l & -> & L & V)|(A & ->)]; split; intros H; try contradiction; [|reflexivity]. cbn [bind]. eexists. split; [reflexivity|]. cbn. auto 10.
Qed.
Print Assumptions C147_assigning_well_notch_depth.
Theorem C147_assigning_well_bloom_level {F} {num : Num F} (c : ccd F) v : let n := ccd_n_phases c in
  (~ fits n v -> set_bloom c (Some v) = Err ValueError) /\
  (fits n v -> exists c', set_bloom c (Some v) = Ok c' /\ length (ccd_bloom c') = n /\ (forall i, (i < n)%nat -> nth_error (ccd_bloom c') i = option_map BNum (value_at v i)) /\
    ccd_n_phases c' = n /\ ccd_fractions c' = ccd_fractions c /\ ccd_full_well c' = ccd_full_well c /\ ccd_fill_power c' = ccd_fill_power c /\ ccd_notch c' = ccd_notch c).
Proof.
  intros n. unfold set_bloom. fold n. destruct v as [x|l]; cbn [fits value_at option_map].
  - split; intros H; [exfalso; now apply H|]. cbn [bind]. eexists. split; [reflexivity|]. cbn. rewrite repeat_length. split; [reflexivity|]. split; [intros i Hi; now apply nth_error_repeat|]. auto.
  - destruct (Nat.eqb_spec (length l) n) as [E|E]; split; intros H; try contradiction; [|reflexivity]. cbn [bind]. eexists. split; [reflexivity|]. cbn. rewrite map_length. split; [exact E|]. split; [intros i Hi; apply nth_error_map|]. auto.
Qed.
Print Assumptions C147_assigning_well_bloom_level.

(** So a CCD that is changed is the CCD that is built with the new value, errors included. *)
Theorem C147_changed_is_built_anew {F} {num : Num F} (fr fw no fp v : param F) bl c : ccd_init fr fw no fp bl = Ok c ->
  set_fill_power c v = ccd_init fr fw no v bl /\ set_notch c v = ccd_init fr fw v fp bl /\
  (bl <> None -> set_full_well c v = ccd_init fr v no fp bl) /\ (forall b, set_bloom c (Some b) = ccd_init fr fw no fp (Some b)).
Proof.
  intros H. apply init_parts in H as (lfw & lfp & lno & E1 & E2 & E3 & H). unfold set_bloom in H. cbn [ccd_n_phases ccd_full_well ccd_fractions ccd_fill_power ccd_notch] in H. apply bind_ok in H as (lbl & E4 & H). injection H as <-.
  rewrite !init_from, E1, E2, E3. cbn [bind]. unfold set_fill_power, set_notch, set_full_well. cbn [ccd_n_phases ccd_fractions ccd_full_well ccd_fill_power ccd_notch ccd_bloom].
  split; [|split; [|split]].
  - destruct (broadcast _ v) as [l|]; [|reflexivity]. cbn [bind]. unfold set_bloom. cbn [ccd_n_phases ccd_fractions ccd_full_well ccd_fill_power ccd_notch ccd_bloom]. rewrite E4. reflexivity.
  - destruct (broadcast _ v) as [l|]; [|reflexivity]. cbn [bind]. unfold set_bloom. cbn [ccd_n_phases ccd_fractions ccd_full_well ccd_fill_power ccd_notch ccd_bloom]. rewrite E4. reflexivity.
  - intros Hbl. destruct (broadcast _ v) as [l|]; [|reflexivity]. cbn [bind]. unfold set_bloom. cbn [ccd_n_phases ccd_fractions ccd_full_well ccd_fill_power ccd_notch ccd_bloom]. destruct bl; [|contradiction]. rewrite E4. reflexivity.
  - intros b. rewrite init_from, E1, E2, E3. reflexivity.
Qed.
Print Assumptions C147_changed_is_built_anew.
(** But not for the full well depth when the blooming level is left at its default, which is documented as the full well depth: it keeps the old one. *)
Theorem C147_default_blooming_level_follows_the_full_well_refuted : exists (c c' c'' : ccd R),
  ccd_init (Scalar 1) (Scalar 1000) (Scalar 0) (Scalar 1) None = Ok c /\ set_full_well c (Scalar 2000) = Ok c' /\ ccd_init (Scalar 1) (Scalar 2000) (Scalar 0) (Scalar 1) None = Ok c'' /\
  ccd_full_well c' = ccd_full_well c'' /\ ccd_bloom c' = ccd_bloom c /\ ccd_bloom c' <> ccd_bloom c''.
Proof.
  do 3 eexists. split; [reflexivity|]. split; [reflexivity|]. split; [reflexivity|]. cbn. split; [reflexivity|]. split; [reflexivity|]. intros E. injection E. lra.
Qed.
Print Assumptions C147_default_blooming_level_follows_the_full_well_refuted.

(** The fractions of the traps decide the number of phases. Assigning them changes nothing else, so the well parameters keep the old number of phases. *)
Theorem C147_assigning_fractions_of_traps {F} {num : Num F} (c : ccd F) v : let c' := set_fractions c v in
  ccd_n_phases c' = n_phases_of v /\ length (ccd_fractions c') = n_phases_of v /\ (forall i, (i < n_phases_of v)%nat -> nth_error (ccd_fractions c') i = value_at v i) /\
  ccd_full_well c' = ccd_full_well c /\ ccd_fill_power c' = ccd_fill_power c /\ ccd_notch c' = ccd_notch c /\ ccd_bloom c' = ccd_bloom c.
Proof.
  destruct v as [x|l]; cbn; repeat split; auto. intros [|i] Hi; [reflexivity|lia].
Qed.
Print Assumptions C147_assigning_fractions_of_traps.
Theorem C147_every_phase_has_a_well_after_assigning_fractions_refuted : exists c : ccd R,
  ccd_init (Scalar 1) (Scalar 1000) (Scalar 0) (Scalar 1) None = Ok c /\ ccd_n_phases (set_fractions c (PList [1 / 2; 1 / 2])) = 2%nat /\
  ccd_phase_init (set_fractions c (PList [1 / 2; 1 / 2])) 1 = Err IndexError.
Proof. eexists. split; [reflexivity|]. split; reflexivity. Qed.
Print Assumptions C147_every_phase_has_a_well_after_assigning_fractions_refuted.

(** ** Two phases. *)
Example C147_example : exists c c' : ccd R, ccd_init (PList [1 / 2; 1 / 2]) (Scalar 1000) (Scalar 0) (Scalar 1) None = Ok c /\ set_fill_power c (PList [1; 1 / 2]) = Ok c' /\
  ccd_fill_power c' = [1; 1 / 2] /\ ccd_full_well c' = [1000; 1000] /\ set_notch c (PList [1; 2; 3]) = Err ValueError /\ fits (ccd_n_phases c) (PList [1; 1 / 2]) /\ ~ fits (ccd_n_phases c) (PList [1; 2; 3]).
Proof. do 2 eexists. split; [reflexivity|]. split; [reflexivity|]. split; [reflexivity|]. split; [reflexivity|]. split; [reflexivity|]. split; [reflexivity|]. cbn. lia. Qed.
