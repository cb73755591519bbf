(** * Proofs about CCDModel.v. *)
From Coq Require Import ZArith List Bool Reals Lra Lia.
From Verif Require Import Num Py RFacts CCDModel Spec.
Import ListNotations.
Open Scope R_scope.

Lemma set_min_max_R (x : R) : 
  set_min_max x 0 1 = Rmax 0 (Rmin 1 x).
Proof.
  unfold set_min_max; rnum. unfold Rmax, Rmin.
  destruct (Rltb_spec x 0), (Rltb_spec 1 x), (Rle_dec 1 x); try destruct (Rle_dec 0 1); try destruct (Rle_dec 0 x); lra.
Qed.

Lemma well_fill_ok (c : ccd R) phase n notch beta full :
  nth_error (ccd_notch c) phase = Some notch ->
  nth_error (ccd_fill_power c) phase = Some beta ->
  nth_error (ccd_full_well c) phase = Some full ->
  full <> notch -> 0 <= beta ->
  well_fill c phase false n =
    Ok (if Req_EM_T n 0 then 0 else Rpow_py (Rmax 0 (Rmin 1 ((n - notch) / (full - notch)))) beta).
Proof.
  intros Hno Hbe Hfu Hne Hb. unfold well_fill; rnum.
  unfold Reqb at 1. destruct (Req_EM_T n 0) as [Hz|Hz]; [reflexivity|].
  rewrite Hno, Hbe, Hfu; cbn [of_option bind].
  destruct (Reqb_spec (full - notch) 0); [exfalso; lra|].
  rewrite <- set_min_max_R. destruct (Rltb_spec beta 0); [exfalso; lra|]. rewrite andb_false_r. reflexivity.
Qed.

Lemma unit_clip x : 0 <= Rmax 0 (Rmin 1 x) <= 1.
Proof. unfold Rmax, Rmin. destruct (Rle_dec 1 x); destruct (Rle_dec 0 _); lra. Qed.
Lemma clip_mono x y : x <= y -> Rmax 0 (Rmin 1 x) <= Rmax 0 (Rmin 1 y).
Proof. intros. unfold Rmax, Rmin. repeat destruct (Rle_dec _ _); lra. Qed.
Lemma clip_low x : x <= 0 -> Rmax 0 (Rmin 1 x) = 0.
Proof. intros. unfold Rmax, Rmin. repeat destruct (Rle_dec _ _); lra. Qed.
Lemma clip_high x : 1 <= x -> Rmax 0 (Rmin 1 x) = 1.
Proof. intros. unfold Rmax, Rmin. repeat destruct (Rle_dec _ _); lra. Qed.
Lemma clip_mid x : 0 <= x <= 1 -> Rmax 0 (Rmin 1 x) = x.
Proof. intros. unfold Rmax, Rmin. repeat destruct (Rle_dec _ _); lra. Qed.

(** ** The volume of a charge cloud. *)

Lemma volume_bounds c phase notch beta full n :
  phase_params c phase notch beta full -> 0 <= beta -> full <> notch ->
  exists v, cloud_fractional_volume c n phase false = Ok v /\ 0 <= v <= 1.
Proof.
  intros [H1 H2 H3] Hb Hne. unfold cloud_fractional_volume, well_filling_function.
  erewrite well_fill_ok by eauto. eexists; split; [reflexivity|].
  destruct (Req_EM_T n 0); [lra|]. apply Rpow_py_bounds; auto. apply unit_clip.
Qed.

Lemma frac_le_0 n notch full : notch < full -> n <= notch -> (n - notch) / (full - notch) <= 0.
Proof. intros. apply Rmult_le_reg_r with (full - notch); [lra|]. field_simplify; lra. Qed.
Lemma frac_ge_1 n notch full : notch < full -> full <= n -> 1 <= (n - notch) / (full - notch).
Proof. intros. apply Rmult_le_reg_r with (full - notch); [lra|]. field_simplify; lra. Qed.
Lemma frac_mid n notch full : notch < full -> notch < n < full -> 0 < (n - notch) / (full - notch) < 1.
Proof.
  intros. split; [apply Rdiv_lt_0_compat; lra|].
  apply Rmult_lt_reg_r with (full - notch); [lra|]. field_simplify; lra.
Qed.
Lemma frac_mono n n' notch full : notch < full -> n <= n' ->
  (n - notch) / (full - notch) <= (n' - notch) / (full - notch).
Proof. intros. apply Rmult_le_compat_r; [left; apply Rinv_0_lt_compat; lra | lra]. Qed.

Lemma volume_cases c phase notch beta full n v :
  phase_params c phase notch beta full -> 0 < beta -> 0 <= notch < full ->
  cloud_fractional_volume c n phase false = Ok v ->
  (n <= notch -> v = 0) /\ (full <= n -> v = 1) /\
  (notch < n < full -> v = Rpower ((n - notch) / (full - notch)) beta /\ 0 < v < 1).
Proof.
  intros [H1 H2 H3] Hb Hnf Hv. unfold cloud_fractional_volume, well_filling_function in Hv.
  erewrite well_fill_ok in Hv by (eauto; lra). injection Hv as <-.
  repeat split.
  - intros. destruct (Req_EM_T n 0); [lra|]. rewrite clip_low by (apply frac_le_0; lra).
    apply Rpow_py_0; lra.
  - intros. destruct (Req_EM_T n 0); [lra|]. rewrite clip_high by (apply frac_ge_1; lra). apply Rpow_py_1.
  - destruct (Req_EM_T n 0); [lra|]. pose proof (frac_mid n notch full (proj2 Hnf) H).
    rewrite clip_mid by lra. unfold Rpow_py. destruct (Req_EM_T _ 0); lra.
  - destruct (Req_EM_T n 0); [lra|]. pose proof (frac_mid n notch full (proj2 Hnf) H).
    rewrite clip_mid by lra. apply Rpow_py_pos; lra.
  - destruct (Req_EM_T n 0); [lra|]. pose proof (frac_mid n notch full (proj2 Hnf) H).
    rewrite clip_mid by lra. rewrite <- (Rpow_py_1 beta). apply Rpow_py_lt; lra.
Qed.

Lemma volume_mono c phase notch beta full n n' v v' :
  phase_params c phase notch beta full -> 0 < beta -> 0 <= notch < full ->
  cloud_fractional_volume c n phase false = Ok v ->
  cloud_fractional_volume c n' phase false = Ok v' ->
  n <= n' -> v <= v'.
Proof.
  intros HP Hb Hnf Hv Hv' Hle.
  destruct (volume_cases _ _ _ _ _ _ _ HP Hb Hnf Hv) as (A & B & C).
  destruct (volume_cases _ _ _ _ _ _ _ HP Hb Hnf Hv') as (A' & B' & C').
  destruct (Rle_dec n notch); [rewrite A by lra|].
  { destruct (Rle_dec n' notch); [rewrite A' by lra; lra|].
    destruct (Rle_dec full n'); [rewrite B' by lra; lra|]. destruct C' as [_ C']; lra. }
  destruct (Rle_dec full n); [rewrite B, B' by lra; lra|].
  destruct (Rle_dec full n'); [rewrite B' by lra; destruct C as [_ C]; lra|].
  destruct C as [-> _]; [lra|]. destruct C' as [-> _]; [lra|].
  assert (0 < (n - notch) / (full - notch) <= (n' - notch) / (full - notch)).
  { split; [apply frac_mid; lra | apply frac_mono; lra]. }
  pose proof (Rpow_py_le ((n - notch) / (full - notch)) ((n' - notch) / (full - notch)) beta) as Hm.
  unfold Rpow_py in Hm. destruct (Req_EM_T _ 0) in Hm; [lra|]. destruct (Req_EM_T _ 0) in Hm; [lra|].
  apply Hm; lra.
Qed.

(** ** Construction. *)
Section Generic.
Context {F : Type} {num : Num F}.

Lemma broadcast_ok n (v : param F) l : broadcast n v = Ok l ->
  fits n v /\ length l = n /\ forall i, (i < n)%nat -> nth_error l i = value_at v i.
Proof.
  destruct v as [x|l0]; cbn.
  - intros [= <-]. split; [exact I|]. split; [apply repeat_length|].
    intros. now apply nth_error_repeat.
  - destruct (Nat.eqb_spec (length l0) n); [|discriminate]. intros [= <-]. auto.
Qed.
Lemma broadcast_fits n (v : param F) : fits n v -> exists l, broadcast n v = Ok l.
Proof.
  destruct v as [x|l0]; cbn; intros; [eauto|]. subst. rewrite Nat.eqb_refl. eauto.
Qed.
Lemma broadcast_err n (v : param F) e : broadcast n v = Err e -> e = ValueError /\ ~ fits n v.
Proof.
  destruct v as [x|l0]; cbn; [discriminate|]. destruct (Nat.eqb_spec (length l0) n); [discriminate|].
  intros [= <-]; auto.
Qed.

Lemma ccd_init_ok (fr fw no fp : param F) bl c : ccd_init fr fw no fp bl = Ok c ->
  let n := n_phases_of fr in
  (fits n fw /\ fits n no /\ fits n fp /\ (forall b, bl = Some b -> fits n b)) /\
  ccd_n_phases c = n /\ length (ccd_fractions c) = n /\ length (ccd_full_well c) = n /\
  length (ccd_notch c) = n /\ length (ccd_fill_power c) = n /\ length (ccd_bloom c) = n /\
  forall i, (i < n)%nat ->
    nth_error (ccd_fractions c) i = value_at fr i /\
    nth_error (ccd_full_well c) i = value_at fw i /\
    nth_error (ccd_notch c) i = value_at no i /\
    nth_error (ccd_fill_power c) i = value_at fp i.
Proof.
  intros H n. unfold ccd_init, set_full_well, set_fill_power, set_notch, set_bloom in H.
  set (c0 := set_fractions _ _) in H.
  assert (Hn : ccd_n_phases c0 = n) by (subst c0 n; destruct fr; reflexivity).
  assert (Hfr : length (ccd_fractions c0) = n) by (subst c0 n; destruct fr; reflexivity).
  assert (Hfv : forall i, (i < n)%nat -> nth_error (ccd_fractions c0) i = value_at fr i).
  { subst c0 n; destruct fr as [x|l]; cbn; intros i Hi; [assert (i = 0%nat) as -> by lia|]; reflexivity. }
  rewrite Hn in H. clearbody c0.
  destruct (broadcast n fw) as [lfw|] eqn:E1; [|discriminate H]. cbn [bind ccd_n_phases] in H.
  destruct (broadcast n fp) as [lfp|] eqn:E2; [|discriminate H]. cbn [bind ccd_n_phases] in H.
  destruct (broadcast n no) as [lno|] eqn:E3; [|discriminate H]. cbn [bind ccd_n_phases ccd_full_well ccd_fractions ccd_fill_power ccd_notch] in H.
  apply broadcast_ok in E1 as (?&?&?), E2 as (?&?&?), E3 as (?&?&?).
  destruct bl as [[x|l]|].
  - cbn [bind] in H. injection H as <-. cbn. rewrite repeat_length. repeat split; auto. intros b [= <-]; exact I.
  - destruct (Nat.eqb_spec (length l) n) as [El|]; [|discriminate H]. cbn [bind] in H. injection H as <-. cbn.
    rewrite map_length. repeat split; auto. intros b [= <-]; exact El.
  - cbn [bind] in H. injection H as <-. cbn. rewrite repeat_length. repeat split; auto. intros b [=].
Qed.

Lemma ccd_init_fits (fr fw no fp : param F) bl :
  let n := n_phases_of fr in
  fits n fw -> fits n no -> fits n fp -> (forall b, bl = Some b -> fits n b) ->
  exists c, ccd_init fr fw no fp bl = Ok c.
Proof.
  intros n H1 H2 H3 H4. unfold ccd_init, set_full_well, set_fill_power, set_notch, set_bloom.
  set (c0 := set_fractions _ _).
  assert (Hn : ccd_n_phases c0 = n) by (subst c0 n; destruct fr; reflexivity).
  clearbody c0. rewrite Hn.
  destruct (broadcast_fits n fw H1) as [l1 ->]. cbn [bind ccd_n_phases].
  destruct (broadcast_fits n fp H3) as [l2 ->]. cbn [bind ccd_n_phases].
  destruct (broadcast_fits n no H2) as [l3 ->]. cbn [bind ccd_n_phases ccd_full_well].
  destruct bl as [[x|l]|]; cbn [bind]; eauto.
  specialize (H4 _ eq_refl). cbn in H4. rewrite H4, Nat.eqb_refl. cbn [bind]; eauto.
Qed.

Lemma ccd_init_err (fr fw no fp : param F) bl e : ccd_init fr fw no fp bl = Err e -> e = ValueError.
Proof.
  unfold ccd_init, set_full_well, set_fill_power, set_notch, set_bloom.
  set (c0 := set_fractions _ _). clearbody c0.
  destruct (broadcast _ fw) as [l1|] eqn:E1; cbn [bind ccd_n_phases]; [|intros [= <-]; now apply broadcast_err in E1].
  destruct (broadcast _ fp) as [l2|] eqn:E2; cbn [bind ccd_n_phases]; [|intros [= <-]; now apply broadcast_err in E2].
  destruct (broadcast _ no) as [l3|] eqn:E3; cbn [bind ccd_n_phases]; [|intros [= <-]; now apply broadcast_err in E3].
  destruct bl as [[x|l]|]; cbn [bind]; try discriminate.
  destruct (Nat.eqb _ _); cbn [bind]; [discriminate|]. now intros [= <-].
Qed.

Lemma ccd_init_iff (fr fw no fp : param F) bl :
  let n := n_phases_of fr in
  (exists c, ccd_init fr fw no fp bl = Ok c) <->
  (fits n fw /\ fits n no /\ fits n fp /\ (forall b, bl = Some b -> fits n b)).
Proof.
  split; [intros [c E]; apply (ccd_init_ok _ _ _ _ _ _ E)|].
  intros (A & B & C & D). now apply ccd_init_fits.
Qed.
End Generic.

Lemma well_fill_not_index_error fr fw no fp bl (c : ccd R) phase surface n :
  ccd_init fr fw no fp bl = Ok c -> (phase < ccd_n_phases c)%nat ->
  cloud_fractional_volume c n phase surface <> Err IndexError.
Proof.
  intros H Hp. apply ccd_init_ok in H as (_ & En & _ & L1 & L2 & L3 & _).
  rewrite En in Hp. unfold cloud_fractional_volume, well_filling_function, well_fill; rnum.
  destruct (Reqb n 0); [discriminate|]. destruct surface; [discriminate|].
  destruct (nth_error (ccd_notch c) phase) eqn:E1; [|apply nth_error_None in E1; lia].
  destruct (nth_error (ccd_fill_power c) phase) eqn:E2; [|apply nth_error_None in E2; lia].
  destruct (nth_error (ccd_full_well c) phase) eqn:E3; [|apply nth_error_None in E3; lia].
  cbn [of_option bind]. destruct (Reqb _ 0); [discriminate|]. destruct (_ && _)%bool; discriminate.
Qed.

(** ** Failures. *)
Lemma surface_fails (c : ccd R) phase n : n <> 0 ->
  cloud_fractional_volume c n phase true = Err AttributeError.
Proof.
  intros. unfold cloud_fractional_volume, well_filling_function, well_fill; rnum.
  destruct (Reqb_spec n 0); [contradiction|reflexivity].
Qed.

Lemma refraction_breaks (c : ccd R) l phase n : n <> 0 -> 
  (length (ccd_notch c) <= phase < length l)%nat ->
  let c' := set_fractions c (PList l) in
  (phase < ccd_n_phases c')%nat /\ cloud_fractional_volume c' n phase false = Err IndexError.
Proof.
  intros Hn Hp c'. split; [cbn; lia|].
  unfold cloud_fractional_volume, well_filling_function, well_fill; rnum.
  destruct (Reqb_spec n 0); [contradiction|].
  replace (nth_error (ccd_notch c') phase) with (@None R); [reflexivity|].
  symmetry. apply nth_error_None. cbn. lia.
Qed.

Lemma reassigned_refuted :
  exists (c : ccd R) l phase n,
    ccd_init (Scalar 1) (Scalar 1000) (Scalar 0) (Scalar 1) None = Ok c /\
    (phase < ccd_n_phases (set_fractions c (PList l)))%nat /\
    cloud_fractional_volume (set_fractions c (PList l)) n phase false = Err IndexError.
Proof.
  do 2 eexists. exists 1%nat, 1. split; [reflexivity|].
  apply (refraction_breaks _ [1/2; 1/2]); [lra|cbn; lia].
Qed.
