(** * Proofs about CCDModel.v for parameters of wells outside the physical range. *)
From Coq Require Import ZArith List Bool Reals Lra Lia.
From Verif Require Import Num Py RFacts CCDModel Spec CCDFacts.
Import ListNotations.
Open Scope R_scope.

Lemma well_fill_any (c : ccd R) phase n notch beta full :
  phase_params c phase notch beta full -> n <> 0 -> full <> notch ->
  well_fill c phase false n =
    let v := Rmax 0 (Rmin 1 ((n - notch) / (full - notch))) in
    if (Reqb v 0 && Rltb beta 0)%bool then Err ZeroDivisionError else Ok (Rpow_py v beta).
Proof.
  intros [Hno Hbe Hfu] Hn Hne. unfold well_fill; rnum.
  destruct (Reqb_spec n 0); [contradiction|].
  rewrite Hno, Hbe, Hfu; cbn [of_option bind].
  destruct (Reqb_spec (full - notch) 0); [exfalso; lra|].
  rewrite set_min_max_R. reflexivity.
Qed.

Lemma volume_flat (c : ccd R) phase notch beta full n :
  phase_params c phase notch beta full -> n <> 0 -> full = notch ->
  cloud_fractional_volume c n phase false = Err ZeroDivisionError.
Proof.
  intros [Hno Hbe Hfu] Hn He. unfold cloud_fractional_volume, well_filling_function, well_fill; rnum.
  destruct (Reqb_spec n 0); [contradiction|]. rewrite Hno, Hbe, Hfu; cbn [of_option bind].
  destruct (Reqb_spec (full - notch) 0); [reflexivity|lra].
Qed.

Lemma Rpow_py_neg_gt_1 x y : 0 < x < 1 -> y < 0 -> 1 < Rpow_py x y.
Proof.
  intros Hx Hy. unfold Rpow_py. destruct (Req_EM_T x 0); [lra|]. unfold Rpower.
  rewrite <- exp_0. apply exp_increasing. assert (ln x < 0) by (rewrite <- ln_1; apply ln_increasing; lra). nra.
Qed.

Lemma negative_power (c : ccd R) phase notch beta full n :
  phase_params c phase notch beta full -> beta < 0 -> notch < full -> n <> 0 ->
  (n <= notch -> cloud_fractional_volume c n phase false = Err ZeroDivisionError) /\
  (notch < n < full -> exists v, cloud_fractional_volume c n phase false = Ok v /\ 1 < v) /\
  (full <= n -> cloud_fractional_volume c n phase false = Ok 1).
Proof.
  intros Hp Hb Hf Hn. unfold cloud_fractional_volume, well_filling_function.
  rewrite (well_fill_any c phase n notch beta full Hp Hn) by lra. cbv zeta.
  destruct (Rltb_spec beta 0) as [_|]; [|lra]. rewrite andb_true_r. split; [|split]; intros H.
  - rewrite clip_low by (apply frac_le_0; lra). destruct (Reqb_spec 0 0); [reflexivity|lra].
  - pose proof (frac_mid n notch full Hf H). rewrite clip_mid by lra.
    destruct (Reqb_spec ((n - notch) / (full - notch)) 0); [lra|]. eexists; split; [reflexivity|]. now apply Rpow_py_neg_gt_1.
  - rewrite clip_high by (apply frac_ge_1; lra). destruct (Reqb_spec 1 0); [lra|]. now rewrite Rpow_py_1.
Qed.

Lemma zero_power (c : ccd R) phase notch full n :
  phase_params c phase notch 0 full -> notch <> full -> n <> 0 -> cloud_fractional_volume c n phase false = Ok 1.
Proof.
  intros Hp Hf Hn. unfold cloud_fractional_volume, well_filling_function.
  rewrite (well_fill_any c phase n notch 0 full Hp Hn) by lra. cbv zeta.
  destruct (Rltb_spec 0 0) as [|_]; [lra|]. rewrite andb_false_r. now rewrite Rpow_py_exp_0.
Qed.

Lemma reversed_well (c : ccd R) phase notch beta full n n' v v' :
  phase_params c phase notch beta full -> 0 < beta -> full < notch -> n <> 0 -> n' <> 0 ->
  cloud_fractional_volume c n phase false = Ok v -> cloud_fractional_volume c n' phase false = Ok v' ->
  (n <= full -> v = 1) /\ (notch <= n -> v = 0) /\ (n <= n' -> v' <= v).
Proof.
  intros Hp Hb Hf Hn Hn'. unfold cloud_fractional_volume, well_filling_function.
  rewrite (well_fill_any c phase n notch beta full Hp Hn) by lra.
  rewrite (well_fill_any c phase n' notch beta full Hp Hn') by lra. cbv zeta.
  destruct (Rltb_spec beta 0) as [|_]; [lra|]. rewrite !andb_false_r. intros E E'. injection E as <-. injection E' as <-.
  assert (X : forall x, (x - notch) / (full - notch) = (notch - x) / (notch - full)) by (intros; field; lra).
  rewrite !X. split; [|split]; intros H.
  - rewrite clip_high, Rpow_py_1; [reflexivity|]. apply Rmult_le_reg_r with (notch - full); [lra|]. field_simplify; lra.
  - rewrite clip_low, Rpow_py_0; [reflexivity|lra|]. apply Rmult_le_reg_r with (notch - full); [lra|]. field_simplify; lra.
  - apply Rpow_py_le; [|lra]. split; [apply unit_clip|]. apply clip_mono. apply Rmult_le_reg_r with (notch - full); [lra|]. field_simplify; lra.
Qed.

Lemma volume_answers (c : ccd R) phase notch beta full n :
  phase_params c phase notch beta full -> n <> 0 ->
  ((exists v, cloud_fractional_volume c n phase false = Ok v) <->
    full <> notch /\ (beta < 0 -> 0 < (n - notch) / (full - notch))) /\
  (forall e, cloud_fractional_volume c n phase false = Err e -> e = ZeroDivisionError).
Proof.
  intros Hp Hn. destruct (Req_dec full notch) as [He|He].
  - rewrite (volume_flat c phase notch beta full n Hp Hn He). split; [split; [intros [v H]; discriminate|intros [H _]; contradiction]|]. intros e H. now injection H.
  - unfold cloud_fractional_volume, well_filling_function.
    rewrite (well_fill_any c phase n notch beta full Hp Hn He). cbv zeta. set (x := (n - notch) / (full - notch)).
    destruct (Rltb_spec beta 0) as [Hb|Hb].
    + rewrite andb_true_r. destruct (Reqb_spec (Rmax 0 (Rmin 1 x)) 0) as [Hz|Hz].
      * split; [split; [intros [v H]; discriminate|]|intros e H; now injection H]. intros [_ H]. specialize (H Hb). exfalso.
        unfold Rmax, Rmin in Hz. destruct (Rle_dec 1 x); destruct (Rle_dec 0 _); lra.
      * split; [split; [|eauto]|discriminate]. intros _. split; [exact He|]. intros _. apply Rnot_le_lt. intros H. apply Hz. now apply clip_low.
    + rewrite andb_false_r. split; [split; [intros _; split; [exact He|lra]|eauto]|discriminate].
Qed.
