(** * Facts about real numbers and Python's power used by the other proof files. *)
From Coq Require Import ZArith List Bool Reals Lra Lia.
From Verif Require Import Num Py.
Import ListNotations.
Open Scope R_scope.

(** Expose the real operations behind the [Num] bundle. *)
Ltac rnum := cbn [n0 n1 nadd nsub nmul ndiv nopp nltb nleb neqb nofZ nexp nln npow nnan RNum] in *.

Lemma Rpower_le_1 x y : 0 < x <= 1 -> 0 <= y -> Rpower x y <= 1.
Proof.
  intros [Hx Hx1] Hy. unfold Rpower. rewrite <- exp_0.
  assert (ln x <= 0).
  { rewrite <- ln_1. destruct (Req_dec x 1); [subst; lra|]. left; apply ln_increasing; lra. }
  assert (Hle : y * ln x <= 0) by nra.
  destruct Hle as [Hlt|He]; [left; apply exp_increasing; lra | rewrite He; lra].
Qed.

Lemma Rpow_py_bounds x y : 0 <= x <= 1 -> 0 <= y -> 0 <= Rpow_py x y <= 1.
Proof.
  intros Hx Hy. unfold Rpow_py.
  destruct (Req_EM_T x 0); [destruct (Req_EM_T y 0); lra|].
  split; [left; apply exp_pos | apply Rpower_le_1; lra].
Qed.

Lemma Rpow_py_pos x y : 0 < x -> 0 < Rpow_py x y.
Proof.
  intros Hx. unfold Rpow_py. destruct (Req_EM_T x 0); [lra|]. apply exp_pos.
Qed.

Lemma Rpow_py_1 y : Rpow_py 1 y = 1.
Proof.
  unfold Rpow_py. destruct (Req_EM_T 1 0); [lra|]. unfold Rpower. rewrite ln_1, Rmult_0_r. apply exp_0.
Qed.

Lemma Rpow_py_0 y : y <> 0 -> Rpow_py 0 y = 0.
Proof.
  intros. unfold Rpow_py. destruct (Req_EM_T 0 0); [|lra]. destruct (Req_EM_T y 0); [contradiction|]. reflexivity.
Qed.

Lemma Rpow_py_exp_0 x : Rpow_py x 0 = 1.
Proof.
  unfold Rpow_py. destruct (Req_EM_T x 0).
  - destruct (Req_EM_T 0 0); [reflexivity|lra].
  - unfold Rpower. rewrite Rmult_0_l. apply exp_0.
Qed.

Lemma Rpow_py_exp_1 x : 0 <= x -> Rpow_py x 1 = x.
Proof.
  intros. unfold Rpow_py. destruct (Req_EM_T x 0).
  - destruct (Req_EM_T 1 0); [lra|]. auto.
  - apply Rpower_1. lra.
Qed.

Lemma Rpow_py_lt x x' y : 0 <= x < x' -> 0 < y -> Rpow_py x y < Rpow_py x' y.
Proof.
  intros [Hx Hlt] Hy. unfold Rpow_py.
  destruct (Req_EM_T x' 0); [lra|].
  destruct (Req_EM_T x 0).
  - destruct (Req_EM_T y 0); [lra|]. apply exp_pos.
  - unfold Rpower. apply exp_increasing. apply Rmult_lt_compat_l; auto. apply ln_increasing; lra.
Qed.

Lemma Rpow_py_le x x' y : 0 <= x <= x' -> 0 <= y -> Rpow_py x y <= Rpow_py x' y.
Proof.
  intros [Hx Hle] Hy. destruct (Req_dec x x'); [subst; lra|].
  destruct (Req_dec y 0); [subst; rewrite !Rpow_py_exp_0; lra|].
  left. apply Rpow_py_lt; lra.
Qed.

Lemma exp_neg_le_1 x : x <= 0 -> exp x <= 1.
Proof. intros [H|H]; [left; rewrite <- exp_0; apply exp_increasing; lra | rewrite H, exp_0; lra]. Qed.

Lemma exp_neg_lt_1 x : x < 0 -> exp x < 1.
Proof. intros; rewrite <- exp_0; apply exp_increasing; lra. Qed.

Lemma exp_mono x y : x <= y -> exp x <= exp y.
Proof. intros [H|H]; [left; apply exp_increasing; lra | rewrite H; lra]. Qed.
