(** * Proofs about calls in double arithmetic, by evaluation for every usual C library. *)
From Coq Require Import ZArith QArith List Bool SpecFloat FunctionalExtensionality Lia.
From Verif Require Import Num Py CCDModel TrapsModel ManagerModel ROEModel ClockModel MainModel DoubleNum SpecDouble DoubleCalls.
Import ListNotations.

(** A usual library is one whose functions are written with the known cases in front. *)
Definition exp_guard (f : double -> double) (x : double) : double := if SFltb x (double_of_Z (-750)) then dzero else f x.
Definition pow_guard (f : double -> double -> double) (x y : double) : double := if SFeqb y (double_of_Z 1) then x else f x y.
Lemma eqb_one y : SFeqb y (double_of_Z 1) = true -> y = double_of_Z 1.
Proof.
  replace (double_of_Z 1) with (S754_finite false 4503599627370496 (-52)) by reflexivity.
  generalize 4503599627370496%positive. intros one.
  destruct y as [s|s| |s m e]; unfold SFeqb; cbn [SFcompare]; try (destruct s; discriminate); try discriminate.
  destruct s; [discriminate|]. destruct (Z.compare_spec e (-52)); try discriminate.
  destruct (Pos.compare_cont Eq m one) eqn:E; try discriminate. apply (proj1 (Pos.compare_eq_iff _ _)) in E. subst. reflexivity.
Qed.
Lemma exp_guarded exp_c pow_c : usual_library exp_c pow_c -> exp_guard exp_c = exp_c.
Proof. intros [H _]. apply functional_extensionality. intros x. unfold exp_guard. destruct (SFltb x _) eqn:E; [now rewrite H|reflexivity]. Qed.
Lemma pow_guarded exp_c pow_c : usual_library exp_c pow_c -> pow_guard pow_c = pow_c.
Proof.
  intros [_ H]. apply functional_extensionality. intros x. apply functional_extensionality. intros y. unfold pow_guard.
  destruct (SFeqb y _) eqn:E; [|reflexivity]. apply eqb_one in E as ->. now rewrite H.
Qed.
(** So it is enough to show a statement for functions with the guards. *)
Lemma with_guards (P : Num double -> Prop) :
  (forall exp_c log_c pow_c, P (DoubleNum (exp_guard exp_c) log_c (pow_guard pow_c))) ->
  forall exp_c log_c pow_c, usual_library exp_c pow_c -> P (DoubleNum exp_c log_c pow_c).
Proof.
  intros H exp_c log_c pow_c U. rewrite <- (exp_guarded exp_c pow_c U) at 1. rewrite <- (pow_guarded exp_c pow_c U). apply H.
Qed.

Definition total_check {F} {num : Num F} (total : list (list F) -> option Q) (call : result (image F * roe F * roe F)) (test : Q -> bool) : bool :=
  match call with Ok (out, _, _) => match total out with Some a => test a | None => false end | Err _ => false end.
Lemma total_checked {F} {num : Num F} total call test : total_check total call test = true ->
  exists out r r' a, call = Ok (out, r, r') /\ total out = Some a /\ test a = true.
Proof.
  destruct call as [[[out r] r']|e]; [|discriminate]. cbn [total_check]. destruct (total out) as [a|] eqn:E; [|discriminate]. intros H. exists out, r, r', a. auto.
Qed.
Definition above (q a : Q) : bool := negb (Qle_bool a q).
Lemma above_lt q a : above q a = true -> (q < a)%Q.
Proof. intros H. apply Qnot_le_lt. intros L. apply Qle_bool_iff in L. unfold above in H. rewrite L in H. discriminate. Qed.
Definition creates (num : Num double) : Prop :=
  exists out r r' before after, slow_call (numbers five) = Ok (out, r, r') /\
    exact_total (numbers five) = Some before /\ exact_total out = Some after /\ (before == 127 /\ before + 1 < after)%Q.
Lemma creates_charge exp_c log_c pow_c : creates (DoubleNum (exp_guard exp_c) log_c (pow_guard pow_c)).
Proof.
  set (num := DoubleNum _ _ _).
  assert (H : total_check exact_total (slow_call (numbers five)) (above 128) = true) by (vm_compute; reflexivity).
  apply total_checked in H as (out & r & r' & a & E & Ea & L). apply above_lt in L.
  exists out, r, r', 127%Q, a. split; [exact E|]. split; [vm_compute; reflexivity|]. split; [exact Ea|]. split; [reflexivity|]. exact L.
Qed.

(** ** The same call without rounding *)
Section Exact.
Variable exp_q log_q : Q -> Q.
Variable pow_q : Q -> Q -> Q.
Lemma exact_loses : let num := ExactNum exp_q log_q pow_q in exists out r r', slow_call (numbers five) = Ok (out, r, r') /\ (rational_total out < 127)%Q.
Proof.
  intros num. assert (H : total_check (fun im => Some (rational_total im)) (slow_call (numbers five)) (fun a => above a 127) = true) by (vm_compute; reflexivity).
  apply total_checked in H as (out & r & r' & a & E & Ea & L). apply above_lt in L. injection Ea as <-. exists out, r, r'. split; [exact E|exact L].
Qed.
End Exact.

(** ** The traps themselves *)
Definition holds_negative (num : Num double) : Prop :=
  exists m q level v, four_clouds = Ok m /\ exact (n_trapped m (m_wm m)) = Some q /\ (q < -1)%Q /\
    In level (m_wm m) /\ exact (vol level) = Some v /\ (v < -4 # 5)%Q.
Definition negative_check (num : Num double) : bool :=
  match four_clouds with
  | Ok m => match exact (n_trapped m (m_wm m)) with Some q => above q (-1) | None => false end &&
            existsb (fun level => match exact (vol level) with Some v => above v (-4 # 5) | None => false end) (m_wm m)
  | Err _ => false
  end.
Lemma holds_negative_electrons exp_c log_c pow_c : holds_negative (DoubleNum (exp_guard exp_c) log_c (pow_guard pow_c)).
Proof.
  set (num := DoubleNum _ _ _). assert (H : negative_check num = true) by (vm_compute; reflexivity).
  unfold negative_check in H. unfold holds_negative. destruct four_clouds as [m|e]; [|discriminate].
  apply andb_prop in H as [H1 H2]. destruct (exact (n_trapped m (m_wm m))) as [q|] eqn:Eq; [|discriminate].
  apply existsb_exists in H2 as (level & I & H2). destruct (exact (vol level)) as [v|] eqn:Ev; [|discriminate].
  exists m, q, level, v. split; [reflexivity|]. split; [exact Eq|]. split; [now apply above_lt|]. split; [exact I|]. split; [exact Ev|now apply above_lt].
Qed.

(** ** Pixels that are not numbers *)
Definition nan_crashes (num : Num double) : Prop :=
  instant_call [[n1]; [S754_nan]; [n0]] = Err IndexError /\ slow_call [[n1]; [S754_nan]; [n0]] = Err IndexError.
Lemma nan_crash exp_c log_c pow_c : nan_crashes (DoubleNum (exp_guard exp_c) log_c (pow_guard pow_c)).
Proof. split; vm_compute; reflexivity. Qed.
Definition at_check {num : Num double} (call : result (image double * roe double * roe double)) (q : Q) : bool :=
  match call with Ok (out, _, _) => match exact_at out 2 0 with Some a => Qeq_bool a q | None => false end | Err _ => false end.
Lemma at_checked {num : Num double} call q : at_check call q = true -> exists out r r' a, call = Ok (out, r, r') /\ exact_at out 2 0 = Some a /\ (a == q)%Q.
Proof.
  destruct call as [[[out r] r']|e]; [|discriminate]. cbn [at_check]. destruct (exact_at out 2 0) as [a|] eqn:E; [|discriminate]. intros H. exists out, r, r', a.
  split; [reflexivity|]. split; [exact E|now apply Qeq_bool_iff].
Qed.
Definition nan_differs (num : Num double) : Prop :=
  exists out r r' out' s s' a b,
    instant_call [[n0]; [n1]; [nofZ 1000]] = Ok (out, r, r') /\ exact_at out 2 0 = Some a /\ (a == 971)%Q /\
    instant_call [[S754_nan]; [n1]; [nofZ 1000]] = Ok (out', s, s') /\ exact_at out' 2 0 = Some b /\ (b == 980)%Q.
Lemma nan_difference exp_c log_c pow_c : nan_differs (DoubleNum (exp_guard exp_c) log_c (pow_guard pow_c)).
Proof.
  set (num := DoubleNum _ _ _).
  assert (H : at_check (instant_call [[n0]; [n1]; [nofZ 1000]]) 971 = true) by (vm_compute; reflexivity).
  assert (H' : at_check (instant_call [[S754_nan]; [n1]; [nofZ 1000]]) 980 = true) by (vm_compute; reflexivity).
  apply at_checked in H as (out & r & r' & a & E & Ea & L). apply at_checked in H' as (out' & s & s' & b & E' & Eb & L').
  exists out, r, r', out', s, s', a, b. auto 10.
Qed.
