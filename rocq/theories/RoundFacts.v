(** * Rounding to the nearest integer, ties to even (numpy.round). *)
From Coq Require Import ZArith List Bool Reals Lra Lia Arith.
From Verif Require Import Num Py RFacts ROEModel SpecROE.
Import ListNotations.
Open Scope R_scope.

Lemma round_nearest p q : (0 < q)%nat -> nearest_even (INR p / INR q) (round_half_even p q).
Proof.
  intros Hq. assert (Q : 0 < INR q) by (apply lt_0_INR; lia). unfold round_half_even.
  pose proof (Nat.div_mod p q ltac:(lia)) as E. pose proof (Nat.mod_upper_bound p q ltac:(lia)) as Hr.
  set (d := (p / q)%nat) in *. set (r := (p mod q)%nat) in *. clearbody d r.
  assert (X : INR p / INR q = INR d + INR r / INR q) by (rewrite E, plus_INR, mult_INR; field; lra).
  assert (S1 : INR (S d) = INR d + 1) by apply S_INR.
  assert (R1 : 0 <= INR r / INR q < 1).
  { split; [apply Rmult_le_pos; [apply pos_INR|left; apply Rinv_0_lt_compat, Q]|]. apply (Rmult_lt_reg_r (INR q)); [exact Q|].
    replace (INR r / INR q * INR q) with (INR r) by (field; lra). rewrite Rmult_1_l. apply lt_INR, Hr. }
  assert (M : forall a b : R, a / INR q <= b <-> a <= b * INR q).
  { intros a b. split; intros H.
    - replace a with (a / INR q * INR q) by (field; lra). apply Rmult_le_compat_r; lra.
    - apply (Rmult_le_reg_r (INR q)); [exact Q|]. replace (a / INR q * INR q) with a by (field; lra). exact H. }
  rewrite X. destruct (Nat.compare_spec (2 * r) q) as [H|H|H].
  - assert (Hh : INR r / INR q = 1/2).
    { assert (Eq2 : INR q = 2 * INR r) by (rewrite <- H, mult_INR; cbn [INR]; ring). rewrite Eq2. field. intros Z. rewrite Z in Eq2. lra. }
    rewrite Hh. destruct (Nat.even d) eqn:Ev; split.
    + rewrite Rabs_left; lra.
    + intros _. exact Ev.
    + rewrite S1, Rabs_pos_eq; lra.
    + intros _. rewrite Nat.even_succ, <- Nat.negb_even, Ev. reflexivity.
  - assert (Hh : INR r / INR q < 1/2).
    { apply Rnot_le_lt. intros G. apply lt_INR in H. rewrite mult_INR in H. cbn [INR] in H.
      assert (INR q / 2 <= INR r) by (replace (INR r) with (INR r / INR q * INR q) by (field; lra); nra). lra. }
    split; [|intros G; exfalso]; rewrite Rabs_left1 in *; lra.
  - assert (Hh : 1/2 < INR r / INR q).
    { apply Rnot_le_lt. intros G. apply lt_INR in H. rewrite mult_INR in H. cbn [INR] in H. apply M in G. lra. }
    unfold nearest_even. rewrite S1. split; [|intros G; exfalso]; rewrite Rabs_pos_eq in *; lra.
Qed.

Lemma removelast_repeat {A} (x : A) n : removelast (repeat x (S n)) = repeat x n.
Proof. induction n as [|n IH]; [reflexivity|]. change (repeat x (S (S n))) with (x :: repeat x (S n)). cbn [removelast]. rewrite IH. destruct n; reflexivity. Qed.
Lemma last_repeat {A} (x d : A) n : List.last (repeat x (S n)) d = x.
Proof. induction n as [|n IH]; [reflexivity|]. change (repeat x (S (S n))) with (x :: repeat x (S n)). cbn [List.last repeat] in *. exact IH. Qed.
Lemma sum_repeat k n : list_sum (repeat k n) = (n * k)%nat.
Proof. induction n as [|n IH]; [reflexivity|]. cbn. unfold list_sum in IH. rewrite IH. lia. Qed.
Lemma map_repeat {A B} (f : A -> B) x n : map f (repeat x n) = repeat (f x) n.
Proof. induction n as [|n IH]; [reflexivity|]. cbn. rewrite IH. reflexivity. Qed.
Lemma integer_multipliers n_pumps express ef : (0 < express <= n_pumps)%nat ->
  let alone := (ef && Nat.ltb 1 n_pumps && Nat.ltb express n_pumps)%bool in
  let first := if alone then [1] else [] in
  let rest := (n_pumps - length first)%nat in
  exists k, nearest_even (INR rest / INR express) k /\
    @pumping_multipliers R _ n_pumps express ef DInt = first ++ repeat (INR k) (express - 1) ++ [INR rest - INR (express - 1) * INR k].
Proof.
  intros [H1 H2] alone first rest. exists (round_half_even rest express). split; [apply round_nearest, H1|].
  unfold pumping_multipliers. fold alone. destruct express as [|e]; [lia|]. replace (S e - 1)%nat with e by lia.
  assert (L : forall k, INR rest - INR e * INR k = IZR (Z.of_nat k + (Z.of_nat rest - Z.of_nat (S e * k)))).
  { intros k. rewrite plus_IZR, minus_IZR, <- !INR_IZR_INZ, mult_INR, S_INR. ring. }
  unfold rest in *. clear rest. unfold first in *. clear first. destruct alone.
  - cbn [length] in *. set (k := round_half_even (n_pumps - 1) (S e)) in *.
    assert (Er : removelast (1%nat :: repeat k (S e)) = 1%nat :: repeat k e).
    { change (1%nat :: repeat k (S e)) with ([1%nat] ++ repeat k (S e)). rewrite removelast_app by (cbn; discriminate). rewrite removelast_repeat. reflexivity. }
    assert (El : List.last (1%nat :: repeat k (S e)) 0%nat = k).
    { change (List.last (repeat k (S e)) 0%nat = k). apply last_repeat. }
    rewrite Er, El. change (list_sum (1%nat :: repeat k (S e))) with (1 + list_sum (repeat k (S e)))%nat. rewrite sum_repeat. rewrite L.
    cbn [map app]. rewrite map_repeat. change (nofN k) with (IZR (Z.of_nat k)). rewrite <- INR_IZR_INZ. f_equal. f_equal. f_equal. rnum. f_equal. lia.
  - cbn [length] in *. rewrite Nat.sub_0_r in *. set (k := round_half_even n_pumps (S e)) in *.
    rewrite removelast_repeat, last_repeat, sum_repeat, L, map_repeat. change (nofN k) with (IZR (Z.of_nat k)). rewrite <- INR_IZR_INZ. reflexivity.
Qed.
