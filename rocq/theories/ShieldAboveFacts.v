(** * Extra charge in a pixel adds at most itself to what is read out there (C148). *)
From Coq Require Import ZArith List Bool Reals Lra Lia.
From Coquelicot Require Import Rcomplements Rbar Hierarchy RInt.
From Verif Require Import Num Py RFacts CCDModel TrapsModel ManagerModel ROEModel ClockModel MainModel Spec SpecImage SpecReadout SpecHistory SpecRecovery SpecFirst
  InstantFacts OrderFacts TameFacts RecoverFacts DepthFacts AboveFacts RecoverImageFacts ReadoutImage FirstFacts SpecReturn FirstReturnFacts ShieldFacts.
Import ListNotations.
Open Scope R_scope.

Section Above.
Context (traps : list (trap R)) (full dwell : R).
Hypothesis Hphys : Forall physical traps.
Hypothesis Hd : 0 <= dwell.
Hypothesis Hf : 0 < full.
Hypothesis Hr : SpecRecovery.traps_per_pixel traps <= full.
Let n := length traps.
Notation well := (depth full 1).

Lemma left_no_more m m1 P : tidy n P -> 0 <= m1 <= m ->
  left_over traps well dwell m1 P <= left_over traps well dwell m P <= left_over traps well dwell m1 P + (m - m1).
Proof.
  intros HP Hm. split.
  - pose proof (left_shield traps full dwell Hphys Hd Hf Hr m m1 0 P HP ltac:(lra) ltac:(lra) ltac:(lra)) as S.
    pose proof (past_nonneg (SpecRecovery.traps_per_pixel traps) full 1 0). lra.
  - destruct (left_even traps full dwell Hphys Hd Hf Hr m P HP) as (-> & _ & _). destruct (left_even traps full dwell Hphys Hd Hf Hr m1 P HP) as (-> & _ & _).
    pose proof (released_nonneg traps dwell Hphys Hd P HP) as R0. unfold cloud. rewrite !Rmax_right by lra. set (r := released traps dwell P) in *.
    assert (T : tidy n (after_release traps dwell P)) by (now apply tidy_release).
    pose proof (even_more full Hf (m1 + r) (m + r) ltac:(lra)) as M. pose proof (even_range full Hf (m1 + r)). pose proof (even_range full Hf (m + r)).
    rewrite (electrons_chasles traps (after_release traps dwell P) 0 (well (m1 + r)) (well (m + r))) by (apply tidy_integrable; auto; lra).
    pose proof (electrons_at_most traps Hphys (after_release traps dwell P) (well (m1 + r)) (well (m + r)) T ltac:(lra) ltac:(lra)). lra.
Qed.

(** The columns [l] and [l1] agree before row [k], where [l] has up to [x] electrons more. *)
Definition within (k : nat) (x : R) (l l1 : list R) : Prop :=
  (k < length l)%nat /\ (k < length l1)%nat /\ firstn k l = firstn k l1 /\ 0 <= nth k l1 0 <= nth k l 0 /\ nth k l 0 <= nth k l1 0 + x.
Lemma within_past : forall k x l l1 P, tidy n P -> within k x l l1 -> within k x (past_clouds traps well dwell P l) (past_clouds traps well dwell P l1).
Proof.
  induction k as [|k IH]; intros x l l1 P HP (L & L1 & E & N & S); (destruct l as [|a l]; [cbn in L; lia|]); (destruct l1 as [|b l1]; [cbn in L1; lia|]); cbn [past_clouds].
  - cbn [nth firstn length] in *. split; [cbn; lia|]. split; [cbn; lia|]. split; [reflexivity|]. cbn [nth].
    pose proof (left_no_more a b P HP N). pose proof (proj1 (proj2 (left_even traps full dwell Hphys Hd Hf Hr b P HP))). split; [split|]; lra.
  - cbn [nth firstn length] in *. injection E as -> E. destruct (IH x l l1 (then_traps traps well dwell b P)) as (K1 & K2 & K3 & K4 & K5); [apply (left_even traps full dwell Hphys Hd Hf Hr b P HP)|repeat split; (apply N || assumption || lia)|].
    split; [cbn; lia|]. split; [cbn; lia|]. split; [cbn; f_equal; exact K3|]. auto.
Qed.
Lemma within_through k x : forall offset l l1, within k x l l1 -> within k x (through_clouds traps well dwell offset l) (through_clouds traps well dwell offset l1).
Proof. induction offset as [|o IH]; intros l l1 H; cbn [through_clouds]; [exact H|]. apply IH, within_past; [apply tidy_empty|exact H]. Qed.
Lemma within_read : forall k x l l1 rows rows1, within k x l l1 -> (k < rows)%nat -> (k < rows1)%nat ->
  nth k (read_clouds traps well dwell rows l) 0 <= nth k (read_clouds traps well dwell rows1 l1) 0 + x.
Proof.
  induction k as [|k IH]; intros x l l1 [|rows] [|rows1] H Hk Hk1; try lia; cbn [read_clouds];
    apply (within_past _ _ _ _ empty_profile (tidy_empty traps)) in H; destruct H as (L & L1 & E & N & S);
    destruct (past_clouds traps well dwell empty_profile l) as [|a m]; [cbn in L; lia| |cbn in L; lia|]; destruct (past_clouds traps well dwell empty_profile l1) as [|b m1]; [cbn in L1; lia| |cbn in L1; lia|].
  - exact S.
  - cbn [nth firstn length] in *. injection E as _ E. apply IH; [|lia|lia]. repeat split; (apply N || assumption || lia).
Qed.
Lemma within_column k x l l1 offset : within k x l l1 ->
  nth k (column_clouds traps well dwell offset l) 0 <= nth k (column_clouds traps well dwell offset l1) 0 + x.
Proof. intros H. pose proof (within_through k x offset l l1 H) as T. unfold column_clouds. destruct H as (L & L1 & _). apply within_read; assumption. Qed.
End Above.
