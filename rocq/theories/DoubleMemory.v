(** * In doubles, a cloud without charge has no volume. *)
From Coq Require Import ZArith QArith List Bool SpecFloat Lia.
From Verif Require Import Num Py CCDModel TrapsModel ManagerModel ROEModel ClockModel MainModel DoubleNum SpecDouble SpecMemory.
Import ListNotations.

(** Not above zero: zero, negative, or not a number. *)
Definition low (x : double) : Prop := match x with S754_finite false _ _ | S754_infinity false => False | _ => True end.
Lemma low_spec x : low x <-> SFltb dzero x = false.
Proof. destruct x as [s|s| |s m e]; try destruct s; cbn; split; try reflexivity; try exact (fun _ => I); try discriminate; contradiction. Qed.
Lemma low_zero_or_negative x : low x -> SFltb x dzero = false -> (exists s, x = S754_zero s) \/ x = S754_nan.
Proof. destruct x as [s|s| |s m e]; try destruct s; cbn; intros H L; try discriminate; try contradiction; eauto. Qed.
Lemma round_aux_low p q mx ex l : low (binary_round_aux p q true mx ex l).
Proof.
  unfold binary_round_aux. destruct (shr_fexp p q mx ex l) as [mrs e]. destruct (shr_fexp p q _ e loc_Exact) as [mrs' e'].
  destruct (shr_m mrs'); cbn; try exact I. destruct (_ <=? _)%Z; exact I.
Qed.
Lemma round_low p q mx ex : low (binary_round p q true mx ex).
Proof. unfold binary_round. destruct (shl_align mx ex _) as [mz ez]. apply round_aux_low. Qed.
(** A negative number (or NaN) less a number from 0 on. *)
Lemma sub_low n e : SFltb n dzero = true -> SFleb dzero e = true -> low (SFsub 53 1024 n e).
Proof.
  destruct n as [s|s| |s m f]; try destruct s; cbn; try discriminate; intros _; destruct e as [t|t| |t m' f']; try destruct t; cbn; try discriminate; intros _; try exact I.
  apply round_low.
Qed.
Lemma div_low n r : low n -> SFltb dzero r = true -> low (SFdiv 53 1024 n r).
Proof.
  intros Hn. destruct r as [t|t| |t m' f']; try destruct t; cbn; try discriminate; intros _; destruct n as [s|s| |s m f]; try destruct s; cbn in *; try contradiction; try exact I.
  destruct (SFdiv_core_binary 53 1024 (Z.pos m) f (Z.pos m') f') as [[mz ez] lz]. apply round_aux_low.
Qed.
Lemma one_above x : low x -> SFltb (double_of_Z 1) x = false.
Proof. change (double_of_Z 1) with (S754_finite false 4503599627370496 (-52)). destruct x as [s|s| |s m e]; try destruct s; intros H; cbn in H; try contradiction; reflexivity. Qed.

Section Wells.
Variable exp_c log_c : double -> double.
Variable pow_c : double -> double -> double.
#[local] Instance num : Num double := DoubleNum exp_c log_c pow_c.
Hypothesis no_power : nothing_to_a_power pow_c.
Open Scope num_scope.

Lemma clip_low x : low x -> (exists s, set_min_max x n0 n1 = S754_zero s) \/ set_min_max x n0 n1 = S754_nan.
Proof.
  intros H. unfold set_min_max. change (nltb x n0) with (SFltb x dzero). change (nltb n1 x) with (SFltb (double_of_Z 1) x). rewrite (one_above x H).
  destruct (SFltb x dzero) eqn:E; [left; now exists false|]. exact (low_zero_or_negative x H E).
Qed.
Lemma double_wells (c : ccd double) : double_wells_ok c -> no_cloud_without_charge c.
Proof.
  intros HW phase n v E Hv. destruct (n0 <? n) eqn:Hn; [reflexivity|exfalso]. revert E. unfold well_fill. destruct (n =? n0) eqn:En.
  - intros H. injection H as <-. discriminate Hv.
  - destruct (nth_error (ccd_notch c) phase) as [notch|] eqn:E1; [|discriminate]. destruct (nth_error (ccd_fill_power c) phase) as [beta|] eqn:E2; [|discriminate].
    destruct (nth_error (ccd_full_well c) phase) as [full|] eqn:E3; [|discriminate]. cbn [of_option bind]. destruct (HW phase notch beta full E1 E2 E3) as (W1 & W2 & W3).
    destruct (full - notch =? n0); [discriminate|]. destruct (_ && _)%bool; [discriminate|]. intros H. injection H as <-.
    assert (L : low ((n - notch) / (full - notch))).
    { apply div_low; [|exact W2]. destruct n as [s|s| |s m e]; try destruct s; try discriminate; try exact I; apply sub_low; try reflexivity; exact W1. }
    change (SFltb dzero (pow_c (set_min_max ((n - notch) / (full - notch)) n0 n1) beta) = true) in Hv.
    rewrite no_power in Hv; [discriminate|exact W3|]. destruct (clip_low _ L) as [[s ->]| ->]; [right; now exists s|now left].
Qed.
Lemma positive_double (x : double) : (n0 <? x) = true -> (x =? n0) = false.
Proof. destruct x as [s|s| |s m e]; try destruct s; cbn; intros H; try discriminate; reflexivity. Qed.
Lemma inside d n : double_inside d n -> kept_inside d n.
Proof. intros [H1 H2 H3 H4]. constructor; [exact H1|exact H2| |exact H4]. intros c E. now apply double_wells, H3. Qed.
End Wells.
