(** * Time windows whose ends are not whole numbers: the rows of serial clocking, and charge injection. *)
From Coq Require Import ZArith List Bool Reals Lra Lia.
From Verif Require Import Num Py RFacts CCDModel TrapsModel ManagerModel ROEModel ClockModel MainModel SignedModel EndsModel Spec SpecROE SpecImage SpecReadout SpecEnds
  MainFacts ROEMatrixFacts ROEExpressFacts ROEKindFacts EndsFacts.
Import ListNotations.
Open Scope R_scope.

(** ** Python's [int] *)
Lemma Int_part_bounds x : IZR (Int_part x) <= x < IZR (Int_part x) + 1.
Proof. destruct (base_Int_part x). lra. Qed.
Lemma int_of_start x i : 0 <= x -> ((int_of x <= i)%Z <-> x < IZR i + 1).
Proof.
  intros Hx. unfold int_of. replace (Rltb x 0) with false by (symmetry; apply Rltb_false; lra). destruct (Int_part_bounds x) as [H1 H2].
  split; intros H.
  - apply IZR_le in H. lra.
  - assert (IZR (Int_part x) < IZR (i + 1)) by (rewrite plus_IZR; lra). apply lt_IZR in H0. lia.
Qed.
Lemma int_of_stop x i : 0 <= x -> ((i <= int_of x)%Z <-> IZR i <= x).
Proof.
  intros Hx. unfold int_of. replace (Rltb x 0) with false by (symmetry; apply Rltb_false; lra). destruct (Int_part_bounds x) as [H1 H2].
  split; intros H; [apply IZR_le in H; lra|]. assert (IZR i < IZR (Int_part x + 1)) by (rewrite plus_IZR; lra). apply lt_IZR in H0. lia.
Qed.
Lemma int_of_early x : x <= -1 -> (int_of x < 0)%Z.
Proof.
  intros Hx. unfold int_of. replace (Rltb x 0) with true by (symmetry; apply Rltb_true; lra). destruct (Int_part_bounds (- x)) as [H1 H2].
  assert (IZR 0 < IZR (Int_part (- x))); [|apply lt_IZR in H; lia].
  assert (K : IZR (0) < IZR (Int_part (- x) + 1)) by (rewrite plus_IZR; lra). apply lt_IZR in K. destruct (Z.eq_dec (Int_part (- x)) 0) as [E|E]; [rewrite E in H2; lra|]. apply IZR_lt. lia.
Qed.
Lemma int_of_just_before x : -1 < x < 0 -> int_of x = 0%Z.
Proof.
  intros Hx. unfold int_of. replace (Rltb x 0) with true by (symmetry; apply Rltb_true; lra). destruct (Int_part_bounds (- x)) as [H1 H2].
  assert (K : IZR (Int_part (- x)) < IZR 1) by lra. apply lt_IZR in K. assert (K' : IZR 0 < IZR (Int_part (- x) + 1)) by (rewrite plus_IZR; lra). apply lt_IZR in K'. lia.
Qed.

(** ** The rows *)
Lemma serial_rows times first final window offset top bottom :
  from_to times first final -> py_index window 0 = Ok top -> py_index window (-1) = Ok bottom -> (0 <= top)%Z -> (0 <= bottom)%Z ->
  exists rows, serial_columns_times times window offset = Ok rows /\
  (0 <= final - INR offset \/ final - INR offset <= -1 -> forall i, In i rows <-> row_read top bottom (INR offset) first final i) /\
  (-1 < final - INR offset < 0 -> forall i, In i rows <-> (i = 0 /\ top = 0)%Z /\ first - INR offset < 1).
Proof.
  intros Ht H0 H1 Htop Hbot. destruct (ends_index _ _ _ Ht) as [E1 E2]. unfold serial_columns_times. rewrite H0, E1, H1, E2. cbn [bind]. cbv zeta.
  eexists. split; [reflexivity|]. apply IZR_le in Htop. apply IZR_le in Hbot.
  assert (A : 0 <= Rmax (IZR top) (first - INR offset)) by (eapply Rle_trans; [exact Htop|apply Rmax_l]).
  assert (S : forall i, (int_of (Rmax (IZR top) (first - INR offset)) <= i)%Z <-> (top <= i)%Z /\ first - INR offset < IZR i + 1).
  { intros i. rewrite int_of_start by exact A. split.
    - intros H. pose proof (Rmax_l (IZR top) (first - INR offset)). pose proof (Rmax_r (IZR top) (first - INR offset)). split; [|lra].
      assert (K : IZR top < IZR (i + 1)) by (rewrite plus_IZR; lra). apply lt_IZR in K. lia.
    - intros [K1 K2]. apply IZR_le in K1. apply Rmax_lub_lt; lra. }
  split.
  - intros Hf i. rewrite py_range_in. rewrite (S i). unfold row_read.
    assert (B : (i < int_of (Rmin (IZR bottom) (final - INR offset)) + 1)%Z <-> (i <= int_of (Rmin (IZR bottom) (final - INR offset)))%Z) by lia. rewrite B. clear B.
    destruct Hf as [Hf|Hf].
    + rewrite int_of_stop by (apply Rmin_glb; lra). split.
      * intros [[K1 K2] K3]. pose proof (Rmin_l (IZR bottom) (final - INR offset)). pose proof (Rmin_r (IZR bottom) (final - INR offset)). split; [split; [exact K1|apply le_IZR; lra]|]. split; lra.
      * intros [[K1 K2] [K3 K4]]. apply IZR_le in K2. split; [split; assumption|]. apply Rmin_glb; lra.
    + rewrite (Rmin_right (IZR bottom)) by lra. pose proof (int_of_early _ Hf) as K. apply le_IZR in Htop. split.
      * intros [[K1 K2] K3]. lia.
      * intros [[K1 K2] [K3 K4]]. apply (IZR_le 0 i) in K1 as K5 || assert (K5 : 0 <= IZR i) by (apply IZR_le; lia); lra.
  - intros Hf i. rewrite py_range_in. rewrite (S i). rewrite (Rmin_right (IZR bottom)) by lra. rewrite (int_of_just_before _ Hf). apply le_IZR in Htop. split.
    + intros [[K1 K2] K3]. assert (i = 0%Z) by lia. subst i. split; [lia|]. lra.
    + intros [[-> ->] K]. split; [split; [lia|lra]|lia].
Qed.
Lemma serial_only (im : image R) parallel serial times rows : d_traps parallel = None ->
  serial_columns_times times (selected (d_window parallel) (length im)) (d_offset parallel) = Ok rows ->
  add_cti_times im parallel serial times = add_cti im (with_rows rows parallel) serial None.
Proof.
  intros Hp Hr. unfold add_cti_times, add_cti. rewrite resolve_selected, Hr. destruct parallel as [pc pr pt pe po pw]. cbn [with_rows d_traps d_window d_offset d_roe resolve_window resolve_time_window bind the_roe] in *. rewrite Hp. reflexivity.
Qed.

(** ** Charge injection *)
Lemma repeat_rect {A} (x : A) E n : Forall (fun r => length r = n) (repeat (repeat x n) E).
Proof. apply Forall_forall. intros r Hr. apply repeat_spec in Hr. subst r. apply repeat_length. Qed.
Lemma injection_times_overlap npt window n_pixels express offset times first final n em0 mon0 n' em mon :
  window_ok window n_pixels -> from_to times first final -> 0 <= first -> first <= final + 1 ->
  injection_express npt DFloat window express offset None = Ok (n, em0, mon0) -> injection_express_times npt DFloat window express offset times = Ok (n', em, mon) ->
  n' = n /\ mon = mon0 /\ rect (length em0) n_pixels em0 /\ rect (length em0) n_pixels em /\
  forall i k, (i < length em0)%nat -> (k < n_pixels)%nat ->
    entry em i k = overlap (transfers_before em0 i k) (transfers_before em0 (S i) k) first (final + 1).
Proof.
  intros Hw Ht Ha Hab H0 H1. unfold injection_express in H0. unfold injection_express_times in H1. rewrite (window_n_pixels _ _ Hw) in H0, H1. cbn [bind] in H0, H1. cbv zeta in H0, H1.
  destruct (Nat.eqb _ 0) eqn:En; [discriminate|]. cbn [restrict_time_span bind] in H0. rewrite (restrict_times_eq _ _ _ _ Ht) in H1. cbn [bind] in H1.
  injection H0 as <- <- <-. injection H1 as <- <- <-. split; [reflexivity|]. split; [reflexivity|].
  set (E := express_used _ _) in *. match goal with |- context [repeat (repeat ?y n_pixels) E] => set (x := y) end. rewrite repeat_length.
  assert (R0 : rect E n_pixels (repeat (repeat x n_pixels) E)) by (split; [apply repeat_length|apply repeat_rect]).
  split; [exact R0|]. split; [now apply windowed_rect_any|]. intros i k Hi Hk.
  rewrite (windowed_entry_any n_pixels _ _ E i k R0 Hi Hk).
  assert (Hx : 0 <= x). { unfold x. rnum. apply Nat.eqb_neq in En. apply Rmult_le_pos; [apply IZR_le; lia|]. apply Rlt_le, Rinv_0_lt_compat, IZR_lt. lia. }
  assert (Ent : forall e, (e < E)%nat -> entry (repeat (repeat x n_pixels) E) e k = x).
  { intros e He. unfold entry. assert (K : In (nth e (repeat (repeat x n_pixels) E) []) (repeat (repeat x n_pixels) E)) by (apply nth_In; rewrite repeat_length; lia). apply repeat_spec in K. rewrite K. rewrite (nth_indep _ _ x) by (rewrite repeat_length; lia). apply nth_repeat. }
  rewrite <- (times_clip_overlap first final); [|exact Ha|exact Hab|].
  - f_equal. destruct i; [|reflexivity]. cbn [transfers_before]. now rewrite times_clip_0.
  - cbn [transfers_before]. rewrite Ent by exact Hi. lra.
Qed.
