(** * Rows and columns past traps that are kept between the columns, evaluated with rational
    numbers, which agree with the real ones. *)
From Coq Require Import ZArith QArith Qreals List Bool Reals Lra Lia.
From Coquelicot Require Import Rcomplements Rbar Hierarchy RInt.
From Verif Require Import Num Py RFacts CCDModel TrapsModel ManagerModel ROEModel ClockModel MainModel CCDFacts ClockFacts Spec SpecImage SpecReadout SpecColumn SpecHistory SpecShared
  ReadoutExamples HomFacts HomInstantFacts MemoryExample HistoryFacts ZeroCaptureExample WindowFacts.
Import ListNotations.

(** The only exponential that occurs is [f]. *)
#[local] Instance QFNum (f : Q) : Num Q := {|
  n0 := 0%Q; n1 := 1%Q;
  nadd := fun a b => Qred (a + b); nsub := fun a b => Qred (a - b); nmul := fun a b => Qred (a * b);
  ndiv := fun a b => Qred (a / b); nopp := fun a => Qred (- a);
  nltb := fun a b => negb (Qle_bool b a); nleb := Qle_bool; neqb := Qeq_bool;
  nofZ := inject_Z; nexp := fun _ => f; nln := fun x => x; npow := fun x _ => x; nnan := None |}.

Section Rational.
Variable f : Q.
Fixpoint q_through (m : manager Q) (l : list Q) : result (list Q * manager Q) :=
  match l with
  | [] => Ok ([], m)
  | n :: l => do '(net, m1) <- @manager_step Q (QFNum f) m n unit_fill 1%Q; do '(l', m2) <- q_through m1 l; Ok (left_over n net :: l', m2)
  end.
Fixpoint q_reading (start : manager Q) (rows : nat) (last : manager Q) (l : list Q) : result (list Q * manager Q) :=
  match rows with
  | O => Ok ([], last)
  | S k => do '(l, s) <- q_through start l;
           match l with [] => Ok ([], s) | first :: rest => do '(l', s') <- q_reading start k s rest; Ok (first :: l', s') end
  end.
Fixpoint q_columns (start : manager Q) (columns : list (list Q)) : result (list (list Q)) :=
  match columns with
  | [] => Ok []
  | l :: columns => do '(out, s) <- q_reading start (length l) start l; do outs <- q_columns s columns; Ok (out :: outs)
  end.
End Rational.
Definition q_instant (density : Q) : trap Q := mkTrap density 1%Q RInf 1%Q false CInstant.
Definition q_empty (density : Q) (n : nat) : manager Q := mkManager KInstant [q_instant density] (repeat (0%Q, [0%Q]) (S n)).

Open Scope R_scope.
Section Real.
Context (f : Q) (d : R) (density : Q).
Hypothesis Hd : exp (- d) = Q2R f.
Notation agree := (hi_manager (numF := QFNum f) Q2R 1%Q d).
Notation fill := (well_fill small_ccd 0 false).
Definition q_same (x : result (list Q * manager Q)) (y : result (list R * manager R)) : Prop :=
  match x with
  | Ok (l, m) => exists m', y = Ok (map Q2R l, m') /\ agree m m'
  | Err e => y = Err e
  end.
Lemma through_real l : forall m m', agree m m' -> q_same (q_through f m l) (past_manager fill d m' (map Q2R l)).
Proof.
  induction l as [|n l IH]; intros m m' HM; cbn [q_through past_manager map]; [exists m'; auto|].
  pose proof (hi_step (numF := QFNum f) (numG := RNum) Q2R Q2R_0 Q2R_1 Q2R_sum Q2R_difference Q2R_product Q2R_over Q2R_ltb Q2R_leb Q2R_eqb eq_refl 1%Q d m m' n unit_fill fill HM small_fill) as S.
  destruct (@manager_step Q (QFNum f) m n unit_fill 1%Q) as [[net m1]|e]; cbn [bind]; [|rewrite S; reflexivity].
  destruct S as (m1' & -> & H1). cbn [bind]. specialize (IH m1 m1' H1). destruct (q_through f m1 l) as [[l' m2]|e]; cbn [bind q_same] in *; [|rewrite IH; reflexivity].
  destruct IH as (m2' & -> & H2). cbn [bind map]. exists m2'. rewrite left_over_real. auto.
Qed.
Lemma reading_real start start' rows : agree start start' -> forall last last' l, agree last last' ->
  q_same (q_reading f start rows last l) (reading (past_manager fill d) start' rows last' (map Q2R l)).
Proof.
  intros HS. induction rows as [|k IH]; intros last last' l HL; cbn [q_reading reading]; [exists last'; auto|].
  pose proof (through_real l start start' HS) as T. destruct (q_through f start l) as [[l1 s]|e]; cbn [bind q_same] in *; [|rewrite T; reflexivity].
  destruct T as (s' & -> & H1). cbn [bind]. destruct l1 as [|x l1]; cbn [map q_same]; [exists s'; auto|].
  specialize (IH s s' l1 H1). destruct (q_reading f start k s l1) as [[l2 s2]|e]; cbn [bind q_same] in *; [|rewrite IH; reflexivity].
  destruct IH as (s2' & -> & H2). cbn [bind map]. exists s2'. auto.
Qed.
Lemma columns_real empty : forall columns start start' outs, agree start start' -> q_columns f start columns = Ok outs ->
  columns_past (past_manager fill d) true empty start' 0 (map (map Q2R) columns) = Ok (map (map Q2R) outs).
Proof.
  induction columns as [|l columns IH]; intros start start' outs HS E; cbn [q_columns columns_past map] in *; [injection E as <-; reflexivity|].
  unfold column_past. cbn [before bind]. rewrite map_length.
  pose proof (reading_real start start' (length l) HS start start' l HS) as T. destruct (q_reading f start (length l) start l) as [[out s]|e]; cbn [bind q_same] in *; [|discriminate].
  destruct T as (s' & -> & H1). cbn [bind]. destruct (q_columns f s columns) as [outs'|e] eqn:E2; cbn [bind] in *; [|discriminate]. injection E as <-.
  rewrite (IH s s' outs' H1 E2). reflexivity.
Qed.
Lemma empty_real n : agree (q_empty density n) (empty_manager 1 [small_trap (Q2R density)] n).
Proof.
  unfold q_empty, empty_manager. repeat split; cbn [m_kind m_traps m_wm kind_for small_trap t_class].
  - unfold n_traps_per_pixel. cbn. now rewrite Rmult_1_r.
  - cbn. unfold release_probability. cbn. rnum. replace (- (1 / 1) * d) with (- d) by lra. now rewrite Hd.
  - assert (E : h_row Q2R (0%Q, [0%Q]) = (0, repeat 0 (length [small_trap (Q2R density)]))) by (unfold h_row; cbn; now rewrite Q2R_0).
    rewrite <- E. unfold h_wm. generalize (0%Q, [0%Q]) as x. generalize (S n) as k. clear. induction k as [|k IH]; intros x; [reflexivity|]. cbn. now rewrite <- IH.
Qed.
Lemma kept_setting rows : 0 < d -> single_phase (small_direction (roe_init [d] true false true DFloat) (TOne (small_trap (Q2R density)))) rows small_ccd 1 [small_trap (Q2R density)] d true.
Proof.
  intros H. constructor; try reflexivity; try lra; try discriminate.
  - eexists; split; reflexivity.
  - exists true, DFloat. reflexivity.
  - left; reflexivity.
Qed.
(** An image whose columns are rational, read out past kept traps. *)
Lemma kept_readout im rows cols columns outs : 0 < d -> shape rows cols im -> (0 < rows)%nat ->
  map (column_of im) (seq 0 cols) = map (map Q2R) columns -> q_columns f (q_empty density rows) columns = Ok outs ->
  let dir := small_direction (roe_init [d] true false true DFloat) (TOne (small_trap (Q2R density))) in
  exists im', add_cti im dir no_direction None = Ok (im', the_roe dir, the_roe no_direction) /\ shape rows cols im' /\
    length outs = cols /\ forall j, (j < cols)%nat -> column_of im' j = map Q2R (nth j outs []).
Proof.
  intros H0 Hs Hr Hc Ho dir.
  pose proof (history_readout im dir no_direction small_ccd 1 [small_trap (Q2R density)] d true rows cols Hs Hr (kept_setting rows H0) eq_refl eq_refl) as H. cbv zeta in H.
  rewrite Hc in H. change (d_offset dir) with 0%nat in H. change (fun n => well_fill small_ccd 0 false n) with fill in H.
  rewrite (columns_real (empty_manager 1 [small_trap (Q2R density)] rows) columns (q_empty density rows) _ outs (empty_real rows) Ho) in H.
  destruct H as (im' & E & Hs' & Hl & H). exists im'. split; [exact E|]. split; [exact Hs'|]. split; [now rewrite map_length in Hl|].
  intros j Hj. rewrite (H j Hj). change (@nil R) with (map Q2R []). apply map_nth.
Qed.
End Real.

(** ** The same by the specification *)
Definition half : list (trap R) := [thinned 1 (small_trap (1 / 2))].
(** Occupancies [a] down to depth [u], and [b] below. *)
Definition two_flat (a u b : R) (P : profile) : Prop := forall x, (0 < x < u -> P 0%nat x = a) /\ (u < x < 1 -> P 0%nat x = b).
Lemma two_electrons t a u b P : 0 <= u <= 1 -> two_flat a u b P -> electrons [t] P 0 1 = t_density t * (a * u + b * (1 - u)).
Proof.
  intros Hu H. unfold electrons. cbn [electrons_from].
  assert (I1 : is_RInt (P 0%nat) 0 u (a * u)).
  { apply (is_RInt_ext (fun _ => a)). { intros x Hx. rewrite Rmin_left, Rmax_right in Hx by lra. symmetry. apply (H x), Hx. }
    evar_last. { apply is_RInt_const. } unfold scal; cbn; unfold mult; cbn. ring. }
  assert (I2 : is_RInt (P 0%nat) u 1 (b * (1 - u))).
  { apply (is_RInt_ext (fun _ => b)). { intros x Hx. rewrite Rmin_left, Rmax_right in Hx by lra. symmetry. apply (H x), Hx. }
    evar_last. { apply is_RInt_const. } unfold scal; cbn; unfold mult; cbn. ring. }
  rewrite (is_RInt_unique _ _ _ _ (is_RInt_Chasles _ _ _ _ _ _ I1 I2)). unfold plus; cbn. lra.
Qed.
Lemma first_packet P : flat 0 1 P -> transfer_net half small_well (ln 2) 1 P = - (1 / 2) /\ flat 1 1 (transfer_after half small_well (ln 2) 1 P).
Proof.
  intros HP. destruct (flat_step small_well (1/2) (ln 2) 0 (1/2) 1 0 1 P HP exp_ln2) as [E1 H1]; try lra; [apply small_well_at; lra|].
  split; [unfold half; rewrite E1; lra|exact H1].
Qed.
Lemma second_packet P : flat 1 1 P -> transfer_net half small_well (ln 2) 0 P = 3 / 16 /\ two_flat 1 (1 / 4) (1 / 2) (transfer_after half small_well (ln 2) 0 P).
Proof.
  intros HP. destruct (flat_step small_well (1/2) (ln 2) 1 (1/2) 0 (1/4) (1/4) P HP exp_ln2) as [E1 H1]; try lra; [apply small_well_at; lra|].
  split; [unfold half; rewrite E1; lra|]. intros x. split; [apply H1|]. intros Hx.
  assert (R1 : flat (1 / 2) 1 (after_release half (ln 2) P)).
  { intros y Hy. unfold after_release. rewrite HP by exact Hy. unfold timescale. cbn. rewrite Rdiv_1, exp_ln2. lra. }
  assert (Hr : released half (ln 2) P = 1 / 4).
  { unfold released, half. rewrite (flat_electrons _ 1 1 P ltac:(lra) HP), (flat_electrons _ (1 / 2) 1 _ ltac:(lra) R1). cbn. lra. }
  unfold transfer_after. rewrite Hr, (small_well_at (0 + 1 / 4) (1 / 4)) by lra. unfold after_capture. destruct (Rlt_dec x (1 / 4)); [lra|]. apply R1. lra.
Qed.
Lemma third_packet P : two_flat 1 (1 / 4) (1 / 2) P -> transfer_net half small_well (ln 2) 0 P = 15 / 128.
Proof.
  intros HP.
  assert (R1 : two_flat (1 / 2) (1 / 4) (1 / 4) (after_release half (ln 2) P)).
  { intros y. unfold after_release, timescale. cbn. rewrite Rdiv_1, exp_ln2. split; intros Hy; [rewrite (proj1 (HP y) Hy)|rewrite (proj2 (HP y) Hy)]; lra. }
  assert (Hr : released half (ln 2) P = 5 / 32).
  { unfold released, half. rewrite (two_electrons _ 1 (1 / 4) (1 / 2) P ltac:(lra) HP), (two_electrons _ (1 / 2) (1 / 4) (1 / 4) _ ltac:(lra) R1). cbn. lra. }
  unfold transfer_net. rewrite Hr, (small_well_at (0 + 5 / 32) (5 / 32)) by lra. unfold captured, demand, half.
  rewrite (flat_electrons _ (1 / 2) (5 / 32)); [cbn; rewrite Rmin_right by lra; lra|lra|]. intros x Hx. fold half. rewrite (proj1 (R1 x)) by lra. lra.
Qed.
Lemma idle_packet : transfer_net half small_well (ln 2) 0 empty_profile = 0 /\ flat 0 1 (transfer_after half small_well (ln 2) 0 empty_profile).
Proof.
  destruct (nothing_happens half small_well (ln 2)) as [N S]. { unfold small_well, depth. destruct (Rle_dec 0 0); lra. }
  split; [exact N|]. intros x Hx. rewrite (S 0%nat x) by (cbn; lia || lra). reflexivity.
Qed.
Lemma shared_square : nth 0 (nth 1 (shared_readout half small_well (ln 2) 2 [[0; 1]; [0; 0]]) []) 0 = 3 / 16.
Proof.
  unfold shared_readout. cbn [repeat past_shared past_sites past_traps traps_then]. destruct idle_packet as [N0 H0].
  destruct (first_packet _ H0) as [N1 H1]. destruct (second_packet _ H1) as [N2 _].
  cbn [nth]. rewrite N2. lra.
Qed.
Lemma shared_row n : nth 0 (nth 2 (shared_readout half small_well (ln 2) 1 ([1] :: [0] :: [0] :: repeat [0] n)) []) 0 = 15 / 128.
Proof.
  unfold shared_readout. cbn [repeat past_shared past_sites past_traps traps_then].
  destruct (first_packet _ (flat_empty 1)) as [N1 H1]. destruct (second_packet _ H1) as [N2 H2]. cbn [nth]. rewrite (third_packet _ H2). lra.
Qed.

(** ** ... and by the code *)
Lemma blank_columns f m : @manager_step Q (QFNum f) m 0%Q unit_fill 1%Q = Ok (0%Q, m) -> forall n, q_columns f m (repeat [0%Q] n) = Ok (repeat [0%Q] n).
Proof.
  intros E. induction n as [|n IH]; [reflexivity|]. cbn [repeat q_columns length q_reading q_through]. rewrite E. cbn [bind q_reading]. rewrite IH. reflexivity.
Qed.
Lemma q_row n : q_columns (1 # 2) (q_empty (1 # 2) 1) ([1] :: [0] :: [0] :: repeat [0] n)%Q = Ok ([1 # 2] :: [3 # 16] :: [0] :: repeat [0] n)%Q.
Proof.
  pose (m2 := mkManager KInstant [q_instant (1 # 2)] [((1 # 4), [1]); ((3 # 4), [1 # 2])]%Q).
  assert (B := blank_columns (1 # 2) m2 ltac:(vm_compute; reflexivity) (S n)).
  change ([1] :: [0] :: [0] :: repeat [0] n)%Q with ([1] :: [0] :: repeat [0] (S n))%Q. set (l := repeat [0%Q] (S n)) in *. cbn [q_columns].
  assert (E1 : q_reading (1 # 2) (q_empty (1 # 2) 1) (length [1%Q]) (q_empty (1 # 2) 1) [1%Q] = Ok ([1 # 2]%Q, mkManager KInstant [q_instant (1 # 2)] [(1, [1]); (0, [0])]%Q)) by (vm_compute; reflexivity).
  rewrite E1. cbn [bind].
  match goal with |- context [q_reading ?f ?m (length [0%Q]) ?m [0%Q]] => assert (E2 : q_reading f m (length [0%Q]) m [0%Q] = Ok ([3 # 16]%Q, m2)) by (vm_compute; reflexivity) end.
  rewrite E2. cbn [bind]. rewrite B. reflexivity.
Qed.
Definition keeps (d density : R) : direction R := small_direction (roe_init [d] true false true DFloat) (TOne (small_trap density)).
Definition long_row (n : nat) : image R := [1 :: 0 :: 0 :: repeat 0 n].
Lemma long_shape n : shape 1 (3 + n) (long_row n).
Proof. split; [reflexivity|]. constructor; [cbn; now rewrite repeat_length|constructor]. Qed.
Lemma Q2R_half : Q2R (1 # 2) = 1 / 2.
Proof. unfold Q2R. cbn. lra. Qed.
Lemma long_columns n : map (column_of (long_row n)) (seq 0 (3 + n)) = map (map Q2R) ([1] :: [0] :: [0] :: repeat [0] n)%Q.
Proof.
  cbn [Nat.add seq map]. rewrite Q2R_0, Q2R_1. do 3 f_equal; try reflexivity.
  assert (G : forall k s, map (column_of (long_row n)) (seq (3 + s) k) = map (map Q2R) (repeat [0%Q] k) \/ (n < s + k)%nat).
  { induction k as [|k IH]; intros s; [left; reflexivity|]. destruct (IH (S s)) as [E|E]; [left|right; lia]. cbn [seq map repeat]. replace (S (3 + s)) with (3 + S s)%nat by lia. rewrite E. f_equal.
    unfold column_of, long_row. cbn [map Nat.add nth]. rewrite Q2R_0. f_equal. rnum. apply nth_repeat. }
  destruct (G n 0%nat) as [E|E]; [exact E|lia].
Qed.
Lemma row_readout n : let d := keeps (ln 2) (1 / 2) in
  add_cti (long_row n) d no_direction None = Ok ([1 / 2 :: 3 / 16 :: 0 :: repeat 0 n], the_roe d, the_roe no_direction).
Proof.
  intros d. unfold d, keeps. rewrite <- Q2R_half.
  destruct (kept_readout (1 # 2) (ln 2) (1 # 2) (eq_trans exp_ln2 (eq_sym Q2R_half)) (long_row n) 1 (3 + n) _ _ (ln_pos 2 ltac:(lra)) (long_shape n) ltac:(lia) (long_columns n) (q_row n)) as (im' & E & [L F] & Hl & H).
  cbv zeta in E. rewrite E. do 3 f_equal. destruct im' as [|r [|]]; try discriminate. f_equal. inversion F as [|? ? Fr _]; subst.
  apply (nth_ext _ _ 0 0); [rewrite Fr; cbn; now rewrite repeat_length|]. intros j Hj. rewrite Fr in Hj. specialize (H j Hj). unfold column_of in H. cbn [map] in H. rnum.
  assert (G : [nth j r 0] = [nth j (1 / 2 :: 3 / 16 :: 0 :: repeat 0 n) 0]); [|injection G as G; exact G]. change (n0 : R) with 0 in H. rewrite H.
  destruct j as [|[|[|j]]]; cbn [nth map]; try (f_equal; unfold Q2R; cbn; lra).
  rewrite nth_repeat. destruct (lt_dec j n) as [Hn|Hn]; [|cbn in Hj; lia]. rewrite (nth_indep _ [] [0%Q]) by (rewrite repeat_length; exact Hn). rewrite nth_repeat. cbn. now rewrite Q2R_0.
Qed.

Definition square : image R := [[0; 0]; [1; 0]].
Lemma square_readout : let d := keeps (ln 2) (1 / 2) in
  exists im', add_cti square d no_direction None = Ok (im', the_roe d, the_roe no_direction) /\ pixel im' 0 1 = 3 / 32.
Proof.
  intros d. unfold d, keeps. rewrite <- Q2R_half.
  destruct (kept_readout (1 # 2) (ln 2) (1 # 2) (eq_trans exp_ln2 (eq_sym Q2R_half)) square 2 2 [[0; 1]; [0; 0]]%Q [[0; 1 # 4]; [3 # 32; 141 # 1024]]%Q (ln_pos 2 ltac:(lra))) as (im' & E & _ & _ & H).
  - split; [reflexivity|repeat constructor].
  - lia.
  - cbn. now rewrite Q2R_0, Q2R_1.
  - vm_compute. reflexivity.
  - exists im'. split; [exact E|]. rewrite <- column_nth, (H 1%nat) by lia. cbn. unfold Q2R. cbn. lra.
Qed.
Definition wide : image R := [[0; 0; 0]; [1; 0; 0]].
Lemma wide_shape : shape 2 3 wide.
Proof. split; [reflexivity|repeat constructor]. Qed.
Lemma wide_charge im a b c d e f : shape 2 3 im -> column_of im 0 = [a; d] -> column_of im 1 = [b; e] -> column_of im 2 = [c; f] -> charge im = a + b + c + d + e + f.
Proof.
  intros [L F] H0 H1 H2. destruct im as [|r [|r' [|]]]; try discriminate. inversion F as [|? ? F1 F2]; subst. inversion F2 as [|? ? F3 _]; subst.
  destruct r as [|x [|y [|z [|]]]]; try discriminate. destruct r' as [|x' [|y' [|z' [|]]]]; try discriminate.
  cbn [column_of map nth] in H0, H1, H2. injection H0 as -> ->. injection H1 as -> ->. injection H2 as -> ->. unfold charge, Rsum. cbn. lra.
Qed.
Definition wide_outs : list (list Q) := Eval vm_compute in match q_columns (1 # 4) (q_empty (1 # 64) 2) [[0; 1]; [0; 0]; [0; 0]]%Q with Ok l => l | Err _ => [] end.
Lemma wide_more : exists a b c d e f, wide_outs = [[a; d]; [b; e]; [c; f]] /\ 1 < Q2R a + Q2R b + Q2R c + Q2R d + Q2R e + Q2R f.
Proof.
  unfold wide_outs. do 6 eexists. split; [reflexivity|]. rewrite <- !Q2R_plus. rewrite <- (Q2R_1 : Q2R 1 = 1). apply Qlt_Rlt. vm_compute. reflexivity.
Qed.
Lemma wide_readout : let d := keeps (ln 4) (1 / 64) in
  exists im', add_cti wide d no_direction None = Ok (im', the_roe d, the_roe no_direction) /\ charge wide < charge im'.
Proof.
  intros d. unfold d, keeps. assert (Ed : 1 / 64 = Q2R (1 # 64)) by (unfold Q2R; cbn; lra). rewrite Ed.
  assert (Ef : exp (- ln 4) = Q2R (1 # 4)) by (rewrite exp_ln4; unfold Q2R; cbn; lra).
  assert (Q : q_columns (1 # 4) (q_empty (1 # 64) 2) [[0; 1]; [0; 0]; [0; 0]]%Q = Ok wide_outs) by (vm_compute; reflexivity).
  destruct wide_more as (x & y & z & x' & y' & z' & Eo & Hm). generalize dependent wide_outs. intros outs Q Eo. subst outs.
  destruct (kept_readout (1 # 4) (ln 4) (1 # 64) Ef wide 2 3 [[0; 1]; [0; 0]; [0; 0]]%Q _ (ln_pos 4 ltac:(lra)) wide_shape ltac:(lia) ltac:(cbn; now rewrite Q2R_0, Q2R_1) Q) as (im' & E & Hs & Hl & H). clear Q.
  exists im'. split; [exact E|]. rewrite (wide_charge im' _ _ _ _ _ _ Hs (H 0%nat ltac:(lia)) (H 1%nat ltac:(lia)) (H 2%nat ltac:(lia))).
  rewrite (wide_charge wide 0 0 0 1 0 0 wide_shape) by reflexivity. lra.
Qed.
