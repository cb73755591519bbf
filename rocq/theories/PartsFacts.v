(** * Readouts in several calls (main.py:131-147): passes outside the time window do nothing. *)
From Coq Require Import ZArith List Bool Reals Lra Lia FinFun FunctionalExtensionality.
From Coquelicot Require Import Rcomplements Rbar Hierarchy RInt.
From Verif Require Import Num Py RFacts CCDModel TrapsModel ManagerModel ROEModel ClockModel MainModel Spec SpecROE SpecImage SpecReadout SpecColumn SpecExpress
  WmFacts ArrayFacts CutFacts InstantFacts ClockFacts MainFacts ShapeFacts ColumnFacts
  ROEClockFacts ROEMatrixFacts ROEExpressFacts ROEKindFacts ReadoutFacts ReadoutImage ReadoutForced ReadoutFull ReadoutSpecFacts ReadoutColumnFacts MainReadoutFacts.
Import ListNotations.
Open Scope R_scope.

(** One pass, every pixel of which has multiplier [m]. *)
Definition pass_of (rows offset : nat) (m : R) (e : nat) : list (Z * R * bool) :=
  map (fun w => (Z.of_nat w, m, false)) (seq (e - offset) (rows - (e - offset))).
Definition some_passes (rows offset a b : nat) : list (list (Z * R * bool)) := map (pass_of rows offset 1) (seq a (b - a)).
Lemma full_some rows offset : full_passes rows offset = some_passes rows offset 0 (rows + offset).
Proof. unfold some_passes. rewrite Nat.sub_0_r. reflexivity. Qed.

Section Model.
Context (sites : nat -> site) (phases : list nat) (steps : list (R * list (roe_phase R))).

Lemma expose_nonneg row m d es st k : (forall z, 0 <= fst st z) -> forall z, 0 <= fst (expose sites row m d es st k) z.
Proof. destruct st as [c T]. intros H. cbn. apply deposit_nonneg, H. Qed.
Lemma transfer_nonneg row m st : (forall z, 0 <= fst st z) -> forall z, 0 <= fst (transfer_pixel sites phases steps row m st) z.
Proof.
  unfold transfer_pixel. revert st. induction steps as [|[d es] l IH]; intros st H; [exact H|]. cbn [fold_left]. apply IH.
  generalize phases. intros ks. revert st H. induction ks as [|k ks IHk]; intros st H; [exact H|]. cbn [fold_left]. apply IHk, expose_nonneg, H.
Qed.
Lemma cells_nonneg cells : forall st, (forall z, 0 <= fst (fst st) z) -> forall z, 0 <= fst (fst (fold_left (pass_cell sites phases steps) cells st)) z.
Proof.
  induction cells as [|[[row m] save] cells IH]; intros [[c T] S] H; [exact H|]. cbn [fold_left]. apply IH.
  cbn [pass_cell]. pose proof (transfer_nonneg row m (c, T) H) as G. destruct (transfer_pixel _ _ _ _ _ _) as [c' T']. exact G.
Qed.
Lemma passes_nonneg passes : forall st, (forall z, 0 <= fst st z) -> forall z, 0 <= fst (fold_left (transfer_pass sites phases steps) passes st) z.
Proof.
  induction passes as [|p passes IH]; intros [c S] H; [exact H|]. cbn [fold_left]. apply IH.
  cbn [transfer_pass]. pose proof (cells_nonneg p (c, S, S) H) as G. destruct (fold_left _ p _) as [[c' T'] S']. exact G.
Qed.

(** Multiplier zero: nothing changes. *)
Lemma zero_transfer row c T : (forall z, 0 <= c z) -> fst (transfer_pixel sites phases steps row 0 (c, T)) = c.
Proof.
  intros Hc. unfold transfer_pixel. assert (H : forall st, fst st = c -> fst (fold_left (fun st '(dwell, es) => fold_left (expose sites row 0 dwell es) phases st) steps st) = c); [|apply H; reflexivity].
  induction steps as [|[d es] l IH]; intros st H; [exact H|]. cbn [fold_left]. apply IH.
  generalize phases. intros ks. revert st H. induction ks as [|k ks IHk]; intros st H; [exact H|]. cbn [fold_left]. apply IHk.
  destruct st as [c' T']. cbn [fst] in H. subst c'. cbn. apply functional_extensionality. intros z. rewrite Rmult_0_r. apply deposit_nothing, Hc.
Qed.
Lemma zero_pass cells c T S : (forall z, 0 <= c z) -> Forall (fun '(_, m, save) => m = 0 /\ save = false) cells ->
  exists T', fold_left (pass_cell sites phases steps) cells (c, T, S) = (c, T', S).
Proof.
  intros Hc. revert T. induction cells as [|[[row m] save] cells IH]; intros T H; [exists T; reflexivity|].
  inversion H as [|? ? H1 H2]; subst. cbv beta iota in H1. destruct H1 as [-> ->]. cbn [fold_left pass_cell]. pose proof (zero_transfer row c T Hc) as E.
  destruct (transfer_pixel _ _ _ _ _ _) as [c' T']. cbn [fst] in E. subst c'. apply IH, H2.
Qed.
(** Passes that save nothing. *)
Lemma nosave_pass rows offset m e c S : snd (transfer_pass sites phases steps (c, S) (pass_of rows offset m e)) = S.
Proof.
  cbn [transfer_pass]. pose proof (pass_no_save sites phases steps (pass_of rows offset m e)) as G.
  assert (Hc : Forall (fun '(_, _, save) => save = false) (pass_of rows offset m e)).
  { apply Forall_forall. intros [[row x] save] Hin. apply in_map_iff in Hin as (w & Ew & _). injection Ew as _ _ <-. reflexivity. }
  specialize (G Hc c S S). destruct (fold_left _ _ _) as [[c' T'] S']. exact G.
Qed.
Lemma nosave_passes rows offset m es : forall c S, snd (fold_left (transfer_pass sites phases steps) (map (pass_of rows offset m) es) (c, S)) = S.
Proof.
  induction es as [|e es IH]; intros c S; [reflexivity|]. cbn [map fold_left].
  pose proof (nosave_pass rows offset m e c S) as H. destruct (transfer_pass _ _ _ _ _) as [c' S']. cbn [snd] in H. subst S'. apply IH.
Qed.
Lemma fold_filter rows offset (q : nat -> bool) es : forall c S, (forall z, 0 <= c z) ->
  fold_left (transfer_pass sites phases steps) (map (fun e => pass_of rows offset (if q e then 1 else 0) e) es) (c, S)
  = fold_left (transfer_pass sites phases steps) (map (pass_of rows offset 1) (filter q es)) (c, S).
Proof.
  induction es as [|e es IH]; intros c S Hc; [reflexivity|]. cbn [map filter fold_left]. destruct (q e).
  - cbn [map fold_left]. pose proof (passes_nonneg [pass_of rows offset 1 e] (c, S) Hc) as Hn. cbn [fold_left] in Hn.
    destruct (transfer_pass _ _ _ _ _) as [c' S']. apply IH. exact Hn.
  - assert (H0 : transfer_pass sites phases steps (c, S) (pass_of rows offset 0 e) = (c, S)); [|rewrite H0; apply IH, Hc].
    cbn [transfer_pass]. destruct (zero_pass (pass_of rows offset 0 e) c S S Hc) as [T' E]; [|unfold column in *; rewrite E; reflexivity].
    apply Forall_forall. intros [[row x] save] Hin. apply in_map_iff in Hin as (w & Ew & _). injection Ew as _ <- <-. auto.
Qed.

(** From pass [a] to pass [b]. *)
Definition advance (rows offset a b : nat) (c : column) : column := readout sites phases steps (some_passes rows offset a b) c.
Lemma advance_nonneg rows offset a b c : (forall z, 0 <= c z) -> forall z, 0 <= advance rows offset a b c z.
Proof. intros H. apply passes_nonneg, H. Qed.
Lemma advance_none rows offset a c : advance rows offset a a c = c.
Proof. unfold advance, some_passes. rewrite Nat.sub_diag. reflexivity. Qed.
Lemma advance_compose rows offset a b d c : (a <= b <= d)%nat -> advance rows offset b d (advance rows offset a b c) = advance rows offset a d c.
Proof.
  intros H. unfold advance, some_passes, readout. replace (d - a)%nat with ((b - a) + (d - b))%nat by lia. rewrite seq_app, map_app, fold_left_app.
  pose proof (nosave_passes rows offset 1 (seq a (b - a)) c (all_empty sites)) as E. destruct (fold_left _ (map (pass_of rows offset 1) (seq a (b - a))) _) as [c' S'].
  cbn [snd fst] in *. subst S'. replace (a + (b - a))%nat with b by lia. reflexivity.
Qed.

Hypothesis Hfw : forall d es k, In (d, es) steps -> In k phases -> forward (electrode es k).

(** Rows closer to the readout than the passes are not touched. *)
Lemma advance_done rows offset a b c z : (z < Z.of_nat (a - offset))%Z -> advance rows offset a b c z = c z.
Proof.
  intros Hz. unfold advance, readout, some_passes. set (n := (b - a)%nat). clearbody n. generalize (all_empty sites). revert a c Hz.
  induction n as [|n IH]; intros a c Hz S; [reflexivity|]. cbn [seq map fold_left].
  assert (H1 : fst (transfer_pass sites phases steps (c, S) (pass_of rows offset 1 a)) z = c z).
  { cbn [transfer_pass]. pose proof (pass_beyond sites phases steps z Hfw (pass_of rows offset 1 a)) as G.
    assert (Hall : Forall (fun cell => at_most z cell = false) (pass_of rows offset 1 a)).
    { apply Forall_forall. intros [[row x] save] Hin. apply in_map_iff in Hin as (w & Ew & Hw). injection Ew as <- _ _. apply in_seq in Hw. cbn. apply Z.leb_gt. lia. }
    specialize (G Hall c S S). destruct (fold_left _ _ _) as [[c' T'] S']. symmetry. apply G. lia. }
  destruct (transfer_pass _ _ _ _ _) as [c' S']. cbn [fst] in H1. rewrite (IH (Datatypes.S a)) by lia. exact H1.
Qed.

(** Only the rows that are still to be transferred matter. *)
Definition agree_in (A : Z -> Prop) (f g : column) : Prop := forall z, A z -> f z = g z.
Lemma give_in A f g row q : agree_in A f g -> agree_in A (give f row q) (give g row q).
Proof. intros H z Hz. unfold give. destruct (z =? row)%Z eqn:E; [|apply H, Hz]. rewrite (H z Hz). reflexivity. Qed.
Lemma deposit_in A targets row q : forall f g, agree_in A f g -> agree_in A (deposit targets row q f) (deposit targets row q g).
Proof. unfold deposit. induction targets as [|[d x] l IH]; intros f g H; [exact H|]. cbn [fold_left]. apply IH, give_in, H. Qed.
Lemma expose_in (A : Z -> Prop) row m d es f g T k : A row -> forward (electrode es k) -> agree_in A f g ->
  agree_in A (fst (expose sites row m d es (f, T) k)) (fst (expose sites row m d es (g, T) k)) /\
  snd (expose sites row m d es (f, T) k) = snd (expose sites row m d es (g, T) k).
Proof.
  intros Hrow [Hc _] H. cbn [expose fst snd].
  assert (E : (if rp_high (electrode es k) then f (row + rp_capture (electrode es k))%Z else 0) = (if rp_high (electrode es k) then g (row + rp_capture (electrode es k))%Z else 0)).
  { destruct (rp_high _) eqn:Eh; [|reflexivity]. rewrite (Hc eq_refl), Z.add_0_r. apply H, Hrow. }
  rewrite E. split; [apply deposit_in, H|reflexivity].
Qed.
Lemma transfer_in (A : Z -> Prop) row m f g T : A row -> agree_in A f g ->
  agree_in A (fst (transfer_pixel sites phases steps row m (f, T))) (fst (transfer_pixel sites phases steps row m (g, T))) /\
  snd (transfer_pixel sites phases steps row m (f, T)) = snd (transfer_pixel sites phases steps row m (g, T)).
Proof.
  intros Hrow. unfold transfer_pixel. revert f g T. assert (Hin : incl steps steps) by apply incl_refl. revert Hin. generalize steps at 1 3 4 5 6. intros l.
  induction l as [|[d es] l IH]; intros Hin f g T H; [split; [exact H|reflexivity]|]. cbn [fold_left].
  assert (Hk : incl phases phases) by apply incl_refl.
  assert (G : forall ks, incl ks phases -> forall f g T, agree_in A f g ->
    agree_in A (fst (fold_left (expose sites row m d es) ks (f, T))) (fst (fold_left (expose sites row m d es) ks (g, T))) /\
    snd (fold_left (expose sites row m d es) ks (f, T)) = snd (fold_left (expose sites row m d es) ks (g, T))).
  { clear f g T H. induction ks as [|k ks IHk]; intros Hi f g T H; [split; [exact H|reflexivity]|]. cbn [fold_left].
    destruct (expose_in A row m d es f g T k Hrow) as [E1 E2]; [apply (Hfw d); [apply Hin; left; reflexivity|apply Hi; left; reflexivity]|exact H|].
    destruct (expose _ _ _ _ _ (f, T) k) as [f' T'], (expose _ _ _ _ _ (g, T) k) as [g' T'']. cbn [fst snd] in *. subst T''. apply IHk; [intros x Hx; apply Hi; right; exact Hx|exact E1]. }
  destruct (G phases Hk f g T H) as [E1 E2]. destruct (fold_left _ phases (f, T)) as [f' T'], (fold_left _ phases (g, T)) as [g' T'']. cbn [fst snd] in *. subst T''.
  apply IH; [intros x Hx; apply Hin; right; exact Hx|exact E1].
Qed.
Lemma cells_in (A : Z -> Prop) cells : Forall (fun '(row, _, _) => A row) cells -> forall f g T S, agree_in A f g ->
  agree_in A (fst (fst (fold_left (pass_cell sites phases steps) cells (f, T, S)))) (fst (fst (fold_left (pass_cell sites phases steps) cells (g, T, S)))) /\
  snd (fold_left (pass_cell sites phases steps) cells (f, T, S)) = snd (fold_left (pass_cell sites phases steps) cells (g, T, S)).
Proof.
  induction cells as [|[[row m] save] cells IH]; intros Hall f g T S H; [split; [exact H|reflexivity]|].
  inversion Hall as [|? ? H1 H2]; subst. cbn [fold_left pass_cell]. destruct (transfer_in A row m f g T H1 H) as [E1 E2].
  destruct (transfer_pixel _ _ _ _ _ (f, T)) as [f' T'], (transfer_pixel _ _ _ _ _ (g, T)) as [g' T'']. cbn [fst snd] in *. subst T''. apply IH; assumption.
Qed.
Lemma advance_in rows offset a b f g : agree_in (fun z => Z.of_nat (a - offset) <= z < Z.of_nat rows)%Z f g ->
  agree_in (fun z => Z.of_nat (a - offset) <= z < Z.of_nat rows)%Z (advance rows offset a b f) (advance rows offset a b g).
Proof.
  set (A := fun z => (Z.of_nat (a - offset) <= z < Z.of_nat rows)%Z). unfold advance, readout, some_passes. set (n := (b - a)%nat). clearbody n.
  generalize (all_empty sites). assert (Hle : (a <= a)%nat) by lia. revert Hle. generalize a at 2 3 4. intros s.
  revert s f g. induction n as [|n IH]; intros s f g Hle S H; [exact H|]. cbn [seq map fold_left].
  assert (Hall : Forall (fun '(row, _, _) => A row) (pass_of rows offset 1 s)).
  { apply Forall_forall. intros [[row x] save] Hin. apply in_map_iff in Hin as (w & Ew & Hw). injection Ew as <- _ _. apply in_seq in Hw. unfold A. lia. }
  destruct (cells_in A _ Hall f g S S H) as [E1 E2]. cbn [transfer_pass].
  destruct (fold_left _ (pass_of rows offset 1 s) (f, S, S)) as [[f' T'] S'], (fold_left _ (pass_of rows offset 1 s) (g, S, S)) as [[g' T''] S'']. cbn [fst snd] in *. subst S''.
  apply IH; [lia|exact E1].
Qed.
End Model.

(** ** The passes of a time window *)
Lemma cells_const lo m : forall n s (a : list R) (b f : list bool), length a = n -> length b = n -> length f = n ->
  (forall k, (k < n)%nat -> nth k b false = Nat.leb lo (s + k)) ->
  (forall k, (k < n)%nat -> (lo <= s + k)%nat -> nth k a 0 = m) ->
  (forall k, (k < n)%nat -> nth k f false = false) ->
  cells_of (map Z.of_nat (seq s n)) a b f = map (fun w => (Z.of_nat w, m, false)) (seq (Nat.max s lo) (s + n - Nat.max s lo)).
Proof.
  induction n as [|n IH]; intros s a b f La Lb Lf Hb Ha Hf.
  - replace (s + 0 - Nat.max s lo)%nat with 0%nat by lia. reflexivity.
  - destruct a as [|x a]; [discriminate|]. destruct b as [|y b]; [discriminate|]. destruct f as [|u f]; [discriminate|].
    injection La as La. injection Lb as Lb. injection Lf as Lf.
    pose proof (Hb 0%nat ltac:(lia)) as B0. pose proof (Hf 0%nat ltac:(lia)) as F0. cbn [nth] in B0, F0. rewrite Nat.add_0_r in B0.
    cbn [seq map]. unfold cells_of. cbn [combine flat_map]. fold (cells_of (map Z.of_nat (seq (S s) n)) a b f).
    rewrite (IH (S s) a b f La Lb Lf).
    + subst y u. destruct (Nat.leb_spec lo s).
      * pose proof (Ha 0%nat ltac:(lia) ltac:(lia)) as A0. cbn [nth] in A0. subst x.
        replace (Nat.max (S s) lo) with (S s) by lia. replace (Nat.max s lo) with s by lia. replace (s + S n - s)%nat with (S n) by lia. replace (S s + n - S s)%nat with n by lia. reflexivity.
      * replace (Nat.max (S s) lo) with (Nat.max s lo) by lia. cbn [app]. do 2 f_equal. lia.
    + intros k Hk. rewrite (Hb (S k) ltac:(lia)) || idtac. specialize (Hb (S k) ltac:(lia)). cbn [nth] in Hb. rewrite Hb. f_equal. lia.
    + intros k Hk Hlo. apply (Ha (S k)); lia.
    + intros k Hk. apply (Hf (S k)). lia.
Qed.

Definition inside (a b : Z) (e : nat) : bool := ((a <=? Z.of_nat e) && (Z.of_nat e <? b))%Z.
Lemma overlap_unit a b e : (0 <= a < b)%Z -> overlap (INR e) (INR e + 1) (IZR a) (IZR b) = if inside a b e then 1 else 0.
Proof.
  intros H. unfold overlap, inside. rewrite INR_IZR_INZ.
  destruct (Z.leb_spec a (Z.of_nat e)) as [H1|H1]; cbn [andb].
  - apply IZR_le in H1. rewrite (Rmax_left (IZR (Z.of_nat e))) by lra. destruct (Z.ltb_spec (Z.of_nat e) b) as [H2|H2].
    + assert (H3 : IZR (Z.of_nat e + 1) <= IZR b) by (apply IZR_le; lia). rewrite plus_IZR in H3. rewrite Rmin_left by lra. rewrite Rmax_right; lra.
    + apply IZR_le in H2. rewrite Rmin_right by lra. apply Rmax_left. lra.
  - assert (H3 : IZR (Z.of_nat e + 1) <= IZR a) by (apply IZR_le; lia). rewrite plus_IZR in H3. rewrite (Rmax_right (IZR (Z.of_nat e))) by lra.
    assert (IZR a < IZR b) by (apply IZR_lt; lia). rewrite Rmin_left by lra. apply Rmax_left. lra.
Qed.
Lemma filter_inside a b n : (0 <= a < b)%Z ->
  filter (inside a b) (seq 0 n) = seq (Nat.min (Z.to_nat a) n) (Nat.min (Z.to_nat b) n - Nat.min (Z.to_nat a) n).
Proof.
  intros H. assert (G : forall n s, filter (inside a b) (seq s n) = seq (Nat.max s (Nat.min (Z.to_nat a) (s + n))) (Nat.min (Z.to_nat b) (s + n) - Nat.max s (Nat.min (Z.to_nat a) (s + n)))).
  { clear n. induction n as [|n IH]; intros s.
    - cbn [seq filter]. replace (Nat.min (Z.to_nat b) (s + 0) - _)%nat with 0%nat by lia. reflexivity.
    - cbn [seq filter]. rewrite IH. unfold inside at 1. destruct (Z.leb_spec a (Z.of_nat s)), (Z.ltb_spec (Z.of_nat s) b); cbn [andb].
      + replace (Nat.max s (Nat.min (Z.to_nat a) (s + S n))) with s by lia. replace (Nat.max (S s) _) with (S s) by lia.
        replace (Nat.min (Z.to_nat b) (s + S n) - s)%nat with (S (Nat.min (Z.to_nat b) (S s + n) - S s)) by lia. reflexivity.
      + replace (Nat.min (Z.to_nat b) (S s + n) - _)%nat with 0%nat by lia. replace (Nat.min (Z.to_nat b) (s + S n) - _)%nat with 0%nat by lia. reflexivity.
      + f_equal; lia.
      + lia. }
  rewrite G. f_equal; lia.
Qed.

Section Parallel.
Context (d : direction R) (c : ccd R) (traps : traps_arg R) (dwell : list R) (dt : dtype) (rows cols : nat).
Hypothesis Hr : (0 < rows)%nat.
Hypothesis Hps : plain_setting d rows c traps dwell dt.
Hypothesis Hall : computes_all d rows.
Let N := (rows + d_offset d)%nat.
Let adv := advance (site_of c (groups_in traps)) (trap_phases c) (timed_steps (the_roe d)) rows (d_offset d).

Lemma window_matrix a b : (0 <= a < b)%Z -> exists em mon,
  standard_express true dt (py_range 0 (Z.of_nat rows)) (d_express d) (d_offset d) (tw_arg (Some (a, b))) = Ok (em, mon) /\
  map (fun '(e, m) => cells_of (py_range 0 (Z.of_nat rows)) e m (map (fun _ => false) e)) (combine em mon)
  = map (fun e => pass_of rows (d_offset d) (if inside a b e then 1 else 0) e) (seq 0 N).
Proof.
  intros Hab. pose proof (window_ok_range rows Hr) as Hwin.
  destruct (express_all_range true dt rows (d_express d) (d_offset d) Hr Hall) as (em0 & mon0 & E0 & R0 & RM & H0). fold N in R0, RM, H0.
  rewrite whole_none in E0 by exact Hr.
  assert (Hbad : ~ bad_express true rows (d_express d)). { intros (_ & B1 & B2). destruct Hall as [G|G]; lia. }
  destruct (standard_express_ok true dt _ rows (d_express d) (d_offset d) Hwin (Some (a, b)) Hbad Hab) as (E & em & mon & E1 & _).
  destruct (windowed_overlap true dt _ rows (d_express d) (d_offset d) Hwin em0 mon0 em mon a b Hab E0 E1) as (-> & E' & R1 & R2 & H1).
  rewrite py_range_length, Z.sub_0_r, Nat2Z.id in R1, R2, H1.
  assert (E' = N) by (destruct R0, R1; congruence). subst E'.
  exists em, mon0. split; [exact E1|].
  assert (Hbef : forall e k, (e <= N)%nat -> (k < rows)%nat -> transfers_before em0 e k = Rmin (INR e) (INR (k + 1 + d_offset d))).
  { induction e as [|e IH]; intros k He Hk; [cbn [transfers_before]; rewrite Rmin_left; [reflexivity|apply pos_INR]|].
    cbn [transfers_before]. rewrite IH by lia. rewrite (proj1 (H0 e k ltac:(lia) Hk)). rewrite INR_S. destruct (Nat.leb_spec e (k + d_offset d)) as [L|L].
    - assert (INR e + 1 <= INR (k + 1 + d_offset d)) by (rewrite <- INR_S; apply le_INR; lia). rewrite !Rmin_left by lra. reflexivity.
    - assert (INR (k + 1 + d_offset d) <= INR e) by (apply le_INR; lia). rewrite !Rmin_right by lra. lra. }
  assert (Hent : forall e k, (e < N)%nat -> (k < rows)%nat -> (e <= k + d_offset d)%nat -> entry em e k = if inside a b e then 1 else 0).
  { intros e k He Hk Hle. rewrite H1 by assumption. rewrite !Hbef by lia. rewrite <- overlap_unit by exact Hab.
    assert (INR e + 1 <= INR (k + 1 + d_offset d)) by (rewrite <- INR_S; apply le_INR; lia). rewrite INR_S, !Rmin_left by lra. reflexivity. }
  rewrite py_range_0. unfold matrix, bmatrix in *.
  apply (combine_nth_eq (fun e m => cells_of (map Z.of_nat (seq 0 rows)) e m (map (fun _ => false) e)) [] []); [apply R2|apply RM|].
  intros e He. cbn [Nat.add].
  assert (L1 : length (nth e em []) = rows) by (apply (Forall_nth_lt _ _ _ _ (proj2 R2)); destruct R2; lia).
  assert (L2 : length (nth e mon0 []) = rows) by (apply (Forall_nth_lt _ _ _ _ (proj2 RM)); destruct RM; lia).
  unfold pass_of. rewrite (cells_const (e - d_offset d) (if inside a b e then 1 else 0) rows 0); auto.
  - rewrite map_length. exact L1.
  - intros k Hk. pose proof (proj2 (H0 e k He Hk)) as Hb. unfold bentry in Hb. rewrite Hb. cbn [Nat.add].
    destruct (Nat.leb_spec e (k + d_offset d)), (Nat.leb_spec (e - d_offset d) k); try reflexivity; lia.
  - intros k Hk Hlo. apply (Hent e k He Hk). cbn [Nat.add] in Hlo. lia.
  - intros k Hk. clear. revert k. induction (nth e em []) as [|x l IH]; intros [|k]; try reflexivity. apply IH.
Qed.

Lemma part_clocking X columns a b : shape rows cols X -> (forall i j, 0 <= pixel X i j) ->
  (forall j, In j columns -> (0 <= j < Z.of_nat cols)%Z) -> NoDup columns -> (0 <= a < b)%Z ->
  exists Y, clock_direction X d (the_roe d) traps (py_range 0 (Z.of_nat rows)) columns (Some (py_range a b)) = Ok (Y, the_roe d) /\
  shape rows cols Y /\ (forall i j, 0 <= pixel Y i j) /\
  (forall i j, ~ In (Z.of_nat j) columns -> pixel Y i j = pixel X i j) /\
  forall i j, (i < rows)%nat -> In (Z.of_nat j) columns ->
    pixel Y i j = adv (Nat.min (Z.to_nat a) N) (Nat.min (Z.to_nat b) N) (col_fun X j) (Z.of_nat i).
Proof.
  intros Hs Hp Hc Hnd Hab. rewrite (plain_roe _ _ _ _ _ _ Hps).
  destruct (plain_clocking X d rows c traps dwell dt columns (Some (a, b)) rows cols Hps eq_refl Hs Hr Hp Hc Hnd Hab) as (Y & em & mon & E1 & E2 & A1 & A2 & A3 & A4).
  destruct (window_matrix a b Hab) as (em' & mon' & E1' & Ep). rewrite E1' in E1. injection E1 as <- <-.
  exists Y. split; [exact E2|]. split; [exact A1|]. split; [exact A2|]. split; [exact A3|]. intros i j Hi Hj. rewrite (A4 i j Hi Hj), Ep.
  unfold adv, advance. rewrite (plain_roe _ _ _ _ _ _ Hps). unfold readout. rewrite (fold_filter _ _ _ rows (d_offset d) (inside a b)); [|intros z; apply Hp].
  unfold some_passes. rewrite filter_inside by exact Hab. reflexivity.
Qed.
Lemma adv_forward x es k : In (x, es) (timed_steps (the_roe d)) -> In k (trap_phases c) -> forward (electrode es k).
Proof.
  intros Hx Hk. rewrite (plain_roe _ _ _ _ _ _ Hps) in Hx. refine (proj1 (electrode_ok dwell dt k x es _ Hx)).
  apply trap_phases_lt in Hk. pose proof (ps_phases _ _ _ _ _ _ Hps). lia.
Qed.
End Parallel.

(** ** Both directions *)
Definition steps_parallel (parallel serial : direction R) (rows cols : nat) (X : image R) (tw : list Z) : result (image R * roe R) :=
  match d_traps parallel with
  | None => Ok (X, the_roe parallel)
  | Some traps => clock_direction X parallel (the_roe parallel) traps (py_range 0 (Z.of_nat rows)) (py_range 0 (Z.of_nat cols)) (Some tw)
  end.
Definition steps_serial (serial : direction R) (cols : nat) (X : image R) (row_list : list Z) : result (image R * roe R) :=
  match d_traps serial with
  | None => Ok (X, the_roe serial)
  | Some traps => do '(im2, r) <- clock_direction (transpose X) serial (the_roe serial) traps (py_range 0 (Z.of_nat cols)) row_list None; Ok (transpose im2, r)
  end.

(** What the parallel clocking of a time window does. *)
Record part_map (parallel serial : direction R) (rows cols : nat) (adv : nat -> nat -> column -> column) : Prop := {
  pm_step : forall X a b, shape rows cols X -> (forall i j, 0 <= pixel X i j) -> (0 <= a < b)%Z ->
    exists Y, steps_parallel parallel serial rows cols X (py_range a b) = Ok (Y, the_roe parallel) /\
    shape rows cols Y /\ (forall i j, 0 <= pixel Y i j) /\
    forall i j, (i < rows)%nat -> (j < cols)%nat ->
      pixel Y i j = adv (Nat.min (Z.to_nat a) (rows + d_offset parallel)) (Nat.min (Z.to_nat b) (rows + d_offset parallel)) (col_fun X j) (Z.of_nat i);
  pm_none : forall a f, adv a a f = f;
  pm_compose : forall a b e f, (a <= b <= e)%nat -> adv b e (adv a b f) = adv a e f;
  pm_done : forall a b f z, (z < Z.of_nat (a - d_offset parallel))%Z -> adv a b f z = f z;
  pm_in : forall a b f g, agree_in (fun z => Z.of_nat (a - d_offset parallel) <= z < Z.of_nat rows)%Z f g ->
    agree_in (fun z => Z.of_nat (a - d_offset parallel) <= z < Z.of_nat rows)%Z (adv a b f) (adv a b g)
}.
Lemma part_map_exists parallel serial rows cols : (0 < rows)%nat -> plain_direction parallel rows -> computes_all parallel rows ->
  exists adv, part_map parallel serial rows cols adv.
Proof.
  intros Hr [_ [Hn|(c & traps & dwell & dt & Hps)]] Hall.
  - exists (fun _ _ f => f). constructor; auto. intros X a b Hs Hp Hab. exists X. unfold steps_parallel. rewrite Hn. split; [reflexivity|]. split; [exact Hs|]. split; [exact Hp|].
    intros i j _ _. unfold col_fun. rewrite Nat2Z.id. reflexivity.
  - exists (advance (site_of c (groups_in traps)) (trap_phases c) (timed_steps (the_roe parallel)) rows (d_offset parallel)).
    pose proof (adv_forward parallel c traps dwell dt rows Hr Hps) as Hf. constructor.
    + intros X a b Hs Hp Hab. unfold steps_parallel. rewrite (ps_traps _ _ _ _ _ _ Hps).
      destruct (part_clocking parallel c traps dwell dt rows cols Hr Hps Hall X (py_range 0 (Z.of_nat cols)) a b Hs Hp (range_in_range cols) (py_range_nodup cols) Hab) as (Y & E & A1 & A2 & _ & A4).
      exists Y. split; [exact E|]. split; [exact A1|]. split; [exact A2|]. intros i j Hi Hj. apply (A4 i j Hi). apply py_range_in. lia.
    + intros a f. apply advance_none.
    + intros a b e f H. apply advance_compose, H.
    + intros a b f z Hz. apply advance_done; assumption.
    + intros a b f g H. apply advance_in; assumption.
Qed.

(** What the serial clocking of some rows does. *)
Definition row_fun (X : image R) (i : nat) : column := fun z => pixel X i (Z.to_nat z).
Record row_map (serial : direction R) (rows cols : nat) (fin : column -> column) : Prop := {
  rm_step : forall X l, shape rows cols X -> (forall i j, 0 <= pixel X i j) -> (forall i, In i l -> (0 <= i < Z.of_nat rows)%Z) -> NoDup l ->
    exists Y, steps_serial serial cols X l = Ok (Y, the_roe serial) /\ shape rows cols Y /\ (forall i j, 0 <= pixel Y i j) /\
    (forall i j, ~ In (Z.of_nat i) l -> pixel Y i j = pixel X i j) /\
    forall i j, (j < cols)%nat -> In (Z.of_nat i) l -> pixel Y i j = fin (row_fun X i) (Z.of_nat j)
}.
Lemma row_map_exists serial rows cols : (0 < rows)%nat -> (0 < cols)%nat -> plain_direction serial cols -> exists fin, row_map serial rows cols fin.
Proof.
  intros Hr Hc [_ [Hn|(c & traps & dwell & dt & Hps)]].
  - exists (fun f => f). constructor. intros X l Hs Hp _ _. exists X. unfold steps_serial. rewrite Hn. split; [reflexivity|]. split; [exact Hs|]. split; [exact Hp|]. split; [reflexivity|].
    intros i j _ _. unfold row_fun. rewrite Nat2Z.id. reflexivity.
  - assert (Hbad : ~ bad_express true cols (d_express serial)). { intros (_ & B1 & B2). destruct (ps_express _ _ _ _ _ _ Hps); lia. }
    destruct (standard_express_ok true dt _ cols (d_express serial) (d_offset serial) (window_ok_range cols Hc) None Hbad I) as (E & em & mon & E1 & _).
    exists (readout (site_of c (groups_in traps)) (trap_phases c) (timed_steps (the_roe serial))
      (map (fun '(e, m) => cells_of (py_range 0 (Z.of_nat cols)) e m (map (fun _ => false) e)) (combine em mon))).
    constructor. intros X l Hs Hp Hl Hnd. unfold steps_serial. rewrite (ps_traps _ _ _ _ _ _ Hps), (plain_roe _ _ _ _ _ _ Hps).
    assert (St : shape cols rows (transpose X)) by (apply transpose_shape; assumption).
    destruct (plain_clocking (transpose X) serial cols c traps dwell dt l None cols rows Hps eq_refl St Hc) as (Y & em' & mon' & E1' & E2 & A1 & A2 & A3 & A4); auto; [|exact I|].
    { intros i j. rewrite (transpose_pixel_all rows cols) by assumption. apply Hp. }
    rewrite E1 in E1'. injection E1' as <- <-. cbn [tw_arg option_map] in E2. rewrite E2. cbn [bind]. exists (transpose Y). split; [reflexivity|].
    split; [apply transpose_shape; assumption|].
    split; [intros i j; rewrite (transpose_pixel_all cols rows) by assumption; apply A2|].
    split; [intros i j Hi; rewrite (transpose_pixel_all cols rows) by assumption; rewrite A3 by exact Hi; apply (transpose_pixel_all rows cols); assumption|].
    intros i j Hj Hi. rewrite (transpose_pixel_all cols rows) by assumption. rewrite (A4 j i Hj Hi). f_equal.
    apply functional_extensionality. intros z. unfold col_fun, row_fun. apply (transpose_pixel_all rows cols); assumption.
Qed.

Lemma add_cti_steps (X : image R) parallel serial rows cols : d_window parallel = WNone -> d_window serial = WNone -> shape rows cols X -> (0 < rows)%nat ->
  (add_cti X parallel serial None =
     do '(X1, pr) <- steps_parallel parallel serial rows cols X (py_range 0 (Z.of_nat (rows + d_offset parallel)));
     do '(X2, sr) <- steps_serial serial cols X1 (py_range 0 (Z.of_nat rows));
     Ok (X2, pr, sr)) /\
  forall a b, (0 <= a < b)%Z -> add_cti X parallel serial (Some (py_range a b)) =
     do '(X1, pr) <- steps_parallel parallel serial rows cols X (py_range a b);
     do '(X2, sr) <- steps_serial serial cols X1
        (py_range (Z.max 0 (a - Z.of_nat (d_offset parallel))) (Z.min (Z.of_nat rows - 1) (b - 1 - Z.of_nat (d_offset parallel)) + 1));
     Ok (X2, pr, sr).
Proof.
  intros Wp Ws Hs Hr. pose proof Hs as [L _]. pose proof (shape_columns rows cols X Hs Hr) as Nc. split.
  - unfold add_cti. rewrite Wp, Ws, L, Nc. reflexivity.
  - intros a b Hab. unfold add_cti. rewrite Wp, Ws, L, Nc. cbn [resolve_window resolve_time_window].
    rewrite (py_range_first 0), (py_range_first a), (py_range_last 0), (py_range_last a) by lia. reflexivity.
Qed.

Section Both.
Context (im : image R) (parallel serial : direction R) (rows cols : nat) (adv : nat -> nat -> column -> column) (fin : column -> column).
Hypothesis Hs : shape rows cols im.
Hypothesis Hr : (0 < rows)%nat.
Hypothesis Hp : forall i j, 0 <= pixel im i j.
Hypothesis Wp : d_window parallel = WNone.
Hypothesis Ws : d_window serial = WNone.
Hypothesis PM : part_map parallel serial rows cols adv.
Hypothesis RM : row_map serial rows cols fin.
Let o := d_offset parallel.
Let N := (rows + o)%nat.

(** Row [i] of the final image. *)
Definition final_row (i : nat) : column := fin (fun z => if (Z.to_nat z <? cols)%nat then adv 0 N (col_fun im (Z.to_nat z)) (Z.of_nat i) else 0).
Lemma row_beyond X i j : shape rows cols X -> (i < rows)%nat -> (cols <= j)%nat -> pixel X i j = 0.
Proof.
  intros [L F] Hi Hj. unfold pixel. apply nth_overflow. assert (length (nth i X []) = cols) by (apply (Forall_nth_lt _ _ _ _ F); lia). lia.
Qed.

Lemma whole_call : exists Y, add_cti im parallel serial None = Ok (Y, the_roe parallel, the_roe serial) /\ shape rows cols Y /\ (forall i j, 0 <= pixel Y i j) /\
  forall i j, (i < rows)%nat -> (j < cols)%nat -> pixel Y i j = final_row i (Z.of_nat j).
Proof.
  rewrite (proj1 (add_cti_steps im parallel serial rows cols Wp Ws Hs Hr)).
  destruct (pm_step _ _ _ _ _ PM im 0 (Z.of_nat N) Hs Hp ltac:(lia)) as (X1 & E1 & S1 & P1 & Q1). fold o in Q1. fold N in Q1. fold o. fold N. rewrite E1. cbn [bind].
  destruct (rm_step _ _ _ _ RM X1 (py_range 0 (Z.of_nat rows)) S1 P1 (range_in_range rows) (py_range_nodup rows)) as (Y & E2 & S2 & P2 & _ & Q2).
  rewrite E2. cbn [bind]. exists Y. split; [reflexivity|]. split; [exact S2|]. split; [exact P2|]. intros i j Hi Hj.
  rewrite (Q2 i j Hj) by (apply py_range_in; lia). unfold final_row. f_equal. apply functional_extensionality. intros z. unfold row_fun.
  destruct (Nat.ltb_spec (Z.to_nat z) cols) as [Hz|Hz]; [|apply row_beyond; assumption].
  rewrite (Q1 i _ Hi Hz). rewrite Nat2Z.id. f_equal; lia.
Qed.

(** The image after the transfers before [a]. *)
Definition so_far (a : nat) (X : image R) : Prop :=
  shape rows cols X /\ (forall i j, 0 <= pixel X i j) /\
  forall i j, (i < rows)%nat -> (j < cols)%nat ->
    pixel X i j = if (i + o <? a)%nat then final_row i (Z.of_nat j) else adv 0 a (col_fun im j) (Z.of_nat i).
Lemma next_call a b X : (0 <= a < b)%Z -> so_far (Nat.min (Z.to_nat a) N) X ->
  exists Y, add_cti X parallel serial (Some (py_range a b)) = Ok (Y, the_roe parallel, the_roe serial) /\ so_far (Nat.min (Z.to_nat b) N) Y.
Proof.
  intros Hab (S0 & P0 & Q0). rewrite (proj2 (add_cti_steps X parallel serial rows cols Wp Ws S0 Hr) a b Hab).
  destruct (pm_step _ _ _ _ _ PM X a b S0 P0 Hab) as (X1 & E1 & S1 & P1 & Q1). fold o in Q1 |- *. fold N in Q1. rewrite E1. cbn [bind].
  set (A := Nat.min (Z.to_nat a) N) in *. set (B := Nat.min (Z.to_nat b) N) in *. assert (HAB : (A <= B)%nat) by lia.
  set (l := py_range _ _). assert (Hl : forall i, In i l <-> (0 <= i < Z.of_nat rows /\ a <= i + Z.of_nat o < b)%Z) by (intros i; unfold l; rewrite py_range_in; lia).
  destruct (rm_step _ _ _ _ RM X1 l S1 P1) as (Y & E2 & S2 & P2 & Q2 & Q3); [intros i Hi; apply Hl, Hi|apply FinFun.Injective_map_NoDup; [intros u v; lia|apply seq_NoDup]|].
  rewrite E2. cbn [bind]. exists Y. split; [reflexivity|]. split; [exact S2|]. split; [exact P2|].
  (* the parallel clocking *)
  assert (HX : forall i j, (i < rows)%nat -> (j < cols)%nat ->
    pixel X1 i j = if (i + o <? A)%nat then final_row i (Z.of_nat j) else adv 0 B (col_fun im j) (Z.of_nat i)).
  { intros i j Hi Hj. rewrite (Q1 i j Hi Hj). destruct (Nat.ltb_spec (i + o) A) as [Hd|Hd].
    - rewrite (pm_done _ _ _ _ _ PM) by (fold o; lia). unfold col_fun. rewrite Nat2Z.id. rewrite (Q0 i j Hi Hj). destruct (Nat.ltb_spec (i + o) A); [reflexivity|lia].
    - rewrite <- (pm_compose _ _ _ _ _ PM 0 A B) by lia. apply (pm_in _ _ _ _ _ PM); fold o; [|lia]. intros z Hz. unfold col_fun at 1.
      rewrite (Q0 (Z.to_nat z) j) by lia. destruct (Nat.ltb_spec (Z.to_nat z + o) A); [lia|]. f_equal. lia. }
  intros i j Hi Hj. destruct (in_dec Z.eq_dec (Z.of_nat i) l) as [Hin|Hin].
  - apply Hl in Hin as Hin'. destruct (Nat.ltb_spec (i + o) B) as [HB|HB]; [|lia]. rewrite (Q3 i j Hj Hin). unfold final_row. f_equal.
    apply functional_extensionality. intros z. unfold row_fun. destruct (Nat.ltb_spec (Z.to_nat z) cols) as [Hz|Hz]; [|apply row_beyond; assumption].
    rewrite (HX i _ Hi Hz). destruct (Nat.ltb_spec (i + o) A); [lia|]. rewrite <- (pm_compose _ _ _ _ _ PM 0 B N) by lia. symmetry. apply (pm_done _ _ _ _ _ PM). fold o. lia.
  - rewrite (Q2 i j Hin), (HX i j Hi Hj). destruct (Nat.ltb_spec (i + o) A), (Nat.ltb_spec (i + o) B); try reflexivity; [lia|].
    exfalso. apply Hin. apply Hl. lia.
Qed.
Lemma parts_end ends Y : add_cti im parallel serial None = Ok (Y, the_roe parallel, the_roe serial) -> forall a X, (0 <= a)%Z -> increasing_from a ends ->
  (Z.of_nat N <= last ends a)%Z -> so_far (Nat.min (Z.to_nat a) N) X ->
  in_parts (fun im '(a, b) => do '(im', _, _) <- add_cti im parallel serial (Some (py_range a b)); Ok im') X (windows_from a ends) = Ok Y.
Proof.
  intros HY. destruct whole_call as (Y' & E & S1 & P1 & Q1). rewrite HY in E. injection E as <-.
  induction ends as [|b ends IH]; intros a X Ha Hinc Hlast HX.
  - cbn [windows_from in_parts]. f_equal. cbn in Hlast. destruct HX as (S0 & P0 & Q0). apply (image_ext rows cols); [exact S0|exact S1|]. intros i j Hi Hj.
    rewrite (Q0 i j Hi Hj), (Q1 i j Hi Hj). destruct (Nat.ltb_spec (i + o) (Nat.min (Z.to_nat a) N)); [reflexivity|lia].
  - destruct Hinc as [Hab Hinc]. destruct (next_call a b X ltac:(lia) HX) as (X' & E & HX'). cbn [windows_from in_parts]. rewrite E. cbn [bind].
    apply (IH b X' ltac:(lia) Hinc); [|exact HX']. clear - Hlast. destruct ends as [|e ends]; [exact Hlast|]. replace (last (e :: ends) b) with (last (b :: e :: ends) a); [exact Hlast|].
    change (last (b :: e :: ends) a) with (last (e :: ends) a). clear. revert e. induction ends as [|x l IH]; intros e; [reflexivity|]. exact (IH x).
Qed.
End Both.
