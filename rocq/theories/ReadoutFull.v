(** * Readouts in which every transfer is computed (express = 0). *)
From Coq Require Import ZArith List Bool Reals Lra Lia FinFun.
From Coquelicot Require Import Rcomplements Rbar Hierarchy RInt.
From Verif Require Import Num Py RFacts CCDModel TrapsModel ManagerModel ROEModel ClockModel MainModel Spec SpecROE SpecImage SpecReadout
  WmFacts ArrayFacts CutFacts InstantFacts ClockFacts MainFacts ShapeFacts ColumnFacts
  ROEClockFacts ROEMatrixFacts ROEExpressFacts ROEKindFacts ReadoutFacts ReadoutImage ReadoutForced.
Import ListNotations.
Open Scope R_scope.

(** The cells of one pass: a flag [save] for each row. *)
Lemma cells_from lo (sv : nat -> bool) : forall n s (a : list R) (b f : list bool), length a = n -> length b = n -> length f = n ->
  (forall k, (k < n)%nat -> nth k b false = Nat.leb lo (s + k)) ->
  (forall k, (k < n)%nat -> nth k a 0 = if Nat.leb lo (s + k) then 1 else 0) ->
  (forall k, (k < n)%nat -> (lo <= s + k)%nat -> nth k f false = sv (s + k)%nat) ->
  cells_of (map Z.of_nat (seq s n)) a b f = map (fun w => (Z.of_nat w, 1, sv w)) (seq (Nat.max s lo) (s + n - Nat.max s lo)).
Proof.
  induction n as [|n IH]; intros s a b f La Lb Lf Hb Ha Hf.
  - replace (s + 0 - Nat.max s lo)%nat with 0%nat by lia. reflexivity.
  - destruct a as [|x a], b as [|y b], f as [|z f]; cbn [length] in *; try lia.
    pose proof (Hb 0%nat ltac:(lia)) as Hb0. pose proof (Ha 0%nat ltac:(lia)) as Ha0. pose proof (Hf 0%nat ltac:(lia)) as Hf0.
    cbn [nth] in Hb0, Ha0, Hf0. rewrite Nat.add_0_r in *.
    unfold cells_of. cbn [seq map combine flat_map]. fold (cells_of (map Z.of_nat (seq (S s) n)) a b f).
    rewrite (IH (S s) a b f); try lia.
    + subst y. destruct (Nat.leb_spec lo s) as [Hl|Hl].
      * subst x. rewrite Hf0 by exact Hl. replace (Nat.max s lo) with s by lia. replace (Nat.max (S s) lo) with (S s) by lia.
        replace (s + S n - s)%nat with (S n) by lia. replace (S s + n - S s)%nat with n by lia. reflexivity.
      * replace (Nat.max (S s) lo) with (Nat.max s lo) by lia. replace (S s + n)%nat with (s + S n)%nat by lia. reflexivity.
    + intros k Hk. specialize (Hb (S k) ltac:(lia)). cbn [nth] in Hb. rewrite Hb. f_equal. lia.
    + intros k Hk. specialize (Ha (S k) ltac:(lia)). cbn [nth] in Ha. rewrite Ha. replace (s + S k)%nat with (S s + k)%nat by lia. reflexivity.
    + intros k Hk Hl. specialize (Hf (S k) ltac:(lia) ltac:(lia)). cbn [nth] in Hf. rewrite Hf. f_equal. lia.
Qed.

Lemma combine_nth_eq {A B C} (f : A -> B -> C) (d1 : A) (d2 : B) (g : nat -> C) : forall n (a : list A) (b : list B), length a = n -> length b = n ->
  forall s, (forall k, (k < n)%nat -> f (nth k a d1) (nth k b d2) = g (s + k)%nat) ->
  map (fun '(x, y) => f x y) (combine a b) = map g (seq s n).
Proof.
  induction n as [|n IH]; intros a b Ha Hb s H; destruct a as [|x a], b as [|y b]; cbn [length] in *; try lia; [reflexivity|].
  cbn [combine map seq]. f_equal.
  - specialize (H 0%nat ltac:(lia)). cbn in H. rewrite Nat.add_0_r in H. exact H.
  - apply IH; [lia|lia|]. intros k Hk. specialize (H (S k) ltac:(lia)). cbn [nth] in H. rewrite H. f_equal. lia.
Qed.

Lemma full_cells rows offset (em : matrix R) mon : rect (rows + offset) rows em -> rect (rows + offset) rows mon ->
  (forall e k, (e < rows + offset)%nat -> (k < rows)%nat ->
     entry em e k = (if Nat.leb e (k + offset) then 1 else 0) /\ bentry mon e k = Nat.leb e (k + offset)) ->
  map (fun '(e, m) => cells_of (map Z.of_nat (seq 0 rows)) e m (map (fun _ => false) e)) (combine em mon) = full_passes rows offset.
Proof.
  intros [Le He] [Lm Hm] H. unfold full_passes, matrix in *.
  apply (combine_nth_eq (fun e m => cells_of (map Z.of_nat (seq 0 rows)) e m (map (fun _ => false) e)) [] []); auto.
  intros e Hlt. cbn [Nat.add]. rewrite Forall_forall in He, Hm.
  assert (L1 : length (nth e em []) = rows) by (apply He, nth_In; lia). assert (L2 : length (nth e mon []) = rows) by (apply Hm, nth_In; lia).
  rewrite (cells_from (e - offset) (fun _ => false)); auto.
  - rewrite map_length. exact L1.
  - intros k Hk. destruct (H e k Hlt Hk) as [_ H2]. unfold bentry in H2. rewrite H2. cbn [Nat.add].
    destruct (Nat.leb_spec e (k + offset)), (Nat.leb_spec (e - offset) k); try reflexivity; lia.
  - intros k Hk. destruct (H e k Hlt Hk) as [H1 _]. unfold entry in H1. rewrite H1. cbn [Nat.add].
    destruct (Nat.leb_spec e (k + offset)), (Nat.leb_spec (e - offset) k); try reflexivity; lia.
  - intros k Hk _. clear. revert k. induction (nth e em []) as [|x l IH]; intros [|k]; try reflexivity. apply IH.
Qed.

(** express = 0 in add_cti, in terms of the readout model. *)
Definition whole (rows offset : nat) : option (list Z) := Some (py_range 0 (Z.of_nat (rows + offset))).
Lemma express_all_range ef dt rows express offset : (0 < rows)%nat -> (express = 0%nat \/ (rows + offset <= express)%nat) ->
  exists em mon, standard_express ef dt (py_range 0 (Z.of_nat rows)) express offset (whole rows offset) = Ok (em, mon) /\
    rect (rows + offset) rows em /\ rect (rows + offset) rows mon /\
    forall e k, (e < rows + offset)%nat -> (k < rows)%nat ->
     entry em e k = (if Nat.leb e (k + offset) then 1 else 0) /\ bentry mon e k = Nat.leb e (k + offset).
Proof.
  intros Hr He.
  destruct (express_all ef dt (py_range 0 (Z.of_nat rows)) rows express offset (window_ok_range rows Hr) (whole rows offset) He) as (em & mon & E & H1 & H2 & H3).
  { right. exists (Z.of_nat (rows + offset)). split; [reflexivity|lia]. }
  rewrite py_range_length, Z.sub_0_r, Nat2Z.id in H1, H2. exists em, mon. split; [exact E|]. split; [exact H1|]. split; [exact H2|].
  intros e k Hlt Hk. destruct (H3 e k (Z.of_nat k) Hlt) as [G1 G2].
  - rewrite py_range_nth_error by lia. f_equal.
  - rewrite G1, G2. destruct (Z.leb_spec (Z.of_nat e) (Z.of_nat k + Z.of_nat offset)), (Nat.leb_spec e (k + offset)); try lia; auto.
Qed.

Lemma py_range_nodup n : NoDup (py_range 0 (Z.of_nat n)).
Proof. rewrite py_range_0. apply FinFun.Injective_map_NoDup; [intros a b; lia|apply seq_NoDup]. Qed.

Lemma nth_skipn' {A} (l : list A) d n k : nth k (skipn n l) d = nth (n + k) l d.
Proof. revert n. induction l as [|x l IH]; intros [|n]; try reflexivity; [destruct k; reflexivity|]. cbn [skipn Nat.add nth]. apply IH. Qed.
Lemma nth_firstn' {A} (l : list A) d n k : (k < n)%nat -> nth k (firstn n l) d = nth k l d.
Proof. revert n k. induction l as [|x l IH]; intros [|n] k H; try reflexivity; [lia|]. destruct k as [|k]; [reflexivity|]. cbn [firstn nth]. apply IH. lia. Qed.
Section Full.
Context (im : image R) (c : ccd R) (dwell : list R) (dt : dtype) (traps : traps_arg R) (groups : list (list (trap R)))
  (express : nat) (columns : list Z) (rows cols : nat).
Hypothesis Hshape : shape rows cols im.
Hypothesis Hrows : (0 < rows)%nat.
Hypothesis Hpos : forall i j, 0 <= pixel im i j.
Hypothesis Hc : plain_ccd c.
Hypothesis Hph : (ccd_n_phases c <= length dwell)%nat.
Hypothesis Hgroups : normalise_traps traps = Ok groups.
Hypothesis Hinst : Forall instant_group groups.
Hypothesis Hcols : forall j, In j columns -> (0 <= j < Z.of_nat cols)%Z.
Hypothesis Hnodup : NoDup columns.

Lemma full_readout offset : (express = 0%nat \/ (rows + offset <= express)%nat) ->
  let r := built (Standard true) dwell dt true true in exists im',
  clock_charge_in_one_direction im c r traps express offset (py_range 0 (Z.of_nat rows)) columns (whole rows offset) = Ok (im', r) /\
  shape rows cols im' /\
  (forall i j, ~ In (Z.of_nat j) columns -> pixel im' i j = pixel im i j) /\
  forall i j, (i < rows)%nat -> In (Z.of_nat j) columns ->
    pixel im' i j = readout (site_of c groups) (trap_phases c) (timed_steps r) (full_passes rows offset) (col_fun im j) (Z.of_nat i).
Proof.
  intros He r. destruct (express_all_range true dt rows express offset Hrows He) as (em & mon & Eex & H1 & H2 & H3).
  destruct (forced_readout im c (Standard true) dwell dt traps groups express offset (py_range 0 (Z.of_nat rows)) columns (whole rows offset) r em mon (rows + offset) rows rows cols)
    as (im' & G1 & G2 & G3 & G4); auto.
  - reflexivity.
  - unfold express_and_monitor. fold r. cbn [r built make_roe roe_kind_of roe_dtype]. rewrite Eex. reflexivity.
  - rewrite py_range_length. lia.
  - intros w Hw. apply py_range_in in Hw. exact Hw.
  - exists im'. split; [exact G1|]. split; [exact G2|]. split; [exact G3|]. intros i j Hi Hj. rewrite (G4 i j Hi Hj). f_equal.
    rewrite py_range_0. apply full_cells; assumption.
Qed.

(** With empty_traps_for_first_transfers=False (and no offset) each pass starts with the
    trap states at the end of the first transfer of the previous one. *)
Lemma saving_save em : rect rows rows em ->
  (forall e k, (e < rows)%nat -> (k < rows)%nat -> entry em e k = if Nat.leb e k then 1 else 0) ->
  exists s, standard_save false em = Ok s /\ rect rows rows s /\
    forall e k, (e < rows)%nat -> (k < rows)%nat -> bentry s e k = (Nat.eqb k e && Nat.ltb (S e) rows)%bool.
Proof.
  intros Hem He. unfold matrix in *. destruct (Nat.leb_spec rows 1) as [H1|H1].
  - assert (Hr1 : rows = 1%nat) by lia. clear - Hem Hr1. subst rows. destruct Hem as [L Hw]. destruct em as [|row [|]]; try discriminate.
    inversion Hw as [|? ? Lr _]; subst. destruct row as [|x [|]]; try discriminate.
    exists [[false]]. split; [reflexivity|]. split; [split; [reflexivity|repeat constructor]|].
    intros e k He Hk. assert (e = 0%nat) by lia. assert (k = 0%nat) by lia. subst. reflexivity.
  - destruct (save_spec em rows rows Hem Hrows ltac:(lia)) as (s & Es & Hs & Hl & Hr). exists s. split; [exact Es|]. split; [exact Hs|].
    intros e k Hlt Hk. destruct (Nat.ltb_spec (S e) rows) as [Hl'|Hl'].
    + destruct (Hr e Hl') as (q & Hq & Hk' & Hz & Hnz). specialize (Hk' k).
      assert (q = e) as ->.
      { assert (q <= e)%nat. { destruct (Nat.leb_spec q e) as [|Hqe]; [assumption|]. specialize (Hz e Hqe). rewrite He in Hz by lia. rewrite (proj2 (Nat.leb_le _ _)) in Hz by lia. lra. }
        destruct Hnz as [Hnz|Hnz]; [|lia]. rewrite He in Hnz by lia. destruct (Nat.leb_spec (S e) (S q)); [lia|lra]. }
      rewrite andb_true_r. destruct (Nat.eqb_spec k e) as [->|Hne]; [apply Hk'; reflexivity|]. destruct (bentry s e k); [exfalso; apply Hne, Hk'; reflexivity|reflexivity].
    + assert (e = rows - 1)%nat as -> by lia. rewrite andb_false_r. apply Hl.
Qed.

Lemma saving_cells em mon s : rect rows rows em -> rect rows rows mon -> rect rows rows s ->
  (forall e k, (e < rows)%nat -> (k < rows)%nat -> entry em e k = if Nat.leb e k then 1 else 0) ->
  (forall e k, (e < rows)%nat -> (k < rows)%nat -> bentry mon e k = Nat.leb e k) ->
  (forall e k, (e < rows)%nat -> (k < rows)%nat -> bentry s e k = (Nat.eqb k e && Nat.ltb (S e) rows)%bool) ->
  map (fun '(e, (m, s)) => cells_of (map Z.of_nat (seq 0 rows)) e m s) (combine em (combine mon s)) = saving_passes rows.
Proof.
  intros [Le He] [Lm Hm] [Ls Hs] H1 H2 H3. unfold saving_passes, matrix in *.
  erewrite map_ext; [apply (combine_nth_eq (fun e (ms : list bool * list bool) => cells_of (map Z.of_nat (seq 0 rows)) e (fst ms) (snd ms)) [] ([], []) _ rows)|].
  - exact Le.
  - rewrite combine_length. lia.
  - intros e Hlt. cbn [Nat.add]. rewrite combine_nth by lia. cbn [fst snd]. rewrite Forall_forall in He, Hm, Hs.
    assert (L1 : length (nth e em []) = rows) by (apply He, nth_In; lia). assert (L2 : length (nth e mon []) = rows) by (apply Hm, nth_In; lia).
    assert (L3 : length (nth e s []) = rows) by (apply Hs, nth_In; lia).
    rewrite (cells_from e (fun k => (Nat.eqb k e && Nat.ltb (S e) rows)%bool)); auto.
    + intros k Hk. exact (H2 e k Hlt Hk).
    + intros k Hk. exact (H1 e k Hlt Hk).
    + intros k Hk _. exact (H3 e k Hlt Hk).
  - intros [e [m s']]. reflexivity.
Qed.

Lemma room_skip steps : forall n (cells rest : list (R * bool * bool)) u us, length cells = n ->
  Forall (fun '(_, m, _) => m = false) cells -> room steps (cells ++ rest) u us = room steps rest u us.
Proof.
  induction n as [|n IH]; intros cells rest u us Hl H; destruct cells as [|[[x m] s] cells]; try discriminate; [reflexivity|].
  inversion H as [|? ? Hm H']; subst. cbn [app room negb]. apply IH; [injection Hl; auto|exact H'].
Qed.
Lemma nth_zip_cells (a : list R) b s n k : length a = n -> length b = n -> length s = n -> (k < n)%nat ->
  nth k (zip_cells a b s) (0, false, false) = (nth k a 0, nth k b false, nth k s false).
Proof.
  intros Ha Hb Hs Hk. unfold zip_cells.
  etransitivity; [exact (map_nth (fun '(m, (b, s)) => (m, b, s)) (combine a (combine b s)) (0, (false, false)) k)|].
  rewrite combine_nth, combine_nth by (rewrite ?combine_length; lia). reflexivity.
Qed.
(** Room for a pass that starts at cell [e] and saves there, or not. *)
Lemma room_saving steps cells e (b : bool) us : length cells = rows -> (e < rows)%nat ->
  (forall k, (k < rows)%nat -> exists x, nth k cells (0, false, false) = (x, Nat.leb e k, (Nat.eqb k e && b)%bool)) ->
  ((rows - e) * length steps <= us)%nat ->
  room steps cells us us = Some (if b then (us - length steps)%nat else us).
Proof.
  intros Hl He H Hu.
  rewrite <- (firstn_skipn e cells). rewrite (room_skip steps e).
  - destruct (H e He) as [x Hx]. rewrite (skipn_nth cells e), (nth_error_nth' cells (0, false, false)) by lia. rewrite Hx.
    rewrite Nat.leb_refl, Nat.eqb_refl. cbn [room negb andb]. destruct (Nat.leb_spec (length steps) us) as [_|Hs]; [|nia].
    apply room_no_save.
    + apply Forall_forall. intros q Hq. apply (In_nth _ _ (0, false, false)) in Hq as (k & Hk & <-). rewrite skipn_length in Hk.
      rewrite nth_skipn'. destruct (H (S e + k)%nat ltac:(lia)) as [y ->]. rewrite (proj2 (Nat.eqb_neq _ _)) by lia. reflexivity.
    + rewrite skipn_length. nia.
  - rewrite firstn_length. lia.
  - apply Forall_forall. intros q Hq. apply (In_nth _ _ (0, false, false)) in Hq as (k & Hk & <-). rewrite firstn_length in Hk.
    rewrite nth_firstn' by lia. destruct (H k ltac:(lia)) as [y ->]. apply Nat.leb_gt. lia.
Qed.
Lemma rooms_saving (steps : list (R * list (roe_phase R))) (passes : list (list (R * bool * bool))) : forall n s us : nat, (s + n = rows)%nat -> length passes = n -> 
  (forall i, (i < n)%nat -> length (nth i passes []) = rows /\
     forall k, (k < rows)%nat -> exists x, nth k (nth i passes []) (0, false, false) = (x, Nat.leb (s + i) k, (Nat.eqb k (s + i) && Nat.ltb (S (s + i)) rows)%bool)) ->
  us = ((rows - s) * length steps)%nat ->
  exists us', rooms steps passes us = Some us'.
Proof.
  induction passes as [|cells passes IH]; intros n s us Hn Hl H Hu; [eexists; reflexivity|].
  destruct n as [|n]; [discriminate|]. cbn [rooms]. destruct (H 0%nat ltac:(lia)) as [L0 H0]. cbn [nth] in L0, H0. rewrite Nat.add_0_r in H0.
  rewrite (room_saving steps cells s (Nat.ltb (S s) rows) us L0 ltac:(lia) H0 ltac:(lia)).
  destruct (Nat.ltb_spec (S s) rows) as [Hs|Hs].
  - apply (IH n (S s)); [lia|cbn in Hl; lia| |nia]. intros i Hi. specialize (H (S i) ltac:(lia)). cbn [nth] in H.
    replace (s + S i)%nat with (S s + i)%nat in H by lia. exact H.
  - destruct passes as [|p passes]; [eexists; reflexivity|]. cbn in Hl. lia.
Qed.

Lemma saving_readout : (express = 0%nat \/ (rows <= express)%nat) ->
  let r := built (Standard false) dwell dt true true in exists im',
  clock_charge_in_one_direction im c r traps express 0 (py_range 0 (Z.of_nat rows)) columns (whole rows 0) = Ok (im', r) /\
  shape rows cols im' /\
  (forall i j, ~ In (Z.of_nat j) columns -> pixel im' i j = pixel im i j) /\
  forall i j, (i < rows)%nat -> In (Z.of_nat j) columns ->
    pixel im' i j = readout (site_of c groups) (trap_phases c) (timed_steps r) (saving_passes rows) (col_fun im j) (Z.of_nat i).
Proof.
  intros He r. destruct (express_all_range false dt rows express 0 Hrows ltac:(rewrite Nat.add_0_r; exact He)) as (em & mon & Eex & H1 & H2 & H3).
  rewrite Nat.add_0_r in H1, H2, H3.
  assert (H3a : forall e k, (e < rows)%nat -> (k < rows)%nat -> entry em e k = if Nat.leb e k then 1 else 0).
  { intros e k A B. destruct (H3 e k A B) as [G _]. rewrite Nat.add_0_r in G. exact G. }
  assert (H3b : forall e k, (e < rows)%nat -> (k < rows)%nat -> bentry mon e k = Nat.leb e k).
  { intros e k A B. destruct (H3 e k A B) as [_ G]. rewrite Nat.add_0_r in G. exact G. }
  destruct (saving_save em H1 H3a) as (s & Es & Hs & Hsv).
  destruct (forced_padding (Standard false) dwell dt true) as (n & Hn & _). fold r in Hn.
  assert (Hw : length (py_range 0 (Z.of_nat rows)) = rows) by (rewrite py_range_length; lia).
  assert (HN : max_n_transfers r (length em) match em with [] => 0%nat | row :: _ => length row end = (rows * length (timed_steps r))%nat).
  { rewrite (steps_length r) by apply built_seq. destruct em as [|row em2]; [destruct H1 as [L _]; cbn in L; lia|].
    unfold max_n_transfers. cbn [r built make_roe roe_kind_of]. rewrite (Forall_rect _ _ _ row H1) by (left; reflexivity). reflexivity. }
  pose proof H1 as [L1 F1]. pose proof H2 as [L2 F2]. pose proof Hs as [L3 F3]. unfold matrix in *.
  set (passes := map (fun '(e, (m, s)) => zip_cells e m s) (combine em (combine mon s))).
  assert (Lp : length passes = rows) by (unfold passes; rewrite map_length, !combine_length; lia).
  assert (Hpass : forall i, (i < rows)%nat -> nth i passes [] = zip_cells (nth i em []) (nth i mon []) (nth i s [])).
  { intros i Hi. unfold passes. etransitivity; [exact (map_nth (fun '(e, (m, s)) => zip_cells e m s) (combine em (combine mon s)) ([], ([], [])) i)|].
    rewrite combine_nth, combine_nth by (rewrite ?combine_length; lia). reflexivity. }
  assert (Hlen : forall i, (i < rows)%nat -> length (nth i em []) = rows /\ length (nth i mon []) = rows /\ length (nth i s []) = rows).
  { intros i Hi. rewrite Forall_forall in F1, F2, F3. repeat split; [apply F1|apply F2|apply F3]; apply nth_In; lia. }
  destruct (rooms_saving (timed_steps r) passes rows 0 (rows * length (timed_steps r))) as [us Hus]; [lia|exact Lp| |rewrite Nat.sub_0_r; reflexivity|].
  { intros i Hi. rewrite Hpass by exact Hi. destruct (Hlen i Hi) as (La & Lb & Lc). split; [apply zip_cells_length; assumption|].
    intros k Hk. exists (nth k (nth i em []) 0). rewrite (nth_zip_cells _ _ _ rows) by assumption. cbn [Nat.add].
    f_equal; [f_equal; exact (H3b i k Hi Hk)|exact (Hsv i k Hi Hk)]. }
  destruct (clocking_readout im c r r traps groups express 0 (py_range 0 (Z.of_nat rows)) columns (whole rows 0) em mon s rows cols n us)
    as (im' & E1 & E2 & E3 & E4); auto.
  - apply built_seq.
  - unfold express_and_monitor. fold r. cbn [r built make_roe roe_kind_of roe_dtype]. rewrite Eex. reflexivity.
  - unfold matrix in *. fold passes. rewrite HN. exact Hus.
  - unfold matrix in *. fold passes. rewrite Hw. apply Forall_forall. intros q Hq. apply (In_nth _ _ []) in Hq as (i & Hi & <-). rewrite Lp in Hi. rewrite Hpass by exact Hi.
    destruct (Hlen i Hi) as (La & Lb & Lc). rewrite (zip_cells_length _ _ _ rows) by assumption. lia.
  - intros row es ph e Hrow Hes _ He'. apply py_range_in in Hrow. apply (forced_safe (Standard false) dwell dt true n rows row es ph e); auto.
  - intros es Hes. rewrite (built_phases (Standard false) dwell dt true true es Hes). exact Hph.
  - exists im'. split; [exact E1|]. split; [exact E2|]. split; [exact E3|]. intros i j Hi Hj. rewrite (E4 i j Hi Hj). f_equal.
    rewrite py_range_0. apply saving_cells; assumption.
Qed.
End Full.
