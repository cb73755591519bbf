(** * Express = 0, time windows, saving, charge injection and trap pumping (roe.py:511-896). *)
From Coq Require Import ZArith List Bool Reals Lra Lia.
From Verif Require Import Num Py RFacts ROEModel Spec SpecROE ROEClockFacts ROEMatrixFacts ROEExpressFacts.
Import ListNotations.
Open Scope R_scope.

Lemma bad_express_dec ef n e : {bad_express ef n e} + {~ bad_express ef n e}.
Proof.
  unfold bad_express. destruct ef; [|right; intros [? _]; discriminate].
  destruct (Nat.eq_dec e 0); [right; tauto|]. destruct (Nat.eq_dec (S e) n); [left; auto|right; tauto].
Qed.

Section Standard.
Context (ef : bool) (dt : dtype) (window : list Z) (n_pixels express offset : nat).
Hypothesis Hw : window_ok window n_pixels.

(** C29 *)
Lemma express_errors tw : tw_ok tw ->
  standard_express ef dt window express offset (tw_arg tw) = Err IndexError <->
  (ef = true /\ express <> 0%nat /\ S express = n_pixels).
Proof.
  intros Htw. split.
  - intros H. destruct (bad_express_dec ef n_pixels express) as [Hb|Hb]; [exact Hb|exfalso].
    destruct (standard_express_ok ef dt window n_pixels express offset Hw tw Hb Htw) as (E & em & mon & H' & _).
    congruence.
  - intros Hb. apply (standard_express_bad _ _ _ n_pixels); assumption.
Qed.

(** C27 *)
Lemma ok_not_bad tw r : standard_express ef dt window express offset tw = Ok r -> ~ bad_express ef n_pixels express.
Proof. intros H Hb. rewrite (standard_express_bad ef dt window n_pixels express offset Hw tw Hb) in H. discriminate. Qed.

Lemma transfers_ext m m' E n k : rect E n m -> (forall i, (i < E)%nat -> entry m i k = entry m' i k) ->
  forall i, (i <= E)%nat -> transfers_before m i k = transfers_before m' i k.
Proof.
  intros Hm H i. induction i as [|i IH]; intros Hi; [reflexivity|]. cbn [transfers_before]. rewrite IH, H by lia. reflexivity.
Qed.

Lemma before_entry (em m : matrix R) k j E : (forall i, (i < E)%nat -> entry em i k = transfers_before m (S i) j - transfers_before m i j) ->
  forall i, (i <= E)%nat -> transfers_before em i k = transfers_before m i j.
Proof.
  intros H i. induction i as [|i IH]; intros Hi; [reflexivity|].
  change (transfers_before em (S i) k) with (transfers_before em i k + entry em i k). rewrite IH, H by lia. lra.
Qed.

Lemma entry_nonneg m E n i j : rect E n m -> Forall (Forall (Rle 0)) m -> (i < E)%nat -> 0 <= entry m i j.
Proof. intros H1 H2 H3. pose proof (before_mono m E n i j H1 H2 H3) as H. cbn [transfers_before] in H. lra. Qed.

Lemma column_transfers em mon : standard_express ef dt window express offset None = Ok (em, mon) ->
  exists E, rect E (length window) em /\ rect E (length window) mon /\ (0 < E)%nat /\
  forall k w, nth_error window k = Some w ->
    transfers em k = IZR w + 1 + INR offset /\
    forall i, (i < E)%nat -> 0 <= entry em i k /\ (bentry mon i k = true <-> 0 < entry em i k).
Proof.
  intros H. pose proof (ok_not_bad _ _ H) as Hb.
  destruct (standard_express_ok ef dt window n_pixels express offset Hw None Hb I) as (E & em' & mon' & H' & R1 & R2 & Hf & Hent).
  cbn [tw_arg option_map] in H'. rewrite H in H'. injection H' as <- <-.
  pose proof Hf as [F1 F2 F3 F4].
  set (m := standard_full_matrix ef dt n_pixels express offset) in *.
  exists E. split; [exact R1|]. split; [exact R2|]. split; [exact F2|]. intros k w Hk.
  assert (Hj : (offset + Z.to_nat w < n_pixels + offset)%nat /\ (0 <= w)%Z).
  { destruct Hw as [Hw1 _]. rewrite Forall_forall in Hw1. specialize (Hw1 w (nth_error_In _ _ Hk)). lia. }
  split.
  - unfold transfers. destruct R1 as [R1 _]. rewrite R1.
    rewrite (before_entry em m k (offset + Z.to_nat w) E); [| |lia].
    + specialize (F4 (offset + Z.to_nat w)%nat (proj1 Hj)). unfold transfers in F4. destruct F1 as [F1 _]. rewrite F1 in F4.
      rewrite F4. rewrite S_INR, plus_INR. rewrite (INR_IZR_INZ (Z.to_nat w)), Z2Nat.id by lia. lra.
    + intros i Hi. apply (Hent i k w Hi Hk).
  - intros i Hi. destruct (Hent i k w Hi Hk) as [E1 E2]. cbn [tw_part transfers_before] in E1.
    assert (E1' : entry em i k = entry m i (offset + Z.to_nat w)) by lra.
    rewrite E1', E2. split; [eapply entry_nonneg; eauto|]. apply Rltb_true.
Qed.

(** With a time window: the overlap, entry by entry. *)
Lemma windowed_overlap em0 mon0 em mon a b : (0 <= a < b)%Z ->
  standard_express ef dt window express offset None = Ok (em0, mon0) ->
  standard_express ef dt window express offset (Some (py_range a b)) = Ok (em, mon) ->
  mon = mon0 /\ exists E, rect E (length window) em0 /\ rect E (length window) em /\
  forall i k, (i < E)%nat -> (k < length window)%nat ->
    entry em i k = overlap (transfers_before em0 i k) (transfers_before em0 (S i) k) (IZR a) (IZR b).
Proof.
  intros Hab H0 H. pose proof (ok_not_bad _ _ H) as Hb.
  assert (Hmon : mon = mon0).
  { unfold standard_express in H0, H. destruct (n_pixels_of_window window) as [np|]; [|discriminate]. cbn [bind] in H0, H.
    destruct (select_columns offset window (positive_mask _)) as [mo|]; [|discriminate]. cbn [bind] in H0, H.
    destruct (restrict_time_span _ None) as [m1|]; [|discriminate]. cbn [bind] in H0.
    destruct (select_columns offset window m1) as [s1|]; [|discriminate]. cbn [bind] in H0.
    destruct (restrict_time_span _ (Some _)) as [m2|]; [|discriminate]. cbn [bind] in H.
    destruct (select_columns offset window m2) as [s2|]; [|discriminate]. cbn [bind] in H. congruence. }
  split; [exact Hmon|].
  destruct (standard_express_ok ef dt window n_pixels express offset Hw None Hb I) as (E & em' & mon' & H' & R1 & R2 & Hf & Hent).
  cbn [tw_arg option_map] in H'. rewrite H0 in H'. injection H' as <- <-.
  destruct (standard_express_ok ef dt window n_pixels express offset Hw (Some (a, b)) Hb Hab) as (E' & em' & mon' & H' & R1' & R2' & Hf' & Hent').
  cbn [tw_arg option_map] in H'. rewrite H in H'. injection H' as <- <-.
  assert (E' = E). { destruct (fm_rect _ _ _ Hf), (fm_rect _ _ _ Hf'). lia. } subst E'.
  exists E. split; [exact R1|]. split; [exact R1'|]. intros i k Hi Hk.
  destruct (nth_error window k) as [w|] eqn:Ew; [|apply nth_error_None in Ew; lia].
  set (m := standard_full_matrix ef dt n_pixels express offset) in *.
  assert (Hbef : forall i, (i <= E)%nat -> transfers_before em0 i k = transfers_before m i (offset + Z.to_nat w)).
  { apply (before_entry em0 m k (offset + Z.to_nat w) E). intros i' Hi'. apply (Hent i' k w Hi' Ew). }
  rewrite !Hbef by lia. apply (Hent' i k w Hi Ew).
Qed.

(** The whole readout as a time window changes nothing. *)
Lemma window_whole T : (Z.of_nat (n_pixels + offset) <= T)%Z ->
  standard_express ef dt window express offset (Some (py_range 0 T)) = standard_express ef dt window express offset None.
Proof.
  intros HT. pose proof (window_pos window n_pixels Hw) as Hpos.
  destruct (bad_express_dec ef n_pixels express) as [Hb|Hb].
  { rewrite !(standard_express_bad ef dt window n_pixels express offset Hw _ Hb). reflexivity. }
  assert (Ht : tw_ok (Some (0%Z, T))) by (cbn; lia).
  destruct (standard_express_ok ef dt window n_pixels express offset Hw None Hb I) as (E & em0 & mon0 & H0 & R1 & R2 & Hf & Hent).
  destruct (standard_express_ok ef dt window n_pixels express offset Hw (Some (0%Z, T)) Hb Ht) as (E' & em & mon & H & R1' & R2' & Hf' & Hent').
  cbn [tw_arg option_map] in H0, H. rewrite H0, H.
  destruct (windowed_overlap em0 mon0 em mon 0 T ltac:(lia) H0 H) as (-> & E2 & Q1 & Q2 & Hov).
  assert (E2 = E) by (destruct Q1, R1; lia). subst E2.
  do 2 f_equal. apply (nth_ext _ _ [] []); [destruct Q1, Q2; lia|]. intros i Hi.
  assert (HiE : (i < E)%nat) by (destruct Q2; lia).
  pose proof (Forall_nth_lt _ _ i [] (proj2 Q2) ltac:(destruct Q2; lia)) as L2. cbn beta in L2.
  pose proof (Forall_nth_lt _ _ i [] (proj2 Q1) ltac:(destruct Q1; lia)) as L1. cbn beta in L1.
  apply (nth_ext _ _ 0 0); [lia|]. intros k Hk. rewrite L2 in Hk.
  change (entry em i k = entry em0 i k). rewrite Hov by auto.
  destruct (column_transfers em0 mon0 H0) as (E3 & Q3 & _ & _ & Hcol).
  assert (E3 = E) by (destruct Q3, R1; lia). subst E3.
  destruct (nth_error window k) as [w|] eqn:Ew; [|apply nth_error_None in Ew; lia].
  destruct (Hcol k w Ew) as [Htr Hn].
  assert (Hmono : forall i', (i' <= E)%nat -> 0 <= transfers_before em0 i' k <= transfers em0 k).
  { unfold transfers. destruct R1 as [-> _].
    assert (Hup : forall i1, (i1 <= E)%nat -> forall q, (i1 + q <= E)%nat -> transfers_before em0 i1 k <= transfers_before em0 (i1 + q) k).
    { intros i1 _ q. induction q as [|q IH]; intros Hq; [rewrite Nat.add_0_r; lra|]. rewrite Nat.add_succ_r. cbn [transfers_before].
      destruct (Hn (i1 + q)%nat ltac:(lia)) as [? _]. specialize (IH ltac:(lia)). lra. }
    intros i' Hi'. split; [apply (Hup 0%nat ltac:(lia) i'); lia|].
    replace E with (i' + (E - i'))%nat at 1 by lia. apply Hup; lia. }
  assert (HwT : (0 <= w /\ w + 1 + Z.of_nat offset <= T)%Z).
  { destruct Hw as [Hw1 _]. rewrite Forall_forall in Hw1. specialize (Hw1 w (nth_error_In _ _ Ew)). lia. }
  assert (HT' : transfers em0 k <= IZR T).
  { rewrite Htr. rewrite INR_IZR_INZ. rewrite <- !plus_IZR. apply IZR_le. lia. }
  pose proof (Hmono i ltac:(lia)). pose proof (Hmono (S i) ltac:(lia)). destruct (Hn i HiE) as [Hge _].
  cbn [transfers_before] in *. rewrite overlap_all by lra. lra.
Qed.

(** C28 *)
Lemma plain_entry_1 e j : plain_entry 1 e j = if Nat.leb e j then 1 else 0.
Proof.
  rewrite plain_entry_eq by lra. rewrite Rmult_1_r. destruct (Nat.leb_spec e j) as [H|H].
  - assert (INR e + 1 <= INR (S j)) by (rewrite <- INR_S; apply le_INR; lia). rewrite Rmax_right by lra. apply Rmin_left. lra.
  - assert (INR (S j) <= INR e) by (apply le_INR; lia). rewrite Rmax_left by lra. apply Rmin_right. lra.
Qed.
Lemma mm_one n : (0 < n)%nat -> @max_multiplier R _ dt n n = 1.
Proof.
  intros Hn. unfold max_multiplier. destruct dt.
  - rewrite nofN_INR. change 1 with (INR 1). f_equal. unfold ceil_div.
    replace (n + n - 1)%nat with (1 * n + (n - 1))%nat by lia. rewrite Nat.div_add_l by lia. rewrite Nat.div_small by lia. reflexivity.
  - rewrite nofN_INR. rnum. field. apply not_0_INR. lia.
Qed.
Lemma express_all tw : (express = 0%nat \/ (n_pixels + offset <= express)%nat) ->
  tw = None \/ (exists T, tw = Some (py_range 0 T) /\ (Z.of_nat (n_pixels + offset) <= T)%Z) ->
  exists em mon, standard_express ef dt window express offset tw = Ok (em, mon) /\
    rect (n_pixels + offset) (length window) em /\ rect (n_pixels + offset) (length window) mon /\
    forall e k w, (e < n_pixels + offset)%nat -> nth_error window k = Some w ->
      entry em e k = (if (Z.of_nat e <=? w + Z.of_nat offset)%Z then 1 else 0) /\
      bentry mon e k = (Z.of_nat e <=? w + Z.of_nat offset)%Z.
Proof.
  intros He Htw. pose proof (window_pos window n_pixels Hw) as Hpos.
  assert (Enone : standard_express ef dt window express offset tw = standard_express ef dt window express offset None).
  { destruct Htw as [->|(T & -> & HT)]; [reflexivity|apply window_whole; exact HT]. }
  rewrite Enone.
  assert (Hb : ~ bad_express ef n_pixels express) by (intros (_ & ? & ?); lia).
  destruct (standard_express_ok ef dt window n_pixels express offset Hw None Hb I) as (E & em & mon & H0 & R1 & R2 & Hf & Hent).
  assert (Hfull : standard_full_matrix ef dt n_pixels express offset = @plain_matrix R _ 1 (n_pixels + offset) (n_pixels + offset)).
  { destruct (standard_full_cases ef dt n_pixels express offset Hpos) as [(_ & ? & ? & _)|[[? _]|[_ E2]]]; [lia|contradiction|].
    cbn zeta in E2. rewrite E2.
    assert (Eu : express_used (n_pixels + offset) express = (n_pixels + offset)%nat).
    { unfold express_used. destruct (Nat.eqb_spec express 0); lia. }
    rewrite Eu. rewrite mm_one by lia. reflexivity. }
  rewrite Hfull in *.
  assert (HE : E = (n_pixels + offset)%nat).
  { destruct (fm_rect _ _ _ Hf) as [HE _]. rewrite plain_tab in HE. destruct (tab_rect (n_pixels + offset) (n_pixels + offset) (plain_entry 1)). lia. }
  subst E. exists em, mon. split; [exact H0|]. split; [exact R1|]. split; [exact R2|].
  intros e k w Hlt Hk. destruct (Hent e k w Hlt Hk) as [E1 E2].
  assert (Hj : (offset + Z.to_nat w < n_pixels + offset)%nat /\ (0 <= w)%Z).
  { destruct Hw as [Hw1 _]. rewrite Forall_forall in Hw1. specialize (Hw1 w (nth_error_In _ _ Hk)). lia. }
  cbn [tw_part transfers_before] in E1.
  assert (Ee : entry (plain_matrix 1 (n_pixels + offset) (n_pixels + offset)) e (offset + Z.to_nat w)
     = if (Z.of_nat e <=? w + Z.of_nat offset)%Z then 1 else 0).
  { rewrite plain_tab, tab_entry by lia. rewrite plain_entry_1.
    destruct (Nat.leb_spec e (offset + Z.to_nat w)), (Z.leb_spec (Z.of_nat e) (w + Z.of_nat offset)); try lia; reflexivity. }
  rewrite Ee in E2. split; [lra|]. rewrite E2.
  destruct (Z.leb_spec (Z.of_nat e) (w + Z.of_nat offset)); [apply Rltb_true; lra|apply Rltb_false; lra].
Qed.

(** The separate first transfer (default ROE). *)
Lemma first_transfer_once em mon : ef = true -> (1 <= express)%nat -> (express < n_pixels - 1)%nat ->
  standard_express ef dt window express offset None = Ok (em, mon) ->
  length em = (n_pixels + offset)%nat /\
  forall k w, nth_error window k = Some w ->
    let first := (n_pixels - 1 - Z.to_nat w)%nat in
    entry em first k = 1 /\ forall i, (i < first)%nat -> entry em i k = 0.
Proof.
  intros Hef He Hlt H. pose proof (ok_not_bad _ _ H) as Hb. pose proof (window_pos window n_pixels Hw) as Hpos.
  destruct (standard_express_ok ef dt window n_pixels express offset Hw None Hb I) as (E & em' & mon' & H0 & R1 & R2 & Hf & Hent).
  cbn [tw_arg option_map] in H0. rewrite H in H0. injection H0 as <- <-.
  destruct (standard_full_cases ef dt n_pixels express offset Hpos) as [(_ & _ & _ & E2)|[[? _]|[[?|[?|?]] _]]]; [|contradiction|congruence|lia|lia].
  destruct (insert_full dt (n_pixels - 1 + offset) express ltac:(lia)) as [Hfi Hrows].
  rewrite <- E2 in Hfi, Hrows. set (m := standard_full_matrix ef dt n_pixels express offset) in *.
  assert (HE : E = (n_pixels + offset)%nat).
  { destruct (fm_rect _ _ _ Hf), (fm_rect _ _ _ Hfi). lia. }
  split; [destruct R1; lia|].
  intros k w Hk first.
  assert (Hwk : (0 <= w < Z.of_nat n_pixels)%Z).
  { destruct Hw as [Hw1 _]. rewrite Forall_forall in Hw1. apply Hw1. eapply nth_error_In; eauto. }
  assert (Hentry : forall i, (i <= first)%nat -> entry em i k = entry m i (offset + Z.to_nat w)).
  { intros i Hi. destruct (Hent i k w ltac:(unfold first in *; lia) Hk) as [E1 _]. cbn [tw_part transfers_before] in E1. lra. }
  split.
  - destruct (Hrows first ltac:(unfold first; lia)) as [Hone _]. rewrite Hentry by lia.
    replace (offset + Z.to_nat w)%nat with (n_pixels - 1 + offset - first)%nat by (unfold first; lia). exact Hone.
  - intros i Hi. destruct (Hrows i ltac:(unfold first in *; lia)) as [_ Hzero]. rewrite Hentry by lia. apply Hzero. unfold first in *. lia.
Qed.
End Standard.

Lemma overlap_partition x y ends a : x <= y -> (0 <= a)%Z -> increasing_from a ends ->
  Rsum (map (fun '(lo, hi) => overlap x y (IZR lo) (IZR hi)) (windows_from a ends)) = overlap x y (IZR a) (IZR (last ends a)).
Proof.
  intros Hxy. revert a. induction ends as [|b ends IH]; intros a Ha Hi.
  - cbn. unfold overlap, Rmin, Rmax. rle_cases; lra.
  - destruct Hi as [Hab Hi]. cbn [windows_from map]. rewrite Rsum_cons. rewrite IH by (auto; lia).
    assert (El : last (b :: ends) a = last ends b).
    { destruct ends as [|c ends]; [reflexivity|]. cbn [last]. clear. revert a b c. induction ends as [|d ends IH]; intros; [reflexivity|].
      cbn [last] in *. apply (IH a b d). }
    rewrite El. apply overlap_split; [exact Hxy|].
    assert (Hle : (b <= last ends b)%Z).
    { clear -Hi. revert b Hi. induction ends as [|c ends IH]; intros b Hi; [cbn; lia|]. destruct Hi as [Hbc Hi].
      specialize (IH c Hi). destruct ends as [|d ends]; [cbn in *; lia|].
      assert (last (c :: d :: ends) b = last (d :: ends) c).
      { cbn [last]. clear. revert d. induction ends as [|e ends IH]; intros d; [reflexivity|]. apply IH. }
      rewrite H. lia. }
    split; apply IZR_le; lia.
Qed.

Lemma time_windows_partition ef dt window n_pixels express offset ends ems em0 mon0 :
  window_ok window n_pixels ->
  increasing_from 0 ends -> (Z.of_nat (n_pixels + offset) <= last ends 0)%Z ->
  standard_express ef dt window express offset None = Ok (em0, mon0) ->
  Forall2 (fun '(a, b) em => standard_express ef dt window express offset (Some (py_range a b)) = Ok (em, mon0))
    (windows_from 0 ends) ems ->
  forall i k, (i < length em0)%nat -> (k < length window)%nat ->
    Rsum (map (fun em => entry em i k) ems) = entry em0 i k /\
    Forall (fun em => 0 <= entry em i k <= entry em0 i k) ems.
Proof.
  intros Hw Hinc Hlast H0 HF i k Hi Hk.
  destruct (column_transfers ef dt window n_pixels express offset Hw em0 mon0 H0) as (E & R1 & _ & _ & Hcol).
  assert (HiE : (i < E)%nat) by (destruct R1; lia).
  destruct (nth_error window k) as [w|] eqn:Ew; [|apply nth_error_None in Ew; lia].
  destruct (Hcol k w Ew) as [Htr Hn].
  set (x := transfers_before em0 i k). assert (Hx : transfers_before em0 (S i) k = x + entry em0 i k) by reflexivity.
  destruct (Hn i HiE) as [Hnn _].
  assert (HF' : forall a, (0 <= a)%Z -> increasing_from a ends ->
     Forall2 (fun '(a, b) em => standard_express ef dt window express offset (Some (py_range a b)) = Ok (em, mon0))
       (windows_from a ends) ems ->
     Forall2 (fun '(a, b) em => entry em i k = overlap x (x + entry em0 i k) (IZR a) (IZR b)) (windows_from a ends) ems).
  { clear HF Hinc Hlast. revert ems. induction ends as [|b ends IH]; intros ems a Ha Hinc HF; cbn [windows_from] in *.
    - inversion HF; constructor.
    - destruct Hinc as [Hab Hinc]. inversion HF as [|? em ? ems' H1 H2]; subst. constructor; [|apply IH; auto; lia].
      destruct (windowed_overlap ef dt window n_pixels express offset Hw em0 mon0 em mon0 a b ltac:(lia) H0 H1) as (_ & E2 & Q1 & _ & Hov).
      rewrite Hov by (destruct Q1, R1; lia). rewrite Hx. reflexivity. }
  specialize (HF' 0%Z ltac:(lia) Hinc HF).
  assert (Hsum : Rsum (map (fun em => entry em i k) ems) = Rsum (map (fun '(lo, hi) => overlap x (x + entry em0 i k) (IZR lo) (IZR hi)) (windows_from 0 ends))).
  { clear -HF'. induction HF' as [|[a b] em l l' H _ IH]; [reflexivity|]. cbn [map]. rewrite !Rsum_cons, IH, H. reflexivity. }
  split.
  - rewrite Hsum, overlap_partition by (auto; lra || lia).
    assert (Hmono : 0 <= x /\ x + entry em0 i k <= transfers em0 k).
    { assert (Hup : forall q i1, (i1 + q <= E)%nat -> transfers_before em0 i1 k <= transfers_before em0 (i1 + q) k).
      { intros q i1. induction q as [|q IH]; intros Hq; [rewrite Nat.add_0_r; lra|]. rewrite Nat.add_succ_r. cbn [transfers_before].
        destruct (Hn (i1 + q)%nat ltac:(lia)) as [? _]. specialize (IH ltac:(lia)). lra. }
      split; [apply (Hup i 0%nat); lia|]. rewrite <- Hx. unfold transfers. destruct R1 as [-> _].
      replace E with (S i + (E - S i))%nat at 1 by lia. apply Hup. lia. }
    assert (Hw0 : (w < Z.of_nat n_pixels)%Z).
    { destruct Hw as [Hw1 _]. rewrite Forall_forall in Hw1. specialize (Hw1 w (nth_error_In _ _ Ew)). lia. }
    assert (HT : transfers em0 k <= IZR (last ends 0%Z)).
    { rewrite Htr. rewrite INR_IZR_INZ. rewrite <- !plus_IZR. apply IZR_le. lia. }
    rewrite overlap_all by lra. lra.
  - clear -HF' Hnn. induction HF' as [|[a b] em l l' H _ IH]; constructor; auto. rewrite H.
    unfold overlap, Rmin, Rmax. rle_cases; lra.
Qed.

(** ** Saving (C33) *)
Lemma first_break_spec (next : list R) n : forall r0, (1 <= n)%nat ->
  let r := first_break next r0 n in
  (r0 <= r <= r0 + (n - 1))%nat /\
  (forall k, (r0 <= k < r)%nat -> nth (S k) next 0 <= 0) /\
  (0 < nth (S r) next 0 \/ r = (r0 + (n - 1))%nat).
Proof.
  induction n as [|n IH]; intros r0 Hn; [lia|]. cbn [first_break]. destruct n as [|n].
  - cbn zeta. split; [lia|]. split; [intros; lia|]. right; lia.
  - rnum. destruct (Rltb_spec 0 (nth (S r0) next 0)) as [H|H]; cbn zeta.
    + split; [lia|]. split; [intros; lia|]. left; exact H.
    + specialize (IH (S r0) ltac:(lia)). cbn zeta in IH. destruct IH as (I1 & I2 & I3).
      split; [lia|]. split; [|destruct I3; [left; assumption|right; lia]].
      intros k Hk. destruct (Nat.eq_dec k r0) as [->|]; [exact H|apply I2; lia].
Qed.

Lemma save_spec em E n : rect E n em -> (0 < E)%nat -> (2 <= n)%nat ->
  exists s, standard_save false em = Ok s /\ rect E n s /\
  (forall k, bentry s (E - 1) k = false) /\
  forall e, (S e < E)%nat -> exists r, (r <= n - 2)%nat /\
    (forall k, bentry s e k = true <-> k = r) /\
    (forall k, (k < r)%nat -> entry em (S e) (S k) <= 0) /\
    (0 < entry em (S e) (S r) \/ r = (n - 2)%nat).
Proof.
  intros [Hl Hr] HE Hn. unfold standard_save.
  assert (Hcols : match em with [] => 0%nat | r :: _ => length r end = n).
  { destruct em as [|r em]; [cbn in Hl; lia|]. inversion Hr; assumption. }
  rewrite Hcols, Hl. destruct (Nat.leb_spec n 1); [lia|]. rewrite andb_false_r.
  eexists. split; [reflexivity|]. split.
  { split; [rewrite map_length, seq_length; reflexivity|]. apply Forall_forall. intros x Hx.
    apply in_map_iff in Hx as (e & <- & _). destruct (Nat.ltb (S e) E); rewrite ?upd_length, repeat_length; reflexivity. }
  split.
  - intros k. unfold bentry. rewrite nth_map_seq by lia. destruct (Nat.ltb_spec (S (E - 1)) E); [lia|]. 
    destruct (lt_dec k n); [apply nth_repeat|apply nth_overflow; rewrite repeat_length; lia].
  - intros e He. destruct (first_break_spec (nth (S e) em []) (n - 1) 0 ltac:(lia)) as (I1 & I2 & I3).
    set (r := first_break (nth (S e) em []) 0 (n - 1)) in *.
    exists r. split; [lia|]. split; [|split].
    + intros k. unfold bentry. rewrite nth_map_seq by lia. destruct (Nat.ltb_spec (S e) E); [|lia].
      fold r. destruct (Nat.eq_dec k r) as [->|Hne].
      * rewrite nth_upd_eq by (rewrite repeat_length; lia). tauto.
      * rewrite nth_upd_neq by auto.
        assert (Ef : nth k (repeat false n) false = false).
        { destruct (lt_dec k n); [apply nth_repeat|apply nth_overflow; rewrite repeat_length; lia]. }
        rewrite Ef. split; [discriminate|contradiction].
    + intros k Hk. apply I2. lia.
    + destruct I3 as [H1|H1]; [left; exact H1|right; lia].
Qed.
Lemma save_before_next em E n e p : rect E n em -> (2 <= n)%nat -> (S e < E)%nat -> (0 < p < n)%nat ->
  0 < entry em (S e) p -> (forall k, (k < p)%nat -> entry em (S e) k = 0) ->
  exists s, standard_save false em = Ok s /\ forall k, bentry s e k = true <-> k = (p - 1)%nat.
Proof.
  intros Hr Hn He Hp Hpos Hz. destruct (save_spec em E n Hr ltac:(lia) Hn) as (s & Hs & _ & _ & Hrow).
  exists s. split; [exact Hs|]. destruct (Hrow e He) as (r & Hrn & Hiff & Hbef & Hat).
  assert (r = (p - 1)%nat); [|subst r; exact Hiff].
  destruct (lt_eq_lt_dec r (p - 1)) as [[Hlt|]|Hgt]; [|assumption|].
  - destruct Hat as [Hat|Hat]; [|lia]. rewrite Hz in Hat by lia. lra.
  - specialize (Hbef (p - 1)%nat ltac:(lia)). replace (S (p - 1)) with p in Hbef by lia. lra.
Qed.
Lemma save_at_zero em E n e : rect E n em -> (2 <= n)%nat -> (S e < E)%nat ->
  0 < entry em (S e) 0 -> 0 < entry em (S e) 1 ->
  exists s, standard_save false em = Ok s /\ forall k, bentry s e k = true <-> k = 0%nat.
Proof.
  intros Hr Hn He H0 H1. destruct (save_spec em E n Hr ltac:(lia) Hn) as (s & Hs & _ & _ & Hrow).
  exists s. split; [exact Hs|]. destruct (Hrow e He) as (r & Hrn & Hiff & Hbef & Hat).
  destruct (Nat.eq_dec r 0) as [->|Hne]; [exact Hiff|]. specialize (Hbef 0%nat ltac:(lia)). lra.
Qed.
Lemma save_single em E : rect E 1 em -> (1 < E)%nat -> standard_save false em = Err UnboundLocalError.
Proof.
  intros [Hl Hr] HE. unfold standard_save.
  destruct em as [|r em]; [cbn in Hl; lia|]. inversion Hr as [|? ? H1 H2]; subst. rewrite H1.
  destruct (Nat.ltb_spec 1 (length (r :: em))); [reflexivity|lia].
Qed.
Lemma save_none em : standard_save true em = Ok (map (map (fun _ : R => false)) em).
Proof. reflexivity. Qed.
Lemma map_false_bentry (em : matrix R) i k : bentry (map (map (fun _ => false)) em) i k = false.
Proof.
  unfold bentry. destruct (lt_dec i (length em)) as [H|H].
  - rewrite (nth_map_lt _ _ _ _ []) by exact H. set (r := nth i em []). clearbody r. clear. revert k.
    induction r as [|x r IH]; intros [|k]; cbn; auto.
  - rewrite (nth_overflow _ []) by (rewrite map_length; lia). destruct k; reflexivity.
Qed.

(** ** Charge injection (C31) *)
Lemma repeat_rect {A} (x : A) E n : rect E n (repeat (repeat x n) E).
Proof.
  split; [apply repeat_length|]. apply Forall_forall. intros r Hr. apply repeat_spec in Hr. subst. apply repeat_length.
Qed.
Lemma repeat_entry x E n i j : (i < E)%nat -> (j < n)%nat -> entry (repeat (repeat x n) E) i j = x.
Proof.
  intros Hi Hj. unfold entry. 
  assert (Er : nth i (repeat (repeat x n) E) [] = repeat x n).
  { revert i Hi. induction E as [|E IH]; intros [|i] Hi; cbn; try lia; auto. apply IH. lia. }
  rewrite Er. revert j Hj. clear. induction n as [|n IH]; intros [|j] Hj; cbn; try lia; auto. apply IH. lia.
Qed.
Lemma repeat_before x E n i j : (i <= E)%nat -> (j < n)%nat -> transfers_before (repeat (repeat x n) E) i j = INR i * x.
Proof.
  intros Hi Hj. induction i as [|i IH]; [cbn; lra|]. cbn [transfers_before]. rewrite IH, repeat_entry by lia. rewrite INR_S. lra.
Qed.

Section Injection.
Context (npt : option nat) (window : list Z) (n_pixels express offset : nat).
Hypothesis Hw : window_ok window n_pixels.

Lemma injection_at tw : (0 < (injection_transfers npt n_pixels offset))%nat -> tw_ok tw ->
  let E := express_used (injection_transfers npt n_pixels offset) express in
  exists em mon, injection_express npt DFloat window express offset (tw_arg tw) = Ok ((injection_transfers npt n_pixels offset), em, mon) /\
    rect E n_pixels em /\ rect E n_pixels mon /\ (0 < E <= (injection_transfers npt n_pixels offset))%nat /\
    let x := INR (injection_transfers npt n_pixels offset) / INR E in
    forall i k, (i < E)%nat -> (k < n_pixels)%nat ->
      entry em i k = tw_part tw (INR i * x) (INR (S i) * x) /\ bentry mon i k = true.
Proof.
  intros Hn Htw. set (N := (injection_transfers npt n_pixels offset)) in *.
  intros E. pose proof (express_used_pos N express Hn) as HE. fold E in HE.
  set (x := INR N / INR E). set (m := repeat (repeat x n_pixels) E).
  assert (HNr : 0 < INR N) by (apply lt_0_INR; lia). assert (HEr : 0 < INR E) by (apply lt_0_INR; lia).
  assert (Hx : 0 < x). { unfold x. apply Rdiv_lt_0_compat; assumption. }
  pose proof (repeat_rect x E n_pixels) as Hm. fold m in Hm.
  assert (Hnn : Forall (Forall (Rle 0)) m).
  { apply Forall_forall. intros r Hr. apply repeat_spec in Hr. subst r. apply Forall_forall. intros y Hy.
    apply repeat_spec in Hy. subst y. lra. }
  destruct (restrict_ok m E n_pixels tw Hm Hnn Htw) as (m' & Er & Hm' & Hent).
  exists m', (positive_mask m). split.
  { unfold injection_express. rewrite (window_n_pixels _ _ Hw). cbn [bind]. fold (injection_transfers npt n_pixels offset). fold N. fold E.
    destruct (Nat.eqb_spec E 0); [lia|]. rewrite !nofN_INR. rnum. fold x. fold m. rewrite Er. reflexivity. }
  split; [exact Hm'|]. split; [apply positive_mask_rect; exact Hm|]. split; [exact HE|].
  cbn zeta. intros i k Hi Hk. split.
  - rewrite Hent by assumption. unfold m. rewrite !repeat_before by lia. reflexivity.
  - rewrite (positive_mask_entry m E n_pixels) by assumption. unfold m. rewrite repeat_entry by assumption. apply Rltb_true. exact Hx.
Qed.
Lemma injection_ok tw : (0 < (injection_transfers npt n_pixels offset))%nat -> tw_ok tw ->
  exists E em mon, injection_express npt DFloat window express offset (tw_arg tw) = Ok ((injection_transfers npt n_pixels offset), em, mon) /\
    rect E n_pixels em /\ rect E n_pixels mon /\ (0 < E <= (injection_transfers npt n_pixels offset))%nat /\
    let x := INR (injection_transfers npt n_pixels offset) / INR E in
    forall i k, (i < E)%nat -> (k < n_pixels)%nat ->
      entry em i k = tw_part tw (INR i * x) (INR (S i) * x) /\ bentry mon i k = true.
Proof. intros Hn Htw. destruct (injection_at tw Hn Htw) as (em & mon & H). exists (express_used (injection_transfers npt n_pixels offset) express), em, mon. exact H. Qed.
Lemma injection_int tw : (0 < (injection_transfers npt n_pixels offset))%nat ->
  injection_express npt DInt window express offset tw = @Err (nat * matrix R * bmatrix) NameError.
Proof.
  intros Hn. unfold injection_express. rewrite (window_n_pixels _ _ Hw). cbn [bind]. fold (injection_transfers npt n_pixels offset).
  pose proof (express_used_pos (injection_transfers npt n_pixels offset) express Hn). destruct (Nat.eqb_spec (express_used (injection_transfers npt n_pixels offset) express) 0); [lia|]. reflexivity.
Qed.

Lemma telescope g E (em : matrix R) k : (forall i, (i < E)%nat -> entry em i k = g (S i) - g i) ->
  forall i, (i <= E)%nat -> transfers_before em i k = g i - g 0%nat.
Proof. intros H i. induction i as [|i IH]; intros Hi; [cbn; lra|]. cbn [transfers_before]. rewrite IH, H by lia. lra. Qed.

Lemma injection_columns em mon n : (0 < (injection_transfers npt n_pixels offset))%nat ->
  injection_express npt DFloat window express offset None = Ok (n, em, mon) ->
  n = (injection_transfers npt n_pixels offset) /\
  forall k, (k < n_pixels)%nat -> transfers em k = INR (injection_transfers npt n_pixels offset) /\
    forall i, (i < length em)%nat -> entry em i k = INR (injection_transfers npt n_pixels offset) / INR (length em) /\ bentry mon i k = true.
Proof.
  intros Hn H. destruct (injection_ok None Hn I) as (E & em' & mon' & H' & R1 & R2 & HE & Hent).
  cbn [tw_arg option_map] in H'. rewrite H in H'. injection H' as -> <- <-. split; [reflexivity|].
  assert (HEr : 0 < INR E) by (apply lt_0_INR; lia).
  destruct R1 as [R1 R1']. rewrite R1. intros k Hk. split.
  - unfold transfers. rewrite R1. rewrite (telescope (fun i => INR i * (INR (injection_transfers npt n_pixels offset) / INR E)) E).
    + cbn [INR]. field. lra.
    + intros i Hi. apply (Hent i k Hi Hk).
    + lia.
  - intros i Hi. destruct (Hent i k Hi Hk) as [E1 E2]. cbn [tw_part] in E1. rewrite INR_S in E1. split; [lra|exact E2].
Qed.
Lemma injection_truncated T em mon n : (0 < (injection_transfers npt n_pixels offset))%nat -> (0 < T)%Z ->
  injection_express npt DFloat window express offset (Some (py_range 0 T)) = Ok (n, em, mon) ->
  forall k, (k < n_pixels)%nat -> transfers em k = Rmin (INR (injection_transfers npt n_pixels offset)) (IZR T).
Proof.
  intros Hn HT H k Hk. destruct (injection_ok (Some (0%Z, T)) Hn ltac:(cbn; lia)) as (E & em' & mon' & H' & R1 & R2 & HE & Hent).
  cbn [tw_arg option_map] in H'. rewrite H in H'. injection H' as -> <- <-.
  assert (HEr : 0 < INR E) by (apply lt_0_INR; lia). assert (HTr : 0 < IZR T) by (apply IZR_lt; lia).
  set (x := INR (injection_transfers npt n_pixels offset) / INR E) in *.
  assert (Hx : 0 < x). { unfold x. apply Rdiv_lt_0_compat; [apply lt_0_INR; lia|assumption]. }
  unfold transfers. destruct R1 as [R1 _]. rewrite R1.
  rewrite (telescope (fun i => Rmin (INR i * x) (IZR T)) E).
  - cbn [INR]. rewrite Rmult_0_l. rewrite (Rmin_left 0) by lra. replace (INR E * x) with (INR (injection_transfers npt n_pixels offset)) by (unfold x; field; lra). lra.
  - intros i Hi. destruct (Hent i k Hi Hk) as [E1 _]. rewrite E1. cbn [tw_part].
    assert (0 <= INR i) by apply pos_INR. rewrite INR_S. assert (0 <= INR i * x) by nra.
    replace ((INR i + 1) * x) with (INR i * x + x) by ring. set (a := INR i * x) in *. unfold overlap, Rmin, Rmax. rle_cases; lra.
  - lia.
Qed.
End Injection.

(** ** Trap pumping (C32) *)
Lemma Rsum_repeat x n : Rsum (repeat x n) = INR n * x.
Proof. induction n as [|n IH]; [cbn; unfold Rsum; cbn; lra|]. cbn [repeat]. rewrite Rsum_cons, IH, INR_S. lra. Qed.
Lemma Rsum_map_nofN l : Rsum (map (@nofN R _) l) = INR (list_sum l).
Proof.
  induction l as [|a l IH]; [reflexivity|]. cbn [map]. rewrite Rsum_cons, IH, nofN_INR.
  change (list_sum (a :: l)) with (a + list_sum l)%nat. rewrite plus_INR. reflexivity.
Qed.
Lemma list_sum_removelast l : l <> [] -> list_sum l = (list_sum (removelast l) + last l 0)%nat.
Proof.
  intros Hl. rewrite (app_removelast_last 0%nat Hl) at 1. rewrite list_sum_app. cbn. lia.
Qed.
Lemma multipliers_sum n_pumps express ef dt : (0 < express <= n_pumps)%nat ->
  Rsum (@pumping_multipliers R _ n_pumps express ef dt) = INR n_pumps.
Proof.
  intros He. assert (Her : 0 < INR express) by (apply lt_0_INR; lia). unfold pumping_multipliers. destruct dt.
  - set (ints := if (_ && _ && _)%bool then _ else _).
    assert (Hne : ints <> []). { unfold ints. destruct (_ && _ && _)%bool; [discriminate|]. destruct express; [lia|discriminate]. }
    rewrite Rsum_app, Rsum_map_nofN. unfold Rsum at 1. cbn [fold_right]. rnum.
    rewrite (list_sum_removelast ints Hne). rewrite plus_IZR, minus_IZR. rewrite !INR_IZR_INZ.
    rewrite Nat2Z.inj_add, plus_IZR. lra.
  - rewrite !nofN_INR. rnum. destruct (ef && Nat.ltb 1 n_pumps && Nat.ltb express n_pumps)%bool eqn:E.
    + rewrite Rsum_cons, Rsum_repeat. rewrite minus_INR by (apply andb_prop in E as [_ E]; apply Nat.ltb_lt in E; lia).
      cbn [INR]. field. lra.
    + rewrite Rsum_repeat. field. lra.
Qed.
Lemma multipliers_pos n_pumps express ef : (0 < express <= n_pumps)%nat ->
  Forall (Rlt 0) (@pumping_multipliers R _ n_pumps express ef DFloat).
Proof.
  intros He. assert (Her : 0 < INR express) by (apply lt_0_INR; lia). unfold pumping_multipliers. rewrite !nofN_INR. rnum.
  destruct (ef && Nat.ltb 1 n_pumps && Nat.ltb express n_pumps)%bool eqn:E.
  - constructor; [lra|]. apply Forall_forall. intros x Hx. apply repeat_spec in Hx. subst x.
    apply andb_prop in E as [E E2]. apply Nat.ltb_lt in E2.
    apply Rdiv_lt_0_compat; [apply lt_0_INR; lia|assumption].
  - apply Forall_forall. intros x Hx. apply repeat_spec in Hx. subst x. apply Rdiv_lt_0_compat; [apply lt_0_INR; lia|assumption].
Qed.

Section Pumping.
Context (n_pumps express : nat) (ef : bool) (dt : dtype) (window : list Z).
Hypothesis Hn : (0 < n_pumps)%nat.
Let E := express_used n_pumps express.
Let mult := @pumping_multipliers R _ n_pumps E ef dt.

Lemma pumping_col mm np k : (k < np)%nat ->
  Rsum (col (flat_map (fun j => map (fun x => map (fun c => if Nat.eqb c j then x else 0) (seq 0 np)) mm) (seq 0 np)) k) = Rsum mm.
Proof.
  intros Hk. unfold col.
  assert (G : forall l, Rsum (map (fun r => nth k r 0) (flat_map (fun j => map (fun x => map (fun c => if Nat.eqb c j then x else 0) (seq 0 np)) mm) l))
     = Rsum (map (fun j => if Nat.eqb j k then Rsum mm else 0) l)).
  { induction l as [|j l IH]; [reflexivity|]. cbn [flat_map map]. rewrite map_app, Rsum_app, Rsum_cons, IH. f_equal.
    rewrite map_map. rewrite (map_ext _ (fun x => if Nat.eqb k j then x else 0)).
    - destruct (Nat.eqb_spec k j) as [->|Hne]; [rewrite Nat.eqb_refl, map_id; reflexivity|].
      destruct (Nat.eqb_spec j k) as [->|_]; [contradiction|]. clear. induction mm as [|a mm IH]; [reflexivity|]. cbn [map]. rewrite Rsum_cons, IH. lra.
    - intros x. rewrite nth_map_seq by exact Hk. reflexivity. }
  rewrite G. apply (Rsum_single np k Hk (fun _ => Rsum mm)).
Qed.

Lemma pumping_ok : exists em mon, pumping_express n_pumps ef dt window express = Ok (em, mon) /\
  rect (length window * length mult) (length window) em /\ mon = positive_mask em /\
  (forall k, (k < length window)%nat -> transfers em k = INR n_pumps) /\
  (forall i k, 0 < entry em i k -> forall k', k' <> k -> entry em i k' = 0).
Proof.
  pose proof (express_used_pos n_pumps express Hn) as HE. fold E in HE.
  set (np := length window).
  set (em := flat_map (fun j => map (fun x => map (fun c => if Nat.eqb c j then x else 0) (seq 0 np)) mult) (seq 0 np)).
  exists em, (positive_mask em). split.
  { unfold pumping_express. fold E. destruct (Nat.eqb_spec E 0); [lia|]. reflexivity. }
  split; [|split; [reflexivity|split]].
  - split.
    + unfold em. assert (G : forall q a, length (flat_map (fun j => map (fun x => map (fun c => if Nat.eqb c j then x else 0) (seq 0 np)) mult) (seq a q)) = (q * length mult)%nat).
      { induction q as [|q IH]; intros a; [reflexivity|]. cbn [seq flat_map]. rewrite app_length, map_length, IH. lia. }
      apply G.
    + apply Forall_forall. intros r Hr. unfold em in Hr. apply in_flat_map in Hr as (j & _ & Hr).
      apply in_map_iff in Hr as (x & <- & _). rewrite map_length, seq_length. reflexivity.
  - intros k Hk. rewrite transfers_sum. unfold em. rewrite pumping_col by exact Hk. apply multipliers_sum. exact HE.
  - intros i k Hpos k' Hne. unfold entry in *.
    destruct (lt_dec i (length em)) as [Hi|Hi]; [|rewrite (nth_overflow em) in Hpos by lia; destruct k; cbn in Hpos; lra].
    pose proof (nth_In em [] Hi) as Hin. unfold em in Hin at 2. apply in_flat_map in Hin as (j & Hj & Hin).
    apply in_map_iff in Hin as (x & Ex & _). rewrite <- Ex in *.
    assert (Hkn : (k < np)%nat). { destruct (lt_dec k np); [assumption|]. rewrite nth_overflow in Hpos by (rewrite map_length, seq_length; lia). lra. }
    rewrite nth_map_seq in Hpos by exact Hkn. destruct (Nat.eqb_spec k j) as [->|]; [|lra].
    destruct (lt_dec k' np) as [Hk'|Hk']; [|rewrite nth_overflow by (rewrite map_length, seq_length; lia); reflexivity].
    rewrite nth_map_seq by exact Hk'. destruct (Nat.eqb_spec k' j); [contradiction|reflexivity].
Qed.

Lemma pumping_save_two em mon : (2 <= length window)%nat ->
  pumping_express n_pumps ef dt window express = Ok (em, mon) -> pumping_save em = Err IndexError.
Proof.
  intros H2 H. destruct pumping_ok as (em' & mon' & H' & [R1 R2] & _). rewrite H in H'. injection H' as <- <-.
  unfold pumping_save. assert (Hm : (0 < length mult)%nat).
  { pose proof (express_used_pos n_pumps express Hn) as HE. fold E in HE. unfold mult, pumping_multipliers. destruct dt.
    - rewrite app_length. cbn. lia.
    - destruct (_ && _ && _)%bool; cbn [length]; rewrite ?repeat_length; lia. }
  destruct em as [|r em]; [cbn in R1; nia|]. inversion R2 as [|? ? Hr _]; subst. rewrite Hr.
  destruct (Nat.leb_spec 2 (length window)); [reflexivity|lia].
Qed.
Lemma pumping_save_one em mon : length window = 1%nat ->
  pumping_express n_pumps ef dt window express = Ok (em, mon) ->
  exists s, pumping_save em = Ok s /\ forall i, (i < length em)%nat -> bentry s i 0 = negb (Nat.eqb (S i) (length em)).
Proof.
  intros H1 H. destruct pumping_ok as (em' & mon' & H' & [R1 R2] & _). rewrite H in H'. injection H' as <- <-.
  unfold pumping_save. rewrite H1 in *.
  destruct em as [|r em]; [eexists; split; [reflexivity|intros i Hi; cbn in Hi; lia]|]. inversion R2 as [|? ? Hr _]; subst. rewrite Hr.
  eexists. split; [reflexivity|]. intros i Hi. unfold bentry. rewrite nth_map_seq by exact Hi. reflexivity.
Qed.
End Pumping.

Lemma pumping_zero ef dt window express : pumping_express 0 ef dt window express = @Err (matrix R * bmatrix) ZeroDivisionError.
Proof.
  unfold pumping_express. replace (express_used 0 express) with 0%nat; [reflexivity|].
  unfold express_used. destruct (Nat.eqb_spec express 0); lia.
Qed.
(** Integer multipliers: the last one is negative for 12 pumps with express = 7. *)
Lemma multipliers_negative :
  @pumping_multipliers R _ 12 7 true DInt = [1; 2; 2; 2; 2; 2; 2; -1].
Proof. cbn -[IZR INR]. unfold nofN. rnum. cbn [Z.of_nat Pos.of_succ_nat Pos.succ map app]. reflexivity. Qed.
