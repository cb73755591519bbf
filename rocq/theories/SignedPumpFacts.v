(** * Negative express in trap pumping, and windows before the image in charge injection. *)
From Coq Require Import ZArith List Bool Reals Lia Lra.
From Verif Require Import Num Py RFacts CCDModel TrapsModel ManagerModel ROEModel ClockModel MainModel SignedModel SpecSigned ROEExpressFacts ClockFacts SignedFacts.
Import ListNotations.
Open Scope R_scope.

Definition same_but_kind (r r1 : roe R) : Prop := exists n n1 ef ef1 dwell dt eb f cs px,
  r = mkROE (Pumping n ef) dwell dt eb f cs px /\ r1 = mkROE (Pumping n1 ef1) dwell dt eb f cs px.
Lemma passes_same im c r r1 traps rows cols em mon sav : same_but_kind r r1 ->
  (do '(im', _) <- clock_passes im c r traps rows cols em mon sav; Ok im') = (do '(im', _) <- clock_passes im c r1 traps rows cols em mon sav; Ok im').
Proof.
  intros (n & n1 & ef & ef1 & dwell & dt & eb & f & cs & px & -> & ->). unfold clock_passes.
  change (max_n_transfers (mkROE (Pumping n ef) dwell dt eb f cs px) (length em)) with (max_n_transfers (mkROE (Pumping n1 ef1) dwell dt eb f cs px) (length em)).
  destruct (atm_init _ _ c) as [a|]; [|reflexivity]. cbn [bind].
  change (n_padding (mkROE (Pumping n ef) dwell dt eb f cs px)) with (n_padding (mkROE (Pumping n1 ef1) dwell dt eb f cs px)).
  destruct (n_padding _) as [k|]; [|reflexivity]. cbn [bind].
  change (clock_columns c (mkROE (Pumping n ef) dwell dt eb f cs px)) with (clock_columns c (mkROE (Pumping n1 ef1) dwell dt eb f cs px)).
  destruct (clock_columns _ _ _ _ _ _) as [[im' ?]|]; reflexivity.
Qed.
Lemma clock_same im (d : direction R) e e1 o traps rows cols tw (r r1 : roe R) n n1 ef ef1 : same_but_kind r r1 ->
  roe_kind_of r = Pumping n ef -> roe_kind_of r1 = Pumping n1 ef1 -> roe_dtype r = roe_dtype r1 ->
  pumping_express_signed n ef (roe_dtype r) rows e = pumping_express_signed n1 ef1 (roe_dtype r) rows e1 ->
  (do '(im', _) <- clock_signed im (mkSigned (with_roe d r) e o) r traps rows cols tw; Ok im') =
  (do '(im', _) <- clock_signed im (mkSigned (with_roe d r1) e1 o) r1 traps rows cols tw; Ok im').
Proof.
  intros H K K1 D E. unfold clock_signed, express_and_monitor_signed. cbn [s_rest s_express s_offset]. rewrite K, K1, <- D, E. clear E. destruct (pumping_express_signed _ _ _ _ _) as [[em mon]|]; [|reflexivity]. cbn [bind].
  assert (S : save_matrix_signed r rows em = save_matrix_signed r1 rows em) by (unfold save_matrix_signed, save_matrix; rewrite K, K1; reflexivity).
  rewrite S. destruct (save_matrix_signed r1 rows em); [|reflexivity]. cbn [bind d_ccd with_roe]. destruct (d_ccd d); [|reflexivity]. now apply passes_same.
Qed.
Lemma add_same im (d : direction R) e e1 o (s : signed_direction R) tw (r r1 : roe R) n n1 ef ef1 : same_but_kind r r1 ->
  roe_kind_of r = Pumping n ef -> roe_kind_of r1 = Pumping n1 ef1 -> roe_dtype r = roe_dtype r1 ->
  (forall rows, pumping_express_signed n ef (roe_dtype r) rows e = pumping_express_signed n1 ef1 (roe_dtype r) rows e1) ->
  image_of (add_cti_signed im (mkSigned (with_roe d r) e o) s tw) = image_of (add_cti_signed im (mkSigned (with_roe d r1) e1 o) s tw).
Proof.
  intros H K K1 D E. unfold add_cti_signed. cbn [s_rest s_offset d_window with_roe]. destruct (time_window_signed _ _ _ _) as [[tw' sc]|]; [|reflexivity]. cbn [bind].
  change (d_traps (with_roe d r)) with (d_traps d). change (d_traps (with_roe d r1)) with (d_traps d). change (the_roe (with_roe d r)) with r. change (the_roe (with_roe d r1)) with r1.
  set (rows := resolve_window _ _). set (cols := resolve_window _ _). destruct (d_traps d) as [traps|].
  - pose proof (clock_same im d e e1 o traps rows cols (Some tw') r r1 n n1 ef ef1 H K K1 D (E rows)) as Q.
    destruct (clock_signed im (mkSigned (with_roe d r) e o) r traps rows cols (Some tw')) as [[im1 ?]|]; destruct (clock_signed im (mkSigned (with_roe d r1) e1 o) r1 traps rows cols (Some tw')) as [[im2 ?]|]; try discriminate Q.
    + injection Q as ->. cbn [bind]. destruct (d_traps (s_rest s)); [|reflexivity]. destruct (clock_signed (transpose im2) _ _ _ _ _ _) as [[? ?]|]; reflexivity.
    + injection Q as ->. reflexivity.
  - cbn [bind]. destruct (d_traps (s_rest s)); [|reflexivity]. destruct (clock_signed (transpose im) _ _ _ _ _ _) as [[? ?]|]; reflexivity.
Qed.
(** A negative express leaves the first pump only. *)
Lemma pumping_made dwell n ef dt r : roe_pumping_init dwell n ef dt = Ok r ->
  exists cs px, r = mkROE (Pumping n ef) dwell dt true false cs px /\ cs = generate_clock_sequence false (length dwell) (Nat.div (length dwell) 2) /\ px = generate_pixels_accessed cs.
Proof. unfold roe_pumping_init. destruct (Nat.even _); [|discriminate]. intros H. injection H as <-. now do 2 eexists. Qed.
Lemma same_made dwell n n1 ef ef1 dt r r1 : roe_pumping_init dwell n ef dt = Ok r -> roe_pumping_init dwell n1 ef1 dt = Ok r1 -> same_but_kind r r1.
Proof.
  intros H H1. apply pumping_made in H as (cs & px & -> & -> & ->). apply pumping_made in H1 as (cs1 & px1 & -> & -> & ->). now do 10 eexists.
Qed.
Lemma one_pump n e dwell (r r1 : roe R) im d o s tw : (e < 0)%Z -> (2 <= n)%nat ->
  roe_pumping_init dwell n true DFloat = Ok r -> roe_pumping_init dwell 1 true DFloat = Ok r1 ->
  image_of (add_cti_signed im (mkSigned (with_roe d r) e o) s tw) = image_of (add_cti_signed im (mkSigned (with_roe d r1) 0 o) s tw).
Proof.
  intros He Hn H H1. apply (add_same im d e 0%Z o s tw r r1 n 1 true true (same_made _ _ _ _ _ _ _ _ H H1)).
  1-3: apply pumping_made in H as (? & ? & -> & _); apply pumping_made in H1 as (? & ? & -> & _); reflexivity.
  intros rows. apply pumping_made in H as (? & ? & -> & _). cbn [roe_dtype]. unfold pumping_express_signed, pumping_multipliers_signed.
  pose proof (negative_limited e (Z.of_nat n) He). destruct (Z.ltb_spec (express_limited e (Z.of_nat n)) 0); [|lia].
  replace (Nat.ltb 1 n) with true by (symmetry; apply Nat.ltb_lt; lia). cbn. change (Pos.to_nat 1) with 1%nat. cbn. rnum. now replace (1 / 1) with 1 by field.
Qed.
Lemma one_heap n e dwell (r r1 : roe R) im d o s tw : (e < 0)%Z -> (2 <= n)%nat ->
  roe_pumping_init dwell n true DInt = Ok r -> roe_pumping_init dwell n false DInt = Ok r1 ->
  image_of (add_cti_signed im (mkSigned (with_roe d r) e o) s tw) = image_of (add_cti_signed im (mkSigned (with_roe d r1) 1 o) s tw).
Proof.
  intros He Hn H H1. apply (add_same im d e 1%Z o s tw r r1 n n true false (same_made _ _ _ _ _ _ _ _ H H1)).
  1-3: apply pumping_made in H as (? & ? & -> & _); apply pumping_made in H1 as (? & ? & -> & _); reflexivity.
  intros rows. apply pumping_made in H as (? & ? & -> & _). cbn [roe_dtype]. unfold pumping_express_signed, pumping_multipliers_signed.
  pose proof (negative_limited e (Z.of_nat n) He). destruct (Z.ltb_spec (express_limited e (Z.of_nat n)) 0); [|lia].
  replace (Nat.ltb 1 n) with true by (symmetry; apply Nat.ltb_lt; lia). cbn [andb].
  replace (express_limited 1 (Z.of_nat n)) with 1%Z by (unfold express_limited; cbn; lia). cbn [Z.ltb Z.compare Z.eqb]. unfold pumping_multipliers. cbn [andb]. change (Z.to_nat 1) with 1%nat. cbn [repeat last removelast map app list_sum fold_right].
  assert (Q : round_half_even n 1 = n) by (unfold round_half_even; rewrite Nat.div_1_r, Nat.mod_1_r; reflexivity).
  rewrite Q. unfold list_sum. cbn [fold_right]. now replace (Z.of_nat n + (Z.of_nat n - Z.of_nat (n + 0)))%Z with (Z.of_nat n) by lia.
Qed.

(** ** Windows before the image *)
Lemma upd_same {A} (l : list A) j d : upd l j (nth j l d) = l.
Proof. revert j. induction l as [|a l IH]; intros [|j]; [reflexivity..|cbn; now rewrite IH]. Qed.
Lemma set_same (im : image R) j : set_column im j (get_column im j) = im.
Proof.
  unfold set_column, get_column. induction im as [|row im IH]; [reflexivity|]. cbn [map combine]. rewrite IH. f_equal. apply upd_same.
Qed.
Lemma nothing_column (c : ccd R) r window passes : Forall (fun cells => cells = []) passes -> forall st, exists a, clock_column c r window passes st = Ok (fst st, a).
Proof.
  unfold clock_column. induction 1 as [|cells passes -> _ IH]; intros [column a]; [now exists a|]. cbn [foldM]. unfold clock_pass_rows. cbn. apply (IH (column, atm_restore a)).
Qed.
Lemma nothing_columns (c : ccd R) r window passes : Forall (fun cells => cells = []) passes -> forall columns im a,
  Forall (fun j => (0 <= j < Z.of_nat (n_columns im))%Z) columns -> exists a', clock_columns c r window columns passes (im, a) = Ok (im, a').
Proof.
  intros H columns im. unfold clock_columns. induction columns as [|j columns IH]; intros a Hc; [now exists a|]. inversion_clear Hc. cbn [foldM]. unfold clock_one_column at 1.
  destruct (Z.leb_spec 0 j); [|lia]. destruct (Z.ltb_spec j (Z.of_nat (n_columns im))); [|lia]. cbn [andb]. destruct (nothing_column c r window passes H (get_column im (Z.to_nat j), a)) as [a1 ->]. cbn [bind fst].
  rewrite set_same. now apply IH.
Qed.
Lemma unpad_pad (im : image R) k : unpad (pad im k) k = im.
Proof. unfold unpad, pad. rewrite app_length, repeat_length. replace (length im + k - k)%nat with (length im) by lia. rewrite firstn_app, Nat.sub_diag, firstn_all. cbn. apply app_nil_r. Qed.
Lemma pad_columns (im : image R) k : (0 < length im)%nat -> n_columns (pad im k) = n_columns im.
Proof. destruct im; [cbn; lia|reflexivity]. Qed.
Lemma injected_nowhere n (c : ccd R) traps window columns e o tw im (r : roe R) a k : roe_kind_of r = Injection (Some n) -> roe_dtype r = DFloat -> (0 < n)%nat -> (0 <= e)%Z ->
  py_max window = Ok (-1)%Z -> (tw = None \/ exists w, tw = Some w /\ w <> []) -> (0 < length im)%nat -> Forall (fun j => (0 <= j < Z.of_nat (n_columns im))%Z) columns ->
  atm_init traps 0 c = Ok a -> n_padding r = Ok k ->
  forall d, d_ccd d = Some c -> clock_signed im (mkSigned d e o) r traps window columns tw = Ok (im, r).
Proof.
  intros Kr Dr Hn He Hm Ht Hi Hc Ha Hk d Hd. unfold clock_signed, express_and_monitor_signed. rewrite Kr. unfold injection_express_signed. rewrite Hm, Dr. cbn [bind s_express s_offset s_rest].
  change (-1 + 1)%Z with 0%Z. set (u := express_limited e (Z.of_nat n)). assert (Hu : (0 < u)%Z) by (unfold u, express_limited; destruct (Z.eqb_spec e 0); lia).
  destruct (Z.ltb_spec u 0); [lia|]. cbn [orb Z.ltb Z.compare]. destruct (Z.eqb_spec u 0); [lia|]. change (Z.to_nat 0) with 0%nat. cbn [repeat].
  set (em := repeat ([] : list R) (Z.to_nat u)). assert (Q : restrict_time_span em tw = Ok em).
  { destruct Ht as [->|(w & -> & Hw)]; [reflexivity|]. unfold restrict_time_span.
    assert (P0 : exists f, py_index w 0 = Ok f). { destruct w as [|f w]; [contradiction|]. exists f. reflexivity. }
    assert (P1 : exists f, py_index w (-1) = Ok f).
    { unfold py_index. change (-1 <? 0)%Z with true. cbv iota. assert (length w <> 0%nat) by (destruct w; [contradiction|discriminate]).
      destruct (Z.leb_spec 0 (-1 + Z.of_nat (length w))); [|lia]. destruct (Z.ltb_spec (-1 + Z.of_nat (length w)) (Z.of_nat (length w))); [|lia]. cbn [andb].
      destruct (nth_error w _) as [f|] eqn:E; [now exists f|]. apply nth_error_None in E. lia. }
    destruct P0 as [f ->]. destruct P1 as [l ->]. cbn [bind]. f_equal. unfold em. destruct (Z.to_nat u) as [|m]; [reflexivity|]. cbn [repeat cumsum0 map diff0]. f_equal.
    induction m as [|m IH]; [reflexivity|]. cbn. f_equal. exact IH. }
  rewrite Q. cbn [bind]. replace (mkROE (Injection (Some (Z.to_nat (Z.of_nat n)))) (roe_dwell_times r) DFloat (roe_empty_between r) (roe_force r) (roe_clock_sequence r) (roe_pixels r)) with r
    by (rewrite Nat2Z.id; destruct r; cbn in *; subst; reflexivity).
  unfold save_matrix_signed. rewrite Kr. unfold save_matrix. rewrite Kr. cbn [bind]. rewrite Hd. unfold clock_passes.
  assert (M : max_n_transfers r (length em) (match em with [] => 0%nat | row :: _ => length row end) = 0%nat).
  { unfold max_n_transfers. rewrite Kr. unfold em. destruct (Z.to_nat u); reflexivity. }
  rewrite M, Ha. cbn [bind]. rewrite Hk. cbn [bind].
  destruct (nothing_columns c r window (map (fun '(e0, (m, s)) => zip_cells e0 m s) (combine em (combine (positive_mask em) (injection_save em)))) ) with (columns := columns) (im := pad im k) (a := a) as [a' ->].
  - unfold em. clear. induction (Z.to_nat u) as [|m IH]; [constructor|]. constructor; [reflexivity|exact IH].
  - rewrite pad_columns by exact Hi. exact Hc.
  - cbn [bind]. now rewrite unpad_pad.
Qed.
Lemma mapM_each {A B} (f : A -> result B) l : (forall a, In a l -> exists b, f a = Ok b) -> exists bs, mapM f l = Ok bs.
Proof.
  induction l as [|a l IH]; intros H; [now eexists|]. destruct (H a (or_introl eq_refl)) as [b Eb]. destruct IH as [bs E]; [intros x Hx; apply H; now right|]. cbn [mapM]. rewrite Eb. cbn [bind]. rewrite E. now eexists.
Qed.
Lemma atm_one (c : ccd R) t k : ccd_n_phases c = length (ccd_fractions c) -> exists a, atm_init (TOne t) k c = Ok a.
Proof.
  intros H. unfold atm_init. cbn [normalise_traps bind]. match goal with |- context [mapM ?f (seq 0 _)] => destruct (mapM_each f (seq 0 (ccd_n_phases c))) as [bs E] end.
  - intros i Hi. apply in_seq in Hi. cbn [mapM kind_of_group bind]. destruct (nth_error (ccd_fractions c) i) eqn:E; [|apply nth_error_None in E; lia]. now eexists.
  - exists (mkATM bs None n0 n0). cbv zeta. rewrite E. reflexivity.
Qed.

Lemma no_multipliers {F} {num : Num F} (n : nat) e ef dt window : (e < 0)%Z -> (ef = false \/ (n < 2)%nat) ->
  pumping_express_signed n ef dt window e = match dt with DFloat => Ok ([], []) | DInt => Err IndexError end.
Proof.
  intros He Hn. unfold pumping_express_signed, pumping_multipliers_signed.
  pose proof (negative_limited e (Z.of_nat n) He). destruct (Z.ltb_spec (express_limited e (Z.of_nat n)) 0); [|lia].
  replace (ef && Nat.ltb 1 n)%bool with false; [|symmetry; destruct Hn as [->|Hn]; [reflexivity|destruct (Nat.ltb_spec 1 n); [lia|now destruct ef]]].
  destruct dt; [reflexivity|]. cbn [bind map].
  replace (flat_map _ _) with (@nil (list F)); [reflexivity|]. symmetry. induction (seq 0 (length window)) as [|x l IH]; [reflexivity|exact IH].
Qed.
Lemma no_special_pump {F} {num : Num F} (n : nat) e dwell ef dt (r : roe F) im d traps o s row rows :
  (e < 0)%Z -> (ef = false \/ (n < 2)%nat) -> roe_pumping_init dwell n ef dt = Ok r ->
  d_traps d = Some traps -> resolve_window (d_window d) (length im) = row :: rows ->
  add_cti_signed im (mkSigned (with_roe d r) e o) s None = Err IndexError.
Proof.
  intros He Hn H Ht Hw. unfold roe_pumping_init in H. destruct (Nat.even _); [|discriminate].
  assert (K : roe_kind_of r = Pumping n ef /\ roe_dtype r = dt) by (injection H as <-; now split). destruct K as [K1 K2]. clear H.
  unfold add_cti_signed. cbn [s_rest s_offset with_roe d_window d_traps time_window_signed bind]. rewrite Ht, Hw.
  assert (E : forall wc tw, clock_signed im (mkSigned (with_roe d r) e o) (the_roe (with_roe d r)) traps (row :: rows) wc tw = Err IndexError).
  { intros wc tw. unfold clock_signed. change (the_roe (with_roe d r)) with r. cbn [s_express s_offset]. unfold express_and_monitor_signed. rewrite K1, K2, (no_multipliers n e ef dt _ He Hn).
    destruct dt; cbn [bind]; [reflexivity|unfold save_matrix_signed; rewrite K1; reflexivity]. }
  unfold with_roe in *. rewrite E. reflexivity.
Qed.
