(** * Proofs about negative numbers of pumps and of pixel transfers. *)
From Coq Require Import ZArith List Bool Lia.
From Verif Require Import Num Py CCDModel TrapsModel ManagerModel ROEModel ClockModel MainModel SignedModel SpecSigned SpecImage CountModel SpecCount SignedFacts.
Import ListNotations.
Section Counts.
Context {F : Type} {num : Num F}.

Lemma express_counted count r window e o tw : counts r count ->
  express_and_monitor_signed (F:=F) r window e o tw = do '(em, mon) <- express_and_monitor_counted count r window e o tw; Ok (r, em, mon).
Proof.
  destruct r as [k dw dt eb fr cs px]. unfold counts, express_and_monitor_signed, express_and_monitor_counted. cbn [roe_kind_of roe_dtype].
  destruct k as [ef|[n|]|n ef]; intros H; try contradiction.
  - reflexivity.
  - subst count. unfold injection_express_signed, injection_express_counted. destruct (py_max window) as [m|x]; cbn [bind]; [|reflexivity].
    destruct (_ || _)%bool; [reflexivity|]. destruct (_ =? _)%Z; [reflexivity|]. destruct dt; [reflexivity|].
    destruct (restrict_time_span _ _) as [rs|x]; cbn [bind]; [|reflexivity]. rewrite Nat2Z.id. reflexivity.
  - subst count. unfold pumping_express_signed, pumping_express_counted, pumping_multipliers_counted.
    replace (Z.of_nat n <? 0)%Z with false by (symmetry; apply Z.ltb_ge; lia). rewrite Nat2Z.id. reflexivity.
Qed.
Lemma clock_counts count im (d : signed_direction F) r traps rows cols tw : counts r count ->
  clock_counted count im d r traps rows cols tw = do '(im', _) <- clock_signed im d r traps rows cols tw; Ok im'.
Proof.
  intros H. unfold clock_signed, clock_counted. rewrite (express_counted count) by exact H.
  destruct (express_and_monitor_counted count r rows (s_express d) (s_offset d) tw) as [[em mon]|x]; cbn [bind]; [|reflexivity].
  destruct (save_matrix_signed r rows em) as [sav|x]; cbn [bind]; [|reflexivity]. destruct (d_ccd (s_rest d)); reflexivity.
Qed.
Lemma add_counts im (p s : signed_direction F) cp cs tw : counts (the_roe (s_rest p)) cp -> counts (the_roe (s_rest s)) cs ->
  add_cti_counted im p s cp cs tw = image_of (add_cti_signed im p s tw).
Proof.
  intros Hp Hs. unfold add_cti_counted, add_cti_signed. destruct (time_window_signed _ _ _ _) as [[t cols]|x]; cbn [bind]; [|reflexivity].
  assert (G : forall im1 pr, (match d_traps (s_rest s) with None => Ok im1 | Some traps => do im2 <- clock_counted cs (transpose im1) s (the_roe (s_rest s)) traps (resolve_window (d_window (s_rest s)) (n_columns im)) cols None; Ok (transpose im2) end)
    = image_of (do '(im2, serial_roe) <- match d_traps (s_rest s) with None => Ok (im1, the_roe (s_rest s)) | Some traps => do '(im2, r) <- clock_signed (transpose im1) s (the_roe (s_rest s)) traps (resolve_window (d_window (s_rest s)) (n_columns im)) cols None; Ok (transpose im2, r) end; Ok (im2, pr, serial_roe))).
  { intros im1 pr. destruct (d_traps (s_rest s)) as [traps|]; [|reflexivity]. rewrite clock_counts by exact Hs.
    destruct (clock_signed _ _ _ _ _ _ _) as [[im2 r]|x]; reflexivity. }
  destruct (d_traps (s_rest p)) as [traps|]; cbn [bind].
  - rewrite clock_counts by exact Hp. destruct (clock_signed im _ _ _ _ _ _) as [[im1 r]|x]; cbn [bind]; [apply G|reflexivity].
  - apply G.
Qed.

(** ** Refused *)
Lemma injection_refuses count im (d : signed_direction F) r npt traps rows cols tw : (count < 0)%Z -> roe_kind_of r = Injection npt ->
  clock_counted count im d r traps rows cols tw = Err ValueError.
Proof.
  intros Hc Hk. unfold clock_counted, express_and_monitor_counted. rewrite Hk. unfold injection_express_counted.
  replace (express_limited (s_express d) count <? 0)%Z with true.
  2:{ symmetry. apply Z.ltb_lt. unfold express_limited. destruct (_ =? _)%Z; lia. }
  destruct rows; reflexivity.
Qed.
Lemma pumping_refuses count im (d : signed_direction F) r n ef traps i rows cols tw : (count < 0)%Z -> roe_kind_of r = Pumping n ef ->
  clock_counted count im d r traps (i :: rows) cols tw = Err IndexError.
Proof.
  intros Hc Hk. unfold clock_counted, express_and_monitor_counted. rewrite Hk. unfold pumping_express_counted, pumping_multipliers_counted.
  replace (count <? 0)%Z with true by (symmetry; now apply Z.ltb_lt). destruct (roe_dtype r); cbn [bind]; [reflexivity|].
  replace (flat_map _ _) with (@nil (list F)).
  - unfold save_matrix_signed. rewrite Hk. reflexivity.
  - generalize (seq 0 (length (i :: rows))) at 2. intros l. induction l as [|j l IH]; [reflexivity|exact IH].
Qed.
End Counts.
