(** * Calls with negative numbers. *)
From Coq Require Import ZArith List Bool Lia.
From Verif Require Import Num Py CCDModel TrapsModel ManagerModel ROEModel ClockModel MainModel SignedModel SpecSigned ROEExpressFacts ClockFacts.
Import ListNotations.

Lemma py_from_nat {A} (l : list A) o : py_from l (Z.of_nat o) = skipn o l.
Proof. unfold py_from. destruct (Z.ltb_spec (Z.of_nat o) 0); [lia|]. now rewrite Nat2Z.id. Qed.
Lemma express_limited_nat e n : express_limited (Z.of_nat e) (Z.of_nat n) = Z.of_nat (express_used n e).
Proof.
  unfold express_limited, express_used. destruct (Nat.eqb_spec e 0); destruct (Z.eqb_spec (Z.of_nat e) 0); try lia.
Qed.
Lemma ltb_nat a b : (Z.of_nat a <? Z.of_nat b)%Z = Nat.ltb a b.
Proof. destruct (Z.ltb_spec (Z.of_nat a) (Z.of_nat b)); destruct (Nat.ltb_spec a b); lia || reflexivity. Qed.

Section Facts.
Context {F : Type} {num : Num F}.
Lemma select_from_nat {A} o w (m : list (list A)) : select_from (Z.of_nat o) w m = select_columns o w m.
Proof. unfold select_from, select_columns. induction m as [|r m IH]; [reflexivity|]. cbn [mapM]. now rewrite py_from_nat, IH. Qed.
Lemma forward_max w n m : window_forward w -> py_max (resolve_window w n) = Ok m -> (0 <= m)%Z.
Proof.
  intros H E. apply max_in_window in E as [Hi Hm]. rewrite Forall_forall in Hm. destruct w as [|i|l]; cbn in *.
  - apply py_range_in in Hi. lia.
  - apply py_range_in in Hi. lia.
  - destruct H as [->|(i & Hi' & Hp)]; [destruct Hi|]. specialize (Hm _ Hi'). lia.
Qed.
Lemma standard_signed ef dt window e o tw : (forall m, py_max window = Ok m -> (0 <= m)%Z) ->
  standard_express_signed ef dt window (Z.of_nat e) (Z.of_nat o) tw = standard_express (F:=F) ef dt window e o tw.
Proof.
  intros H. unfold standard_express_signed, standard_express, n_pixels_of_window. destruct (py_max window) as [m|]; [|reflexivity]. cbn [bind].
  specialize (H m eq_refl). destruct (Z.ltb_spec m 0); [lia|]. cbn [bind]. remember (Z.to_nat (m + 1)) as k eqn:Ek. replace (m + 1)%Z with (Z.of_nat k) by lia. assert (Hk : (0 < k)%nat) by lia.
  rewrite <- Nat2Z.inj_add, express_limited_nat, ltb_nat. assert (Ht : (0 < k + o)%nat) by lia. assert (Hu : (0 < express_used (k + o) e)%nat).
  { unfold express_used. destruct (Nat.eqb_spec e 0); lia. }
  unfold standard_full_matrix. set (u := express_used (k + o) e) in *. clearbody u.
  set (b := (ef && Nat.ltb u k)%bool). replace (if b then (Z.of_nat k - 1)%Z else Z.of_nat k) with (Z.of_nat (if b then (k - 1)%nat else k)) by (destruct b; lia).
  rewrite <- Nat2Z.inj_add. destruct (Z.ltb_spec (Z.of_nat u) 0); [lia|]. destruct (Z.ltb_spec (Z.of_nat ((if b then (k - 1)%nat else k) + o)) 0); [lia|]. cbn [orb].
  destruct (Z.eqb_spec (Z.of_nat u) 0); [lia|]. rewrite !Nat2Z.id, ltb_nat, !select_from_nat. destruct (select_columns o window _) as [mon|]; [|reflexivity]. cbn [bind].
  destruct (restrict_time_span _ tw) as [rm|]; [|reflexivity]. cbn [bind]. now rewrite select_from_nat.
Qed.
Lemma injection_signed npt dt window e o tw : (forall m, py_max window = Ok m -> (0 <= m)%Z) ->
  injection_express_signed npt dt window (Z.of_nat e) (Z.of_nat o) tw = injection_express (F:=F) npt dt window e o tw.
Proof.
  intros H. unfold injection_express_signed, injection_express, n_pixels_of_window. destruct (py_max window) as [m|]; [|reflexivity]. cbn [bind].
  specialize (H m eq_refl). destruct (Z.ltb_spec m 0); [lia|]. cbn [bind]. remember (Z.to_nat (m + 1)) as k eqn:Ek. replace (m + 1)%Z with (Z.of_nat k) by lia.
  set (n := match npt with Some n => n | None => (k + o)%nat end). replace (match npt with Some n0 => Z.of_nat n0 | None => (Z.of_nat k + Z.of_nat o)%Z end) with (Z.of_nat n) by (unfold n; destruct npt; lia).
  rewrite express_limited_nat. set (u := express_used n e). destruct (Z.ltb_spec (Z.of_nat u) 0); [lia|]. destruct (Z.ltb_spec (Z.of_nat k) 0); [lia|]. cbn [orb].
  destruct (Z.eqb_spec (Z.of_nat u) 0); destruct (Nat.eqb_spec u 0); try lia; [reflexivity|]. rewrite !Nat2Z.id. reflexivity.
Qed.
Lemma pumping_signed n ef dt window e : pumping_express_signed n ef dt window (Z.of_nat e) = pumping_express (F:=F) n ef dt window e.
Proof.
  unfold pumping_express_signed, pumping_express. rewrite express_limited_nat. set (u := express_used n e). unfold pumping_multipliers_signed.
  destruct (Z.ltb_spec (Z.of_nat u) 0); [lia|]. destruct (Z.eqb_spec (Z.of_nat u) 0); destruct (Nat.eqb_spec u 0); try lia; [reflexivity|]. rewrite Nat2Z.id. reflexivity.
Qed.
Lemma express_signed r window e o tw : (forall m, py_max window = Ok m -> (0 <= m)%Z) ->
  express_and_monitor_signed r window (Z.of_nat e) (Z.of_nat o) tw = express_and_monitor (F:=F) r window e o tw.
Proof.
  intros H. unfold express_and_monitor_signed, express_and_monitor. destruct (roe_kind_of r).
  - now rewrite standard_signed.
  - now rewrite injection_signed.
  - now rewrite pumping_signed.
Qed.
Lemma kind_after r window e o tw r' em mon : express_and_monitor (F:=F) r window e o tw = Ok (r', em, mon) ->
  match roe_kind_of r' with Pumping n ef => pumping_express n ef (roe_dtype r) window e = Ok (em, mon) | _ => True end.
Proof.
  unfold express_and_monitor. destruct (roe_kind_of r) eqn:E.
  - destruct (standard_express _ _ _ _ _ _) as [[? ?]|]; [|discriminate]. intros Q. injection Q as <- _ _. now rewrite E.
  - destruct (injection_express _ _ _ _ _ _) as [[[? ?] ?]|]; [|discriminate]. intros Q. injection Q as <- _ _. exact I.
  - destruct (pumping_express _ _ _ _ _) as [[? ?]|] eqn:Q1; [|discriminate]. intros Q. injection Q as <- <- <-. now rewrite E.
Qed.
Lemma counted_ne n u ef dt : (0 < u)%nat -> @pumping_multipliers F num n u ef dt <> [].
Proof.
  intros Hu. unfold pumping_multipliers. destruct dt.
  - intros Q. apply app_eq_nil in Q as [_ Q]. discriminate.
  - destruct (_ && _ && _)%bool; [discriminate|]. destruct u; [lia|discriminate].
Qed.
Lemma save_signed r window e o tw r' em mon : express_and_monitor (F:=F) r window e o tw = Ok (r', em, mon) -> save_matrix_signed r' window em = save_matrix r' em.
Proof.
  intros H. apply kind_after in H. unfold save_matrix_signed. destruct (roe_kind_of r') as [| |n ef] eqn:Er; [reflexivity..|]. destruct em as [|row em]; [|reflexivity]. destruct window as [|i window]; [reflexivity|exfalso].
  unfold pumping_express in H. destruct (Nat.eqb_spec (express_used n e) 0); [discriminate|].
  destruct (pumping_multipliers n (express_used n e) ef (roe_dtype r)) eqn:Em; [refine (counted_ne n (express_used n e) ef (roe_dtype r) _ Em); lia|]. discriminate H.
Qed.
Lemma clock_agrees im (d : direction F) r traps rows cols tw : (forall m, py_max rows = Ok m -> (0 <= m)%Z) ->
  clock_signed im (signed d) r traps rows cols tw = clock_direction im d r traps rows cols tw.
Proof.
  intros H. unfold clock_signed, clock_direction, signed. cbn [s_express s_offset s_rest]. rewrite express_signed by exact H.
  destruct (d_ccd d) as [c|].
  - unfold clock_charge_in_one_direction. destruct (express_and_monitor r rows (d_express d) (d_offset d) tw) as [[[r' em] mon]|] eqn:E; [|reflexivity]. cbn [bind].
    rewrite (save_signed _ _ _ _ _ _ _ _ E). reflexivity.
  - destruct (express_and_monitor r rows (d_express d) (d_offset d) tw) as [[[r' em] mon]|] eqn:E; [|reflexivity]. cbn [bind].
    rewrite (save_signed _ _ _ _ _ _ _ _ E). reflexivity.
Qed.
Lemma window_agrees tw pw n o : time_window_signed tw pw n (Z.of_nat o) = resolve_time_window tw pw n o.
Proof. unfold time_window_signed, resolve_time_window. destruct tw; [reflexivity|]. now rewrite Nat2Z.inj_add. Qed.
Lemma add_agrees im (p s : direction F) tw : window_forward (d_window p) -> window_forward (d_window s) ->
  add_cti_signed im (signed p) (signed s) tw = add_cti im p s tw.
Proof.
  intros Hp Hs. unfold add_cti_signed, add_cti. change (s_rest (signed p)) with p. change (s_rest (signed s)) with s. change (s_offset (signed p)) with (Z.of_nat (d_offset p)). rewrite window_agrees.
  destruct (resolve_time_window _ _ _ _) as [[tw' sc]|]; [|reflexivity]. cbn [bind].
  assert (E : match d_traps p with None => Ok (im, the_roe p) | Some traps => clock_signed im (signed p) (the_roe p) traps (resolve_window (d_window p) (length im)) (resolve_window (d_window s) (n_columns im)) (Some tw') end =
              match d_traps p with None => Ok (im, the_roe p) | Some traps => clock_direction im p (the_roe p) traps (resolve_window (d_window p) (length im)) (resolve_window (d_window s) (n_columns im)) (Some tw') end).
  { destruct (d_traps p); [|reflexivity]. apply clock_agrees. intros m. now apply forward_max. }
  rewrite E. clear E. destruct (match d_traps p with None => _ | Some _ => _ end) as [[im1 pr]|]; [|reflexivity]. cbn [bind].
  destruct (d_traps s); [|reflexivity]. rewrite clock_agrees; [reflexivity|]. intros m. now apply forward_max.
Qed.
Lemma keep_agrees (d : direction F) r : keep_signed (signed d) r = signed (keep_roe d r).
Proof. unfold keep_signed, signed. cbn. unfold keep_roe. destruct (d_roe d); reflexivity. Qed.
Lemma keep_window (d : direction F) r : d_window (keep_roe d r) = d_window d.
Proof. unfold keep_roe. destruct (d_roe d); reflexivity. Qed.
Lemma remove_agrees im n (p s : direction F) tw : window_forward (d_window p) -> window_forward (d_window s) ->
  remove_cti_signed im n (signed p) (signed s) tw = remove_cti im n p s tw.
Proof.
  intros Hp Hs. unfold remove_cti_signed, remove_cti. generalize im at 2 4. revert p s Hp Hs. induction n as [|n IH]; intros p s Hp Hs est; [reflexivity|].
  cbn [remove_cti_signed_loop remove_cti_loop]. rewrite add_agrees by assumption. destruct (add_cti est p s tw) as [[[added pr] sr]|]; [|reflexivity]. cbn [bind].
  rewrite !keep_agrees. apply IH; now rewrite keep_window.
Qed.

(** ** Negative express *)
Lemma negative_limited e n : (e < 0)%Z -> (express_limited e n < 0)%Z.
Proof. intros H. unfold express_limited. destruct (Z.eqb_spec e 0); lia. Qed.
Lemma standard_negative ef dt window e o tw : (e < 0)%Z -> standard_express_signed (F:=F) ef dt window e o tw = Err ValueError.
Proof.
  intros H. unfold standard_express_signed. destruct (py_max window) as [m|] eqn:E; [|destruct window; [injection E as <-; reflexivity|discriminate]]. cbn [bind].
  pose proof (negative_limited e (m + 1 + o) H). destruct (Z.ltb_spec (express_limited e (m + 1 + o)) 0); [reflexivity|lia].
Qed.
Lemma injection_negative npt dt window e o tw : (e < 0)%Z -> injection_express_signed (F:=F) npt dt window e o tw = Err ValueError.
Proof.
  intros H. unfold injection_express_signed. destruct (py_max window) as [m|] eqn:E; [|destruct window; [injection E as <-; reflexivity|discriminate]]. cbn [bind].
  pose proof (negative_limited e (match npt with Some n => Z.of_nat n | None => (m + 1 + o)%Z end) H). destruct (Z.ltb_spec (express_limited e (match npt with Some n => Z.of_nat n | None => (m + 1 + o)%Z end)) 0); [reflexivity|lia].
Qed.
Lemma clock_negative im (d : signed_direction F) traps rows cols tw : (s_express d < 0)%Z -> not_pumping (s_rest d) ->
  clock_signed im d (the_roe (s_rest d)) traps rows cols tw = Err ValueError.
Proof.
  intros H N. unfold clock_signed, express_and_monitor_signed. unfold not_pumping in N. destruct (roe_kind_of (the_roe (s_rest d))); [| |contradiction].
  - now rewrite standard_negative.
  - now rewrite injection_negative.
Qed.

(** ** Negative offset *)
Lemma py_from_length {A} (l : list A) o : (o < 0)%Z -> (Z.of_nat (length (py_from l o)) <= - o)%Z.
Proof. intros H. unfold py_from. destruct (Z.ltb_spec o 0); [|lia]. rewrite skipn_length. lia. Qed.
Lemma mapM_has_err {A B} (f : A -> result B) l x : In x l -> (exists e, f x = Err e) -> exists e, mapM f l = Err e.
Proof.
  intros Hx [e0 He0]. induction l as [|a l IH]; [destruct Hx|]. cbn [mapM]. destruct Hx as [->|Hx]; [exists e0; now rewrite He0|].
  destruct (IH Hx) as [e E]. destruct (f a) as [b|e1]; [|now exists e1]. cbn [bind]. rewrite E. now exists e.
Qed.
Lemma index_err {A} (l : list A) i : (Z.of_nat (length l) <= i)%Z -> py_index l i = Err IndexError.
Proof. intros H. unfold py_index. destruct (Z.ltb_spec i 0); [lia|]. destruct (Z.ltb_spec i (Z.of_nat (length l))); [lia|]. now rewrite andb_false_r. Qed.
Lemma insert_length (big small : matrix F) : length (insert_small big small) = length big.
Proof.
  unfold insert_small. generalize big at 1. intros m. enough (G : forall m', length (fold_left (fun m0 row => match nth_error m (n_positive row) with Some (h :: t) => upd m0 (n_positive row) (h :: row_add t row) | _ => m0 end) small m') = length m') by apply G.
  induction small as [|row small IH]; intros m'; [reflexivity|]. cbn [fold_left]. rewrite IH. destruct (nth_error m (n_positive row)) as [[|h t]|]; [reflexivity| |reflexivity].
  generalize (n_positive row). clear. intros i. generalize (h :: row_add t row). intros x. revert i. induction m' as [|y m' IH]; intros [|i]; cbn; auto.
Qed.
Lemma standard_negative_offset ef dt window e o tw : (o < 0)%Z -> exists x, standard_express_signed (F:=F) ef dt window e o tw = Err x.
Proof.
  intros Ho. unfold standard_express_signed. destruct (py_max window) as [m|x] eqn:Em; [|now exists x]. cbn [bind]. set (u := express_limited e (m + 1 + o)).
  set (k := if (ef && (u <? m + 1)%Z)%bool then (m + 1 - 1)%Z else (m + 1)%Z). destruct ((u <? 0) || (k + o <? 0))%Z eqn:E1; [now eexists|]. destruct (Z.eqb_spec u 0) as [|Hu]; [now eexists|].
  apply orb_false_iff in E1 as [E1 E2]. apply Z.ltb_ge in E1, E2. assert (Hm : (- o <= m)%Z).
  { unfold u, express_limited in *. destruct (Z.eqb_spec e 0); lia. }
  set (em := if (ef && (u <? k)%Z)%bool then _ else _). assert (Hem : exists row rest, em = row :: rest).
  { assert (length em <> 0%nat); [|destruct em; [contradiction|now do 2 eexists]]. unfold em. destruct (ef && (u <? k)%Z)%bool.
    - rewrite insert_length. unfold flipud_identity. rewrite map_length, seq_length. discriminate.
    - unfold plain_matrix. rewrite map_length, seq_length. lia. }
  destruct Hem as (row & rest & ->). apply max_in_window in Em as [Hi _].
  destruct (mapM_has_err (fun r : list bool => mapM (py_index (py_from r o)) window) (positive_mask (row :: rest)) (map (fun x => n0 <? x)%num row) (or_introl eq_refl)) as [x Ex].
  - apply (mapM_has_err _ _ m Hi). exists IndexError. apply index_err. pose proof (py_from_length (map (fun x => n0 <? x)%num row) o Ho). lia.
  - exists x. unfold select_from at 1. now rewrite Ex.
Qed.
(** A window that lies before the image altogether. *)
Lemma index_nil {A} i : @py_index A [] i = Err IndexError.
Proof. unfold py_index. cbn [length Z.of_nat]. destruct (Z.ltb_spec i 0); [rewrite Z.add_0_r|]; (destruct (Z.leb_spec 0 i); destruct (Z.ltb_spec i 0); try lia; reflexivity). Qed.
Lemma standard_behind ef dt window e o tw m : py_max window = Ok m -> (m < 0)%Z -> exists x, standard_express_signed (F:=F) ef dt window e o tw = Err x.
Proof.
  intros Em Hm. destruct (Z.ltb_spec o 0) as [Ho|Ho]; [now apply standard_negative_offset|]. unfold standard_express_signed. rewrite Em. cbn [bind]. set (u := express_limited e (m + 1 + o)).
  destruct (Z.ltb_spec u 0) as [|Hu]; [now eexists|]. cbn [orb]. replace (u <? m + 1)%Z with false by (symmetry; apply Z.ltb_ge; lia). rewrite andb_false_r.
  destruct (m + 1 + o <? 0)%Z eqn:E2; [now eexists|]. apply Z.ltb_ge in E2. destruct (Z.eqb_spec u 0) as [|Hu0]; [now eexists|].
  replace (u <? m + 1)%Z with false by (symmetry; apply Z.ltb_ge; lia). rewrite andb_false_r. set (n := Z.to_nat (m + 1 + o)). destruct (Z.to_nat u) as [|k] eqn:Ek; [lia|].
  apply max_in_window in Em as [Hi _]. unfold plain_matrix. cbn [seq map positive_mask].
  set (row := map _ (seq 0 n)). destruct (mapM_has_err (fun r : list bool => mapM (py_index (py_from r o)) window) (positive_mask (row :: map (fun e0 => map (plain_entry (max_multiplier dt n (S k)) e0) (seq 0 n)) (seq 1 k))) (map (fun x => n0 <? x)%num row) (or_introl eq_refl)) as [x Ex].
  - apply (mapM_has_err _ _ m Hi). exists IndexError. replace (py_from (map (fun x => n0 <? x)%num row) o) with (@nil bool); [apply index_nil|]. symmetry. unfold py_from. destruct (Z.ltb_spec o 0); [lia|].
    apply skipn_all2. rewrite map_length. unfold row. rewrite map_length, seq_length. unfold n. lia.
  - exists x. unfold select_from at 1. unfold positive_mask in Ex. cbn [map] in Ex. now rewrite Ex.
Qed.
Lemma clock_negative_offset im (d : signed_direction F) traps rows cols tw : (s_offset d < 0)%Z -> standard_readout (s_rest d) ->
  exists x, clock_signed im d (the_roe (s_rest d)) traps rows cols tw = Err x.
Proof.
  intros H N. unfold clock_signed, express_and_monitor_signed. unfold standard_readout in N. destruct (roe_kind_of (the_roe (s_rest d))); [|contradiction..].
  destruct (standard_negative_offset empty_traps_for_first_transfers (roe_dtype (the_roe (s_rest d))) rows (s_express d) (s_offset d) tw H) as [x E]. exists x. now rewrite E.
Qed.
Lemma clock_behind im (d : signed_direction F) traps rows cols tw : (forall i, In i rows -> (i < 0)%Z) -> standard_readout (s_rest d) ->
  exists x, clock_signed im d (the_roe (s_rest d)) traps rows cols tw = Err x.
Proof.
  intros H N. unfold clock_signed, express_and_monitor_signed. unfold standard_readout in N. destruct (roe_kind_of (the_roe (s_rest d))); [|contradiction..].
  destruct (py_max rows) as [m|x] eqn:Em.
  - destruct (standard_behind empty_traps_for_first_transfers (roe_dtype (the_roe (s_rest d))) rows (s_express d) (s_offset d) tw m Em (H m (proj1 (max_in_window rows m Em)))) as [x E]. exists x. now rewrite E.
  - exists x. unfold standard_express_signed. now rewrite Em.
Qed.
Lemma add_fails im (p s : signed_direction F) tw :
  ((exists t, d_traps (s_rest p) = Some t) /\ (forall t cols w, exists x, clock_signed im p (the_roe (s_rest p)) t (resolve_window (d_window (s_rest p)) (length im)) cols w = Err x)) \/
  ((exists t, d_traps (s_rest s) = Some t) /\ (forall im' t cols w, exists x, clock_signed im' s (the_roe (s_rest s)) t (resolve_window (d_window (s_rest s)) (n_columns im)) cols w = Err x)) ->
  exists x, add_cti_signed im p s tw = Err x.
Proof.
  intros H. unfold add_cti_signed. destruct (time_window_signed _ _ _ _) as [[tw' sc]|x]; [|now exists x]. cbn [bind]. destruct H as [[[t ->] H]|[[t ->] H]].
  - destruct (H t (resolve_window (d_window (s_rest s)) (n_columns im)) (Some tw')) as [x ->]. now exists x.
  - destruct (match d_traps (s_rest p) with None => _ | Some _ => _ end) as [[im1 pr]|x]; [|now exists x]. cbn [bind].
    destruct (H (transpose im1) t sc None) as [x ->]. now exists x.
Qed.
(** ** Negative offset in charge injection *)
Lemma injection_offset dt window e o tw m : py_max window = Ok m -> (0 <= m + 1 + o)%Z ->
  injection_express_signed (F:=F) None dt window e o tw = injection_express_signed (Some (Z.to_nat (m + 1 + o))) dt window e o tw.
Proof. intros H Ho. unfold injection_express_signed. rewrite H. cbn [bind]. now rewrite Z2Nat.id by exact Ho. Qed.
Lemma add_injection_offset im (d : direction F) dwell eb fr dt e o s tw m : py_max (resolve_window (d_window d) (length im)) = Ok m -> (0 <= m + 1 + o)%Z -> (exists t, d_traps d = Some t) ->
  add_cti_signed im (mkSigned (with_roe d (roe_injection_init dwell None eb fr dt)) e o) s tw =
  add_cti_signed im (mkSigned (with_roe d (roe_injection_init dwell (Some (Z.to_nat (m + 1 + o))) eb fr dt)) e o) s tw.
Proof.
  intros H Ho [t Ht]. unfold add_cti_signed. cbn [s_rest s_offset s_express]. change (d_window (with_roe d _)) with (d_window d). change (d_traps (with_roe d _)) with (d_traps d).
  destruct (time_window_signed _ _ _ _) as [[tw' sc]|]; [|reflexivity]. cbn [bind]. rewrite Ht. unfold clock_signed, express_and_monitor_signed. cbn [s_rest s_offset s_express].
  change (the_roe (with_roe d ?r)) with r. cbn [roe_kind_of roe_injection_init make_roe roe_dtype]. rewrite (injection_offset dt _ e o (Some tw') m H Ho). reflexivity.
Qed.
End Facts.
