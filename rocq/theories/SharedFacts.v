(** * Columns that are read out one after the other, with or without emptying the traps. *)
From Coq Require Import ZArith List Bool Reals Lra Lia.
From Verif Require Import Num Py RFacts CCDModel TrapsModel ManagerModel ROEModel ClockModel MainModel Spec SpecImage SpecReadout SpecColumn SpecHistory SpecShared
  ClockFacts MainFacts ShapeFacts ColumnFacts ImageFacts MainReadoutFacts MainColumnFacts HistoryFacts.
Import ListNotations.

Section Later.
Context {F : Type} {num : Num F}.
Lemma columns_alike c (r : roe F) window passes rows cols (S : list Z) : (0 < rows)%nat -> forall columns (im1 im2 : image F) a im1' a1 im2' a2,
  shape rows cols im1 -> shape rows cols im2 -> incl columns S -> (forall j, In (Z.of_nat j) S -> column_of im1 j = column_of im2 j) ->
  clock_columns c r window columns passes (im1, a) = Ok (im1', a1) -> clock_columns c r window columns passes (im2, a) = Ok (im2', a2) ->
  a1 = a2 /\ forall j, In (Z.of_nat j) S -> column_of im1' j = column_of im2' j.
Proof.
  intros Hr. induction columns as [|j0 columns IH]; intros im1 im2 a im1' a1 im2' a2 H1 H2 Hin HS E1 E2.
  - injection E1 as <- <-. injection E2 as <- <-. auto.
  - unfold clock_columns in E1, E2. cbn [foldM] in E1, E2. apply bind_ok in E1 as ([jm1 b1] & E1 & F1). apply bind_ok in E2 as ([jm2 b2] & E2 & F2).
    unfold clock_one_column in E1, E2. rewrite (shape_n_columns rows cols im1 H1 Hr) in E1. rewrite (shape_n_columns rows cols im2 H2 Hr) in E2.
    destruct (_ && _)%bool eqn:B; [|discriminate]. apply andb_prop in B as [B1 B2]. apply Z.leb_le in B1. apply Z.ltb_lt in B2.
    rewrite !get_column_of in *. assert (Hj : In (Z.of_nat (Z.to_nat j0)) S) by (rewrite Z2Nat.id by lia; apply Hin; now left).
    rewrite <- (HS _ Hj) in E2. destruct (clock_column c r window passes (column_of im1 (Z.to_nat j0), a)) as [[col b]|] eqn:C; [|discriminate]. cbn [bind] in E1, E2.
    injection E1 as <- <-. injection E2 as <- <-. pose proof (co_length _ _ _ _ (clock_column_ok _ _ _ _ _ _ C)) as L. cbn [fst] in L. rewrite column_length in L.
    assert (L1 : length col = rows) by (destruct H1; congruence).
    refine (IH _ _ _ _ _ _ _ (set_column_shape rows cols _ _ _ H1 L1) (set_column_shape rows cols _ _ _ H2 L1) (fun x h => Hin x (or_intror h)) _ F1 F2).
    intros j Hj'. destruct (Nat.ltb_spec j cols).
    + destruct (Nat.eq_dec (Z.to_nat j0) j) as [<-|N].
      * now rewrite !(set_column_same rows cols) by auto.
      * rewrite !(set_column_other rows cols) by auto. now apply HS.
    + apply (nth_ext _ _ n0 n0); [rewrite !column_length; destruct (set_column_shape rows cols im1 (Z.to_nat j0) col H1 L1), (set_column_shape rows cols im2 (Z.to_nat j0) col H2 L1); congruence|].
      intros i _. rewrite !column_nth, !(pixel_out rows cols) by (try (apply set_column_shape; assumption); lia). reflexivity.
Qed.
Lemma later_columns (im1 im2 : image F) parallel serial tw im1' im2' pr1 sr1 pr2 sr2 rows cols js1 js2 :
  shape rows cols im1 -> shape rows cols im2 -> (0 < rows)%nat -> d_traps serial = None ->
  selected (d_window serial) cols = js1 ++ js2 -> NoDup (js1 ++ js2) -> (forall j, In (Z.of_nat j) js1 -> column_of im1 j = column_of im2 j) ->
  add_cti im1 parallel serial tw = Ok (im1', pr1, sr1) -> add_cti im2 parallel serial tw = Ok (im2', pr2, sr2) ->
  forall j, In (Z.of_nat j) js1 -> column_of im1' j = column_of im2' j.
Proof.
  intros H1 H2 Hr Ht Hw Hnd HS E1 E2 j Hj.
  apply add_cti_halves in E1 as (tw1 & c1 & jm1 & T1 & E1 & G1). apply add_cti_halves in E2 as (tw2 & c2 & jm2 & T2 & E2 & G2). rewrite Ht in G1, G2. destruct G1 as [-> _], G2 as [-> _].
  assert (L1 : length im1 = rows) by apply H1. assert (L2 : length im2 = rows) by apply H2.
  rewrite (shape_n_columns rows cols im1 H1 Hr) in E1. rewrite (shape_n_columns rows cols im2 H2 Hr) in E2. rewrite Hw in E1, E2. rewrite L1 in *. rewrite L2 in *. rewrite T1 in T2. injection T2 as <- <-.
  destruct (d_traps parallel) as [traps|]; [|destruct E1 as [-> _], E2 as [-> _]; now apply HS].
  unfold clock_direction in *. destruct (d_ccd parallel) as [c|].
  2: { exfalso. apply bind_ok in E1 as ([[x y] z] & _ & E1). apply bind_ok in E1 as (? & _ & E1). discriminate. }
  unfold clock_charge_in_one_direction in *.
  destruct (express_and_monitor _ _ _ _ _) as [[[r' em] mon]|]; [|discriminate]. cbn [bind] in E1, E2.
  destruct (save_matrix r' em) as [sav|]; [|discriminate]. cbn [bind] in E1, E2. destruct (atm_init _ _ _) as [a|]; [|discriminate]. cbn [bind] in E1, E2.
  destruct (n_padding r') as [n|]; [|discriminate]. cbn [bind] in E1, E2.
  apply bind_ok in E1 as ([km1 a1] & E1 & F1). apply bind_ok in E2 as ([km2 a2] & E2 & F2). injection F1 as <- <-. injection F2 as <- <-.
  unfold clock_columns in E1, E2. rewrite foldM_app in E1, E2. apply bind_ok in E1 as ([lm1 b1] & E1 & F1). apply bind_ok in E2 as ([lm2 b2] & E2 & F2).
  pose proof (pad_shape rows cols im1 n H1 Hr) as P1. pose proof (pad_shape rows cols im2 n H2 Hr) as P2. assert (Hrn : (0 < rows + n)%nat) by lia.
  assert (PS : forall j0, In (Z.of_nat j0) js1 -> column_of (pad im1 n) j0 = column_of (pad im2 n) j0).
  { intros j0 h. apply (nth_ext _ _ n0 n0); [rewrite !column_length; destruct P1, P2; congruence|].
    intros i _. rewrite !column_nth, !(pad_pixel rows cols) by auto. rewrite <- !column_nth. now rewrite (HS _ h). }
  destruct (columns_alike c r' _ _ (rows + n) cols js1 Hrn js1 _ _ _ _ _ _ _ P1 P2 (fun x h => h) PS E1 E2) as [_ A].
  pose proof (clock_columns_ok _ _ _ _ _ _ _ _ _ _ _ P1 Hrn E1) as O1. pose proof (clock_columns_ok _ _ _ _ _ _ _ _ _ _ _ P2 Hrn E2) as O2.
  pose proof (clock_columns_ok _ _ _ _ _ _ _ _ _ _ _ (io_shape _ _ _ _ _ _ _ O1) Hrn F1) as Q1. pose proof (clock_columns_ok _ _ _ _ _ _ _ _ _ _ _ (io_shape _ _ _ _ _ _ _ O2) Hrn F2) as Q2.
  assert (Nj : ~ In (Z.of_nat j) js2).
  { intros Hx. apply in_split in Hx as (x & y & ->). rewrite app_assoc in Hnd. apply NoDup_remove_2 in Hnd. apply Hnd. rewrite !in_app_iff. auto. }
  rewrite !unpad_column. assert (K1 : length km1 = (rows + n)%nat) by apply (io_shape _ _ _ _ _ _ _ Q1). assert (K2 : length km2 = (rows + n)%nat) by apply (io_shape _ _ _ _ _ _ _ Q2).
  rewrite K1, K2. f_equal. apply (nth_ext _ _ n0 n0); [rewrite !column_length; congruence|]. intros i _. rewrite !column_nth, (io_columns _ _ _ _ _ _ _ Q1), (io_columns _ _ _ _ _ _ _ Q2) by exact Nj.
  rewrite <- !column_nth. now rewrite (A j Hj).
Qed.
(** The same readout electronics with the traps emptied between columns, or not. *)
Lemma express_emptying b (r : roe F) window express offset tw :
  express_and_monitor (emptying b r) window express offset tw = (do '(r', em, mon) <- express_and_monitor r window express offset tw; Ok (emptying b r', em, mon)).
Proof.
  unfold express_and_monitor. cbn [emptying roe_kind_of roe_dtype roe_dwell_times roe_force roe_clock_sequence roe_pixels].
  destruct (roe_kind_of r) eqn:K.
  - destruct (standard_express _ _ _ _ _ _) as [[em mon]|e]; reflexivity.
  - destruct (injection_express _ _ _ _ _ _) as [[[n em] mon]|e]; reflexivity.
  - destruct (pumping_express _ _ _ _ _) as [[em mon]|e]; reflexivity.
Qed.
Lemma first_of_the_columns (im : image F) parallel r serial tw im1' im2' pr1 sr1 pr2 sr2 rows cols j js b1 b2 :
  shape rows cols im -> (0 < rows)%nat -> d_traps serial = None -> selected (d_window serial) cols = j :: js -> NoDup (j :: js) ->
  add_cti im (with_roe parallel (emptying b1 r)) serial tw = Ok (im1', pr1, sr1) -> add_cti im (with_roe parallel (emptying b2 r)) serial tw = Ok (im2', pr2, sr2) ->
  column_of im1' (Z.to_nat j) = column_of im2' (Z.to_nat j).
Proof.
  intros H Hr Ht Hw Hnd E1 E2.
  apply add_cti_halves in E1 as (tw1 & c1 & jm1 & T1 & E1 & G1). apply add_cti_halves in E2 as (tw2 & c2 & jm2 & T2 & E2 & G2). rewrite Ht in G1, G2. destruct G1 as [-> _], G2 as [-> _].
  cbn [with_roe d_window d_offset d_traps] in *. rewrite T1 in T2. injection T2 as <- <-.
  rewrite (shape_n_columns rows cols im H Hr), Hw in E1, E2.
  destruct (d_traps parallel) as [traps|]; [|destruct E1 as [-> _], E2 as [-> _]; reflexivity].
  unfold clock_direction in *. cbn [with_roe d_ccd d_express d_offset the_roe d_roe] in *. destruct (d_ccd parallel) as [c|].
  2: { exfalso. apply bind_ok in E1 as ([[x y] z] & _ & E1). apply bind_ok in E1 as (? & _ & E1). discriminate. }
  unfold clock_charge_in_one_direction in *. rewrite express_emptying in E1, E2.
  destruct (express_and_monitor _ _ _ _ _) as [[[r' em] mon]|]; [|discriminate]. cbn [bind] in E1, E2.
  change (save_matrix (emptying ?b r') em) with (save_matrix r' em) in E1, E2. change (max_n_transfers (emptying ?b r')) with (max_n_transfers r') in E1, E2. change (n_padding (emptying ?b r')) with (n_padding r') in E1, E2.
  destruct (save_matrix r' em) as [sav|]; [|discriminate]. cbn [bind] in E1, E2. destruct (atm_init _ _ _) as [a|]; [|discriminate]. cbn [bind] in E1, E2.
  destruct (n_padding r') as [n|]; [|discriminate]. cbn [bind] in E1, E2.
  apply bind_ok in E1 as ([km1 a1] & E1 & F1). apply bind_ok in E2 as ([km2 a2] & E2 & F2). injection F1 as <- <-. injection F2 as <- <-.
  unfold clock_columns in E1, E2. cbn [foldM] in E1, E2. apply bind_ok in E1 as ([lm1 d1] & E1 & F1). apply bind_ok in E2 as ([lm2 d2] & E2 & F2).
  pose proof (pad_shape rows cols im n H Hr) as P. assert (Hrn : (0 < rows + n)%nat) by lia.
  assert (S1 : clock_columns c (emptying b1 r') (selected (d_window parallel) (length im)) [j] (map (fun '(e, (m, s)) => zip_cells e m s) (combine em (combine mon sav))) (pad im n, a) = Ok (lm1, d1)) by (unfold clock_columns; cbn [foldM]; rewrite E1; reflexivity).
  assert (S2 : clock_columns c (emptying b2 r') (selected (d_window parallel) (length im)) [j] (map (fun '(e, (m, s)) => zip_cells e m s) (combine em (combine mon sav))) (pad im n, a) = Ok (lm2, d2)) by (unfold clock_columns; cbn [foldM]; rewrite E2; reflexivity).
  pose proof (clock_columns_ok _ _ _ _ _ _ _ _ _ _ _ P Hrn S1) as O1. pose proof (clock_columns_ok _ _ _ _ _ _ _ _ _ _ _ P Hrn S2) as O2. clear S1 S2.
  pose proof (clock_columns_ok _ _ _ _ _ _ _ _ _ _ _ (io_shape _ _ _ _ _ _ _ O1) Hrn F1) as Q1. pose proof (clock_columns_ok _ _ _ _ _ _ _ _ _ _ _ (io_shape _ _ _ _ _ _ _ O2) Hrn F2) as Q2.
  assert (A : lm1 = lm2).
  { unfold clock_one_column in E1, E2. destruct (_ && _)%bool; [|discriminate]. 
    change (clock_column c (emptying ?b r')) with (clock_column c r') in E1, E2. destruct (clock_column _ _ _ _ _) as [[col x]|]; [|discriminate]. cbn [bind] in E1, E2. congruence. }
  assert (J : (0 <= j)%Z) by (unfold clock_one_column in E1; destruct ((0 <=? j)%Z) eqn:B; [now apply Z.leb_le in B|discriminate]).
  inversion Hnd as [|? ? Nj _]; subst.
  rewrite !unpad_column. assert (K1 : length km1 = (rows + n)%nat) by apply (io_shape _ _ _ _ _ _ _ Q1). assert (K2 : length km2 = (rows + n)%nat) by apply (io_shape _ _ _ _ _ _ _ Q2).
  rewrite K1, K2. f_equal. apply (nth_ext _ _ n0 n0); [rewrite !column_length; congruence|].
  intros i _. rewrite !column_nth, (io_columns _ _ _ _ _ _ _ Q1), (io_columns _ _ _ _ _ _ _ Q2) by (rewrite Z2Nat.id by exact J; exact Nj). reflexivity.
Qed.
End Later.

Open Scope R_scope.
Lemma past_sites_empty traps well dwell n : forall packets, fst (past_sites traps well dwell (repeat empty_profile n) packets) = read_out traps well dwell n packets.
Proof.
  induction n as [|n IH]; intros packets; [reflexivity|]. cbn [repeat past_sites read_out]. destruct (past_traps traps well dwell empty_profile packets) as [|x l]; [reflexivity|].
  specialize (IH l). destruct (past_sites _ _ _ _ l) as [out others]. cbn [fst] in *. now rewrite IH.
Qed.
Lemma shared_first traps well dwell rows packets columns : length packets = rows ->
  nth 0 (shared_readout traps well dwell rows (packets :: columns)) [] = textbook traps well dwell 0 packets.
Proof.
  intros <-. unfold shared_readout, textbook. cbn [past_shared through_pixels]. rewrite <- past_sites_empty. destruct (past_sites _ _ _ _ _) as [out s]. reflexivity.
Qed.
Lemma first_column im parallel serial c traps group d keep dt rows cols im' pr sr :
  shape rows cols im -> (0 < rows)%nat -> (0 < cols)%nat -> (forall i j, 0 <= pixel im i j) ->
  d_ccd parallel = Some c -> d_traps parallel = Some traps -> d_roe parallel = Some (roe_init [d] true (negb keep) true dt) -> d_window parallel = WNone ->
  computes_all parallel rows -> d_traps serial = None -> d_window serial = WNone ->
  plain_ccd c -> ccd_n_phases c = 1%nat -> 0 < share c 0 -> 0 < d -> instant_group group -> groups_in traps = [group] ->
  add_cti im parallel serial None = Ok (im', pr, sr) ->
  column_of im' 0 = textbook (map (thinned (share c 0)) group) (depth (nth 0 (ccd_full_well c) 1) (nth 0 (ccd_fill_power c) 1)) d (d_offset parallel) (column_of im 0).
Proof.
  intros Hs Hr Hc Hp Hccd Htr Hroe Hw Hall Hst Hsw Hpc Hph Hsh Hd Hgr Hg E.
  assert (Hfr : ccd_fractions c = [share c 0]).
  { pose proof (pc_fractions c Hpc) as L. rewrite Hph in L. unfold share. destruct (ccd_fractions c) as [|x [|]]; try discriminate. reflexivity. }
  pose (other := mkDir (d_ccd parallel) (Some (roe_init [d] true true true dt)) (d_traps parallel) (d_express parallel) (d_offset parallel) (d_window parallel)).
  assert (SP : forall dir b, d_ccd dir = d_ccd parallel -> d_traps dir = d_traps parallel -> d_roe dir = Some (roe_init [d] true (negb b) true dt) -> d_window dir = d_window parallel -> d_express dir = d_express parallel -> d_offset dir = d_offset parallel ->
    single_phase dir rows c (share c 0) group d b).
  { intros dir b A1 A2 A3 A4 A5 A6. constructor; rewrite ?A1, ?A2, ?A4, ?A5, ?A6; auto.
    - exists traps. auto.
    - apply Hgr.
    - exists true, dt. exact A3. }
  pose proof (history_readout im parallel serial c (share c 0) group d keep rows cols Hs Hr (SP parallel keep eq_refl eq_refl Hroe eq_refl eq_refl eq_refl) Hst Hsw) as H. cbv zeta in H.
  set (col := column_of im 0) in *.
  assert (Hcol : length col = rows) by (unfold col; rewrite column_length; apply Hs).
  assert (Hs1 : shape rows 1 (one_column col)) by (rewrite <- Hcol; apply one_column_shape).
  assert (Hp1 : forall i j, 0 <= pixel (one_column col) i j).
  { intros i j. destruct (Nat.ltb_spec j 1).
    - assert (j = 0%nat) as -> by lia. change 0 with (n0 : R). rewrite <- column_nth, column_one. unfold col. rewrite column_nth. apply Hp.
    - rewrite (pixel_out rows 1 _ i j Hs1) by lia. apply Rle_refl. }
  pose proof (history_readout (one_column col) other no_direction c (share c 0) group d false rows 1 Hs1 Hr (SP other false eq_refl eq_refl eq_refl eq_refl eq_refl eq_refl) eq_refl eq_refl) as H1. cbv zeta in H1.
  destruct (textbook_readout (one_column col) other no_direction c traps group d dt rows 1 0 Hs1 Hr Hp1) as (im1 & E1 & T1); auto.
  { constructor; auto; [rewrite Hph; cbn; lia|split; [rewrite Hg; discriminate|rewrite Hg; auto]|]. cbn [other d_express]. destruct Hall as [A|A]; [left; exact A|right]. lia. }
  { split; [repeat constructor; intros []|]. intros j [<-|[]]. cbn. lia. }
  { left. reflexivity. }
  rewrite column_one in T1. change (d_offset other) with (d_offset parallel) in *. rewrite <- T1.
  destruct cols as [|cols]; [lia|]. cbn [seq map columns_past] in H, H1. rewrite column_one in H1. fold col in H.
  destruct (column_past _ _ _ col) as [[out s]|e] eqn:CP; cbn [bind] in H, H1; [|congruence].
  destruct H1 as (im2 & E2 & _ & _ & C2). rewrite E2 in E1. injection E1 as <-. rewrite (C2 0%nat) by lia. cbn [nth].
  destruct (columns_past _ _ _ _ _ _) as [outs|e]; cbn [bind] in H; [|congruence]. destruct H as (im3 & E3 & _ & _ & C3). rewrite E3 in E. injection E as <- _ _. apply (C3 0%nat). lia.
Qed.
