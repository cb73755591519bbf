(** * Readouts of images in linear wells: a fainter image leads to the same, in proportion. *)
From Coq Require Import ZArith List Bool Reals Lra Lia Sorted.
From Coquelicot Require Import Rcomplements Rbar Hierarchy RInt.
From Verif Require Import Num Py RFacts CCDModel TrapsModel ManagerModel ROEModel ClockModel MainModel Spec SpecROE SpecImage SpecReadout SpecTime SpecSlow SpecHistory SpecHold SpecFlatten SpecColumn SpecBound SpecRecovery SpecWork SpecWindowOrder SpecMeet SpecLinear
  CallFacts WmFacts ArrayFacts CutFacts InstantFacts ClockFacts MainFacts ShapeFacts ColumnFacts ReadoutFacts ReadoutImage
  ROEClockFacts ROEMatrixFacts ROEExpressFacts ROEKindFacts WorkFacts ReadoutFull ReadoutForced ReadoutSpecFacts ReadoutColumnFacts OrderFacts TameFacts DepthFacts AboveFacts BoundFacts MainReadoutFacts RecoverImageFacts PhaseOrderFacts LiftFacts GridFacts SteadyFacts ExpressOrderFacts ReadoutInjection ExpressGridFacts InjectionGridFacts WindowFacts WindowMainFacts MaskFacts WindowGridFacts HistoryBoundFacts
  MeetFacts MeetSimFacts MeetKindFacts MeetGroupFacts MeetGridFacts InjectedGridFacts MeetBalanceFacts TopFacts TopGridFacts SqueezeFacts ScaleFacts.
Import ListNotations.
Open Scope R_scope.


(** ** One direction *)
Definition scales (d : direction R) (n : nat) (tw : option (list Z)) (top x : R) (r' : roe R) : Prop :=
  forall im im2 cols columns, shape n cols im -> shape n cols im2 -> (forall i j, 0 <= pixel im i j <= top) -> times_image x im im2 -> columns_ok columns cols ->
  exists im' im2', match d_traps d with None => Ok (im, the_roe d)
      | Some traps => clock_direction im d (the_roe d) traps (selected (d_window d) n) columns tw end = Ok (im', r') /\
    match d_traps d with None => Ok (im2, the_roe d)
      | Some traps => clock_direction im2 d (the_roe d) traps (selected (d_window d) n) columns tw end = Ok (im2', r') /\
    shape n cols im' /\ shape n cols im2' /\ (forall i j, 0 <= pixel im' i j <= top) /\ times_image x im' im2'.
Lemma outside_zero (im : image R) n cols i j : shape n cols im -> ~ ((i < n)%nat /\ (j < cols)%nat) -> pixel im i j = 0.
Proof.
  intros [L F] H. unfold pixel. destruct (Nat.lt_ge_cases i n) as [Hi|Hi].
  - rewrite (nth_overflow (nth i im [])); [reflexivity|]. rewrite Forall_forall in F. rewrite (F (nth i im [])) by (apply nth_In; lia). lia.
  - rewrite (nth_overflow im) by lia. now destruct j.
Qed.
Lemma scaled_pixels n cols columns (im im2 im' im2' : image R) (top x : R) (G : column -> column) : shape n cols im' -> shape n cols im2' -> (forall i j, 0 <= pixel im i j <= top) -> times_image x im im2 ->
  (forall i j, ~ In (Z.of_nat j) columns -> pixel im' i j = pixel im i j) ->
  (forall i j, (i < n)%nat -> In (Z.of_nat j) columns -> pixel im' i j = G (col_fun im j) (Z.of_nat i)) ->
  (forall i j, ~ In (Z.of_nat j) columns -> pixel im2' i j = pixel im2 i j) ->
  (forall i j, (i < n)%nat -> In (Z.of_nat j) columns -> pixel im2' i j = G (col_fun im2 j) (Z.of_nat i)) ->
  (forall f f' : column, (forall z, 0 <= f z <= top) -> (forall z, f' z = x * f z) -> forall z, G f' z = x * G f z) -> times_image x im' im2'.
Proof.
  intros S' S2' Hp Hx U V U2 V2 HG i j. destruct (in_dec Z.eq_dec (Z.of_nat j) columns) as [Hin|Hin]; [|rewrite (U i j Hin), (U2 i j Hin); apply Hx].
  destruct (Nat.lt_ge_cases i n) as [Hi|Hi]; [|rewrite (outside_zero im' n cols), (outside_zero im2' n cols) by (auto; lia); ring].
  rewrite (V i j Hi Hin), (V2 i j Hi Hin). apply HG; [intros z; apply Hp|intros z; apply Hx].
Qed.
Lemma linear_scales d n tw top x : (0 < n)%nat -> 0 <= top -> 0 < x <= 1 -> tw_ok tw -> linear_call d n top -> exists r, scales d n (tw_arg tw) top x r.
Proof.
  intros Hn Htop Hx Htw [(b & Hs & Hw & Hb & [Hno|(c & traps & dwell & dt & Hset & Hlin & Hmild)])|(HW & c & traps & dwell & npt & Hset & Hlin & Hm)].
  - exists (the_roe d). intros im im2 cols columns Sh Sh2 Hp Hs2 _. exists im, im2. rewrite Hno. split; [reflexivity|]. split; [reflexivity|]. auto.
  - exists (the_roe d). pose proof (window_pos _ _ Hw) as Hb0. set (window := selected (d_window d) n) in *.
    pose proof (ks_plain _ _ _ _ _ _ Hset) as Hplain. pose proof (ks_phases _ _ _ _ _ _ Hset) as Hph. pose proof (ks_kinds _ _ _ _ _ _ Hset) as Hk. pose proof (ks_express _ _ _ _ _ _ Hset) as Hex.
    destruct (standard_express_ok true dt window b (d_express d) (d_offset d) Hw tw (window_express b (d_express d) Hex) Htw) as (E & em & mon & EE & _).
    set (E' := passes_for (b + d_offset d) (d_express d)) in *.
    assert (HE : (0 < E' <= b + d_offset d)%nat) by (unfold E', passes_for; destruct (Nat.eqb_spec (d_express d) 0); lia).
    set (passes := map (fun '(e, m) => cells_of window e m (map (fun _ => false) e)) (combine em mon)).
    set (y := max_multiplier dt (b + d_offset d) E'). assert (Hmild' : forall k, (k < ccd_n_phases c)%nat -> mild_phase c (groups_in traps) y k) by (intros k Hlt; apply Hmild; [exact Hlt|apply multiplier_per_pass; lia]).
    assert (Hroomy : forall k, (k < ccd_n_phases c)%nat -> roomy_phase c (groups_in traps) k) by (intros k Hlt; exact (mild_is_roomy _ _ _ _ (Hmild' k Hlt))).
    assert (HP : Forall (Forall (fun '(_, mult, _) => 0 <= mult <= y)) passes).
    { pose proof (window_passes_good window b dt (d_express d) (d_offset d) tw em mon Hs Hw Hex Htw EE) as HG. eapply Forall_impl; [|exact HG]. intros cells Hc. exact (good_mults _ _ _ Hc). }
    assert (Hy : 1 <= y) by now apply mm_ge_1.
    pose proof (mild_top c (groups_in traps) dwell Hplain Hph y top passes (proj2 Hk) Hy Hmild' Htop HP) as Hmeet.
    pose proof (linear_scaled c (groups_in traps) dwell Hplain Hph y top x passes (proj2 Hk) Hy Hmild' Hlin Htop Hx HP) as Hscale.
    intros im im2 cols columns Sh Sh2 Hp Hs2 [Hnd Hrange]. assert (Hp0 : forall i j, 0 <= pixel im i j) by (intros i j; apply Hp).
    assert (Hp2 : forall i j, 0 <= pixel im2 i j) by (intros i j; rewrite Hs2; apply Rmult_le_pos; [lra|apply Hp0]).
    rewrite (ks_traps _ _ _ _ _ _ Hset). unfold clock_direction. rewrite (ks_ccd _ _ _ _ _ _ Hset), (kinds_roe _ _ _ _ _ _ Hset).
    destruct (standard_meeting c traps [dwell] dt Hplain Hph Hk Hroomy im (d_express d) (d_offset d) window b columns tw n cols em mon Sh ltac:(lia) Hp0 Hw Hb Htw Hex Hrange Hnd EE) as (im' & E1 & S' & U & V).
    destruct (standard_meeting c traps [dwell] dt Hplain Hph Hk Hroomy im2 (d_express d) (d_offset d) window b columns tw n cols em mon Sh2 ltac:(lia) Hp2 Hw Hb Htw Hex Hrange Hnd EE) as (im2' & E2 & S2' & U2 & V2).
    exists im', im2'. split; [exact E1|]. split; [exact E2|]. split; [exact S'|]. split; [exact S2'|]. split; [exact (dims_pixels n cols columns im im' top _ S' Hn Hp U V Hmeet)|].
    exact (scaled_pixels n cols columns im im2 im' im2' top x _ S' S2' Hp Hs2 U V U2 V2 Hscale).
  - cbv zeta in Hm. pose proof (ki_plain _ _ _ _ _ _ Hset) as Hplain. pose proof (ki_phases _ _ _ _ _ _ Hset) as Hph. pose proof (ki_kinds _ _ _ _ _ _ Hset) as Hk. pose proof (ki_some _ _ _ _ _ _ Hset) as HN.
    set (N := injection_transfers npt n (d_offset d)) in *. exists (built (Injection (Some N)) [dwell] DFloat true true). destruct (injected_passes_x N (d_express d) HN) as [Hy _].
    set (E := passes_for N (d_express d)) in *. set (y := INR N / INR E) in *.
    pose proof (even_mults _ _ (injection_even n N (d_express d) tw HN)) as HP. fold E in HP. fold y in HP.
    assert (Hroomy : forall k, (k < ccd_n_phases c)%nat -> roomy_phase c (groups_in traps) k) by (intros k Hlt; exact (mild_is_roomy _ _ _ _ (Hm k Hlt))).
    pose proof (mild_top c (groups_in traps) dwell Hplain Hph y top _ (proj2 Hk) Hy Hm Htop HP) as Hmeet.
    pose proof (linear_scaled c (groups_in traps) dwell Hplain Hph y top x _ (proj2 Hk) Hy Hm Hlin Htop Hx HP) as Hscale.
    intros im im2 cols columns Sh Sh2 Hp Hs2 [Hnd Hrange]. assert (Hp0 : forall i j, 0 <= pixel im i j) by (intros i j; apply Hp).
    assert (Hp2 : forall i j, 0 <= pixel im2 i j) by (intros i j; rewrite Hs2; apply Rmult_le_pos; [lra|apply Hp0]).
    rewrite (ki_traps _ _ _ _ _ _ Hset), (selected_all d n HW). unfold clock_direction. rewrite (ki_ccd _ _ _ _ _ _ Hset), (kinds_injection_roe _ _ _ _ _ _ Hset).
    destruct (injection_meeting c traps [dwell] Hplain Hph Hk Hroomy im npt (d_express d) (d_offset d) columns tw n cols Sh Hn Hp0 HN Htw Hrange Hnd) as (im' & E1 & S' & U & V). fold N E y in E1, V.
    destruct (injection_meeting c traps [dwell] Hplain Hph Hk Hroomy im2 npt (d_express d) (d_offset d) columns tw n cols Sh2 Hn Hp2 HN Htw Hrange Hnd) as (im2' & E2 & S2' & U2 & V2). fold N E y in E2, V2.
    exists im', im2'. split; [exact E1|]. split; [exact E2|]. split; [exact S'|]. split; [exact S2'|]. split; [exact (dims_pixels n cols columns im im' top _ S' Hn Hp U V Hmeet)|].
    exact (scaled_pixels n cols columns im im2 im' im2' top x _ S' S2' Hp Hs2 U V U2 V2 Hscale).
Qed.
Lemma linear_window d n top : (0 < n)%nat -> linear_call d n top -> exists b, StronglySorted Z.lt (selected (d_window d) n) /\ window_ok (selected (d_window d) n) b /\ (b <= n)%nat.
Proof.
  intros Hn [(b & H1 & H2 & H3 & _)|[HW _]]; [now exists b|]. exists n. rewrite (selected_all d n HW). split; [apply range_sorted|]. split; [now apply window_ok_range|lia].
Qed.

(** ** Both directions *)
Lemma linear_readout im im2 parallel serial time rows cols top x : (0 < rows)%nat -> (0 < cols)%nat -> time_range time -> linear_call parallel rows top -> linear_call serial cols top ->
  shape rows cols im -> shape rows cols im2 -> (forall i j, 0 <= pixel im i j <= top) -> 0 < x <= 1 -> times_image x im im2 ->
  exists im' im2' pr sr, add_cti im parallel serial time = Ok (im', pr, sr) /\ add_cti im2 parallel serial time = Ok (im2', pr, sr) /\ shape rows cols im' /\ shape rows cols im2' /\ times_image x im' im2'.
Proof.
  intros Hr Hc Ht Hp Hs Si Si2 Pi Hx Hi. assert (Htop : 0 <= top) by (specialize (Pi 0%nat 0%nat); lra).
  destruct (linear_window parallel rows top Hr Hp) as (b & P1 & P2 & P3). destruct (linear_window serial cols top Hc Hs) as (b' & S1 & S2 & S3).
  destruct (call_times time _ b rows (d_offset parallel) Ht P2 P3 P1 Hr) as (tw & lines & E & Htw & Hlines).
  destruct (linear_scales parallel rows (Some tw) top x Hr Htop Hx Htw Hp) as [rp A1]. destruct (linear_scales serial cols None top x Hc Htop Hx I Hs) as [rs A2].
  assert (Hcolumns : columns_ok (selected (d_window serial) cols) cols) by now apply (window_columns _ b').
  destruct tw as [t0 t1]. cbn [tw_arg option_map] in A1, A2. cbn [fst snd] in E.
  pose proof Si as [Lim _]. pose proof (MainReadoutFacts.shape_columns rows cols im Si Hr) as Ncol. pose proof Si2 as [Lim2 _]. pose proof (MainReadoutFacts.shape_columns rows cols im2 Si2 Hr) as Ncol2.
  unfold add_cti. rewrite Lim, Ncol, Lim2, Ncol2, !resolve_selected. rewrite E. cbn [bind].
  destruct (A1 im im2 cols (selected (d_window serial) cols) Si Si2 Pi Hi Hcolumns) as (im1 & im3 & E1 & E3 & SS1 & SS3 & PP1 & TT1). rewrite E1, E3. cbn [bind].
  assert (St : shape cols rows (transpose im1)) by (apply transpose_shape; assumption). assert (St3 : shape cols rows (transpose im3)) by (apply transpose_shape; assumption).
  assert (Pt : forall i j, 0 <= pixel (transpose im1) i j <= top) by (intros i j; rewrite (transpose_pixel_all rows cols) by assumption; apply PP1).
  assert (Tt : times_image x (transpose im1) (transpose im3)) by (intros i j; rewrite !(transpose_pixel_all rows cols) by assumption; apply TT1).
  destruct (A2 (transpose im1) (transpose im3) rows lines St St3 Pt Tt Hlines) as (im2' & im4 & E2 & E4 & SS2 & SS4 & PP2 & TT2).
  assert (SS2' : shape rows cols (transpose im2')) by (apply transpose_shape; assumption). assert (SS4' : shape rows cols (transpose im4)) by (apply transpose_shape; assumption).
  assert (TT2' : times_image x (transpose im2') (transpose im4)) by (intros i j; rewrite !(transpose_pixel_all cols rows) by assumption; apply TT2).
  destruct (d_traps serial) as [traps|] eqn:Et.
  - rewrite E2, E4. cbn [bind]. exists (transpose im2'), (transpose im4), rp, rs. auto.
  - cbn [bind]. exists im1, im3, rp, (the_roe serial). auto 6.
Qed.
Lemma times_back x im im2 : 0 < x -> times_image x im im2 -> times_image (/ x) im2 im.
Proof. intros Hx H i j. rewrite H. field. lra. Qed.
Lemma linear_readout_any im im2 parallel serial time rows cols top x : (0 < rows)%nat -> (0 < cols)%nat -> time_range time -> linear_call parallel rows top -> linear_call serial cols top ->
  shape rows cols im -> shape rows cols im2 -> (forall i j, 0 <= pixel im i j <= top) -> (forall i j, 0 <= pixel im2 i j <= top) -> 0 < x -> times_image x im im2 ->
  exists im' im2' pr sr, add_cti im parallel serial time = Ok (im', pr, sr) /\ add_cti im2 parallel serial time = Ok (im2', pr, sr) /\ shape rows cols im' /\ shape rows cols im2' /\ times_image x im' im2'.
Proof.
  intros Hr Hc Ht Hp Hs Si Si2 Pi Pi2 Hx Hi. destruct (Rle_dec x 1) as [L|L]; [now apply (linear_readout im im2 parallel serial time rows cols top x); auto|].
  assert (Hx' : 0 < / x <= 1) by (split; [now apply Rinv_0_lt_compat|rewrite <- Rinv_1; apply Rinv_le_contravar; lra]).
  destruct (linear_readout im2 im parallel serial time rows cols top (/ x) Hr Hc Ht Hp Hs Si2 Si Pi2 Hx' (times_back x _ _ Hx Hi)) as (im2' & im' & pr & sr & E2 & E1 & S2 & S1 & T).
  exists im', im2', pr, sr. split; [exact E1|]. split; [exact E2|]. split; [exact S1|]. split; [exact S2|]. apply times_back in T; [|apply Hx']. now rewrite Rinv_inv in T.
Qed.

(** ** Corrections *)
Lemma linear_correction im im2 parallel serial time rows cols top x : (0 < rows)%nat -> (0 < cols)%nat -> time_range time -> linear_call parallel rows top -> linear_call serial cols top ->
  shape rows cols im -> shape rows cols im2 -> 0 < x <= 1 -> times_image x im im2 ->
  forall n, (forall m est, (m < n)%nat -> remove_cti im m parallel serial time = Ok est -> forall i j, 0 <= pixel est i j <= top) ->
  exists est est2, remove_cti im n parallel serial time = Ok est /\ remove_cti im2 n parallel serial time = Ok est2 /\ shape rows cols est /\ shape rows cols est2 /\ times_image x est est2.
Proof.
  intros Hr Hc Ht Hp Hs Si Si2 Hx Hi. induction n as [|n IH]; intros H.
  - exists im, im2. repeat split; try reflexivity; try apply Si; try apply Si2. exact Hi.
  - destruct IH as (est & est2 & E & E2 & S & S2 & T); [intros m e Hm; apply H; lia|]. pose proof (H n est ltac:(lia) E) as B.
    destruct (linear_readout est est2 parallel serial time rows cols top x Hr Hc Ht Hp Hs S S2 B Hx T) as (a & a2 & pr & sr & A & A2 & Sa & Sa2 & Ta).
    set (out := image_zip nadd est (image_zip nsub im a)). set (out2 := image_zip nadd est2 (image_zip nsub im2 a2)).
    assert (So : shape rows cols out) by (repeat (apply RemoveFacts.image_zip_shape; try assumption)). assert (So2 : shape rows cols out2) by (repeat (apply RemoveFacts.image_zip_shape; try assumption)).
    assert (V : forall i j, (i < rows)%nat -> (j < cols)%nat -> pixel out i j = pixel est i j + (pixel im i j - pixel a i j)).
    { intros i j Hi' Hj. unfold out. rewrite (RemoveFacts.image_zip_pixel _ _ _ rows cols) by (try apply RemoveFacts.image_zip_shape; assumption). rewrite (RemoveFacts.image_zip_pixel _ _ _ rows cols) by assumption. reflexivity. }
    assert (V2 : forall i j, (i < rows)%nat -> (j < cols)%nat -> pixel out2 i j = pixel est2 i j + (pixel im2 i j - pixel a2 i j)).
    { intros i j Hi' Hj. unfold out2. rewrite (RemoveFacts.image_zip_pixel _ _ _ rows cols) by (try apply RemoveFacts.image_zip_shape; assumption). rewrite (RemoveFacts.image_zip_pixel _ _ _ rows cols) by assumption. reflexivity. }
    exists out, out2. split; [apply (RemoveFacts.remove_S im parallel serial time rows cols Si Hr Hc); exists est, a, pr, sr; auto|]. split; [apply (RemoveFacts.remove_S im2 parallel serial time rows cols Si2 Hr Hc); exists est2, a2, pr, sr; auto|].
    split; [exact So|]. split; [exact So2|]. intros i j. destruct (Nat.lt_ge_cases i rows) as [Hi'|Hi']; [destruct (Nat.lt_ge_cases j cols) as [Hj|Hj]|];
      [|rewrite (outside_zero out rows cols), (outside_zero out2 rows cols) by (auto; lia); ring|rewrite (outside_zero out rows cols), (outside_zero out2 rows cols) by (auto; lia); ring].
    rewrite V, V2 by assumption. rewrite (T i j), (Hi i j), (Ta i j). ring.
Qed.
