(** * Traps that cannot capture leave every image as it is. *)
From Coq Require Import ZArith List Bool Reals Lra Lia.
From Verif Require Import Num Py RFacts CCDModel TrapsModel ManagerModel ROEModel ClockModel MainModel Spec SpecImage SpecReadout SpecHistory SpecBlind
  WmFacts CutFacts ClockFacts MainFacts ShapeFacts IdleFacts.
Import ListNotations.
Open Scope R_scope.

(** ** Managers whose calls return 0 *)
Section Inert.
Context (P : manager R -> Prop).
Hypothesis Hstep : forall m n fill dwell net m', P m -> 0 < dwell -> manager_step m n fill dwell = Ok (net, m') -> net = 0 /\ P m'.
Hypothesis Hempty : forall m, P m -> P (empty_all_traps m).
Definition all_inert (data : list (list (manager R))) : Prop := Forall (Forall P) data.
Definition inert (a : all_managers R) : Prop := all_inert (atm_data a) /\ forall d, atm_saved a = Some d -> all_inert d.

Lemma inert_groups fill n dwell : 0 < dwell -> forall groups acc total groups', Forall P groups ->
  step_groups groups n fill dwell acc = Ok (total, groups') -> total = acc /\ Forall P groups'.
Proof.
  intros Hd. induction groups as [|m ms IH]; intros acc total groups' H E; cbn [step_groups] in E; [injection E as <- <-; auto|].
  apply bind_ok in E as ([net m'] & E1 & E). apply bind_ok in E as ([t ms'] & E2 & E). injection E as <- <-. inversion H; subst.
  destruct (Hstep _ _ _ _ _ _ ltac:(eassumption) Hd E1) as [-> Hm]. apply IH in E2 as [-> Hms]; [|assumption]. rnum. split; [lra|now constructor].
Qed.
Lemma upd_nth_same {A} (l : list A) i x : nth_error l i = Some x -> upd l i x = l.
Proof. revert i. induction l as [|a l IH]; intros [|i] H; cbn in *; try discriminate; [injection H as <-; reflexivity|]. f_equal. auto. Qed.
Lemma inert_write column row mult t column' : Forall (fun x => 0 <= x) column -> write_back column row 0 mult t = Ok column' -> column' = column.
Proof.
  intros Hc E. destruct t as [px fr]. unfold write_back in E. apply bind_ok in E as (old & E1 & E). unfold cy_index in E1. unfold cy_upd in E.
  destruct (_ && _)%bool; [|discriminate]. injection E as <-. unfold of_option in E1. destruct (nth_error column _) as [x|] eqn:En; [|discriminate]. injection E1 as ->.
  rewrite Forall_forall in Hc. pose proof (Hc _ (nth_error_In _ _ En)). rnum. replace (old + 0 * fr * mult) with old by ring.
  replace (Rltb old 0) with false by (symmetry; apply Rltb_false; lra). now apply upd_nth_same.
Qed.
Lemma inert_writes row mult : forall ts column column', Forall (fun x => 0 <= x) column ->
  foldM (fun col t => write_back col row 0 mult t) ts column = Ok column' -> column' = column.
Proof.
  induction ts as [|t ts IH]; intros column column' Hc E; cbn [foldM] in E; [injection E as <-; reflexivity|].
  apply bind_ok in E as (c1 & E1 & E). apply (inert_write _ _ _ _ _ Hc) in E1 as ->. exact (IH _ _ Hc E).
Qed.
Definition fine (st : list R * list (list (manager R))) : Prop := Forall (fun x => 0 <= x) (fst st) /\ all_inert (snd st).
Lemma inert_upd data k g : all_inert data -> Forall P g -> all_inert (upd data k g).
Proof.
  intros H Hg. unfold all_inert in *. revert k. induction H as [|x l Hx Hl IH]; intros [|k]; cbn [upd]; constructor; auto. 
Qed.
Lemma inert_phase c dwell rps row mult phase st st' : 0 < dwell -> fine st ->
  clock_one_phase c dwell rps row mult st phase = Ok st' -> fst st' = fst st /\ fine st'.
Proof.
  intros Hd [H1 H2] E. destruct st as [column data]. cbn [fst snd] in *. unfold clock_one_phase in E.
  apply bind_ok in E as (rp & _ & E). apply bind_ok in E as (charge & _ & E). apply bind_ok in E as (groups & Eg & E). apply bind_ok in E as ([net groups'] & Es & E).
  assert (HG : Forall P groups). { unfold of_option in Eg. destruct (nth_error data phase) eqn:En; [|discriminate]. injection Eg as ->. unfold all_inert in H2. rewrite Forall_forall in H2. apply H2. eapply nth_error_In; eauto. }
  apply (inert_groups _ _ _ Hd) in Es as [-> HG']; [|exact HG]. rnum.
  destruct (Reqb mult 0).
  - injection E as <-. split; [reflexivity|]. split; [exact H1|now apply inert_upd].
  - apply bind_ok in E as (column' & Ew & E). injection E as <-. apply inert_writes in Ew as ->; [|exact H1]. split; [reflexivity|]. split; [exact H1|now apply inert_upd].
Qed.
Lemma steps_positive r s d : In (s, d) (steps_with_dwell (F := R) r) -> 0 < d.
Proof. unfold steps_with_dwell. intros H. apply filter_In in H as [_ H]. rnum. now apply Rltb_true. Qed.
Lemma inert_fold {A S} (f : S -> A -> result S) (Q : S -> Prop) (g : S -> list R) l :
  (forall s a s', In a l -> Q s -> f s a = Ok s' -> g s' = g s /\ Q s') -> forall s s', Q s -> foldM f l s = Ok s' -> g s' = g s /\ Q s'.
Proof.
  induction l as [|a l IH]; intros H s s' Hq E; cbn [foldM] in E; [injection E as <-; auto|]. apply bind_ok in E as (s1 & E1 & E).
  destruct (H s a s1 (or_introl eq_refl) Hq E1) as [G1 Q1]. destruct (IH (fun s a s' I => H s a s' (or_intror I)) s1 s' Q1 E) as [G2 Q2]. split; [congruence|exact Q2].
Qed.
Lemma inert_row c r row mult st st' : fine st -> clock_one_row c r row mult st = Ok st' -> fst st' = fst st /\ fine st'.
Proof.
  intros H E. unfold clock_one_row in E. revert H E. apply (inert_fold _ fine fst). intros s [k d] s' I. apply (inert_fold _ fine fst). intros s1 ph s2 _ Hf1 E.
  apply bind_ok in E as (rps & _ & E). exact (inert_phase c d rps row mult ph s1 s2 (steps_positive r k d I) Hf1 E).
Qed.
Definition fine' (st : list R * all_managers R) : Prop := Forall (fun x => 0 <= x) (fst st) /\ inert (snd st).
Lemma inert_cell c r window st cell st' : fine' st -> clock_cell c r window st cell = Ok st' -> fst st' = fst st /\ fine' st'.
Proof.
  intros [H1 [H2 H3]] E. destruct st as [column a], cell as [i [[mult monitor] save]]. cbn [fst snd] in *. unfold clock_cell in E. destruct monitor; cbn [negb] in E; [|injection E as <-; repeat split; assumption].
  apply bind_ok in E as ([column' data'] & E1 & E).
  assert (K : column' = column /\ fine (column', data')).
  { destruct (nth_error window i) as [row|]; [apply (inert_row c r row mult (column, atm_data a)) in E1; [exact E1|split; assumption]|].
    destruct (steps_with_dwell r), (phases_with_traps c); try discriminate; injection E1 as <- <-; repeat split; assumption. }
  destruct K as [-> [_ K]]. cbn [snd] in K. injection E as <-. split; [reflexivity|]. split; [exact H1|]. cbn [snd]. destruct save; split; cbn; try assumption.
  intros d Ed. injection Ed as <-. exact K.
Qed.
Lemma inert_pass c r window cells st st' : fine' st -> clock_pass_rows c r window cells st = Ok st' -> fst st' = fst st /\ fine' st'.
Proof. intros H E. unfold clock_pass_rows in E. revert H E. apply (inert_fold _ fine' fst). intros s x s' _. apply inert_cell. Qed.
Lemma inert_map data : all_inert data -> all_inert (map (map empty_all_traps) data).
Proof.
  intros H. apply Forall_map. eapply Forall_impl; [|exact H]. intros l Hl. apply Forall_map. eapply Forall_impl; [|exact Hl]. exact Hempty.
Qed.
Lemma inert_restore a : inert a -> inert (atm_restore a).
Proof.
  intros [H1 H2]. unfold atm_restore. destruct (atm_saved a) as [d|]; split; cbn.
  - apply H2. reflexivity.
  - intros d' E. injection E as <-. apply H2. reflexivity.
  - now apply inert_map.
  - discriminate.
Qed.
Lemma inert_end r a : inert a -> inert (end_of_column r a).
Proof.
  intros [H1 H2]. unfold end_of_column. destruct (roe_empty_between r); split; cbn; try (intros d E; injection E as <-); try assumption; now apply inert_map.
Qed.
Lemma inert_column c r window passes st st' : fine' st -> clock_column c r window passes st = Ok st' -> fst st' = fst st /\ fine' st'.
Proof.
  intros H E. unfold clock_column in E. revert H E. apply (inert_fold _ fine' fst). intros s x s' _ [H1 H2] E.
  apply (inert_pass c r window x (fst s, atm_restore (snd s))) in E; [exact E|]. split; [exact H1|]. apply inert_restore, H2.
Qed.
Lemma inert_columns c r window columns passes rows cols : forall (im im' : image R) a a', shape rows cols im -> (forall i j, 0 <= pixel im i j) -> inert a ->
  clock_columns c r window columns passes (im, a) = Ok (im', a') -> im' = im.
Proof.
  unfold clock_columns. induction columns as [|j columns IH]; intros im im' a a' Hs Hp Ha E; cbn [foldM] in E; [injection E as <- _; reflexivity|].
  apply bind_ok in E as ([im1 a1] & E1 & E). unfold clock_one_column in E1. destruct (_ && _)%Z; [|discriminate]. apply bind_ok in E1 as ([column a2] & E2 & E1). injection E1 as <- <-.
  apply inert_column in E2 as [Ec [_ Ha2]].
  - cbn [fst snd] in *. subst column. rewrite (set_same rows cols) in E by exact Hs. eapply IH; [exact Hs|exact Hp| |exact E]. now apply inert_end.
  - split; [|exact Ha]. cbn [fst]. unfold get_column. apply Forall_map. apply Forall_forall. intros row Hrow.
    apply (In_nth _ _ []) in Hrow as (i & _ & <-). apply (Hp i (Z.to_nat j)).
Qed.
End Inert.

(** ** No traps *)
Lemma dot_zeros fs ds : Forall (fun d => d = 0) ds -> dot fs ds = 0.
Proof. intros H. revert fs. induction H as [|d ds Hd _ IH]; intros [|f fs]; cbn [dot]; try reflexivity. rewrite IH, Hd. ring. Qed.
Lemma none_trapped (m : manager R) w : Forall (fun t => t_density t = 0) (m_traps m) -> n_trapped m w = 0.
Proof.
  intros H. assert (D : Forall (fun d => d = 0) (n_traps_per_pixel m)) by (unfold n_traps_per_pixel; apply Forall_map; exact H).
  assert (T : forall w', cy_n_trapped w' (n_traps_per_pixel m) = 0).
  { intros w'. rewrite cy_n_trapped_eq. unfold trapped. induction w' as [|r w' IH]; [reflexivity|]. cbn [map]. unfold Rsum in *. cbn [fold_right]. rewrite IH. unfold row_trapped. rewrite (dot_zeros _ _ D). ring. }
  unfold n_trapped. destruct (m_kind m); apply T.
Qed.
Lemma no_traps_net (m : manager R) n fill dwell net m' : Forall (fun t => t_density t = 0) (m_traps m) -> manager_step m n fill dwell = Ok (net, m') -> net = 0.
Proof.
  intros H E.
  assert (Z : Reqb 0 0 = true) by now apply Reqb_true.
  assert (I : instant_step m n fill dwell = Ok (net, m') -> net = 0).
  { clear E. intros E. unfold instant_step, n_electrons_released in E. rewrite !none_trapped in E by exact H.
    apply bind_ok in E as ([captured m2] & E1 & E). injection E as <- _. cbn [with_wm m_traps] in E1.
    assert (captured = 0); [|subst; rnum; lra]. unfold n_electrons_captured in E1. rewrite none_trapped in E1 by exact H. cbn [m_wm m_traps m_kind with_wm] in E1.
    apply bind_ok in E1 as (cloud & _ & E1). destruct (_ && _)%bool.
    - apply bind_ok in E1 as ([net1 w] & E2 & E1). injection E1 as <- _. unfold instant_first_capture in E2. rewrite none_trapped in E2 by exact H. rnum. rewrite Z in E2. injection E2 as <- _. reflexivity.
    - apply bind_ok in E1 as ([w wi] & E2 & E1). apply bind_ok in E1 as ([w2 wi2] & E3 & E1). rewrite none_trapped in E1 by exact H. rnum. rewrite Z in E1. injection E1 as <- _. reflexivity. }
  unfold manager_step in E. destruct (m_kind m); [|auto|auto]. clear I. unfold slow_step in E. rewrite none_trapped in E by exact H.
  apply bind_ok in E as (probs & _ & E). apply bind_ok in E as (cloud & _ & E). destruct (_ && _)%bool.
  - apply bind_ok in E as ([net1 w] & E2 & E). injection E as <- _. unfold slow_first_capture in E2. rewrite none_trapped in E2 by exact H. rnum. rewrite Z in E2. injection E2 as <- _. reflexivity.
  - apply bind_ok in E as ([[[n2 w] wi] index] & E2 & E). apply bind_ok in E as ([w2 wi2] & E3 & E). rewrite none_trapped in E by exact H. rnum. rewrite Z in E. injection E as <- _. reflexivity.
Qed.

(** ** Traps that do not capture *)
Definition blank (w : list (R * list R)) : Prop := Forall (fun r => Forall (fun x => x = 0) (snd r)) w.
Lemma blank_in w w' : blank w -> (forall x, In x w' -> In x w) -> blank w'.
Proof. unfold blank. rewrite !Forall_forall. auto. Qed.
Lemma blank_upd w i r : blank w -> Forall (fun x => x = 0) (snd r) -> blank (upd w i r).
Proof. unfold blank. intros H Hr. revert i. induction H as [|x w Hx Hw IH]; intros [|i]; cbn [upd]; constructor; auto. Qed.
Lemma blank_nth w i d : blank w -> Forall (fun x => x = 0) (snd d) -> Forall (fun x => x = 0) (snd (nth i w d)).
Proof. unfold blank. intros H Hd. revert i. induction H as [|x w Hx Hw IH]; intros [|i]; cbn [nth]; auto. Qed.
Lemma blank_set_vol w i v : blank w -> blank (set_vol w i v).
Proof. intros H. unfold set_vol. apply blank_upd; [exact H|]. cbn [snd]. unfold vals. apply blank_nth; [exact H|]. constructor. Qed.
Lemma blank_roll w : blank w -> blank (roll1 w).
Proof.
  intros H. unfold roll1. destruct (rev w) as [|x l] eqn:E; [constructor|]. apply (blank_in w); [exact H|].
  intros y [->|Hy]; apply in_rev; rewrite E; [left; reflexivity|right; apply in_rev; rewrite ?rev_involutive; exact Hy].
Qed.
Lemma blank_copy q : forall i w, blank w -> blank (copy_rows_up q i w).
Proof.
  induction q as [|q IH]; intros i w H; [exact H|]. cbn [copy_rows_up]. apply IH. apply blank_upd; [exact H|]. apply blank_nth; [exact H|]. constructor.
Qed.
Lemma blank_update w cloud index w' : blank w -> cy_update_volumes w cloud index = Ok w' -> blank w'.
Proof.
  intros H E. unfold cy_update_volumes in E. destruct (_ && _)%bool; [|discriminate]. injection E as <-.
  apply blank_set_vol, blank_set_vol. apply (blank_copy (S (Z.to_nat index)) 0 (roll1 w)). apply blank_roll, H.
Qed.
Lemma blank_split w wi cloud index mx w' wi' mx' : blank w -> slow_split w wi cloud index mx = Ok (w', wi', mx') -> blank w'.
Proof.
  intros H E. unfold slow_split in E. destruct (_ && _)%bool; [|injection E as <- _ _; exact H].
  apply bind_ok in E as (w1 & E1 & E). apply bind_ok in E as (wi1 & E2 & E). injection E as <- _ _. exact (blank_update _ _ _ _ H E1).
Qed.
Lemma blank_slice a b f w : blank w -> (forall fs, Forall (fun x => x = 0) fs -> Forall (fun x => x = 0) (f fs)) -> blank (map_vals_slice a b f w).
Proof.
  intros H Hf. unfold map_vals_slice, blank. apply Forall_forall. intros x Hx. apply in_map_iff in Hx as ([i r] & <- & Hx). apply in_combine_r in Hx.
  unfold blank in H. rewrite Forall_forall in H. specialize (H r Hx). destruct (_ && _)%bool; [cbn [snd]; apply Hf; exact H|exact H].
Qed.
Lemma blank_zip {B} (f : R -> B -> R) (Q : B -> Prop) fs (ps : list B) : (forall p, Q p -> f 0 p = 0) -> Forall Q ps -> Forall (fun x => x = 0) fs -> Forall (fun x => x = 0) (zip_with f fs ps).
Proof.
  intros H Hp Hf. unfold zip_with. apply Forall_map. apply Forall_forall. intros [x p] I. pose proof (in_combine_l _ _ _ _ I) as I1. apply in_combine_r in I.
  rewrite Forall_forall in *. rewrite (Hf x I1). apply H, Hp, I.
Qed.
Lemma blank_trapped ds w : blank w -> cy_n_trapped w ds = 0.
Proof.
  rewrite cy_n_trapped_eq. intros H. unfold trapped. induction H as [|r w Hr Hw IH]; [reflexivity|]. cbn [map]. unfold Rsum in *. cbn [fold_right]. rewrite IH. unfold row_trapped.
  assert (D : forall l ds, Forall (fun x => x = 0) l -> dot l ds = 0). { clear. intros l ds H. revert ds. induction H as [|x l Hx _ IH]; intros [|d ds]; cbn [dot]; try reflexivity. rewrite IH, Hx. ring. }
  rewrite D by exact Hr. ring.
Qed.
Lemma blank_collapse_index n w : blank w -> (collapse_index 1%R n w <= 1)%nat.
Proof.
  intros H. unfold collapse_index. rnum.
  assert (A : forall i, np_argmax (map (fun r : R * list R => negb (Reqb (nth i (vals r) 0) 1)) w) = 0%nat).
  { intros i. destruct H as [|r w Hr Hw]; [reflexivity|]. cbn [map]. replace (Reqb (nth i (vals r) 0) 1) with false; [reflexivity|]. symmetry. apply Reqb_false.
    assert (nth i (vals r) 0 = 0); [|lra]. unfold vals. clear - Hr. revert i. induction Hr as [|x l Hx _ IH]; intros [|i]; cbn [nth]; auto. }
  rewrite (map_ext _ (fun _ => 0%nat) A). destruct n as [|n]; cbn [seq map]; [lia|]. generalize 1%nat at 1 as s. induction n as [|n IH]; intros s; cbn [seq map fold_left]; [lia|]. rewrite Nat.min_0_l. apply IH.
Qed.
Definition dull (t : trap R) : Prop := t_capture_rate t = RFin 0 /\ t_emission_rate t <> 0.
Lemma blind_probs traps dwell probs : Forall dull traps -> fill_probabilities traps dwell = Ok probs -> Forall (fun p => p_empty p = 0) probs.
Proof.
  intros H. unfold fill_probabilities. revert probs. induction H as [|t l (H1 & H3) Hl IH]; intros probs E; cbn [mapM] in E; [injection E as <-; constructor|].
  apply bind_ok in E as (p & E1 & E). apply bind_ok in E as (ps & E2 & E). injection E as <-. constructor; [|now apply IH].
  unfold fill_probabilities1 in E1. rewrite H1 in E1. rnum. destruct (Reqb (0 + t_emission_rate t) 0) eqn:Et.
  - apply Reqb_true in Et. exfalso. apply H3. lra.
  - injection E1 as <-. unfold p_empty. cbn [fst]. ring.
Qed.
Lemma blind_step (m : manager R) n fill dwell net m' : m_kind m = KSlow -> Forall dull (m_traps m) -> blank (m_wm m) ->
  manager_step m n fill dwell = Ok (net, m') -> net = 0 /\ blank (m_wm m').
Proof.
  intros HK HT HB E. unfold manager_step in E. rewrite HK in E. unfold slow_step in E.
  assert (T : forall w, blank w -> n_trapped m w = 0) by (intros w Hw; unfold n_trapped; rewrite HK; now apply blank_trapped).
  assert (Z : Reqb 0 0 = true) by now apply Reqb_true.
  rewrite (T _ HB) in E. apply bind_ok in E as (probs & Ep & E). apply (blind_probs _ _ _ HT) in Ep. apply bind_ok in E as (cloud & _ & E). destruct (_ && _)%bool.
  - apply bind_ok in E as ([net1 w] & E2 & E). injection E as <- <-. unfold slow_first_capture in E2. 
    assert (HW : blank (set_row0 (m_wm m) (cloud, map p_empty probs))) by (apply blank_upd; [exact HB|]; cbn [snd]; apply Forall_map; exact Ep).
    rewrite (T _ HW) in E2. rnum. rewrite Z in E2. injection E2 as <- <-. split; [reflexivity|exact HW].
  - apply bind_ok in E as ([[[n2 w] wi] index] & E2 & E).
    assert (HW : blank w).
    { destruct (_ || _)%bool.
      - apply bind_ok in E2 as (o & E3 & E2). injection E2 as _ <- _ _. unfold slow_cloud_below in E3. apply bind_ok in E3 as ([[w1 wi1] mx1] & E4 & E3).
        apply bind_ok in E3 as (cloud' & _ & E3). apply bind_ok in E3 as ([[w3 wi3] mx3] & E5 & E3). injection E3 as <-. cbn [sb_wm].
        refine (blank_split _ _ _ _ _ _ _ _ _ E5). apply blank_slice; [exact (blank_split _ _ _ _ _ _ _ _ HB E4)|]. intros fs Hfs.
        apply (blank_zip _ (fun _ => True)); [intros p _; rnum; ring|apply Forall_forall; auto|exact Hfs].
      - apply bind_ok in E2 as ([w1 wi1] & E3 & E2). injection E2 as _ <- _ _. unfold new_top_watermark in E3. destruct (_ && _)%bool; [|discriminate]. injection E3 as <- _. now apply blank_set_vol. }
    apply bind_ok in E as ([w2 wi2] & E3 & E).
    set (w1 := map_vals_slice _ _ _ w) in E3.
    assert (HW1 : blank w1).
    { apply blank_slice; [exact HW|]. intros fs Hfs. apply (blank_zip _ (fun p => p_empty p = 0)); [|exact Ep|exact Hfs]. intros p Hp. rnum. rewrite Hp. ring. }
    unfold collapse_with_copy in E3. rewrite HK in E3. cbn [filled_value] in E3. rnum. rewrite (proj2 (Nat.leb_le _ 1) (blank_collapse_index _ _ HW1)) in E3. injection E3 as <- _.
    rewrite (T _ HW1), Z in E. injection E as <- <-. split; [reflexivity|exact HW1].
Qed.

(** ** Directions and calls *)
Definition quiet (m : manager R) : Prop :=
  mshape m /\ (m_kind m = KSlow /\ Forall dull (m_traps m) /\ blank (m_wm m) \/ Forall (fun t => t_density t = 0) (m_traps m)).
Lemma quiet_step m n fill dwell net m' : quiet m -> 0 < dwell -> manager_step m n fill dwell = Ok (net, m') -> net = 0 /\ quiet m'.
Proof.
  intros [HS H] _ E. pose proof (manager_step_shape _ _ _ _ _ _ HS E) as K. pose proof (keeps_shape _ _ K) as HS'. destruct K as (K1 & K2 & _). destruct H as [(H1 & H2 & H3)|H].
  - destruct (blind_step _ _ _ _ _ _ H1 H2 H3 E) as [-> HB]. split; [reflexivity|]. split; [exact HS'|]. left. rewrite K1, K2. auto.
  - split; [exact (no_traps_net _ _ _ _ _ _ H E)|]. split; [exact HS'|]. right. rewrite K2. exact H.
Qed.
Lemma quiet_empty m : quiet m -> quiet (empty_all_traps m).
Proof.
  intros [HS H]. split; [now apply empty_shape|]. destruct H as [(H1 & H2 & H3)|H]; [left|right; exact H]. split; [exact H1|]. split; [exact H2|].
  cbn. unfold blank. apply Forall_map. apply Forall_forall. intros r _. cbn [snd]. apply Forall_map. apply Forall_forall. auto.
Qed.

Lemma blind_dull t f : blind t -> dull (scale_density f t).
Proof.
  intros (H1 & H2 & H3). split; [exact H3|]. cbn. rewrite (ph_emission _ H1). pose proof (Rdiv_lt_0_compat 1 (t_release_timescale t) Rlt_0_1 (ph_timescale _ H1)). lra.
Qed.
Lemma quiet_init k g n frac : kind_of_group g = Ok k -> Forall blind g \/ Forall (fun t => t_density t = 0) g ->
  quiet (mkManager k (map (scale_density frac) g) (m_wm (manager_init k g n))).
Proof.
  intros Ek H. split.
  - unfold mshape, manager_init. cbn [m_traps m_wm]. rewrite map_length. split; [reflexivity|]. apply Forall_forall. intros r Hr. apply repeat_spec in Hr. subst. cbn. apply repeat_length.
  - destruct H as [H|H]; [left|right].
    + cbn [m_kind m_traps m_wm manager_init]. split; [|split].
      * destruct H as [|t l (_ & E & _) _]; [discriminate|]. cbn in Ek. rewrite E in Ek. injection Ek as <-. reflexivity.
      * apply Forall_map. eapply Forall_impl; [|exact H]. intros t. apply blind_dull.
      * unfold blank. apply Forall_forall. intros r Hr. apply repeat_spec in Hr. subst. cbn. apply Forall_forall. intros x Hx. apply repeat_spec in Hx. exact Hx.
    + cbn [m_traps]. apply Forall_map. eapply Forall_impl; [|exact H]. intros t E. cbn. rewrite E. ring.
Qed.
Lemma normalised traps groups : normalise_traps traps = Ok groups -> groups = groups_in traps.
Proof. destruct traps as [t|[|t l]|[|g l]]; cbn; intros E; try discriminate; injection E as <-; reflexivity. Qed.
Lemma quiet_atm traps n c a : (forall group, In group (groups_in traps) -> Forall blind group \/ Forall (fun t => t_density t = 0) group) ->
  atm_init traps n c = Ok a -> inert quiet a.
Proof.
  intros H E. unfold atm_init in E. apply bind_ok in E as (groups & Eg & E). apply normalised in Eg as ->. apply bind_ok in E as (data & Ed & E). injection E as <-.
  split; [|discriminate]. cbn [atm_data]. unfold all_inert. revert data Ed. generalize (seq 0 (ccd_n_phases c)) as phases. induction phases as [|ph phases IH]; intros data Ed; cbn [mapM] in Ed; [injection Ed as <-; constructor|].
  apply bind_ok in Ed as (ms & E1 & Ed). apply bind_ok in Ed as (rest & E2 & Ed). injection Ed as <-. constructor; [|now apply IH].
  clear - E1 H. revert ms E1. induction (groups_in traps) as [|g gs IH]; intros ms E1; cbn [mapM] in E1; [injection E1 as <-; constructor|].
  apply bind_ok in E1 as (m & E2 & E1). apply bind_ok in E1 as (ms' & E3 & E1). injection E1 as <-. constructor; [|apply IH; [intros q Hq; apply H; now right|exact E3]].
  apply bind_ok in E2 as (k & Ek & E2). apply bind_ok in E2 as (frac & _ & E2). injection E2 as <-. apply quiet_init; [exact Ek|]. apply H. now left.
Qed.
Lemma pad_nonneg rows cols (im : image R) k : shape rows cols im -> (0 < rows)%nat -> (forall i j, 0 <= pixel im i j) -> forall i j, 0 <= pixel (pad im k) i j.
Proof.
  intros Hs Hr Hp i j. unfold pixel, pad. destruct (lt_dec i (length im)) as [L|L]; [rewrite app_nth1 by exact L; apply (Hp i j)|].
  rewrite app_nth2 by lia. destruct (nth_in_or_default (i - length im) (repeat (repeat 0 (n_columns im)) k) []) as [I|E].
  - apply repeat_spec in I. rnum. rewrite I. destruct (nth_in_or_default j (repeat 0 (n_columns im)) 0) as [I2|E2]; [apply repeat_spec in I2; rewrite I2; lra|rewrite E2; lra].
  - rnum. rewrite E. destruct j; cbn; lra.
Qed.
Lemma harmless_direction (im im' : image R) d traps wr wc tw r' rows cols : shape rows cols im -> (0 < rows)%nat -> (forall i j, 0 <= pixel im i j) -> harmless d -> d_traps d = Some traps ->
  clock_direction im d (the_roe d) traps wr wc tw = Ok (im', r') -> im' = im.
Proof.
  intros Hs Hr Hp Hh Ht E. unfold clock_direction in E. destruct (d_ccd d) as [c|] eqn:Ec.
  - unfold clock_charge_in_one_direction in E.
    apply bind_ok in E as ([[r1 em] mon] & E1 & E). apply bind_ok in E as (sav & E2 & E). apply bind_ok in E as (a & E3 & E). apply bind_ok in E as (n & E4 & E).
    apply bind_ok in E as ([im2 a2] & E5 & E). injection E as <- _.
    apply (inert_columns quiet quiet_step quiet_empty _ _ _ _ _ (rows + n) cols) in E5 as ->; [apply unpad_pad_same|exact (pad_shape rows cols im n Hs Hr)|exact (pad_nonneg rows cols im n Hs Hr Hp)|].
    eapply quiet_atm; [|exact E3]. intros g Hg. exact (Hh traps g Ht Hg).
  - apply bind_ok in E as ([[r1 em] mon] & E1 & E). apply bind_ok in E as (sav & E2 & E). discriminate.
Qed.
Lemma transpose_nonneg rows cols (im : image R) : shape rows cols im -> (0 < rows)%nat -> (forall i j, 0 <= pixel im i j) -> forall i j, 0 <= pixel (transpose im) i j.
Proof. intros Hs Hr Hp i j. rewrite (transpose_pixel_all rows cols im i j Hs Hr). apply Hp. Qed.
Lemma harmless_unchanged (im : image R) parallel serial tw im' pr sr rows cols :
  shape rows cols im -> (0 < rows)%nat -> (0 < cols)%nat -> (forall i j, 0 <= pixel im i j) -> harmless parallel -> harmless serial ->
  add_cti im parallel serial tw = Ok (im', pr, sr) -> im' = im.
Proof.
  intros Hs Hr Hc Hn Hp Hq E. unfold add_cti in E. apply bind_ok in E as ([w cs] & _ & E). apply bind_ok in E as ([im1 r1] & E1 & E). apply bind_ok in E as ([im2 r2] & E2 & E).
  injection E as <- _ _.
  assert (H1 : im1 = im).
  { destruct (d_traps parallel) as [t|] eqn:Et; [exact (harmless_direction _ _ _ _ _ _ _ _ rows cols Hs Hr Hn Hp Et E1)|injection E1 as <- _; reflexivity]. }
  subst im1. destruct (d_traps serial) as [t|] eqn:Et; [|injection E2 as <- _; reflexivity].
  apply bind_ok in E2 as ([im3 r3] & E3 & E2). injection E2 as <- _.
  rewrite (harmless_direction _ _ _ _ _ _ _ _ cols rows (transpose_shape rows cols im Hs Hr) Hc (transpose_nonneg rows cols im Hs Hr Hn) Hq Et E3). apply (transpose_twice rows cols im Hs Hr Hc).
Qed.
