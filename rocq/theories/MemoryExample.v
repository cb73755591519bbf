(** * A history of slow capture whose watermarks do not fit in their array.  It is evaluated with
    rational numbers, which agree with the real ones. *)
From Coq Require Import ZArith QArith Qreals List Bool Reals Lra Lia.
From Verif Require Import Num Py RFacts CCDModel TrapsModel ManagerModel ROEModel ClockModel MainModel CCDFacts ClockFacts Spec SpecImage SpecReadout SpecHistory
  ReadoutExamples SlowExamples HomFacts.
Import ListNotations.

(** Rational arithmetic; the two exponentials that occur are those of -2 ln 4 and -ln 4, in
    units of ln 4. *)
Definition qexp (x : Q) : Q := if Qeq_bool x (-2) then 1 # 16 else 1 # 4.
#[local] Instance QNum : Num Q := {|
  n0 := 0%Q; n1 := 1%Q;
  nadd := fun a b => Qred (a + b); nsub := fun a b => Qred (a - b); nmul := fun a b => Qred (a * b);
  ndiv := fun a b => Qred (a / b); nopp := fun a => Qred (- a);
  nltb := fun a b => negb (Qle_bool b a); nleb := Qle_bool; neqb := Qeq_bool;
  nofZ := inject_Z; nexp := qexp; nln := fun x => x; npow := fun x _ => x; nnan := None |}.

Open Scope R_scope.
Lemma Q2R_red a : Q2R (Qred a) = Q2R a.
Proof. apply Qeq_eqR, Qred_correct. Qed.
Lemma Q2R_0 : Q2R 0 = 0.
Proof. unfold Q2R. cbn. lra. Qed.
Lemma Q2R_1 : Q2R 1 = 1.
Proof. unfold Q2R. cbn. lra. Qed.
Lemma Q2R_over a b : Q2R (Qred (a / b)) = Q2R a / Q2R b.
Proof.
  rewrite Q2R_red. destruct (Qeq_dec b 0) as [E|E]; [|now apply Q2R_div].
  rewrite (Qeq_eqR _ _ E), Q2R_0. unfold Rdiv. rewrite Rinv_0, Rmult_0_r, <- Q2R_0. apply Qeq_eqR. rewrite E. unfold Qdiv. rewrite Qmult_comm. reflexivity.
Qed.
Lemma Q2R_leb a b : Rleb (Q2R a) (Q2R b) = Qle_bool a b.
Proof.
  destruct (Qle_bool a b) eqn:E; [apply Rleb_true, Qle_Rle; now apply Qle_bool_iff|]. apply Rleb_false, Qlt_Rlt. apply Qnot_le_lt. intros H. apply Qle_bool_iff in H. congruence.
Qed.
Lemma Q2R_ltb a b : Rltb (Q2R a) (Q2R b) = negb (Qle_bool b a).
Proof.
  rewrite <- Q2R_leb. destruct (Rleb_spec (Q2R b) (Q2R a)); cbn; [apply Rltb_false|apply Rltb_true]; lra.
Qed.
Lemma Q2R_eqb a b : Reqb (Q2R a) (Q2R b) = Qeq_bool a b.
Proof.
  destruct (Qeq_bool a b) eqn:E; [apply Reqb_true, Qeq_eqR; now apply Qeq_bool_iff|]. apply Reqb_false. intros H. apply eqR_Qeq in H. apply Qeq_bool_iff in H. congruence.
Qed.
Lemma Q2R_sum a b : Q2R (Qred (a + b)) = Q2R a + Q2R b.
Proof. now rewrite Q2R_red, Q2R_plus. Qed.
Lemma Q2R_difference a b : Q2R (Qred (a - b)) = Q2R a - Q2R b.
Proof. now rewrite Q2R_red, Q2R_minus. Qed.
Lemma Q2R_product a b : Q2R (Qred (a * b)) = Q2R a * Q2R b.
Proof. now rewrite Q2R_red, Q2R_mult. Qed.
Lemma Q2R_negative a : Q2R (Qred (- a)) = - Q2R a.
Proof. now rewrite Q2R_red, Q2R_opp. Qed.

(** A well of a thousand electrons, and ten thousand slow traps per pixel. *)
Definition wide_ccd : ccd R := mkCCD [1] 1 [1000] [1] [0] [BList [1000]].
Lemma wide_ccd_init : ccd_init (PList [1]) (Scalar 1000) (Scalar 0) (Scalar 1) None = Ok wide_ccd.
Proof. reflexivity. Qed.
Definition qfill (n : Q) : result Q :=
  Ok (if Qle_bool n 0 then 0%Q else if Qle_bool 1000 n then 1%Q else Qred (n / 1000)).
Lemma wide_fill n : well_fill wide_ccd 0 false (Q2R n) = h_result Q2R (qfill n).
Proof.
  rewrite (well_fill_ok wide_ccd 0 (Q2R n) 0 1 1000) by (reflexivity || lra). cbn [h_result qfill]. f_equal.
  pose proof (Q2R_leb n 0) as E0. pose proof (Q2R_leb 1000 n) as E1. rewrite Q2R_0 in E0. assert (T : Q2R 1000 = 1000) by (unfold Q2R; cbn; lra). rewrite T in E1.
  destruct (Req_EM_T (Q2R n) 0) as [Z|Z].
  { rewrite Z in E0. rewrite <- E0. replace (Rleb 0 0) with true by (symmetry; apply Rleb_true; lra). now rewrite Q2R_0. }
  rewrite !Rminus_0_r, Rpow_py_exp_1 by apply unit_clip.
  destruct (Qle_bool n 0); [apply Rleb_true in E0; rewrite Q2R_0; apply clip_low; unfold Rdiv; lra|]. apply Rleb_false in E0.
  destruct (Qle_bool 1000 n); [apply Rleb_true in E1; rewrite Q2R_1; apply clip_high; unfold Rdiv; lra|]. apply Rleb_false in E1.
  rewrite Q2R_over, T. apply clip_mid. unfold Rdiv. lra.
Qed.

Definition q_trap : trap Q := mkTrap 10000%Q 1%Q (RFin 1%Q) 1%Q false CTrap.
Definition q_probs : list (Q * Q * Q) := [(15 # 32, 17 # 32, 1 # 4)].
Lemma q_probabilities : fill_probabilities [q_trap] 1%Q = Ok q_probs.
Proof. vm_compute. reflexivity. Qed.
Lemma wide_probabilities : fill_probabilities [slow_trap 10000] (ln 4) = Ok (map (h_prob Q2R) q_probs).
Proof.
  unfold fill_probabilities, q_probs. cbn [mapM map]. unfold fill_probabilities1. cbn [slow_trap t_capture_rate t_emission_rate]. rnum.
  replace (Reqb (1 / 1 + 1 / 1) 0) with false by (symmetry; apply Reqb_false; lra). cbn [bind]. unfold release_probability. cbn [slow_trap t_emission_rate]. rnum.
  rewrite exp_twice. replace (- (1 / 1) * ln 4) with (- ln 4) by lra. rewrite exp_Ropp, exp_ln by lra. unfold h_prob, Q2R. cbn. do 3 f_equal; [f_equal|]; lra.
Qed.

Fixpoint q_history (m : manager Q) (l : list Q) : result (manager Q) :=
  match l with
  | [] => Ok m
  | n :: l => do '(_, m') <- slow_step m n qfill 1%Q; q_history m' l
  end.
Lemma q_history_real (m : manager Q) (m' : manager R) l e :
  h_manager Q2R m m' -> m_traps m = [q_trap] -> m_traps m' = [slow_trap 10000] -> q_history m l = Err e ->
  past_manager (well_fill wide_ccd 0 false) (ln 4) m' (map Q2R l) = Err e.
Proof.
  revert m m'. induction l as [|n l IH]; intros m m' HM T T' H; [discriminate|]. cbn [map past_manager q_history] in *. pose proof HM as (K & K' & D & W).
  unfold manager_step. rewrite K'.
  rewrite (h_step (numF := QNum) (numG := RNum) Q2R Q2R_0 Q2R_1 Q2R_sum Q2R_difference Q2R_product Q2R_over Q2R_negative Q2R_ltb Q2R_leb Q2R_eqb eq_refl m m' n qfill (well_fill wide_ccd 0 false) 1%Q (ln 4) q_probs HM wide_fill)
    by (rewrite ?T, ?T'; exact q_probabilities || exact wide_probabilities).
  destruct (slow_step m n qfill 1%Q) as [[net m1]|e'] eqn:E; cbn [bind h_result fst snd] in *; [|congruence].
  assert (HK : m_kind m1 = KSlow /\ m_traps m1 = m_traps m).
  { rewrite <- K. clear - E. unfold slow_step in E. apply bind_ok in E as (probs & _ & E). apply bind_ok in E as (cloud & _ & E). destruct (_ && _)%bool.
    - apply bind_ok in E as ([? ?] & _ & E). injection E as _ <-. auto.
    - apply bind_ok in E as ([[[? ?] ?] ?] & _ & E). apply bind_ok in E as ([? ?] & _ & E). destruct (_ =? _)%num; [injection E as _ <-; auto|].
      apply bind_ok in E as ([? ?] & _ & E). injection E as _ <-. auto. }
  destruct HK as [HK HT]. rewrite (IH m1 _); [reflexivity| |congruence|exact T'|exact H].
  split; [exact HK|]. split; [exact K'|]. split; [|reflexivity]. unfold n_traps_per_pixel in *. cbn [with_wm m_traps]. rewrite HT. exact D.
Qed.

(** The rows of a column of the image, from the readout register on. *)
Definition overrun_rows : list Q := [100; 100; 1; 2; 3; 4; 5]%Q.
Lemma overrun_history : past_manager (well_fill wide_ccd 0 false) (ln 4) (empty_manager 1 [slow_trap 10000] 7) (map Q2R overrun_rows) = Err OutOfBounds.
Proof.
  apply (q_history_real (mkManager KSlow [q_trap] (repeat (0%Q, [0%Q]) 15))).
  - split; [reflexivity|]. split; [reflexivity|]. split.
    + unfold n_traps_per_pixel, empty_manager. cbn. f_equal. unfold Q2R. cbn. lra.
    + unfold empty_manager, h_wm, h_row. cbn. now rewrite Q2R_0.
  - reflexivity.
  - unfold empty_manager, thinned, slow_trap. cbn. do 2 f_equal. lra.
  - vm_compute. reflexivity.
Qed.
Definition overrun_image : image R := map (fun x => [x]) [100; 100; 1; 2; 3; 4; 5].
Lemma overrun_column : column_of overrun_image 0 = map Q2R overrun_rows.
Proof. unfold column_of, overrun_image, overrun_rows. cbn. unfold Q2R. cbn. repeat f_equal; lra. Qed.
