(** * Five packets past the traps of one pixel, far more traps than the well holds electrons.  The
    slow trap manager is evaluated with rational numbers, which agree with the real ones. *)
From Coq Require Import ZArith QArith Qreals List Bool Reals Lra Lia.
From Verif Require Import Num Py RFacts CCDModel TrapsModel ManagerModel ROEModel ClockModel MainModel CCDFacts ClockFacts Spec SpecROE SpecImage SpecReadout SpecHistory SpecInjected
  ReadoutExamples SlowExamples HomFacts MemoryExample ZeroCaptureExample HistoryFacts InjectedFacts.
Import ListNotations.

(** The two exponentials that occur are those of -2 ln 4 and -ln 4, in units of ln 4. *)
#[local] Instance QNum : Num Q := {|
  n0 := 0%Q; n1 := 1%Q;
  nadd := fun a b => Qred (a + b); nsub := fun a b => Qred (a - b); nmul := fun a b => Qred (a * b);
  ndiv := fun a b => Qred (a / b); nopp := fun a => Qred (- a);
  nltb := fun a b => negb (Qle_bool b a); nleb := Qle_bool; neqb := Qeq_bool;
  nofZ := inject_Z; nexp := qexp; nln := fun x => x; npow := fun x _ => x; nnan := None |}.
Open Scope R_scope.
Definition q_dense : trap Q := mkTrap 6000%Q 1%Q (RFin 1%Q) 1%Q false CTrap.
Lemma dense_probabilities : fill_probabilities [thinned 1 (slow_trap 6000)] (ln 4) = Ok (map (h_prob Q2R) q_probs).
Proof.
  unfold fill_probabilities, q_probs. cbn [mapM map]. unfold fill_probabilities1. cbn [thinned slow_trap t_capture_rate t_emission_rate]. rnum.
  replace (Reqb (1 / 1 + 1 / 1) 0) with false by (symmetry; apply Reqb_false; lra). cbn [bind]. unfold release_probability. cbn [thinned slow_trap t_emission_rate]. rnum.
  rewrite exp_twice. replace (- (1 / 1) * ln 4) with (- ln 4) by lra. rewrite exp_Ropp, exp_ln by lra. unfold h_prob, Q2R. cbn. do 3 f_equal; [f_equal|]; lra.
Qed.
Fixpoint q_dense_past (m : manager Q) (l : list Q) : result (list Q) :=
  match l with
  | [] => Ok []
  | n :: l => do '(net, m') <- slow_step m n qfill 1%Q; do l' <- q_dense_past m' l; Ok (left_over n net :: l')
  end.
Lemma q_dense_real : forall l (m : manager Q) (m' : manager R) l',
  h_manager Q2R m m' -> m_traps m = [q_dense] -> m_traps m' = [thinned 1 (slow_trap 6000)] -> q_dense_past m l = Ok l' ->
  exists m2, past_manager (well_fill wide_ccd 0 false) (ln 4) m' (map Q2R l) = Ok (map Q2R l', m2).
Proof.
  induction l as [|n l IH]; intros m m' l' HM T T' H; cbn [map past_manager q_dense_past] in *; [injection H as <-; eauto|].
  pose proof HM as (K & K' & D & W). unfold manager_step. rewrite K'.
  rewrite (h_step (numF := QNum) (numG := RNum) Q2R Q2R_0 Q2R_1 Q2R_sum Q2R_difference Q2R_product Q2R_over Q2R_negative Q2R_ltb Q2R_leb Q2R_eqb eq_refl m m' n qfill (well_fill wide_ccd 0 false) 1%Q (ln 4) q_probs HM wide_fill)
    by (rewrite ?T, ?T'; reflexivity || exact dense_probabilities).
  destruct (slow_step m n qfill 1%Q) as [[net m1]|e'] eqn:E; cbn [bind h_result fst snd] in *; [|congruence].
  assert (HK : m_kind m1 = KSlow /\ m_traps m1 = m_traps m).
  { rewrite <- K. clear - E. unfold slow_step in E. apply bind_ok in E as (probs & _ & E). apply bind_ok in E as (cloud & _ & E). destruct (_ && _)%bool.
    - apply bind_ok in E as ([? ?] & _ & E). injection E as _ <-. auto.
    - apply bind_ok in E as ([[[? ?] ?] ?] & _ & E). apply bind_ok in E as ([? ?] & _ & E). destruct (_ =? _)%num; [injection E as _ <-; auto|].
      apply bind_ok in E as ([? ?] & _ & E). injection E as _ <-. auto. }
  destruct HK as [HK HT]. apply bind_ok in H as (l2 & H2 & H). injection H as <-.
  destruct (IH m1 (with_wm m' (h_wm Q2R (m_wm m1))) l2) as (m2 & ->); [|congruence|exact T'|exact H2|].
  { split; [exact HK|]. split; [exact K'|]. split; [|reflexivity]. unfold n_traps_per_pixel in *. cbn [with_wm m_traps]. rewrite HT. exact D. }
  cbn [bind map]. exists m2. rewrite left_over_real. reflexivity.
Qed.
Definition flash_rows : list Q := [500; 0; 0; 0; 0]%Q.
Lemma dense_past : exists m2, past_manager (well_fill wide_ccd 0 false) (ln 4) (empty_manager 1 [slow_trap 6000] 5) (map Q2R flash_rows) = Ok (map Q2R [0; 0; 0; 0; 1261125 # 1024]%Q, m2).
Proof.
  apply (q_dense_real flash_rows (mkManager KSlow [q_dense] (repeat (0%Q, [0%Q]) 11))).
  - split; [reflexivity|]. split; [reflexivity|]. split.
    + unfold n_traps_per_pixel, empty_manager. cbn. f_equal. unfold Q2R. cbn. lra.
    + unfold empty_manager, h_wm, h_row. cbn. now rewrite Q2R_0.
  - reflexivity.
  - reflexivity.
  - vm_compute. reflexivity.
Qed.
Definition flash : image R := map (fun x => [x]) [500; 0; 0; 0; 0].
Lemma flash_column : column_of flash 0 = map Q2R flash_rows.
Proof. unfold column_of, flash, flash_rows. cbn. unfold Q2R. cbn. repeat f_equal; lra. Qed.
Lemma flash_shape : shape 5 1 flash.
Proof. split; [reflexivity|repeat constructor]. Qed.
(** One transfer past the traps of one pixel. *)
Definition dense_injected : direction R := mkDir (Some wide_ccd) (Some (roe_injection_init [ln 4] (Some 1%nat) true true DFloat)) (Some (TOne (slow_trap 6000))) 0 0 WNone.
Lemma dense_setting : single_injection dense_injected 5 wide_ccd 1 [slow_trap 6000] (ln 4) (Some 1%nat) false.
Proof.
  constructor; try reflexivity; try lra; try discriminate.
  - exists (TOne (slow_trap 6000)). auto.
  - exists true. reflexivity.
  - apply ln_pos. lra.
  - cbn. lia.
  - left. reflexivity.
Qed.
Lemma dense_readout : exists im', add_cti flash dense_injected no_direction None = Ok (im', counted (the_roe dense_injected) 1, the_roe no_direction) /\ shape 5 1 im' /\
  column_of im' 0 = [0; 0; 0; 0; 1261125 / 1024].
Proof.
  pose proof (injection_history flash dense_injected no_direction wide_ccd 1 [slow_trap 6000] (ln 4) (Some 1%nat) false 5 1 flash_shape ltac:(lia) dense_setting eq_refl eq_refl) as H. cbv zeta in H.
  cbn [seq map] in H. rewrite flash_column in H. destruct dense_past as (m & E). change (injection_transfers (Some 1%nat) 5 (d_offset dense_injected)) with 1%nat in H.
  change (fun n => well_fill wide_ccd 0 false n) with (well_fill wide_ccd 0 false) in H. cbn [columns_injected before] in H. rewrite E in H. cbn [bind] in H.
  destruct H as (im' & Ea & Hs & _ & Hc). exists im'. split; [exact Ea|]. split; [exact Hs|]. rewrite (Hc 0%nat ltac:(lia)). cbn. unfold Q2R. cbn. repeat f_equal; lra.
Qed.
