(** * An array with every level in use, reached by two calls with one level too few. *)
From Coq Require Import ZArith List Bool Reals Lra Lia.
From Coquelicot Require Import Rcomplements Rbar Hierarchy RInt.
From Verif Require Import Num Py RFacts CCDModel TrapsModel ManagerModel Spec SpecBalance SpecReadout TrapsFacts CCDFacts WmFacts ArrayFacts CutFacts
  InstantFacts CaptureFacts StoredFacts NotchFacts ReadoutImage ReadoutExamples.
Import ListNotations.
Open Scope R_scope.

Definition half_trap : trap R := small_trap (1 / 2).
Definition small_fill : filling R := well_fill small_ccd 0 false.
Lemma small_params : phase_params small_ccd 0 0 1 1.
Proof. now constructor. Qed.
Lemma small_fill_at n v : n = v -> 0 < v <= 1 -> small_fill n = Ok v.
Proof.
  intros E H. unfold small_fill. rewrite (depth_fill small_ccd 0 1 1 n small_params) by lra.
  f_equal. fold small_well. now apply small_well_at.
Qed.

Ltac decide_R := repeat match goal with
  | |- context [Reqb ?a ?b] => first [replace (Reqb a b) with true by (symmetry; apply Reqb_true; lra)
                                     |replace (Reqb a b) with false by (symmetry; apply Reqb_false; lra)]
  | |- context [Rltb ?a ?b] => first [replace (Rltb a b) with true by (symmetry; apply Rltb_true; lra)
                                     |replace (Rltb a b) with false by (symmetry; apply Rltb_false; lra)]
  | |- context [Rleb ?a ?b] => first [replace (Rleb a b) with true by (symmetry; apply Rleb_true; lra)
                                     |replace (Rleb a b) with false by (symmetry; apply Rleb_false; lra)]
  end.

Lemma overfull_1 : manager_step (manager_init KInstant [half_trap] 1) 1 small_fill (ln 2)
  = Ok (- (1 / 2), mkManager KInstant [half_trap] [(1, [1]); (0, [0])]).
Proof.
  unfold manager_init. cbn [n_watermarks_per_transfer]. unfold zero_row; rnum. cbn [Nat.add Nat.mul repeat length].
  rewrite (blind_step [half_trap] (0, [0]) [(0, [0])] small_fill 1 (ln 2) 1) by (try lra; try apply small_fill_at; try apply max_index_head0; lra).
  change [(0, [0])] with (Zs 1 1). change (Zs 1 1) with (Zs (length [half_trap]) 1). rewrite (stored_head [half_trap] 1 1).
  replace (1 * total_density [half_trap]) with (1 / 2) by (unfold total_density, dens, Rsum; cbn; lra).
  decide_R. reflexivity.
Qed.
Lemma overfull_count w : n_trapped (mkManager KInstant [half_trap] w) w = trapped [1 / 2] w.
Proof. unfold n_trapped. cbn [m_kind]. apply cy_n_trapped_eq. Qed.
Lemma overfull_release : n_electrons_released (mkManager KInstant [half_trap] [(1, [1]); (0, [0])]) (ln 2)
  = (1 / 4, mkManager KInstant [half_trap] [(1, [1 / 2]); (0, [0])]).
Proof.
  unfold n_electrons_released. cbn [m_wm].
  assert (E : max_watermark_index [(1, [1]); (0, [0])] = 0%Z) by (unfold max_watermark_index, first_zero_volume; cbn; rnum; decide_R; reflexivity).
  rewrite E. change (Z.to_nat (0 + 1)) with 1%nat. unfold map_vals_slice, released_values, zip_with, release_probability, vals, vol. cbn. rnum.
  replace (- (1 / 1) * ln 2) with (- ln 2) by field. rewrite exp_ln2. unfold with_wm. cbn [m_kind m_traps].
  replace (1 * (1 / 2)) with (1 / 2) by lra. f_equal. lra.
Qed.
Lemma overfull_2 : manager_step (mkManager KInstant [half_trap] [(1, [1]); (0, [0])]) 0 small_fill (ln 2)
  = Ok (3 / 16, mkManager KInstant [half_trap] [(1 / 4, [1]); (3 / 4, [1 / 2])]).
Proof.
  unfold manager_step, instant_step. cbn [m_kind]. rewrite overfull_release. rnum. rewrite Rplus_0_l.
  unfold n_electrons_captured. cbn [m_wm].
  assert (E : max_watermark_index [(1, [1 / 2]); (0, [0])] = 0%Z) by (unfold max_watermark_index, first_zero_volume; cbn; rnum; decide_R; reflexivity).
  rewrite E, (small_fill_at (1 / 4) (1 / 4)) by lra. cbn [bind].
  assert (E2 : index_above_cloud (1 / 4) [(1, [1 / 2]); (0, [0])] 0 = 0%Z) by (unfold index_above_cloud, cy_index_above; cbn; unfold vol; cbn; rnum; decide_R; reflexivity).
  rewrite E2. cbn [Z.eqb andb Z.leb Z.compare orb]. unfold instant_cloud_below, slow_split.
  assert (E3 : cy_value_in_cumsum (1 / 4) (map vol [(1, [1 / 2]); (0, [0])]) = false) by (unfold vol; cbn; rnum; decide_R; reflexivity).
  rewrite E3. rnum. decide_R. cbn [negb andb].
  assert (E4 : cy_update_volumes [(1, [1 / 2]); (0, [0])] (1 / 4) 0 = Ok [(1 / 4, [1 / 2]); (3 / 4, [1 / 2])]).
  { unfold cy_update_volumes. cbn. unfold vol, vals. cbn. rnum. unfold set_vol, vals. cbn.
    replace (1 / 4 - (0 + 1 - 1)) with (1 / 4) by lra. replace (1 - 1 / 4) with (3 / 4) by lra. reflexivity. }
  rewrite E4. cbn [bind m_traps m_kind filled_value length]. change (Z.to_nat (0 + 1)) with 1%nat.
  unfold map_vals_slice, vol, vals. cbn [length combine seq map Nat.leb Nat.ltb andb fst snd repeat]. rnum.
  assert (E5 : forall wi, collapse_with_copy 1 1 [(1 / 4, [1]); (3 / 4, [1 / 2])] wi = Ok ([(1 / 4, [1]); (3 / 4, [1 / 2])], wi)).
  { intros wi. unfold collapse_with_copy, collapse_index, vals. cbn. rnum. decide_R. reflexivity. }
  rewrite E5. cbn [bind]. 
  assert (C : forall w w', n_trapped (mkManager KInstant [half_trap] w) w' = trapped [1 / 2] w').
  { intros. unfold n_trapped. cbn [m_kind]. apply cy_n_trapped_eq. }
  rewrite !C. replace (trapped [1 / 2] [(1 / 4, [1]); (3 / 4, [1 / 2])]) with (5 / 16) by (unfold trapped, row_trapped, dot, Rsum; cbn; lra).
  replace (trapped [1 / 2] [(1, [1 / 2]); (0, [0])]) with (1 / 4) by (unfold trapped, row_trapped, dot, Rsum; cbn; lra).
  replace (1 / 4 / (5 / 16 - 1 / 4)) with 4 by field. decide_R. cbn [andb bind].
  assert (E6 : collapse 1 1 [(1 / 4, [1]); (3 / 4, [1 / 2])] = [(1 / 4, [1]); (3 / 4, [1 / 2])]).
  { unfold collapse, collapse_index, vals. cbn. rnum. decide_R. reflexivity. }
  rewrite E6. unfold with_wm. cbn [m_kind m_traps]. f_equal. f_equal. lra.
Qed.
Lemma overfull_3 : manager_step (mkManager KInstant [half_trap] [(1 / 4, [1]); (3 / 4, [1 / 2])]) 1 small_fill (ln 2)
  = Ok (- (11 / 16), mkManager KInstant [half_trap] [(1, [1]); (3 / 4, [1 / 2])]).
Proof.
  assert (S : stored KInstant [half_trap] [(1, [1]); (3 / 4, [1 / 2])] = 11 / 16)
    by (unfold stored, level_electrons, Rsum; cbn; lra).
  rewrite (overfull_step [half_trap] (1 / 4, [1]) [(3 / 4, [1 / 2])] small_fill 1 (ln 2) 1); cbn [length repeat].
  - rewrite S. reflexivity.
  - repeat constructor; cbn; lra.
  - lra.
  - apply small_fill_at; lra.
  - rewrite S. lra.
Qed.
Lemma overfull_history : run_manager small_fill [(1, ln 2); (0, ln 2); (1, ln 2)] (manager_init KInstant [half_trap] 1)
  = Ok ([- (1 / 2); 3 / 16; - (11 / 16)], mkManager KInstant [half_trap] [(1, [1]); (3 / 4, [1 / 2])]).
Proof. cbn [run_manager]. rewrite overfull_1. cbn [bind run_manager]. rewrite overfull_2. cbn [bind run_manager]. rewrite overfull_3. reflexivity. Qed.
