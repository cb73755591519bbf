(** * A negative pixel becomes 0: the readout of a single pixel of -1 electrons. *)
From Coq Require Import ZArith List Bool Reals Lra Lia.
From Coquelicot Require Import Rcomplements Rbar Hierarchy RInt.
From Verif Require Import Num Py RFacts CCDModel TrapsModel ManagerModel ROEModel ClockModel MainModel Spec SpecROE SpecImage SpecReadout SpecColumn
  TrapsFacts CCDFacts ReadoutImage ReadoutExamples OverfullExample.
Import ListNotations.
Open Scope R_scope.

Lemma small_fill_negative : well_fill small_ccd 0 false (-1) = Ok 0.
Proof.
  rewrite (well_fill_ok small_ccd 0 (-1) 0 1 1) by (reflexivity || lra). f_equal.
  destruct (Req_EM_T (-1) 0); [reflexivity|]. unfold Rmin, Rmax. destruct (Rle_dec _ _); destruct (Rle_dec _ _); try lra; apply Rpow_py_0; lra.
Qed.
Lemma negative_step rho : manager_step (mkManager KInstant [small_trap rho] [(0, [0]); (0, [0])]) (-1) (fun n => well_fill small_ccd 0 false n) (ln 2)
  = Ok (0, mkManager KInstant [small_trap rho] [(0, [0]); (0, [0])]).
Proof.
  assert (E : max_watermark_index [(0, [0]); (0, [0])] = (-1)%Z) by (unfold max_watermark_index, first_zero_volume; cbn; rnum; decide_R; reflexivity).
  assert (T : forall w, w = [(0, [0]); (0, [0])] -> n_trapped (mkManager KInstant [small_trap rho] w) w = 0).
  { intros w ->. unfold n_trapped, cy_n_trapped. cbn. unfold vol, vals. cbn. rnum. lra. }
  assert (M : forall f, map_vals_slice 0 (Z.to_nat (-1 + 1)) f [(0, [0]); (0, [0])] = [(0, [0]); (0, [0])]) by reflexivity.
  unfold manager_step, instant_step, n_electrons_released. cbn [m_kind m_wm m_traps]. rewrite E.
  rewrite !M. rewrite (T _ eq_refl). unfold with_wm. cbn [m_kind m_traps].
  rnum. replace (0 - 0) with 0 by lra. replace (-1 + 0) with (-1) by lra.
  unfold n_electrons_captured. cbn [m_kind m_wm m_traps]. rewrite E, small_fill_negative. cbn [bind].
  unfold index_above_cloud. rnum. decide_R. cbn [Z.eqb Z.leb Z.compare CompOpp Pos.compare Pos.compare_cont Pos.eqb andb orb].
  unfold instant_cloud_below, slow_split. rnum. decide_R. cbn [andb bind]. rewrite M.
  set (z := [(0, [0]); (0, [0])]).
  assert (Ec : collapse_with_copy (filled_value KInstant) (length [small_trap rho]) z z = Ok (z, z)).
  { unfold collapse_with_copy, collapse, collapse_index, z. cbn. unfold vals, vol. cbn. rnum. decide_R. reflexivity. }
  rewrite Ec. cbn [bind]. rewrite (T z eq_refl). decide_R. cbn [bind]. rewrite Rminus_0_r. reflexivity.
Qed.

Definition dark_image : image R := [[-1]].
Lemma dark_shape : shape 1 1 dark_image.
Proof. split; [reflexivity|repeat constructor]. Qed.
Lemma dark_matrix : @standard_full_matrix R _ true DFloat 1 0 0 = [[1]].
Proof.
  unfold standard_full_matrix. cbn [express_used Nat.eqb Nat.add Nat.ltb Nat.leb Nat.sub andb]. unfold plain_matrix, plain_entry, max_multiplier, clip, nofN. cbn. rnum.
  unfold Rdiv. rewrite Rinv_1. rnum. decide_R. repeat f_equal. lra.
Qed.
Lemma dark_express : express_and_monitor small_roe [0%Z] 0 0 (Some [0%Z]) = Ok (small_roe, [[1]], [[true]]).
Proof.
  unfold express_and_monitor, small_roe at 1, roe_init, make_roe. cbn [roe_kind_of roe_dtype small_roe]. unfold standard_express.
  change (n_pixels_of_window [0%Z]) with (@Ok nat 1%nat). cbn [bind]. change (roe_dtype small_roe) with DFloat. rewrite dark_matrix. unfold select_columns, positive_mask, restrict_time_span. cbn. unfold clip. rnum. decide_R. rnum. rewrite !Rminus_0_r. reflexivity.
Qed.
Lemma dark_readout rho : add_cti dark_image (small_direction small_roe (TOne (small_trap rho))) no_direction None
  = Ok ([[0]], small_roe, the_roe no_direction).
Proof.
  unfold add_cti, clock_direction. cbn [small_direction d_ccd d_roe d_traps d_window d_express d_offset no_direction].
  cbn [length dark_image n_columns resolve_window resolve_time_window Nat.add bind].
  change (py_range 0 (Z.of_nat 1)) with [0%Z]. unfold the_roe at 1. cbn [d_roe small_direction].
  unfold clock_charge_in_one_direction. rewrite dark_express. cbn [bind].
  assert (Hd : 0 < ln 2) by (apply ln_pos; lra).
  assert (Es : steps_with_dwell small_roe = [(0%nat, ln 2)]). { unfold steps_with_dwell. cbn. rnum. decide_R. reflexivity. }
  assert (Ep : phases_with_traps small_ccd = [0%nat]). { unfold phases_with_traps. cbn. rnum. decide_R. reflexivity. }
  set (m := mkManager KInstant [small_trap (rho * 1)] [(0, [0]); (0, [0])]).
  assert (Ea : atm_init (TOne (small_trap rho)) (max_n_transfers small_roe (length [[1]]) (length [1])) small_ccd = Ok (mkATM [[m]] None 0 0)).
  { unfold max_n_transfers. rewrite Es. reflexivity. }
  change (save_matrix small_roe [[1]]) with (@Ok (list (list bool)) [[false]]). cbn [bind]. cbn [length] in *. rewrite Ea. cbn [bind].
  change (n_padding small_roe) with (@Ok nat 0%nat). cbn [bind]. change (pad dark_image 0) with [[-1]].
  unfold clock_columns. cbn [foldM]. unfold clock_one_column.
  change ((0 <=? 0) && (0 <? Z.of_nat (n_columns [[-1]])))%Z with true. cbn iota. change (get_column [[-1]] (Z.to_nat 0)) with [-1].
  change (map (fun '(e, (m0, s)) => zip_cells e m0 s) (combine [[1]] (combine [[true]] [[false]]))) with [[(1, true, false)]].
  assert (Ec : exists a, clock_column small_ccd small_roe [0%Z] [[(1, true, false)]] ([-1], mkATM [[m]] None 0 0) = Ok ([0], a)).
  { unfold clock_column. cbn [foldM]. unfold clock_pass_rows. cbn [length seq combine foldM]. unfold clock_cell. cbn [negb nth_error fst snd].
    assert (Er : clock_one_row small_ccd small_roe 0 1 ([-1], [[m]]) = Ok ([0], [[m]])).
    { unfold clock_one_row. rewrite Es, Ep. cbn [foldM].
      change (nth_error (roe_clock_sequence small_roe) 0) with (Some [@mkRP R true 0 [0%Z] [1]]). cbn [of_option bind].
      unfold clock_one_phase. cbn [nth_error of_option bind rp_capture rp_high rp_release rp_fraction].
      change (cy_index [-1] (0 + 0)) with (@Ok R (-1)). cbn [bind step_groups]. rnum. replace (-1 * 1) with (-1) by lra.
      unfold m at 1. rewrite (negative_step (rho * 1)). cbn [bind]. decide_R. cbn [combine foldM]. unfold write_back.
      change (cy_index [-1] (0 + 0)) with (@Ok R (-1)). cbn [bind]. rnum. replace (-1 + (0 + 0) * 1 * 1) with (-1) by lra. decide_R. reflexivity. }
    unfold atm_restore. cbn [atm_saved atm_data]. change (map (map empty_all_traps) [[m]]) with [[m]].
    change (0 : R) with 0 in Er. cbn [atm_data]. rewrite Er. cbn [bind]. eexists. reflexivity. }
  destruct Ec as [a Ec]. rewrite Ec. reflexivity.
Qed.
