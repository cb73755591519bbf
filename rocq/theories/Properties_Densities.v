(** * Property C63: assigning trap densities, and the ellipticity effect of the traps of a
    readout (trap_managers.py:284-300). *)
From Coq Require Import ZArith List Bool Reals Lra Lia.
From Verif Require Import Num Py RFacts CCDModel TrapsModel ManagerModel Spec SpecReadout SpecManagers EllipticityModel
  WmFacts ManagerSetFacts DensityFacts Properties_Managers.
Import ListNotations.
Open Scope R_scope.

(** The species get the densities in order, and nothing else changes. *)
Theorem C63_assigned_densities (m : manager R) values : length values = length (m_traps m) ->
  exists m', set_n_traps_per_pixel m values = Ok m' /\
    map (@t_density R) (m_traps m') = values /\
    Forall2 (fun t t' => t_release_timescale t' = t_release_timescale t /\ t_capture_rate t' = t_capture_rate t /\
                         t_emission_rate t' = t_emission_rate t /\ t_surface t' = t_surface t /\ t_class t' = t_class t) (m_traps m) (m_traps m') /\
    m_kind m' = m_kind m /\ m_wm m' = m_wm m.
Proof.
  intros H. unfold set_n_traps_per_pixel. rewrite (proj2 (Nat.eqb_eq _ _) H). eexists. split; [reflexivity|].
  cbn [m_traps m_kind m_wm]. destruct (assigned_densities (m_traps m) values H) as [E1 E2].
  split; [exact E1|]. split; [|split; reflexivity]. clear E1. revert E2. generalize (zip_with with_density (m_traps m) values).
  intros l E. clear H. induction E as [|t u ts us E _ IH]; constructor; [rewrite E; repeat split|exact IH].
Qed.
Print Assumptions C63_assigned_densities.

(** Multiplying all the densities by a number multiplies the electrons of any trap state by
    it, for each kind of manager. *)
Theorem C63_electrons_scale_with_the_densities (m : manager R) k m' :
  set_n_traps_per_pixel m (map (fun d => d * k) (n_traps_per_pixel m)) = Ok m' ->
  forall w, n_trapped m' w = n_trapped m w * k.
Proof.
  unfold set_n_traps_per_pixel, n_traps_per_pixel. destruct (Nat.eqb _ _); [|discriminate]. intros H w. injection H as <-.
  rewrite scaled_densities. unfold n_trapped, n_traps_per_pixel. cbn [m_kind m_traps].
  replace (map (@t_density R) (map (scale_density k) (m_traps m))) with (map (fun d => d * k) (map (@t_density R) (m_traps m)))
    by (rewrite !map_map; reflexivity).
  destruct (m_kind m); rewrite ?to_fill_scaled; apply n_trapped_scaled.
Qed.
Print Assumptions C63_electrons_scale_with_the_densities.

(** The error for the wrong number of densities was meant to be a ValueError. *)
Theorem C63_wrong_number_is_a_ValueError_refuted :
  ~ (forall (m : manager R) values, length values <> length (m_traps m) -> set_n_traps_per_pixel m values = Err ValueError).
Proof.
  intros H. specialize (H (mkManager KInstant [mkTrap 1 1 RInf 1 false CInstant] [(0, [0])]) [1; 2] ltac:(discriminate)).
  discriminate.
Qed.
Print Assumptions C63_wrong_number_is_a_ValueError_refuted.
Theorem C63_wrong_number_is_an_error (m : manager R) values : length values <> length (m_traps m) ->
  set_n_traps_per_pixel m values = Err UnboundLocalError.
Proof. intros H. unfold set_n_traps_per_pixel. destruct (Nat.eqb_spec (length values) (length (m_traps m))); [contradiction|reflexivity]. Qed.
Print Assumptions C63_wrong_number_is_an_error.

(** The ellipticity effects of the managers of all phases and groups add up to those of the
    given species, if the fractions add up to 1. *)
Theorem C63_ellipticity_of_all_managers (traps : traps_arg R) N (c : ccd R) a :
  groups_in traps <> [] -> (forall g, In g (groups_in traps) -> g <> []) ->
  length (ccd_fractions c) = ccd_n_phases c -> Rsum (ccd_fractions c) = 1 -> atm_init traps N c = Ok a ->
  Rsum (map manager_delta_ellipticity (concat (atm_data a))) = Rsum (map delta_ellipticity (concat (groups_in traps))).
Proof. exact (ellipticity_of_all_managers traps N c a). Qed.
Print Assumptions C63_ellipticity_of_all_managers.

(** A manager of two species with a half-filled watermark. *)
Definition two_species : manager R :=
  mkManager KInstant [mkTrap 4 1 RInf 1 false CInstant; mkTrap 12 2 RInf (1/2) false CInstant] [(1/2, [1; 1/2]); (0, [0; 0])].
Example C63_example : exists m', set_n_traps_per_pixel two_species (map (fun d => d * 3) (n_traps_per_pixel two_species)) = Ok m' /\
  map (@t_density R) (m_traps m') = [4 * 3; 12 * 3] /\ n_trapped two_species (m_wm two_species) = 5 /\ n_trapped m' (m_wm m') = 15.
Proof.
  eexists. split; [reflexivity|]. split; [reflexivity|].
  unfold n_trapped, two_species. cbn [m_kind m_wm m_traps]. rewrite !cy_n_trapped_eq. unfold trapped, row_trapped, Rsum. cbn. unfold dot, Rsum. cbn. lra.
Qed.
Example C63_ellipticity_example : exists a, atm_init mixed_traps 1 split_ccd = Ok a /\ length (concat (atm_data a)) = 4%nat /\
  length (concat (groups_in mixed_traps)) = 3%nat /\ Rsum (ccd_fractions split_ccd) = 1.
Proof. eexists. split; [reflexivity|]. split; [reflexivity|]. split; [reflexivity|]. cbn. lra. Qed.
