(** * Facts about assigned trap densities (trap_managers.py:284-300). *)
From Coq Require Import ZArith List Bool Reals Lra Lia.
From Verif Require Import Num Py RFacts CCDModel TrapsModel ManagerModel Spec SpecReadout SpecManagers EllipticityModel
  WmFacts ROEMatrixFacts ManagerSetFacts.
Import ListNotations.
Open Scope R_scope.

Lemma zip_length {A B C} (f : A -> B -> C) : forall a b, length b = length a -> length (zip_with f a b) = length a.
Proof. intros a b H. unfold zip_with. rewrite map_length, combine_length. lia. Qed.
Lemma zip_cons {A B C} (f : A -> B -> C) x a y b : zip_with f (x :: a) (y :: b) = f x y :: zip_with f a b.
Proof. reflexivity. Qed.

Lemma assigned_densities : forall (traps : list (trap R)) values, length values = length traps ->
  map (@t_density R) (zip_with with_density traps values) = values /\
  Forall2 (fun t u => u = with_density t (t_density u)) traps (zip_with with_density traps values).
Proof.
  induction traps as [|t l IH]; intros [|v values] H; try discriminate; [split; [reflexivity|constructor]|].
  injection H as H. rewrite zip_cons. destruct (IH values H) as [E1 E2]. split; [cbn [map]; rewrite E1; reflexivity|]. constructor; [reflexivity|exact E2].
Qed.
Lemma scaled_densities k : forall traps : list (trap R),
  zip_with with_density traps (map (fun d => d * k) (map (@t_density R) traps)) = map (scale_density k) traps.
Proof. induction traps as [|t l IH]; [reflexivity|]. cbn [map]. rewrite zip_cons, IH. reflexivity. Qed.

Lemma fold_scaled (v k : R) : forall (fs ds : list R) acc,
  fold_left (fun total '(f, d) => total + v * f * d) (combine fs (map (fun d => d * k) ds)) (acc * k)
  = fold_left (fun total '(f, d) => total + v * f * d) (combine fs ds) acc * k.
Proof.
  induction fs as [|f fs IH]; intros [|d ds] acc; try reflexivity. cbn [map combine fold_left]. rewrite <- IH. f_equal. ring.
Qed.
Lemma n_trapped_scaled (w : wmarks R) (ds : list R) k : cy_n_trapped w (map (fun d => d * k) ds) = cy_n_trapped w ds * k.
Proof.
  unfold cy_n_trapped. rnum. replace 0 with (0 * k) at 1 by ring. generalize 0. induction w as [|r w IH]; intros acc; [reflexivity|].
  cbn [fold_left]. rewrite fold_scaled. apply IH.
Qed.
Lemma to_fill_scaled k (traps : list (trap R)) w : to_fill_fractions (map (scale_density k) traps) w = to_fill_fractions traps w.
Proof.
  unfold to_fill_fractions, map_vals_slice. apply map_ext_in. intros [i r] _. destruct (_ && _)%bool; [|reflexivity]. f_equal.
  generalize (vals r). induction traps as [|t l IH]; intros [|v vs]; try reflexivity. cbn [map]. rewrite !zip_cons, IH. reflexivity.
Qed.

(** Sums over lists and phases. *)
Lemma ellipticity_sum (m : manager R) : manager_delta_ellipticity m = Rsum (map delta_ellipticity (m_traps m)).
Proof.
  unfold manager_delta_ellipticity. assert (H : forall l acc, fold_left (fun total t => total + delta_ellipticity t) l acc = acc + Rsum (map delta_ellipticity l)).
  { induction l as [|t l IH]; intros acc; cbn [fold_left map]; [unfold Rsum; cbn; ring|]. rewrite IH, Rsum_cons. ring. }
  rewrite H. ring.
Qed.
Lemma ellipticity_thinned f t : delta_ellipticity (thinned f t) = f * delta_ellipticity t.
Proof. unfold delta_ellipticity, thinned. cbn [t_density t_release_timescale]. ring. Qed.
Lemma Rsum_scaled k l : Rsum (map (Rmult k) l) = k * Rsum l.
Proof. induction l as [|x l IH]; cbn [map]; [unfold Rsum; cbn; ring|]. rewrite !Rsum_cons, IH. ring. Qed.
Lemma group_ellipticity k g : Rsum (map delta_ellipticity (map (thinned k) g)) = k * Rsum (map delta_ellipticity g).
Proof. rewrite map_map, <- Rsum_scaled, map_map. f_equal. apply map_ext. intros t. apply ellipticity_thinned. Qed.
Lemma manages_ellipticity N k g m : manages N k g m -> manager_delta_ellipticity m = k * Rsum (map delta_ellipticity g).
Proof.
  intros (_ & H & _). rewrite ellipticity_sum, <- group_ellipticity. f_equal. induction H as [|t t' l l' E H IH]; [reflexivity|].
  cbn [map]. rewrite E, IH. reflexivity.
Qed.
Lemma phase_ellipticity N k : forall gs ms, Forall2 (manages N k) gs ms ->
  Rsum (map manager_delta_ellipticity ms) = k * Rsum (map delta_ellipticity (concat gs)).
Proof.
  intros gs ms H. induction H as [|g m gs ms E H IH]; [cbn [map concat]; unfold Rsum; cbn; ring|].
  cbn [map concat]. rewrite Rsum_cons, IH, (manages_ellipticity _ _ _ _ E), map_app, Rsum_app. ring.
Qed.
Lemma ellipticity_of_all_managers (traps : traps_arg R) N (c : ccd R) a :
  groups_in traps <> [] -> (forall g, In g (groups_in traps) -> g <> []) ->
  length (ccd_fractions c) = ccd_n_phases c -> Rsum (ccd_fractions c) = 1 -> atm_init traps N c = Ok a ->
  Rsum (map manager_delta_ellipticity (concat (atm_data a))) = Rsum (map delta_ellipticity (concat (groups_in traps))).
Proof.
  intros H1 H2 Hf Hs Ha. destruct (atm_init_spec traps N c H1 H2 Hf) as (a' & Ea & L & G & _). rewrite Ea in Ha. injection Ha as <-.
  set (X := Rsum (map delta_ellipticity (concat (groups_in traps)))). rewrite <- (Rmult_1_l X), <- Hs. clear Hs.
  unfold share in G. assert (L' : length (atm_data a') = length (ccd_fractions c)) by congruence.
  revert L' G. clear - X. generalize (atm_data a') (ccd_fractions c). induction l as [|ms data IH]; intros [|f fs] L G; try discriminate.
  - unfold Rsum. cbn. ring.
  - cbn [concat]. rewrite map_app, Rsum_app, Rsum_cons. injection L as L. rewrite (IH fs L).
    + rewrite (phase_ellipticity N f _ _ (G 0%nat ms eq_refl)). unfold X. ring.
    + intros k ms' E. exact (G (Datatypes.S k) ms' E).
Qed.
