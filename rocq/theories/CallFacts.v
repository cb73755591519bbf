(** * Facts about CallModel.v, and about the units of fraction_of_traps_per_phase. *)
From Coq Require Import ZArith List Bool Reals Lra Lia.
From Verif Require Import Num Py RFacts CCDModel TrapsModel ManagerModel ROEModel ClockModel MainModel CallModel Spec SpecImage SpecCalls ClockFacts MainFacts.
Import ListNotations.

Section Arrays.
Context {F : Type} {num : Num F}.
Implicit Types (parallel serial : direction F).

Lemma as_floats_rows (a : array F) : array_rows a = length (as_floats a).
Proof. destruct a; cbn; [rewrite map_length|]; reflexivity. Qed.
Lemma as_floats_columns (a : array F) : array_columns a = n_columns (as_floats a).
Proof. destruct a as [[|row im]|im]; cbn; rewrite ?map_length; reflexivity. Qed.
Lemma as_floats_transpose (a : array F) rows cols : (0 < rows)%nat -> shape rows cols (as_floats a) -> as_floats (array_transpose a) = transpose (as_floats a).
Proof.
  intros Hr [HL HF]. destruct a as [im|im]; [|reflexivity]. cbn [array_transpose as_floats]. unfold transpose.
  change (map (map nofZ) im) with (as_floats (Ints im)) at 2. rewrite <- (as_floats_columns (Ints im)), map_map. cbn [as_floats]. apply map_ext_in. intros j Hj. rewrite !map_map. apply map_ext_in. intros row Hrow.
  assert (E : array_columns (Ints im : array F) = cols).
  { rewrite as_floats_columns. destruct im as [|r im]; cbn in HL; [lia|]. inversion HF; subst. reflexivity. }
  rewrite E in Hj. apply in_seq in Hj.
  assert (L : length row = cols). { rewrite Forall_forall in HF. specialize (HF (map nofZ row) (in_map _ _ _ Hrow)). rewrite map_length in HF. exact HF. }
  rewrite (nth_indep _ n0 (nofZ 0)) by (rewrite map_length; lia). rewrite map_nth. reflexivity.
Qed.

Lemma floats_add (im : image F) parallel serial tw :
  add_cti_array (Floats im) parallel serial tw = (do '(im', pr, sr) <- add_cti im parallel serial tw; Ok (Floats im', pr, sr)).
Proof.
  unfold add_cti_array, add_cti. cbn [array_rows array_columns as_floats].
  destruct (resolve_time_window _ _ _ _) as [[t sc]|e]; [|reflexivity]. cbn [bind].
  destruct (d_traps parallel) as [pt|].
  - destruct (clock_direction im _ _ _ _ _ _) as [[im1 pr]|e]; [|reflexivity]. cbn [bind as_floats array_transpose].
    destruct (d_traps serial) as [st|]; [|reflexivity]. destruct (clock_direction (transpose im1) _ _ _ _ _ _) as [[im2 sr]|e]; reflexivity.
  - cbn [bind as_floats array_transpose].
    destruct (d_traps serial) as [st|]; [|reflexivity]. destruct (clock_direction (transpose im) _ _ _ _ _ _) as [[im2 sr]|e]; reflexivity.
Qed.
Lemma ints_add (a : array F) parallel serial tw rows cols : (0 < rows)%nat -> shape rows cols (as_floats a) ->
  d_traps parallel <> None \/ d_traps serial <> None ->
  add_cti_array a parallel serial tw = (do '(im', pr, sr) <- add_cti (as_floats a) parallel serial tw; Ok (Floats im', pr, sr)).
Proof.
  intros Hr Hs Ht. rewrite <- floats_add. unfold add_cti_array. cbn [array_rows array_columns]. rewrite as_floats_rows, as_floats_columns.
  destruct (resolve_time_window _ _ _ _) as [[t sc]|e]; [|reflexivity]. cbn [bind].
  destruct (d_traps parallel) as [pt|]; [reflexivity|]. cbn [bind].
  destruct (d_traps serial) as [st|]; [|destruct Ht; contradiction]. rewrite (as_floats_transpose a rows cols Hr Hs). reflexivity.
Qed.
Lemma no_traps_add (a : array F) parallel serial : d_traps parallel = None -> d_traps serial = None ->
  add_cti_array a parallel serial None = Ok (a, the_roe parallel, the_roe serial).
Proof. intros Hp Hs. unfold add_cti_array. rewrite Hp, Hs. reflexivity. Qed.

Lemma ints_add_back (im : list (list Z)) :
  array_iadd (Ints im) (array_sub (Ints im) (Ints im) : array F) = Ok (Ints im).
Proof.
  cbn [array_sub array_iadd]. do 2 f_equal. induction im as [|row im IH]; [reflexivity|]. cbn [combine map]. f_equal; [|exact IH].
  clear IH. induction row as [|x row IH]; [reflexivity|]. cbn [combine map]. f_equal; [lia|exact IH].
Qed.
Lemma no_traps_remove (im : list (list Z)) n : forall parallel serial : direction F, d_traps parallel = None -> d_traps serial = None ->
  remove_cti_array_loop (Ints im) n parallel serial None (Ints im) = Ok (Ints im).
Proof.
  induction n as [|n IH]; intros parallel serial Hp Hs; [reflexivity|]. cbn [remove_cti_array_loop]. rewrite (no_traps_add (Ints im) _ _ Hp Hs). cbn [bind].
  rewrite ints_add_back. cbn [bind]. apply IH; [rewrite <- Hp|rewrite <- Hs]; unfold keep_roe; destruct (d_roe _); reflexivity.
Qed.

Lemma floats_remove (im : image F) n : forall parallel serial tw (estimate : image F),
  remove_cti_array_loop (Floats im) n parallel serial tw (Floats estimate) =
  (do '(out, _, _) <- remove_cti_loop im n parallel serial tw estimate; Ok (Floats out)).
Proof.
  induction n as [|n IH]; intros parallel serial tw estimate; [reflexivity|]. cbn [remove_cti_array_loop remove_cti_loop]. rewrite floats_add.
  destruct (add_cti estimate parallel serial tw) as [[[added pr] sr]|e]; [|reflexivity]. cbn [bind array_sub array_iadd as_floats]. apply IH.
Qed.
Lemma ints_remove (im : list (list Z)) n parallel serial tw rows cols added pr sr : (0 < rows)%nat -> shape rows cols (map (map nofZ) im : image F) ->
  d_traps parallel <> None \/ d_traps serial <> None -> add_cti (map (map nofZ) im) parallel serial tw = Ok (added, pr, sr) ->
  remove_cti_array (Ints im) (S n) parallel serial tw = Err TypeError.
Proof.
  intros Hr Hs Ht E. unfold remove_cti_array. cbn [remove_cti_array_loop]. rewrite (ints_add (Ints im) _ _ _ rows cols Hr Hs Ht). cbn [as_floats]. rewrite E. reflexivity.
Qed.

(** ** One ROE object. *)
Lemma clock_direction_roe im d d' r traps wr wc tw : d_ccd d = d_ccd d' -> d_express d = d_express d' -> d_offset d = d_offset d' ->
  clock_direction im d r traps wr wc tw = clock_direction im d' r traps wr wc tw.
Proof. unfold clock_direction. intros -> -> ->. reflexivity. Qed.
Lemma express_keeps (r r' : roe F) wr ex off tw em mon : roe_kind_of r <> Injection None ->
  express_and_monitor r wr ex off tw = Ok (r', em, mon) -> r' = r.
Proof.
  intros Hk. unfold express_and_monitor. destruct (roe_kind_of r) as [ef|npt|np ef] eqn:K.
  - destruct (standard_express _ _ _ _ _ _) as [[? ?]|]; cbn [bind]; [|discriminate]. congruence.
  - destruct npt as [n|]; [|contradiction]. unfold injection_express. destruct (n_pixels_of_window wr) as [m|]; cbn [bind]; [|discriminate].
    destruct (Nat.eqb _ 0); [discriminate|]. destruct (roe_dtype r) eqn:D; [discriminate|].
    destruct (restrict_time_span _ tw); cbn [bind]; [|discriminate]. intros H. injection H as <- _ _. destruct r; cbn in *; subst; reflexivity.
  - destruct (pumping_express _ _ _ _ _) as [[? ?]|]; cbn [bind]; [|discriminate]. congruence.
Qed.
Lemma clock_keeps im d (r r' : roe F) traps wr wc tw im' : roe_kind_of r <> Injection None ->
  clock_direction im d r traps wr wc tw = Ok (im', r') -> r' = r.
Proof.
  intros Hk. unfold clock_direction, clock_charge_in_one_direction. destruct (d_ccd d) as [c|].
  - destruct (express_and_monitor _ _ _ _ _) as [[[r1 em] mon]|] eqn:E; cbn [bind]; [|discriminate]. apply (express_keeps _ _ _ _ _ _ _ _ Hk) in E. subst r1.
    repeat match goal with |- context [bind ?m _] => destruct m as [?|]; cbn [bind]; [|discriminate] end.
    match goal with a : (_ * _)%type |- _ => destruct a end. intros H. congruence.
  - destruct (express_and_monitor _ _ _ _ _) as [[[r1 em] mon]|]; cbn [bind]; [|discriminate]. destruct (save_matrix _ _); discriminate.
Qed.
Lemma one_roe im (r : roe F) parallel serial tw : roe_kind_of r <> Injection None ->
  add_cti_one_roe im r parallel serial tw =
  (do '(im', pr, sr) <- add_cti im (with_roe parallel r) (with_roe serial r) tw; Ok (im', r)).
Proof.
  intros Hk. unfold add_cti_one_roe, add_cti. cbn [with_roe d_window d_offset d_traps].
  destruct (resolve_time_window _ _ _ _) as [[t sc]|e]; [|reflexivity]. cbn [bind]. unfold the_roe. cbn [with_roe d_roe].
  destruct (d_traps parallel) as [pt|].
  - rewrite (clock_direction_roe im (with_roe parallel r) parallel) by reflexivity.
    destruct (clock_direction im parallel r pt _ _ _) as [[im1 r1]|e] eqn:E1; [|reflexivity]. apply (clock_keeps _ _ _ _ _ _ _ _ _ Hk) in E1. subst r1. cbn [bind].
    destruct (d_traps serial) as [st|]; [|reflexivity]. rewrite (clock_direction_roe _ (with_roe serial r) serial) by reflexivity.
    destruct (clock_direction (transpose im1) serial r st _ _ _) as [[im2 r2]|e] eqn:E2; [|reflexivity]. apply (clock_keeps _ _ _ _ _ _ _ _ _ Hk) in E2. subst r2. reflexivity.
  - cbn [bind]. destruct (d_traps serial) as [st|]; [|reflexivity]. rewrite (clock_direction_roe _ (with_roe serial r) serial) by reflexivity.
    destruct (clock_direction (transpose im) serial r st _ _ _) as [[im2 r2]|e] eqn:E2; [|reflexivity]. apply (clock_keeps _ _ _ _ _ _ _ _ _ Hk) in E2. subst r2. reflexivity.
Qed.
Lemma one_roe_two_calls im (r : roe F) parallel serial rows cols : shape rows cols im -> (0 < rows)%nat -> (0 < cols)%nat ->
  add_cti_one_roe im r parallel serial None =
  (do '(im1, r1, _) <- add_cti im (with_roe parallel r) (without_traps serial) None;
   do '(im2, _, r2) <- add_cti im1 (without_traps parallel) (with_roe serial r1) None; Ok (im2, r2)).
Proof.
  intros Hs Hr Hc. unfold add_cti_one_roe.
  assert (P : add_cti im (with_roe parallel r) (without_traps serial) None =
    (do '(im1, r1) <- match d_traps parallel with None => Ok (im, r) | Some traps =>
       clock_direction im parallel r traps (resolve_window (d_window parallel) (length im)) (resolve_window (d_window serial) (n_columns im))
         (Some (py_range 0 (Z.of_nat (length im + d_offset parallel)))) end; Ok (im1, r1, the_roe serial))).
  { unfold add_cti. cbn [with_roe without_traps d_window d_offset d_traps resolve_time_window bind]. unfold the_roe at 1 2. cbn [with_roe d_roe].
    destruct (d_traps parallel) as [pt|]; [|reflexivity]. rewrite (clock_direction_roe im (with_roe parallel r) parallel) by reflexivity.
    destruct (clock_direction im parallel r pt _ _ _) as [[im1 r1]|e]; reflexivity. }
  cbn [resolve_time_window bind].
  destruct (match d_traps parallel with None => Ok (im, r) | Some traps =>
       clock_direction im parallel r traps (resolve_window (d_window parallel) (length im)) (resolve_window (d_window serial) (n_columns im))
         (Some (py_range 0 (Z.of_nat (length im + d_offset parallel)))) end) as [[im1 r1]|e] eqn:E1; rewrite P; [|reflexivity]. cbn [bind] in P |- *.
  assert (S1 : shape rows cols im1) by exact (proj1 (add_cti_shape_sign _ _ _ _ _ _ _ rows cols Hs Hr Hc P)).
  unfold add_cti. cbn [with_roe without_traps d_window d_offset d_traps resolve_time_window bind]. unfold the_roe at 2 3. cbn [with_roe d_roe].
  assert (HC : forall im0 : image F, shape rows cols im0 -> n_columns im0 = cols).
  { intros [|r0 im0] [HL HF]; cbn in HL; [lia|]. inversion HF; subst. reflexivity. }
  rewrite (HC im Hs), (HC im1 S1), (proj1 Hs), (proj1 S1).
  destruct (d_traps serial) as [st|]; [|reflexivity]. change (the_roe (with_roe serial r1)) with r1. rewrite (clock_direction_roe _ (with_roe serial r1) serial) by reflexivity.
  destruct (clock_direction (transpose im1) serial r1 st _ _ _) as [[im2 r2]|e]; reflexivity.
Qed.
End Arrays.

(** ** Lists of traps and lists. *)
Section Lists.
Context {F : Type} {num : Num F}.
Lemma mapM_map {A B C} (f : B -> result C) (g : A -> B) l : mapM f (map g l) = mapM (fun x => f (g x)) l.
Proof. induction l as [|x l IH]; [reflexivity|]. cbn. rewrite IH. reflexivity. Qed.
Lemma mapM_ok {A} (l : list A) : mapM Ok l = Ok l.
Proof. induction l as [|x l IH]; [reflexivity|]. cbn. rewrite IH. reflexivity. Qed.
Lemma mapM_ext_in {A B} (f g : A -> result B) l : (forall x, In x l -> f x = g x) -> mapM f l = mapM g l.
Proof. intros H. induction l as [|x l IH]; [reflexivity|]. cbn. rewrite (H x (or_introl eq_refl)), IH; [reflexivity|]. intros y Hy. apply H. right. exact Hy. Qed.
Lemma list_of_traps (l : list (trap F)) N c : atm_init_list (map ETrap l) N c = atm_init (TFlat l) N c.
Proof.
  destruct l as [|t l]; [reflexivity|]. unfold atm_init_list, atm_init. cbn [normalise_traps bind].
  assert (E : groups_of_elts (map ETrap (t :: l)) = Ok [Ok (t :: l)]).
  { cbn [map groups_of_elts]. change (ETrap t :: map ETrap l) with (map ETrap (t :: l)). rewrite mapM_map, mapM_ok. reflexivity. }
  rewrite E. reflexivity.
Qed.
Lemma list_of_lists (l : list (list (trap F))) N c : atm_init_list (map EList l) N c = atm_init (TNested l) N c.
Proof.
  destruct l as [|t l]; [reflexivity|]. unfold atm_init_list, atm_init. cbn [normalise_traps bind].
  assert (E : groups_of_elts (map EList (t :: l)) = Ok (map Ok (t :: l))) by (cbn [map groups_of_elts]; rewrite map_map; reflexivity).
  rewrite E. cbn [bind]. f_equal. apply mapM_ext_in. intros k _. rewrite mapM_map. reflexivity.
Qed.
Lemma mapM_all_ok {A B} (f : A -> result B) l bs : mapM f l = Ok bs -> forall x, In x l -> exists b, f x = Ok b.
Proof.
  revert bs. induction l as [|y l IH]; intros bs; [intros _ x []|]. cbn. destruct (f y) as [b|] eqn:E; [|discriminate]. cbn. destruct (mapM f l) as [r|]; [|discriminate].
  intros _ x [<-|Hx]; [eauto|]. exact (IH r eq_refl x Hx).
Qed.
Lemma mixed_list (l : list (traps_elt F)) N c a : (0 < ccd_n_phases c)%nat -> atm_init_list l N c = Ok a ->
  (exists ts, l = map ETrap ts /\ ts <> []) \/ (exists gs, l = map EList gs /\ gs <> [] /\ Forall (fun g => g <> []) gs).
Proof.
  intros Hn. unfold atm_init_list. destruct (groups_of_elts l) as [groups|] eqn:G; [|discriminate]. cbn [bind].
  match goal with |- context [mapM ?f (seq 0 ?n)] => destruct (mapM f (seq 0 n)) as [data|] eqn:E end; [|discriminate]. intros _.
  destruct (mapM_all_ok _ _ _ E 0%nat ltac:(apply in_seq; lia)) as [ms Em]. clear E. pose proof (mapM_all_ok _ _ _ Em) as H. clear Em.
  destruct l as [|e l]; [discriminate|]. cbn [groups_of_elts] in G. destruct e as [t|g0].
  - injection G as <-. destruct (H _ (or_introl eq_refl)) as [m Hm].
    match type of Hm with context [mapM ?f ?l] => destruct (mapM f l) as [ts|] eqn:T end; [|discriminate Hm]. clear Hm.
    assert (E : l = map ETrap ts).
    { clear -T. revert ts T. induction l as [|e l IH]; intros ts; cbn; [intros [= <-]; reflexivity|].
      destruct e as [t|g]; [|discriminate]. cbn. match goal with |- context [mapM ?f l] => destruct (mapM f l) as [r|] end; [|discriminate].
      cbn. intros [= <-]. cbn. rewrite <- (IH r eq_refl). reflexivity. }
    left. exists (t :: ts). split; [cbn; rewrite <- E; reflexivity|discriminate].
  - injection G as <-. right.
    set (l' := EList g0 :: l) in *. change (Ok g0 :: _) with (map (fun e : traps_elt F => match e with ETrap _ => Err TypeError | EList g => Ok g end) l') in H.
    assert (E : exists gs, l' = map EList gs /\ Forall (fun g => g <> []) gs).
    { clearbody l'. clear -H. induction l' as [|e l' IH]; [exists []; split; [reflexivity|constructor]|].
      destruct IH as (gs & -> & Hg). { intros x Hx. apply H. cbn [map]. right. exact Hx. }
      destruct e as [t|g]; destruct (H _ (or_introl eq_refl)) as [m Hm]; [discriminate Hm|].
      exists (g :: gs). split; [reflexivity|]. constructor; [|exact Hg]. intros ->. discriminate Hm. }
    destruct E as (gs & E & Hg). exists gs. split; [exact E|]. split; [|exact Hg]. intros ->. discriminate E.
Qed.
End Lists.

(** ** Phases counted from the end. *)
Section Phases.
Context {F : Type} {num : Num F}.
Lemma py_index_nonneg {A} (l : list A) k : py_index l (Z.of_nat k) = of_option IndexError (nth_error l k).
Proof.
  unfold py_index. destruct (Z.ltb_spec (Z.of_nat k) 0); [lia|]. rewrite Nat2Z.id.
  destruct (Z.leb_spec 0 (Z.of_nat k)); [|lia]. destruct (Z.ltb_spec (Z.of_nat k) (Z.of_nat (length l))); [reflexivity|].
  cbn. rewrite (proj2 (nth_error_None l k)) by lia. reflexivity.
Qed.
Lemma py_index_from_end {A} (l : list A) k : (k < length l)%nat -> py_index l (Z.of_nat k - Z.of_nat (length l)) = of_option IndexError (nth_error l k).
Proof.
  intros H. unfold py_index. destruct (Z.ltb_spec (Z.of_nat k - Z.of_nat (length l)) 0); [|lia]. rewrite Z.sub_add, Nat2Z.id.
  destruct (Z.leb_spec 0 (Z.of_nat k)); [|lia]. destruct (Z.ltb_spec (Z.of_nat k) (Z.of_nat (length l))); [reflexivity|lia].
Qed.
Lemma py_index_beyond {A} (l : list A) p : (p < - Z.of_nat (length l) \/ Z.of_nat (length l) <= p)%Z -> py_index l p = Err IndexError.
Proof.
  intros H. unfold py_index. destruct (Z.ltb_spec p 0).
  - destruct (Z.leb_spec 0 (p + Z.of_nat (length l))); [lia|reflexivity].
  - destruct (Z.leb_spec 0 p); [|lia]. destruct (Z.ltb_spec p (Z.of_nat (length l))); [lia|reflexivity].
Qed.
End Phases.

(** ** Units of the fractions of traps. *)
Open Scope R_scope.
Lemma normalise_map f a : normalise_traps (map_traps f a) = (do gs <- normalise_traps a; Ok (map (map f) gs)).
Proof. destruct a as [t|[|t l]|[|g l]]; reflexivity. Qed.
Lemma kind_map f (g : list (trap R)) : (forall t, t_class (f t) = t_class t) -> kind_of_group (map f g) = kind_of_group g.
Proof. intros H. destruct g as [|t g]; [reflexivity|]. cbn. rewrite H. reflexivity. Qed.
Lemma scale_twice k x t : scale_density (k * x) t = scale_density x (times_density k t).
Proof. unfold scale_density, times_density. cbn. f_equal. rnum. ring. Qed.

Lemma atm_scaled k a N c : atm_init a N (scaled_fractions k c) = atm_init (map_traps (times_density k) a) N c.
Proof.
  unfold atm_init. rewrite normalise_map. destruct (normalise_traps a) as [gs|]; [|reflexivity]. cbn [bind]. cbn [scaled_fractions ccd_n_phases ccd_fractions].
  f_equal. apply mapM_ext_in. intros phase _. rewrite mapM_map. apply mapM_ext_in. intros g _. rewrite kind_map by reflexivity.
  destruct (kind_of_group g) as [kd|]; [|reflexivity]. cbn [bind].
  rewrite nth_error_map. destruct (nth_error (ccd_fractions c) phase) as [x|]; [|reflexivity]. cbn [option_map of_option bind]. f_equal.
  unfold manager_init. cbn. rewrite map_length. f_equal. rewrite map_map. apply map_ext. intros t. apply scale_twice.
Qed.
Lemma phases_scaled k c : 0 < k -> phases_with_traps (scaled_fractions k c) = phases_with_traps c.
Proof.
  intros Hk. unfold phases_with_traps. cbn [scaled_fractions ccd_fractions]. rewrite map_length. generalize (ccd_fractions c). intros l. generalize 0%nat.
  induction l as [|x l IH]; intros n; [reflexivity|]. cbn [length seq map combine filter].
  assert (E : (n0 <? Rmult k x)%num = (n0 <? x)%num).
  { rnum. destruct (Rlt_dec 0 x) as [H|H].
    - rewrite !(proj2 (Rltb_true _ _)); [reflexivity|exact H|nra].
    - rewrite !(proj2 (Rltb_false _ _)); [reflexivity|lra|nra]. }
  rewrite E. destruct (n0 <? x)%num; cbn [map]; rewrite IH; reflexivity.
Qed.
Lemma row_scaled k c : 0 < k -> clock_one_row (scaled_fractions k c) = clock_one_row c.
Proof. intros Hk. unfold clock_one_row. rewrite (phases_scaled k c Hk). reflexivity. Qed.
Lemma cell_scaled k c : 0 < k -> clock_cell (scaled_fractions k c) = clock_cell c.
Proof. intros Hk. unfold clock_cell. rewrite (phases_scaled k c Hk), (row_scaled k c Hk). reflexivity. Qed.
Lemma columns_scaled k c : 0 < k -> clock_columns (scaled_fractions k c) = clock_columns c.
Proof. intros Hk. unfold clock_columns, clock_one_column, clock_column, clock_pass_rows. rewrite (cell_scaled k c Hk). reflexivity. Qed.
Lemma clock_scaled k im d r traps wr wc tw : 0 < k ->
  clock_direction im (fractions_times k d) r traps wr wc tw = clock_direction im (densities_times k d) r (map_traps (times_density k) traps) wr wc tw.
Proof.
  intros Hk. unfold clock_direction. cbn [fractions_times densities_times d_ccd d_express d_offset]. destruct (d_ccd d) as [c|]; cbn [option_map]; [|reflexivity].
  unfold clock_charge_in_one_direction. rewrite (columns_scaled k c Hk).
  destruct (express_and_monitor _ _ _ _ _) as [[[r' em] mon]|]; [|reflexivity]. cbn [bind]. destruct (save_matrix r' em) as [sav|]; [|reflexivity]. cbn [bind].
  rewrite atm_scaled. reflexivity.
Qed.
Lemma fractions_scaled k k' im parallel serial tw : 0 < k -> 0 < k' ->
  add_cti im (fractions_times k parallel) (fractions_times k' serial) tw = add_cti im (densities_times k parallel) (densities_times k' serial) tw.
Proof.
  intros Hk Hk'. unfold add_cti. cbn [fractions_times densities_times d_window d_offset d_traps].
  destruct (resolve_time_window _ _ _ _) as [[t sc]|e]; [|reflexivity]. cbn [bind].
  change (the_roe (fractions_times k parallel)) with (the_roe parallel). change (the_roe (densities_times k parallel)) with (the_roe parallel).
  change (the_roe (fractions_times k' serial)) with (the_roe serial). change (the_roe (densities_times k' serial)) with (the_roe serial).
  destruct (d_traps parallel) as [pt|]; cbn [option_map].
  - rewrite (clock_scaled k im parallel _ pt _ _ _ Hk). destruct (clock_direction im (densities_times k parallel) _ _ _ _ _) as [[im1 r1]|]; [|reflexivity]. cbn [bind].
    destruct (d_traps serial) as [st|]; cbn [option_map]; [|reflexivity]. rewrite (clock_scaled k' _ serial _ st _ _ _ Hk'). reflexivity.
  - cbn [bind]. destruct (d_traps serial) as [st|]; cbn [option_map]; [|reflexivity]. rewrite (clock_scaled k' _ serial _ st _ _ _ Hk'). reflexivity.
Qed.
