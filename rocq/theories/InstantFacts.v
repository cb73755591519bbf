(** * The instant-capture manager refines the mathematical model. *)
From Coq Require Import ZArith List Bool Reals Lra Lia.
From Coquelicot Require Import Rcomplements Rbar Hierarchy RInt.
From Verif Require Import Num Py RFacts CCDModel TrapsModel ManagerModel Spec WmFacts ArrayFacts CutFacts.
Import ListNotations.
Open Scope R_scope.

Notation dens traps := (map (@t_density R) traps).

(** ** Preparation: levels below and above the cloud. *)
Section Prep.
Variables (n : nat) (v : R) (l : wmarks R).
Hypothesis Hl : good n l.
Hypothesis Hv : 0 <= v.
Let B := prep_below n v l.
Let A := prep_above v l.

Lemma prep_good : good n B /\ good n A.
Proof using Hl Hv.
  subst A B. unfold prep_below, prep_above. destruct (Rle_dec v (volume l)) as [Hvl|Hvl].
  - destruct (cut_live l v (good_live n l Hl)) as [H1 H2].
    destruct (cut_vals (fun fs => length fs = n /\ Forall (fun f => 0 <= f <= 1) fs) l v) as [H3 H4].
    { eapply Forall_impl; [|exact Hl]. intros r (_ & H). exact H. }
    split; apply Forall_forall; intros r Hr.
    + split; [exact (proj1 (Forall_forall _ _) H1 r Hr) | exact (proj1 (Forall_forall _ _) H3 r Hr)].
    + split; [exact (proj1 (Forall_forall _ _) H2 r Hr) | exact (proj1 (Forall_forall _ _) H4 r Hr)].
  - split; [|constructor]. apply good_app; split; [exact Hl|].
    constructor; [|constructor]. split; [cbn; lra|]. cbn [snd]. split; [apply repeat_length|apply repeat_range; lra].
Qed.
Lemma prep_volume : volume B = v /\ volume A = Rmax (volume l) v - v.
Proof using Hl Hv.
  subst A B. unfold prep_below, prep_above. destruct (Rle_dec v (volume l)) as [Hvl|Hvl].
  - destruct (cut_volume l v (good_live n l Hl)) as [H1 H2]; [lra|]. rewrite H1, H2, Rmax_left by lra. lra.
  - rewrite volume_snoc, volume_nil, Rmax_right by lra. cbn [fst]. lra.
Qed.
Lemma prep_occ s x : 0 <= x -> occupancy (B ++ A) s x = occupancy l s x.
Proof using Hl Hv.
  intros Hx. subst A B. unfold prep_below, prep_above. destruct (Rle_dec v (volume l)) as [Hvl|Hvl].
  - apply cut_occ; auto. now apply (good_live n).
  - rewrite app_nil_r. rewrite occupancy_app by (auto; apply live_nonneg, (good_live n), Hl).
    destruct (Rlt_dec x (volume l)); [reflexivity|]. cbn. rewrite nth_zeros.
    rewrite (occupancy_above l) by (try lra; apply live_nonneg, (good_live n), Hl).
    now destruct (Rlt_dec _ _).
Qed.
Lemma prep_trapped ds : trapped ds B + trapped ds A = trapped ds l.
Proof.
  subst A B. unfold prep_below, prep_above. destruct (Rle_dec v (volume l)) as [Hvl|Hvl].
  - apply cut_trapped.
  - rewrite trapped_snoc, trapped_nil. unfold row_trapped; cbn [fst snd]. rewrite dot_zeros. ring.
Qed.
Lemma prep_length : (length B + length A <= S (length l))%nat.
Proof.
  subst A B. unfold prep_below, prep_above. destruct (Rle_dec v (volume l)) as [Hvl|Hvl].
  - apply cut_length.
  - rewrite app_length; cbn; lia.
Qed.
Lemma prep_nonempty : 0 < v -> B <> [].
Proof.
  intros H E. pose proof prep_volume as [H1 _]. rewrite E, volume_nil in H1. lra.
Qed.
Lemma prep_not_full : Forall (fun r => ~ full_row 1 n r) l -> Forall (fun r => ~ full_row 1 n r) A.
Proof.
  intros H. subst A. unfold prep_above. destruct (Rle_dec v (volume l)); [|constructor].
  destruct (cut_vals (fun fs => ~ forall i, (i < n)%nat -> nth i fs 0 = 1) l v); auto.
Qed.
End Prep.

Lemma head_of_not_full n g : Forall (fun r => ~ full_row 1 n r) g -> head_not_full n g.
Proof. intros H. destruct H as [|r g Hr Hg]; [left; reflexivity|right; exists r, g; auto]. Qed.

(** ** Filling the levels below the cloud. *)
Lemma mapv_full n b : Forall (full_row 1 n) (mapv (fun _ => repeat 1 n) b).
Proof. apply Forall_map, Forall_forall. intros r _ i Hi. cbn [snd]. now apply nth_const. Qed.
Lemma mapv_fst f b : map fst (mapv f b) = map fst b.
Proof. unfold mapv. rewrite map_map. reflexivity. Qed.
Lemma mapv_volume f b : volume (mapv f b) = volume b.
Proof. unfold volume. now rewrite mapv_fst. Qed.
Lemma mapv_length f b : length (mapv f b) = length b.
Proof. apply map_length. Qed.
Lemma mapv_live f b : live b -> live (mapv f b).
Proof. intros H. apply Forall_map. exact H. Qed.
Lemma mapv_width f n b : (forall r, In r b -> length (f (snd r)) = n) -> width n (mapv f b).
Proof. intros H. apply Forall_map, Forall_forall. intros r Hr. cbn. auto. Qed.
Lemma mapv_nil f b : b <> [] -> mapv f b <> [].
Proof. destruct b; cbn; congruence. Qed.

Lemma slice_none f (w : wmarks R) : map_vals_slice 0 0 f w = w.
Proof. exact (slice_pre [] w f). Qed.

(** ** The shape of the state after an instant capture. *)
Definition fill_below n v (l : wmarks R) := (v, repeat 1 n) :: prep_above v l.

(** Everything the code does before the [enough] test, for the two code paths that
    prepare the levels. *)
Lemma capture_prepared n l k v mx : (0 < n)%nat -> live l -> 0 <= v -> mx = (Z.of_nat (length l) - 1)%Z ->
  let idx := index_above_cloud v (l ++ Zs n (S k)) mx in
  let W := l ++ Zs n (S k) in
  (l <> [] \/ v = 0) ->
  exists k',
  (if ((idx <=? mx) || (mx =? -1))%Z then
     do '(w, wi, _) <- instant_cloud_below W W v idx mx; Ok (w, wi)
   else new_top_watermark W W v idx)
  = Ok (prep_below n v l ++ prep_above v l ++ Zs n k', prep_below n v l ++ prep_above v l ++ Zs n k')
  /\ (idx + 1)%Z = Z.of_nat (length (prep_below n v l))
  /\ (length (prep_below n v l) + length (prep_above v l) + k' = length l + S k)%nat.
Proof.
  intros Hn Hl Hv Hmx idx W Hne. rename Hl into Hlive.
  destruct (Req_dec v 0) as [->|Hv0].
  - (* empty cloud *)
    exists (S k). subst idx. rewrite index_above_zero.
    replace ((-1 <=? mx) || (mx =? -1))%Z with true by (symmetry; apply orb_true_intro; left; apply Z.leb_le; lia).
    unfold instant_cloud_below, slow_split; rnum. destruct (Rltb_spec 0 0) as [H|_]; [lra|]. cbn [andb bind].
    unfold prep_below, prep_above. pose proof (nonneg_volume l (live_nonneg l Hlive)).
    destruct (Rle_dec 0 (volume l)); [|lra]. unfold below, above. rewrite cut_0 by lra. cbn [fst snd app length].
    repeat split. 
  - destruct Hne as [Hne|]; [|lra].
    assert (Hlen : (0 < length l)%nat) by (destruct l; [congruence|cbn; lia]).
    unfold prep_below, prep_above. destruct (Rle_dec v (volume l)) as [Hle|Hgt].
    + destruct (slow_split_cut l l n k v mx Hlive eq_refl ltac:(lra)) as (k' & E & Ei & Ek).
      exists k'. fold W in E, Ei. change (index_above_cloud v W mx) with idx in E, Ei.
      pose proof (cut_length l v) as Hcl.
      assert (Hi : (idx <= mx)%Z).
      { destruct (locate l v Hlive ltac:(lra)) as (a & r & b & El & Hr).
        rewrite El in Hlive. apply Forall_app in Hlive as [Ha Hb]. inversion Hb; subst.
        unfold idx. rewrite <- app_assoc at 1. cbn [app].
        rewrite index_above_at; auto using live_nonneg; try lra.
        - rewrite app_length; cbn [length]; lia.
        - apply nonneg_app; auto using live_nonneg, nonneg_Zs. }
      replace ((idx <=? mx) || (mx =? -1))%Z with true by (symmetry; apply orb_true_intro; left; now apply Z.leb_le).
      unfold instant_cloud_below. rewrite E. cbn [bind]. auto.
    + exists k. subst idx. assert (Ei : index_above_cloud v W mx = (mx + 1)%Z).
      { apply index_above_none; try lra.
        - apply nonneg_app; auto using live_nonneg, nonneg_Zs.
        - unfold W. rewrite volume_app, volume_Zs. lra. }
      fold W. rewrite Ei. replace ((mx + 1 <=? mx) || (mx =? -1))%Z with false
        by (symmetry; apply orb_false_intro; [apply Z.leb_gt|apply Z.eqb_neq]; lia).
      subst W. rewrite new_top by auto. rewrite <- app_assoc. cbn [app].
      rewrite app_length; cbn [length]. repeat split; lia.
Qed.

(** ** Blending when there are not enough electrons. *)
Lemma blend_cons e r w ri wi : blend e (r :: w) (ri :: wi)
  = (fst r, zip_with (fun f fi => e * f + (1 - e) * fi) (snd r) (snd ri)) :: blend e w wi.
Proof. reflexivity. Qed.
Lemma zip_self e fs : zip_with (fun f fi : R => e * f + (1 - e) * fi) fs fs = fs.
Proof. unfold zip_with. induction fs; cbn; [reflexivity|]. rewrite IHfs. f_equal. ring. Qed.
Lemma blend_self e w : blend e w w = w.
Proof.
  induction w as [|[v fs] w IH]; [reflexivity|]. rewrite blend_cons, IH. cbn [fst snd]. now rewrite zip_self.
Qed.
Lemma dot_zip e a b ds : length a = length b ->
  dot (zip_with (fun f fi => e * f + (1 - e) * fi) a b) ds = e * dot a ds + (1 - e) * dot b ds.
Proof.
  unfold zip_with. revert b ds. induction a as [|x a IH]; intros [|y b] [|d ds] H; try discriminate; cbn; try ring.
  cbn in IH. rewrite IH by (cbn in H; lia). ring.
Qed.

(** ** Integrals of the profile below the cloud. *)
Lemma is_RInt_below n v l k s : good n l -> 0 <= v ->
  is_RInt (occupancy (l ++ Zs n k) s) 0 v (species_sum s (prep_below n v l)).
Proof.
  intros Hl Hv. destruct (prep_volume n v l Hl Hv) as [HB _].
  destruct (prep_good n v l Hl Hv) as [GB _].
  rewrite <- HB at 1.
  eapply is_RInt_ext; [|apply (is_RInt_occupancy_prefix (prep_below n v l) (prep_above v l)), live_nonneg, (good_live n), GB].
  intros x Hx. rewrite HB, Rmin_left, Rmax_right in Hx by lra. cbn beta.
  rewrite (prep_occ n v l Hl Hv) by lra.
  rewrite occupancy_app_Zs; auto; [|lra]. apply live_nonneg, (good_live n), Hl.
Qed.
Lemma is_RInt_1_minus (f : R -> R) a b l : is_RInt f a b l -> is_RInt (fun x => 1 - f x) a b ((b - a) - l).
Proof.
  intros H. replace ((b - a) - l) with (minus (scal (b - a) 1) l).
  - apply (is_RInt_minus (fun _ => 1) f); [apply @is_RInt_const|exact H].
  - unfold minus, plus, opp, scal; cbn. unfold mult; cbn. ring.
Qed.

Lemma electrons_value traps (P : profile) a b (I : nat -> R) s0 :
  (forall s, is_RInt (P s) a b (I s)) ->
  electrons_from s0 traps P a b
  = (fix go s ts := match ts with [] => 0 | t :: ts' => @t_density R t * I s + go (S s) ts' end) s0 traps.
Proof.
  intros H. revert s0. induction traps as [|t ts IH]; intros s0; [reflexivity|]. cbn [electrons_from].
  assert (E : RInt (P s0) a b = I s0) by exact (is_RInt_unique (P s0) a b _ (H s0)).
  rewrite E, IH. reflexivity.
Qed.
Lemma demand_value traps P v (W : wmarks R) : (forall s, is_RInt (P s) 0 v (species_sum s W)) ->
  demand traps v P = v * Rsum (dens traps) - trapped (dens traps) W.
Proof.
  intros H. unfold demand, electrons. rewrite trapped_weighted.
  rewrite (electrons_value _ _ _ _ (fun s => (v - 0) - species_sum s W)) by (intros; now apply is_RInt_1_minus).
  generalize 0%nat. induction traps as [|t ts IH]; intros s0; [cbn; unfold Rsum; cbn; ring|].
  cbn [map weighted]. unfold Rsum; cbn [fold_right]. fold (Rsum (dens ts)). rewrite IH. ring.
Qed.
Lemma electrons_total traps l n k : good n l -> volume l <= 1 ->
  electrons traps (occupancy (l ++ Zs n k)) 0 1 = trapped (dens traps) l.
Proof.
  intros Hl Hv. rewrite (electrons_trapped traps _ 0 1 (l ++ Zs n k)).
  - rewrite trapped_app, trapped_Zs. ring.
  - intros s. apply is_RInt_occupancy_upto.
    + apply nonneg_app; [apply live_nonneg, (good_live n), Hl|apply nonneg_Zs].
    + rewrite volume_app, volume_Zs. lra.
Qed.

Lemma Rsum_dens_nonneg traps : Forall physical traps -> Forall (fun d => 0 <= d) (dens traps).
Proof. intros H. apply Forall_map. eapply Forall_impl; [|exact H]. intros t Ht. apply Ht. Qed.
Lemma trapped_nonneg n l ds : good n l -> Forall (fun d => 0 <= d) ds -> 0 <= trapped ds l.
Proof.
  intros Hl Hd. apply Rsum_nonneg, Forall_map. eapply Forall_impl; [|exact Hl]. intros r (H1 & _ & H2).
  unfold row_trapped. apply Rmult_le_pos; [lra|]. apply dot_nonneg; auto. eapply Forall_impl; [|exact H2]. intros; cbn in *; lra.
Qed.
Lemma trapped_le n l ds : good n l -> Forall (fun d => 0 <= d) ds -> length ds = n -> trapped ds l <= volume l * Rsum ds.
Proof.
  intros Hl Hd Hn. induction Hl as [|r l (H1 & Hw & H2) Hl IH]; [rewrite trapped_nil, volume_nil; lra|].
  rewrite trapped_cons, volume_cons. unfold row_trapped.
  assert (dot (snd r) ds <= Rsum ds).
  { rewrite <- (dot_ones n ds Hn). apply dot_le; auto. rewrite <- Hw. clear -H2.
    induction H2; cbn; constructor; auto; lra. }
  nra.
Qed.
Lemma species_sum_bounds n l s : good n l -> (s < n)%nat -> 0 <= species_sum s l <= volume l.
Proof.
  intros Hl Hs. induction Hl as [|r l (H1 & Hw & H2) Hl IH]; [unfold species_sum, volume, Rsum; cbn; lra|].
  unfold species_sum, volume, Rsum in *. cbn [map fold_right].
  assert (0 <= nth s (snd r) 0 <= 1).
  { rewrite Forall_forall in H2. apply H2. apply nth_In. lia. }
  nra.
Qed.
Lemma means_range n l : good n l -> 0 < volume l -> Forall (fun f => 0 <= f <= 1) (means n l).
Proof.
  intros Hl Hv. apply Forall_map, Forall_forall. intros s Hs%in_seq. 
  pose proof (species_sum_bounds n l s Hl ltac:(lia)).
  split; [apply Rdiv_le_0_compat; lra|]. apply Rle_div_l; lra.
Qed.
Lemma dot_means n l ds : (0 < n)%nat -> width n l -> length ds = n -> 0 < volume l -> volume l * dot (means n l) ds = trapped ds l.
Proof.
  intros Hn Hw Hd Hv. rewrite trapped_weighted. unfold means.
  assert (G : forall k ds, volume l * dot (map (fun i => species_sum i l / volume l) (seq k (length ds))) ds = weighted k ds l).
  { intros k ds0. revert k. induction ds0 as [|d ds0 IH]; intros k; cbn; [ring|]. rewrite <- IH. field. lra. }
  rewrite <- Hd. apply G.
Qed.
Lemma means_length n l : length (means n l) = n.
Proof. unfold means. now rewrite map_length, seq_length. Qed.
Lemma means_nth n l s : (s < n)%nat -> nth s (means n l) 0 = species_sum s l / volume l.
Proof.
  intros. unfold means. rewrite (nth_indep _ 0 (species_sum 0 l / volume l)) by (rewrite map_length, seq_length; lia).
  rewrite (map_nth (fun i => species_sum i l / volume l) (seq 0 n) 0%nat s), seq_nth by lia. reflexivity.
Qed.

Lemma length_nonempty {A} (w : list A) : w <> [] -> (0 < length w)%nat.
Proof. destruct w; [congruence|cbn; lia]. Qed.

(** ** n_electrons_captured *)
Section Capture.
Variables (traps : list (trap R)) (l : wmarks R) (k : nat) (fill : filling R) (n_free v : R).
Let n := length traps.
Let W := l ++ Zs n (S (S k)).
Let m := mkManager KInstant traps W.
Let P : profile := occupancy W.
Hypothesis Hph : Forall physical traps.
Hypothesis Hn : (0 < n)%nat.
Hypothesis Hl : good n l.
Hypothesis Hvol : volume l <= 1.
Hypothesis Hnf : Forall (fun r => ~ full_row 1 n r) (prep_above v l).
Hypothesis Hfill : fill n_free = Ok v.
Hypothesis Hfree : 0 <= n_free.
Hypothesis Hv01 : 0 <= v <= 1.
Hypothesis Hpos : 0 < n_free -> 0 < v.
Hypothesis Hzero : n_free = 0 -> v = 0.

Let ds := dens traps.
Lemma len_ds : length ds = n. Proof. apply map_length. Qed.

Lemma P_below s : is_RInt (P s) 0 v (species_sum s (prep_below n v l)).
Proof. apply is_RInt_below; auto; lra. Qed.
Lemma demand_eq : demand traps v P = v * Rsum ds - trapped ds (prep_below n v l).
Proof. apply demand_value, P_below. Qed.

Lemma occ_W s x : 0 <= x -> P s x = occupancy l s x.
Proof. intros. apply occupancy_app_Zs; auto. apply live_nonneg, (good_live n), Hl. Qed.
Lemma occ_above s x : v <= x -> occupancy (prep_above v l) s (x - v) = occupancy l s x.
Proof.
  intros Hx. rewrite <- (prep_occ n v l Hl (proj1 Hv01) s x) by lra.
  destruct (prep_good n v l Hl (proj1 Hv01)) as [GB _]. destruct (prep_volume n v l Hl (proj1 Hv01)) as [HB _].
  rewrite occupancy_app by (try lra; apply live_nonneg, (good_live n), GB). rewrite HB.
  destruct (Rlt_dec x v); [lra|reflexivity].
Qed.

(** The state [l'] with its free rows. *)
Definition outcome (c : R) (l' : wmarks R) (k' : nat) : Prop :=
  n_electrons_captured m n_free fill = Ok (c, mkManager KInstant traps (l' ++ Zs n k'))
  /\ c = captured traps n_free v P
  /\ good n l' /\ volume l' <= 1
  /\ (length l' <= S (length l))%nat /\ (length l' + k' = length l + S (S k))%nat
  /\ (forall s x, (s < n)%nat -> 0 <= x -> occupancy l' s x = after_capture traps n_free v P s x)
  /\ trapped ds l' = trapped ds l + c.

Lemma n_trapped_instant w : n_trapped m w = trapped ds w.
Proof. apply cy_n_trapped_eq. Qed.
Lemma trapped_W : trapped ds W = trapped ds l.
Proof. unfold W. rewrite trapped_app, trapped_Zs. ring. Qed.

Lemma dem_nonneg : 0 <= demand traps v P.
Proof.
  rewrite demand_eq. destruct (prep_good n v l Hl (proj1 Hv01)) as [GB _]. destruct (prep_volume n v l Hl (proj1 Hv01)) as [HB _].
  pose proof (trapped_le n _ ds GB (Rsum_dens_nonneg traps Hph) len_ds). rewrite HB in H. lra.
Qed.
Lemma full_case_state : 0 < v ->
  good n ((v, repeat 1 n) :: prep_above v l) /\ volume ((v, repeat 1 n) :: prep_above v l) <= 1 /\
  trapped ds ((v, repeat 1 n) :: prep_above v l) = trapped ds l + demand traps v P.
Proof.
  intros Hv. destruct (prep_good n v l Hl (proj1 Hv01)) as [_ GA]. destruct (prep_volume n v l Hl (proj1 Hv01)) as [_ HA].
  split; [|split].
  - constructor; auto. split; [auto|split; [apply repeat_length|apply repeat_range; lra]].
  - rewrite volume_cons, HA. cbn [fst]. unfold Rmax; destruct (Rle_dec (volume l) v); lra.
  - rewrite trapped_cons. unfold row_trapped; cbn [fst snd]. rewrite dot_ones by apply len_ds.
    rewrite demand_eq. rewrite <- (prep_trapped n v l ds). ring.
Qed.
Lemma full_case_occ s x : 0 < v -> (s < n)%nat -> 0 <= x -> demand traps v P <= n_free ->
  occupancy ((v, repeat 1 n) :: prep_above v l) s x = after_capture traps n_free v P s x.
Proof.
  intros Hv Hs Hx Hd. rewrite occupancy_cons. unfold after_capture. destruct (Rlt_dec x v).
  - destruct (Rle_dec (demand traps v P) n_free); [|lra]. now apply nth_const.
  - rewrite occ_above, occ_W by lra. reflexivity.
Qed.
Lemma part_case_state e : 0 < v -> 0 < e < 1 -> 
  let vs := zip_with (fun f fi => e * f + (1 - e) * fi) (repeat 1 n) (means n (prep_below n v l)) in
  good n ((v, vs) :: prep_above v l) /\ volume ((v, vs) :: prep_above v l) <= 1 /\
  trapped ds ((v, vs) :: prep_above v l) = trapped ds l + e * demand traps v P.
Proof.
  intros Hv He. cbn zeta. destruct (prep_good n v l Hl (proj1 Hv01)) as [GB GA]. destruct (prep_volume n v l Hl (proj1 Hv01)) as [HB HA].
  split; [|split].
  - constructor; auto. split; [auto|cbn [snd]; split].
    + unfold zip_with. rewrite map_length, combine_length, repeat_length, means_length. lia.
    + assert (Hm : Forall (fun f => 0 <= f <= 1) (means n (prep_below n v l))) by (apply means_range; auto; lra).
      pose proof (repeat_range 1 n ltac:(lra)) as Ho.
      revert Hm Ho. generalize (means n (prep_below n v l)) (repeat 1 n). unfold zip_with.
      intros a b Ha Hb. revert a Ha. induction Hb; intros a Ha; [constructor|]. destruct Ha; [constructor|].
      cbn. constructor; [nra|]. now apply IHHb.
  - rewrite volume_cons, HA. cbn [fst]. unfold Rmax; destruct (Rle_dec (volume l) v); lra.
  - rewrite trapped_cons. unfold row_trapped; cbn [fst snd].
    rewrite dot_zip by (rewrite repeat_length, means_length; reflexivity). rewrite dot_ones by apply len_ds.
    pose proof (dot_means n (prep_below n v l) ds Hn (good_width n _ GB) len_ds ltac:(lra)) as E. rewrite HB in E.
    rewrite demand_eq. rewrite <- (prep_trapped n v l ds). 
    replace (v * (e * Rsum ds + (1 - e) * dot (means n (prep_below n v l)) ds))
      with (e * (v * Rsum ds) + (1 - e) * (v * dot (means n (prep_below n v l)) ds)) by ring.
    rewrite E. ring.
Qed.
Lemma nth_zip e a b s : length a = length b -> (s < length a)%nat ->
  nth s (zip_with (fun f fi => e * f + (1 - e) * fi) a b) 0 = e * nth s a 0 + (1 - e) * nth s b 0.
Proof.
  unfold zip_with. revert b s. induction a as [|x a IH]; intros [|y b] [|s] E Hs; cbn in *; try lia; auto.
  apply IH; lia.
Qed.
Lemma part_case_occ s x : 0 < v -> (s < n)%nat -> 0 <= x -> n_free < demand traps v P ->
  let e := n_free / demand traps v P in
  let vs := zip_with (fun f fi => e * f + (1 - e) * fi) (repeat 1 n) (means n (prep_below n v l)) in
  occupancy ((v, vs) :: prep_above v l) s x = after_capture traps n_free v P s x.
Proof.
  intros Hv Hs Hx Hd. cbn zeta. rewrite occupancy_cons. unfold after_capture. destruct (Rlt_dec x v).
  - destruct (Rle_dec (demand traps v P) n_free); [lra|].
    rewrite nth_zip by (rewrite repeat_length, ?means_length; auto).
    rewrite nth_const, means_nth by auto.
    destruct (prep_volume n v l Hl (proj1 Hv01)) as [HB _]. rewrite HB.
    assert (E : RInt (P s) 0 v = species_sum s (prep_below n v l)) by exact (is_RInt_unique (P s) 0 v _ (P_below s)).
    rewrite E. ring.
  - rewrite occ_above, occ_W by lra. reflexivity.
Qed.

Lemma capture_ok : exists c l' k', outcome c l' k'.
Proof.
  unfold outcome. pose proof dem_nonneg as Hdem. pose proof len_ds as Hds.
  assert (Emx : max_watermark_index W = (Z.of_nat (length l) - 1)%Z)
    by (apply max_index_live, (good_live n), Hl).
  unfold n_electrons_captured. cbn [m_wm m].
  rewrite Hfill. cbn [bind]. rewrite Emx, n_trapped_instant, trapped_W.
  destruct (Req_dec n_free 0) as [Hz|Hnz].
  - (* no electrons: nothing happens *)
    pose proof (Hzero Hz) as Ev.
    rnum. replace ((Z.of_nat (length l) - 1 =? -1)%Z && Rltb 0 n_free) with false
      by (symmetry; apply andb_false_intro2, Rltb_false; lra).
    destruct (capture_prepared n l (S k) v (Z.of_nat (length l) - 1) Hn (good_live n l Hl) ltac:(lra) eq_refl (or_intror Ev)) as (k' & E1 & E2 & E3).
    fold W in E1, E2. rewrite E1. cbn [bind]. rewrite E2, Nat2Z.id.
    assert (EB : prep_below n v l = [] /\ prep_above v l = l).
    { unfold prep_below, prep_above. pose proof (nonneg_volume l (live_nonneg _ (good_live n l Hl))).
      destruct (Rle_dec v (volume l)); [|lra]. unfold below, above. rewrite cut_0 by lra. auto. }
    destruct EB as [EB EA]. rewrite EA in Hnf. rewrite EB, EA in *. cbn [app length] in *.
    replace k' with (S (S k)) by lia. 
    rewrite slice_none.
    change (@filled_value R RNum (m_kind m)) with 1. change (m_traps m) with traps. fold n.
    rewrite collapse_with_copy_nil by (auto using head_of_not_full). cbn [bind].
    rewrite n_trapped_instant. fold W. rewrite trapped_W. rnum.
    destruct (Reqb_spec (trapped ds l) (trapped ds l)) as [_|]; [|congruence].
    assert (Ed : demand traps v P = 0) by (rewrite demand_eq, EB, trapped_nil, Ev; ring).
    exists 0, l, (S (S k)). split; [reflexivity|]. split; [unfold captured; rewrite Ed, Hz, Rmin_left; lra|].
    repeat split; auto; try lia.
    + intros s x Hs Hx. unfold after_capture. destruct (Rlt_dec x v); [lra|]. symmetry; now apply occ_W.
    + ring.
  - assert (Hfp : 0 < n_free) by lra. pose proof (Hpos Hfp) as Hv.
    assert (Hcase : l = [] \/ l <> []) by (destruct l; [left; reflexivity|right; discriminate]).
    destruct Hcase as [El0|Hne].
    + (* first capture *)
      assert (EW : W = zrow n :: Zs n (S k)) by (unfold W; rewrite El0; reflexivity).
      assert (ET : trapped ds l = 0) by (rewrite El0; apply trapped_nil).
      assert (EA : prep_above v l = []).
      { unfold prep_above. rewrite El0. now destruct (Rle_dec v (volume [])). }
      assert (EL : length l = 0%nat) by (rewrite El0; reflexivity).
      rewrite EL. rnum. replace (Rltb 0 n_free) with true by (symmetry; apply Rltb_true; lra). cbn [Z.of_nat Z.sub Z.add Z.opp Z.eqb Pos.eqb andb].
      unfold instant_first_capture. change (m_kind m) with KInstant. change (m_traps m) with traps. fold n. unfold set_row0. 
      change (m_wm m) with W. rewrite EW. cbn [upd filled_value]. rnum.
      rewrite n_trapped_instant.
      assert (ES : trapped ds ((v, repeat 1 n) :: Zs n (S k)) = demand traps v P).
      { rewrite trapped_cons, trapped_Zs. destruct (full_case_state Hv) as (_ & _ & E). rewrite EA, ET, trapped_cons, trapped_nil in E. lra. }
      rewrite ES, ET.
      destruct (Reqb_spec (demand traps v P) 0) as [Ed|Ed]; cbn [bind].
      * exists 0, [(v, repeat 1 n)], (S k). split; [reflexivity|].
        split; [unfold captured; rewrite Ed, Rmin_right; lra|].
        destruct (full_case_state Hv) as (G & V & T). rewrite EA in *.
        repeat split; auto; try (cbn [length]; lia).
        -- intros s x Hs Hx. rewrite <- full_case_occ by (auto; lra). now rewrite EA.
        -- rewrite T, Ed, ET. ring.
      * destruct (Rltb_spec (n_free / demand traps v P) 1) as [He|He].
        -- assert (Hnd : n_free < demand traps v P) by (apply Rlt_div_l in He; lra).
           assert (He0 : 0 < n_free / demand traps v P) by (apply Rdiv_lt_0_compat; lra).
           unfold not_enough. cbn [m_kind m bind]. 
           replace (set_vol (zrow n :: Zs n (S k)) 0 v) with ((v, repeat 0 n) :: Zs n (S k)) by reflexivity.
           rewrite blend_cons, blend_self. cbn [fst snd].
           set (e := n_free / demand traps v P) in *.
           pose proof (part_case_state e Hv ltac:(lra)) as H. cbn zeta in H.
           assert (Em : means n (prep_below n v l) = repeat 0 n).
           { unfold prep_below. rewrite El0, volume_nil. destruct (Rle_dec v 0); [lra|]. cbn [app].
             rewrite means_single; cbn; auto; [apply repeat_length|lra]. }
           rewrite Em, EA in H. destruct H as (G & V & T). rewrite ET in T.
           assert (T' : trapped ds [(v, zip_with (fun f fi => e * f + (1 - e) * fi) (repeat 1 n) (repeat 0 n))] = n_free).
           { rewrite T. unfold e. field. lra. }
           exists n_free, [(v, zip_with (fun f fi => e * f + (1 - e) * fi) (repeat 1 n) (repeat 0 n))], (S k).
           split; [rewrite n_trapped_instant, trapped_cons, trapped_Zs; rewrite trapped_cons, trapped_nil in T'; rewrite T'; reflexivity|].
           split; [unfold captured; rewrite Rmin_left; lra|].
           repeat split; auto; try (cbn [length]; lia).
           ++ intros s x Hs Hx. rewrite <- part_case_occ by auto. cbn zeta. fold e. rewrite Em, EA. reflexivity.
           ++ rewrite T'. ring.
        -- assert (Hnd : demand traps v P <= n_free) by (apply Rle_div_r in He; lra).
           exists (demand traps v P), [(v, repeat 1 n)], (S k). split; [reflexivity|].
           split; [unfold captured; rewrite Rmin_right; lra|].
           destruct (full_case_state Hv) as (G & V & T). rewrite EA in *.
           repeat split; auto; try (cbn [length]; lia).
           ++ intros s x Hs Hx. rewrite <- full_case_occ by (auto; lra). now rewrite EA.
           ++ rewrite T, ET. ring.
    + assert (Hlen0 : (0 < length l)%nat) by now apply length_nonempty.
      rnum. replace ((Z.of_nat (length l) - 1 =? -1)%Z && Rltb 0 n_free) with false
        by (symmetry; apply andb_false_intro1, Z.eqb_neq; lia).
      destruct (capture_prepared n l (S k) v (Z.of_nat (length l) - 1) Hn (good_live n l Hl) ltac:(lra) eq_refl (or_introl Hne)) as (k' & E1 & E2 & E3).
      fold W in E1, E2. rewrite E1. cbn [bind]. rewrite E2, Nat2Z.id.
      destruct (prep_good n v l Hl (proj1 Hv01)) as [GB GA]. destruct (prep_volume n v l Hl (proj1 Hv01)) as [HB HA].
      rewrite (slice_pre_k _ (prep_below n v l) _ _ eq_refl).
      change (@filled_value R RNum (m_kind m)) with 1. change (m_traps m) with traps. fold n.
      set (B := prep_below n v l) in *. set (A := prep_above v l) in *.
      assert (HBne : B <> []) by (apply prep_nonempty; auto; lra).
      assert (Hk' : exists k2, k' = S k2).
      { pose proof (prep_length n v l). fold B A in H. exists (Nat.pred k'). lia. }
      destruct Hk' as [k2 ->].
      rewrite collapse_with_copy_form; auto using mapv_full, mapv_nil, mapv_live, mapv_fst, (good_width n), (good_live n);
        [|apply mapv_width; intros; apply repeat_length | apply head_of_not_full; exact Hnf].
      cbn [bind]. rewrite mapv_volume, HB, mapv_length, n_trapped_instant.
      destruct (full_case_state Hv) as (G & V & T). fold A in G, V, T.
      rewrite trapped_cons, trapped_app, trapped_Zs, Rplus_0_r, <- trapped_cons, T.
      assert (HBl : (0 < length B)%nat) by (destruct B; [congruence|cbn; lia]).
      assert (Hlen : (length ((v, repeat 1%R n) :: A) <= S (length l))%nat /\
                     (length ((v, repeat 1%R n) :: A) + (k2 + length B) = length l + S (S k))%nat).
      { pose proof (prep_length n v l). fold B A in H. cbn [length]. lia. }
      destruct (Reqb_spec (trapped ds l + demand traps v P) (trapped ds l)) as [Ed|Ed].
      * exists 0, ((v, repeat 1 n) :: A), (k2 + length B)%nat. 
        assert (Ed0 : demand traps v P = 0) by lra.
        split; [reflexivity|]. split; [unfold captured; rewrite Ed0, Rmin_right; lra|].
        split; auto. split; auto. split; [apply Hlen|]. split; [apply Hlen|].
        split; [intros; apply full_case_occ; auto; lra|]. lra.
      * replace (trapped ds l + demand traps v P - trapped ds l) with (demand traps v P) by ring.
        destruct (Rltb_spec 0 (n_free / demand traps v P)) as [He0|He0].
        2: { exfalso. assert (0 < n_free / demand traps v P) by (apply Rdiv_lt_0_compat; lra). lra. }
        destruct (Rltb_spec (n_free / demand traps v P) 1) as [He|He]; cbn [andb].
        -- assert (Hnd : n_free < demand traps v P) by (apply Rlt_div_l in He; lra).
           unfold not_enough. cbn [m_kind m bind]. rewrite blend_cons, blend_self. cbn [fst snd].
           set (e := n_free / demand traps v P) in *.
           set (vs := zip_with (fun f fi => e * f + (1 - e) * fi) (repeat 1 n) (means n B)).
           destruct (part_case_state e Hv ltac:(lra)) as (G' & V' & T'). fold B A in G', V', T'. fold vs in G', V', T'.
           rewrite n_trapped_instant, trapped_cons, trapped_app, trapped_Zs, Rplus_0_r, <- trapped_cons, T'.
           replace (e * demand traps v P) with n_free by (unfold e; field; lra).
           destruct (collapse_sound n ((v, vs) :: A) (k2 + length B - 1) Hn G') as (l' & k3 & E & G3 & L3 & K3 & V3 & T3 & O3).
           replace (S (k2 + length B - 1)) with (k2 + length B)%nat in E by lia. cbn [app] in E. rewrite E.
           exists n_free, l', (S k3). split; [unfold with_wm; cbn [m_kind m_traps m]; do 3 f_equal; ring|].
           split; [unfold captured; rewrite Rmin_left; lra|].
           split; auto. split; [lra|]. cbn [length] in *.
           split; [lia|]. split; [lia|].
           split.
           ++ intros s x Hs Hx. rewrite O3 by auto. apply (part_case_occ s x); auto.
           ++ rewrite T3 by auto. rewrite T'. unfold e; field; lra.
        -- assert (Hnd : demand traps v P <= n_free) by (apply Rle_div_r in He; lra). cbn [bind].
           destruct (collapse_sound n ((v, repeat 1 n) :: A) (k2 + length B - 1) Hn G) as (l' & k3 & E & G3 & L3 & K3 & V3 & T3 & O3).
           replace (S (k2 + length B - 1)) with (k2 + length B)%nat in E by lia. cbn [app] in E. rewrite E.
           exists (demand traps v P), l', (S k3). split; [unfold with_wm; cbn [m_kind m_traps m]; do 3 f_equal; ring|].
           split; [unfold captured; rewrite Rmin_right; lra|].
           split; auto. split; [lra|]. cbn [length] in *.
           split; [lia|]. split; [lia|].
           split.
           ++ intros s x Hs Hx. rewrite O3 by auto. apply full_case_occ; auto.
           ++ rewrite T3 by auto. rewrite T. reflexivity.
Qed.
End Capture.

Lemma max_index_Zs l n k : live l -> max_watermark_index (l ++ Zs n (S k)) = (Z.of_nat (length l) - 1)%Z.
Proof. apply max_index_live. Qed.

(** ** Release. *)
Lemma occupancy_mapv f g (l : wmarks R) s x : g 0 = 0 ->
  (forall r, In r l -> nth s (f (snd r)) 0 = g (nth s (snd r) 0)) ->
  occupancy (mapv f l) s x = g (occupancy l s x).
Proof.
  intros Hg. revert x. induction l as [|[v fs] l IH]; intros x H; [cbn; auto|].
  cbn [mapv map fst snd]. rewrite !occupancy_cons. destruct (Rlt_dec x v).
  - apply (H (v, fs)). now left.
  - apply IH. intros r Hr. apply H. now right.
Qed.

Definition rel (traps : list (trap R)) (dwell : R) (fs : list R) : list R :=
  zip_with (fun f t => f * release_probability dwell t) fs traps.
Lemma rel_length traps dwell fs : length fs = length traps -> length (rel traps dwell fs) = length traps.
Proof. intros H. unfold rel, zip_with. rewrite map_length, combine_length. lia. Qed.
Lemma rel_nth traps dwell fs s : Forall physical traps -> length fs = length traps -> (s < length traps)%nat ->
  nth s (rel traps dwell fs) 0 = nth s fs 0 * exp (- dwell / timescale traps s).
Proof.
  intros Hp. revert fs s. induction Hp as [|t ts Ht Hp IH]; intros [|f fs] s Hf Hs; cbn in Hs, Hf; try lia.
  destruct s as [|s]; cbn.
  - unfold release_probability; rnum. rewrite (ph_emission t Ht). f_equal. f_equal.
    pose proof (ph_timescale t Ht). field. lra.
  - apply (IH fs s); lia.
Qed.
Lemma timescale_pos traps s : Forall physical traps -> 0 < timescale traps s.
Proof.
  intros H. unfold timescale. revert s. induction H as [|t ts Ht H IH]; intros [|s]; cbn; try lra.
  - apply Ht.
  - apply IH.
Qed.
Lemma decay_range dwell tau : 0 <= dwell -> 0 < tau -> 0 < exp (- dwell / tau) <= 1.
Proof.
  intros Hd Ht. split; [apply exp_pos|]. apply exp_neg_le_1.
  unfold Rdiv. pose proof (Rinv_0_lt_compat _ Ht). nra.
Qed.
Lemma decay_lt dwell tau : 0 < dwell -> 0 < tau -> exp (- dwell / tau) < 1.
Proof.
  intros Hd Ht. apply exp_neg_lt_1. unfold Rdiv. pose proof (Rinv_0_lt_compat _ Ht). nra.
Qed.
Lemma Forall_nth_iff (Q : R -> Prop) (l : list R) : (forall i, (i < length l)%nat -> Q (nth i l 0)) -> Forall Q l.
Proof. intros H. apply Forall_forall. intros x Hx. apply (In_nth _ _ 0) in Hx as (i & Hi & <-). auto. Qed.

Lemma rel_good traps dwell l : Forall physical traps -> 0 <= dwell -> good (length traps) l ->
  good (length traps) (mapv (rel traps dwell) l).
Proof.
  intros Hp Hd Hl. apply Forall_map. eapply Forall_impl; [|exact Hl]. intros [v fs] (H1 & H2 & H3); cbn [fst snd] in *.
  split; [auto|]. cbn [snd]. split; [now apply rel_length|].
  apply Forall_nth_iff. intros i Hi. rewrite rel_length in Hi by auto. rewrite rel_nth by auto.
  pose proof (decay_range dwell (timescale traps i) Hd (timescale_pos traps i Hp)).
  assert (0 <= nth i fs 0 <= 1) by (rewrite Forall_forall in H3; apply H3, nth_In; lia). nra.
Qed.
Lemma rel_not_full traps dwell l : Forall physical traps -> 0 < dwell -> (0 < length traps)%nat -> good (length traps) l ->
  Forall (fun r => ~ full_row 1 (length traps) r) (mapv (rel traps dwell) l).
Proof.
  intros Hp Hd Hn Hl. apply Forall_map. eapply Forall_impl; [|exact Hl]. intros [v fs] (H1 & H2 & H3) Hf; cbn [fst snd] in *.
  specialize (Hf 0%nat Hn). cbn [snd] in Hf. rewrite rel_nth in Hf by auto.
  pose proof (decay_lt dwell (timescale traps 0) Hd (timescale_pos traps 0 Hp)).
  pose proof (exp_pos (- dwell / timescale traps 0)).
  assert (0 <= nth 0 fs 0 <= 1) by (rewrite Forall_forall in H3; apply H3, nth_In; lia). nra.
Qed.
Lemma rel_occ traps dwell l s x : Forall physical traps -> good (length traps) l -> (s < length traps)%nat -> 
  occupancy (mapv (rel traps dwell) l) s x = occupancy l s x * exp (- dwell / timescale traps s).
Proof.
  intros Hp Hl Hs. apply (occupancy_mapv _ (fun y => y * exp (- dwell / timescale traps s))); [ring|].
  intros r Hr. apply rel_nth; auto. apply (good_width _ _ Hl r) || idtac.
  pose proof (good_width _ _ Hl) as Hw. rewrite <- (proj1 (Forall_forall _ _) Hw r Hr). reflexivity.
Qed.

(** ** Extensionality of the specification. *)
Lemma same_sym n P Q : same_profile n P Q -> same_profile n Q P.
Proof. intros H s x Hs Hx. symmetry; auto. Qed.
Lemma same_trans n P Q S : same_profile n P Q -> same_profile n Q S -> same_profile n P S.
Proof. intros H1 H2 s x Hs Hx. rewrite H1; auto. Qed.
Lemma electrons_same traps P Q a b : same_profile (length traps) P Q -> 0 <= a <= b -> b <= 1 ->
  electrons traps P a b = electrons traps Q a b.
Proof. intros H Ha Hb. apply electrons_ext; [lra|]. intros. apply H; auto. lra. Qed.
Lemma after_release_same traps d P Q : same_profile (length traps) P Q ->
  same_profile (length traps) (after_release traps d P) (after_release traps d Q).
Proof. intros H s x Hs Hx. unfold after_release. rewrite H; auto. Qed.
Lemma released_same traps d P Q : same_profile (length traps) P Q -> released traps d P = released traps d Q.
Proof.
  intros H. unfold released. rewrite (electrons_same traps P Q) by (auto; lra).
  rewrite (electrons_same traps (after_release traps d P) (after_release traps d Q)) by (auto using after_release_same; lra).
  reflexivity.
Qed.
Lemma demand_same traps v P Q : same_profile (length traps) P Q -> 0 <= v <= 1 -> demand traps v P = demand traps v Q.
Proof.
  intros H Hv. unfold demand. apply electrons_ext; [lra|]. intros s x Hs Hx. rewrite (H s x) by (auto; lra). reflexivity.
Qed.
Lemma captured_same traps n v P Q : same_profile (length traps) P Q -> 0 <= v <= 1 ->
  captured traps n v P = captured traps n v Q.
Proof. intros H Hv. unfold captured. now rewrite (demand_same traps v P Q). Qed.
Lemma after_capture_same traps n v P Q : same_profile (length traps) P Q -> 0 <= v <= 1 ->
  same_profile (length traps) (after_capture traps n v P) (after_capture traps n v Q).
Proof.
  intros H Hv s x Hs Hx. unfold after_capture. rewrite (demand_same traps v P Q) by auto.
  destruct (Rlt_dec x v); [|now apply H]. destruct (Rle_dec _ n); [reflexivity|]. cbn zeta. do 3 f_equal.
  apply RInt_ext. intros y Hy. rewrite Rmin_left, Rmax_right in Hy by lra. apply H; auto. lra.
Qed.
Lemma transfer_same traps well d n P Q : same_profile (length traps) P Q ->
  0 <= well (n + released traps d Q) <= 1 ->
  transfer_net traps well d n P = transfer_net traps well d n Q /\
  same_profile (length traps) (transfer_after traps well d n P) (transfer_after traps well d n Q).
Proof.
  intros H Hw. unfold transfer_net, transfer_after. rewrite (released_same traps d P Q) by auto. split.
  - f_equal. apply captured_same; auto using after_release_same.
  - apply after_capture_same; auto using after_release_same.
Qed.

(** ** One step of the instant-capture manager. *)
Definition represents (traps : list (trap R)) (free : nat) (m : manager R) (P : profile) : Prop :=
  exists l k, m = mkManager KInstant traps (l ++ Zs (length traps) (S k)) /\ (free <= k)%nat /\
    good (length traps) l /\ volume l <= 1 /\ same_profile (length traps) (occupancy (m_wm m)) P.

Lemma represents_same traps free m P Q : represents traps free m P -> same_profile (length traps) P Q -> represents traps free m Q.
Proof. intros (l & k & E & Hf & G & V & S) H. exists l, k. repeat split; auto. eapply same_trans; eauto. Qed.

Lemma represents_electrons traps free m P : represents traps free m P ->
  n_trapped m (m_wm m) = electrons traps P 0 1.
Proof.
  intros (l & k & -> & Hf & G & V & S). cbn [m_wm] in *.
  rewrite <- (electrons_same traps _ P 0 1 S) by lra. rewrite electrons_total by auto.
  unfold n_trapped. cbn [m_kind m_wm]. rewrite cy_n_trapped_eq, trapped_app, trapped_Zs. apply Rplus_0_r.
Qed.

Lemma after_release_id_nonneg traps d P : Forall physical traps -> 0 <= d ->
  (forall s x, (s < length traps)%nat -> 0 <= x < 1 -> 0 <= P s x) ->
  forall s x, (s < length traps)%nat -> 0 <= x < 1 -> 0 <= after_release traps d P s x <= P s x.
Proof.
  intros Hp Hd H s x Hs Hx. unfold after_release. specialize (H s x Hs Hx).
  pose proof (decay_range d (timescale traps s) Hd (timescale_pos traps s Hp)). nra.
Qed.

Lemma Forall2_nth_R (a b : list R) : length a = length b -> (forall i, (i < length a)%nat -> nth i a 0 <= nth i b 0) -> Forall2 Rle a b.
Proof.
  revert b. induction a as [|x a IH]; intros [|y b] E H; try discriminate; constructor.
  - apply (H 0%nat); cbn; lia.
  - apply IH; [cbn in E; lia|]. intros i Hi. apply (H (S i)). cbn; lia.
Qed.

Lemma release_ok traps m P free dwell : Forall physical traps -> (0 < length traps)%nat ->
  represents traps free m P -> 0 < dwell ->
  exists l k m1, n_electrons_released m dwell = (released traps dwell P, m1) /\
    m1 = mkManager KInstant traps (l ++ Zs (length traps) (S k)) /\ (free <= k)%nat /\
    good (length traps) l /\ volume l <= 1 /\ Forall (fun r => ~ full_row 1 (length traps) r) l /\
    same_profile (length traps) (occupancy (l ++ Zs (length traps) (S k))) (after_release traps dwell P) /\
    0 <= released traps dwell P.
Proof.
  intros Hp Hn (l & k & -> & Hf & G & V & S) Hd. cbn [m_wm] in S.
  set (n := length traps) in *.
  exists (mapv (rel traps dwell) l), k, (mkManager KInstant traps (mapv (rel traps dwell) l ++ Zs n (1 + k))).
  assert (G1 : good n (mapv (rel traps dwell) l)) by (apply rel_good; auto; lra).
  assert (S1 : same_profile n (occupancy (mapv (rel traps dwell) l ++ Zs n (1 + k))) (after_release traps dwell P)).
  { intros s x Hs Hx. rewrite occupancy_app_Zs; [|apply live_nonneg, (good_live n), G1|lra].
    rewrite rel_occ by auto. unfold after_release. f_equal.
    rewrite <- S by auto. symmetry. apply occupancy_app_Zs; [apply live_nonneg, (good_live n), G|lra]. }
  assert (ER : trapped (dens traps) l - trapped (dens traps) (mapv (rel traps dwell) l) = released traps dwell P).
  { unfold released. rewrite <- (electrons_same traps _ P 0 1 S) by lra.
    rewrite <- (electrons_same traps _ (after_release traps dwell P) 0 1 S1) by lra.
    rewrite !electrons_total; auto. rewrite mapv_volume; auto. }
  split; [|repeat split; auto].
  - unfold n_electrons_released. cbn [m_wm]. rewrite max_index_Zs by (apply (good_live n), G).
    replace (Z.to_nat (Z.of_nat (length l) - 1 + 1)) with (length l) by lia. rewrite slice_pre.
    unfold n_trapped; cbn [m_kind n_traps_per_pixel m_traps]. rewrite !cy_n_trapped_eq.
    change (@released_values R RNum _ dwell) with (rel traps dwell).
    unfold n_traps_per_pixel; cbn [m_traps]. rewrite !trapped_app, !trapped_Zs. rnum. rewrite <- ER. f_equal. ring.
  - rewrite mapv_volume; auto.
  - apply rel_not_full; auto.
  - rewrite <- ER. unfold trapped. 
    enough (trapped (dens traps) (mapv (rel traps dwell) l) <= trapped (dens traps) l) by (unfold trapped in *; lra).
    clear S1 ER G1 V S Hf. induction G as [|[v fs] l (H1 & H2 & H3) G IH]; [apply Rle_refl|].
    cbn [mapv map fst snd] in *. rewrite !trapped_cons. apply Rplus_le_compat; [|exact IH].
    unfold row_trapped; cbn [fst snd]. apply Rmult_le_compat_l; [lra|]. apply dot_le; [|now apply Rsum_dens_nonneg].
    apply Forall2_nth_R; [rewrite rel_length; auto|]. intros i Hi. rewrite rel_length in Hi by auto.
    rewrite rel_nth by auto.
    pose proof (decay_range dwell (timescale traps i) ltac:(lra) (timescale_pos traps i Hp)).
    assert (0 <= nth i fs 0 <= 1) by (rewrite Forall_forall in H3; apply H3, nth_In; lia). nra.
Qed.

Lemma sensitive_range well n : sensitive well -> 0 <= n -> 0 <= well n <= 1.
Proof.
  intros [H0 H1] Hn. destruct (Req_dec n 0) as [->|]; [lra|]. specialize (H1 n ltac:(lra)). lra.
Qed.

Lemma instant_step_ok traps m P free fill well n dwell :
  Forall physical traps -> (0 < length traps)%nat ->
  represents traps (S free) m P -> sensitive well -> (forall n, 0 <= n -> fill n = Ok (well n)) ->
  0 <= n -> 0 < dwell ->
  exists m', instant_step m n fill dwell = Ok (transfer_net traps well dwell n P, m') /\
    represents traps free m' (transfer_after traps well dwell n P) /\
    electrons traps (transfer_after traps well dwell n P) 0 1
      = electrons traps P 0 1 - transfer_net traps well dwell n P /\
    - n <= transfer_net traps well dwell n P.
Proof.
  intros Hp Hn HR Hs Hfill Hfree Hd.
  destruct (release_ok traps m P (S free) dwell Hp Hn HR Hd) as (l & k & m1 & E1 & -> & Hk & G & V & NF & S1 & Hr).
  set (nt := length traps) in *. set (r := released traps dwell P) in *.
  destruct k as [|k]; [lia|].
  pose proof (sensitive_range well (n + r) Hs ltac:(lra)) as Hv.
  destruct (capture_ok traps l k fill (n + r) (well (n + r))) as (c & l' & k' & Ec & Hc & G' & V' & L1 & L2 & O' & T'); auto.
  { apply (prep_not_full nt); auto; lra. }
  { apply Hfill. lra. } { lra. }
  { intros H. apply (proj2 Hs (n + r) H). }
  { intros ->. apply Hs. }
  fold nt in Ec, Hc, G', O'.
  assert (Hcs : c = captured traps (n + r) (well (n + r)) (after_release traps dwell P)).
  { rewrite Hc. apply captured_same; auto. }
  assert (HS : same_profile nt (occupancy (l' ++ Zs nt k')) (transfer_after traps well dwell n P)).
  { intros s x Hsn Hx. rewrite occupancy_app_Zs by (try lra; apply live_nonneg, (good_live nt), G').
    rewrite O' by (auto; lra). unfold transfer_after. fold r. apply after_capture_same; auto. }
  destruct k' as [|k']; [lia|].
  exists (mkManager KInstant traps (l' ++ Zs nt (S k'))). split; [|split; [|split]].
  - unfold instant_step. rewrite E1. rnum. rewrite Ec. cbn [bind]. unfold transfer_net. fold r. rewrite <- Hcs. reflexivity.
  - exists l', k'. repeat split; auto. lia.
  - rewrite <- (electrons_same traps _ (transfer_after traps well dwell n P) 0 1 HS) by lra.
    rewrite electrons_total by auto. rewrite T'. unfold transfer_net. fold r. rewrite <- Hcs.
    assert (E : trapped (dens traps) l = electrons traps (after_release traps dwell P) 0 1).
    { rewrite <- (electrons_same traps _ (after_release traps dwell P) 0 1 S1) by lra. now rewrite electrons_total. }
    rewrite E. unfold r, released. ring.
  - unfold transfer_net. fold r. unfold captured. pose proof (Rmin_l (n + r) (demand traps (well (n + r)) (after_release traps dwell P))). lra.
Qed.

Lemma init_represents traps N : represents traps N (manager_init KInstant traps N) empty_profile.
Proof.
  exists [], N. unfold manager_init. cbn [n_watermarks_per_transfer]. rewrite Nat.mul_1_r.
  split; [reflexivity|]. split; [lia|]. split; [constructor|]. split; [rewrite volume_nil; lra|].
  intros s x Hs Hx. cbn [m_wm]. apply (occupancy_zeros (repeat 0 (length traps)) (1 + N)). lra.
Qed.
