(** * Splitting and collapsing levels: what they do to the profile. *)
From Coq Require Import ZArith List Bool Reals Lra Lia.
From Coquelicot Require Import Rcomplements Rbar Hierarchy RInt.
From Verif Require Import Num Py RFacts CCDModel TrapsModel ManagerModel Spec WmFacts ArrayFacts.
Import ListNotations.
Open Scope R_scope.

Definition Zs (n k : nat) : wmarks R := repeat (zrow n) k.
Lemma Zs_S n k : Zs n (S k) = Zs n k ++ [zrow n].
Proof. apply repeat_snoc. Qed.
Lemma Zs_length n k : length (Zs n k) = k. Proof. apply repeat_length. Qed.
Lemma Zs_app n a b : Zs n a ++ Zs n b = Zs n (a + b).
Proof. symmetry; apply repeat_app. Qed.
Lemma nonneg_Zs n k : nonneg (Zs n k). Proof. apply nonneg_zeros. Qed.
Lemma nonneg_app a b : nonneg a -> nonneg b -> nonneg (a ++ b).
Proof. intros; now apply Forall_app. Qed.
Lemma volume_Zs n k : volume (Zs n k) = 0. Proof. apply volume_zeros. Qed.
Lemma trapped_Zs ds n k : trapped ds (Zs n k) = 0. Proof. apply trapped_zeros. Qed.
Lemma volume_snoc l r : volume (l ++ [r]) = volume l + fst r.
Proof. rewrite volume_app, volume_cons. unfold volume at 2, Rsum; cbn. ring. Qed.
Lemma volume_nil : volume [] = 0. Proof. reflexivity. Qed.
Lemma trapped_nil ds : trapped ds [] = 0. Proof. reflexivity. Qed.
Lemma trapped_snoc ds l r : trapped ds (l ++ [r]) = trapped ds l + row_trapped ds r.
Proof. rewrite trapped_app, trapped_cons, trapped_nil. ring. Qed.

(** Profile of levels followed by free rows. *)
Lemma occupancy_app_Zs l n k s x : nonneg l -> 0 <= x -> occupancy (l ++ Zs n k) s x = occupancy l s x.
Proof.
  intros Hl Hx. rewrite occupancy_app by auto. destruct (Rlt_dec x (volume l)); [reflexivity|].
  unfold Zs, zrow. rewrite occupancy_zeros by lra. symmetry. apply occupancy_above; auto; lra.
Qed.
Lemma occupancy_cons v fs w s x : occupancy ((v, fs) :: w) s x = if Rlt_dec x v then nth s fs 0 else occupancy w s (x - v).
Proof. reflexivity. Qed.

(** ** Cutting a list of levels at a depth. *)
Fixpoint cut (v : R) (l : wmarks R) : wmarks R * wmarks R :=
  match l with
  | [] => ([], [])
  | r :: l' =>
      if Rle_dec v 0 then ([], l)
      else if Rle_dec (fst r) v then let '(b, a) := cut (v - fst r) l' in (r :: b, a)
      else ([(v, snd r)], (fst r - v, snd r) :: l')
  end.
Definition below v l := fst (cut v l).
Definition above v l := snd (cut v l).

Lemma cut_0 v l : v <= 0 -> cut v l = ([], l).
Proof. destruct l; [reflexivity|]. intros. cbn. destruct (Rle_dec v 0); [reflexivity|lra]. Qed.

Ltac cutind l v :=
  revert v; induction l as [|r l IH]; intros v; [unfold below, above; cbn [cut fst snd]|
    unfold below, above in *; cbn [cut];
    destruct (Rle_dec v 0); [|destruct (Rle_dec (fst r) v); [
      specialize (IH (v - fst r)); destruct (cut (v - fst r) l) as [b a]; cbn [fst snd] in *|]]].

Lemma cut_volume l v : live l -> 0 <= v <= volume l -> volume (below v l) = v /\ volume (above v l) = volume l - v.
Proof.
  intros Hl. revert v. induction Hl as [|r l Hr Hl IH]; intros v Hv.
  - rewrite volume_nil in *. unfold below, above; cbn [cut fst snd]. rewrite volume_nil. lra.
  - unfold below, above in *; cbn [cut]. rewrite volume_cons in *.
    destruct (Rle_dec v 0); [cbn [fst snd]; rewrite volume_nil, volume_cons; lra|].
    destruct (Rle_dec (fst r) v).
    + destruct (IH (v - fst r)) as [H1 H2]; [lra|]. destruct (cut (v - fst r) l) as [b a]; cbn [fst snd] in *.
      rewrite volume_cons. lra.
    + cbn [fst snd]. rewrite !volume_cons, volume_nil. cbn [fst]. lra.
Qed.
Lemma cut_live l v : live l -> live (below v l) /\ live (above v l).
Proof.
  intros Hl. revert v. induction Hl as [|r l Hr Hl IH]; intros v.
  - split; constructor.
  - unfold below, above in *; cbn [cut].
    destruct (Rle_dec v 0); [split; cbn [fst snd]; [constructor | now constructor]|].
    destruct (Rle_dec (fst r) v).
    + destruct (IH (v - fst r)) as [H1 H2]. destruct (cut (v - fst r) l) as [b a]; cbn [fst snd] in *.
      split; [now constructor|auto].
    + cbn [fst snd]. split; repeat constructor; cbn; auto; lra.
Qed.
Lemma cut_vals (P : list R -> Prop) l v : Forall (fun r => P (snd r)) l ->
  Forall (fun r => P (snd r)) (below v l) /\ Forall (fun r => P (snd r)) (above v l).
Proof.
  intros Hl. revert v. induction Hl as [|r l Hr Hl IH]; intros v.
  - split; constructor.
  - unfold below, above in *; cbn [cut].
    destruct (Rle_dec v 0); [split; cbn [fst snd]; [constructor | now constructor]|].
    destruct (Rle_dec (fst r) v).
    + destruct (IH (v - fst r)) as [H1 H2]. destruct (cut (v - fst r) l) as [b a]; cbn [fst snd] in *.
      split; [now constructor|auto].
    + cbn [fst snd]. split; repeat constructor; cbn; auto.
Qed.
Lemma cut_occ l v s x : live l -> 0 <= x -> occupancy (below v l ++ above v l) s x = occupancy l s x.
Proof.
  intros Hl. revert v x. induction Hl as [|r l Hr Hl IH]; intros v x Hx; [reflexivity|].
  unfold below, above in *; cbn [cut].
  destruct (Rle_dec v 0); [reflexivity|].
  destruct (Rle_dec (fst r) v).
  - specialize (IH (v - fst r)). destruct (cut (v - fst r) l) as [b a]; cbn [fst snd app] in *.
    destruct r as [vr fs]. cbn [fst] in *. rewrite !occupancy_cons. destruct (Rlt_dec x vr); [reflexivity|].
    apply IH. lra.
  - destruct r as [vr fs]. cbn [fst snd app] in *. rewrite !occupancy_cons.
    destruct (Rlt_dec x v), (Rlt_dec x vr), (Rlt_dec (x - v) (vr - v)); try lra; try reflexivity.
    f_equal; ring.
Qed.
Lemma cut_trapped ds l v : trapped ds (below v l) + trapped ds (above v l) = trapped ds l.
Proof.
  cutind l v; cbn [fst snd] in *; rewrite ?trapped_cons, ?trapped_nil in *; try lra.
  unfold row_trapped; cbn [fst snd]. lra.
Qed.
Lemma cut_same l l' v : map fst l = map fst l' ->
  map fst (below v l) = map fst (below v l') /\ map fst (above v l) = map fst (above v l').
Proof.
  revert v l'. induction l as [|r l IH]; intros v [|r' l'] E; try discriminate; [split; reflexivity|].
  cbn [map] in E. injection E as E1 E2. unfold below, above in *; cbn [cut]. rewrite E1.
  destruct (Rle_dec v 0); [cbn; rewrite E1, E2; auto|].
  destruct (Rle_dec (fst r') v).
  - destruct (IH (v - fst r') l' E2) as [H1 H2].
    destruct (cut (v - fst r') l) as [b a], (cut (v - fst r') l') as [b' a']; cbn [fst snd map] in *.
    rewrite E1, H1, H2. auto.
  - cbn. rewrite E2. auto.
Qed.
Lemma cut_length l v : (length l <= length (below v l) + length (above v l) <= S (length l))%nat.
Proof. cutind l v; cbn [fst snd length] in *; lia. Qed.

Lemma cut_at a r b v : live a -> 0 < fst r -> volume a < v <= volume a + fst r ->
  cut v (a ++ r :: b) =
  if Req_EM_T v (volume a + fst r) then (a ++ [r], b)
  else (a ++ [(v - volume a, snd r)], (volume a + fst r - v, snd r) :: b).
Proof.
  intros Ha Hr. revert v. induction Ha as [|q a Hq Ha IH]; intros v Hv.
  - rewrite volume_nil in *. cbn [app cut]. destruct (Rle_dec v 0); [lra|].
    destruct (Rle_dec (fst r) v), (Req_EM_T v (0 + fst r)); try lra.
    + rewrite cut_0 by lra. reflexivity.
    + replace (v - 0) with v by ring. replace (0 + fst r - v) with (fst r - v) by ring. reflexivity.
  - rewrite volume_cons in *. cbn [app cut]. pose proof (nonneg_volume a (live_nonneg a Ha)).
    destruct (Rle_dec v 0); [lra|]. destruct (Rle_dec (fst q) v); [|lra].
    rewrite IH by lra.
    destruct (Req_EM_T (v - fst q) (volume a + fst r)), (Req_EM_T v (fst q + volume a + fst r)); try lra.
    + reflexivity.
    + cbn [app]. replace (v - fst q - volume a) with (v - (fst q + volume a)) by ring.
      replace (volume a + fst r - (v - fst q)) with (fst q + volume a + fst r - v) by ring. reflexivity.
Qed.

Lemma same_vol_app (a b c d : wmarks R) : map fst (a ++ b) = map fst c -> 
  exists c1 c2, c = c1 ++ c2 /\ map fst a = map fst c1 /\ map fst b = map fst c2.
Proof.
  intros E. exists (firstn (length a) c), (skipn (length a) c). rewrite firstn_skipn. split; [reflexivity|].
  rewrite <- firstn_map, <- skipn_map, <- E, map_app.
  replace (length a) with (length (map fst a)) by apply map_length.
  now rewrite firstn_app_exact, skipn_app_exact.
Qed.

(** The split of the code is [cut]. *)
Lemma slow_split_cut l li n k v mx : live l -> map fst l = map fst li -> 0 < v <= volume l ->
  let idx := index_above_cloud v (l ++ Zs n (S k)) mx in
  exists k',
    slow_split (l ++ Zs n (S k)) (li ++ Zs n (S k)) v idx mx
    = Ok (below v l ++ above v l ++ Zs n k', below v li ++ above v li ++ Zs n k',
          (mx + Z.of_nat (length (below v l) + length (above v l)) - Z.of_nat (length l))%Z)
    /\ (idx + 1)%Z = Z.of_nat (length (below v l))
    /\ (length (below v l) + length (above v l) + k' = length l + S k)%nat.
Proof.
  intros Hl Hs Hv. cbn zeta. destruct (locate l v Hl Hv) as (a & r & b & -> & Hr).
  destruct (same_vol_app a (r :: b) li [] Hs) as (ai & li2 & -> & Ea & Eb).
  destruct li2 as [|ri bi]; [discriminate|]. cbn [map] in Eb. injection Eb as Er Eb.
  apply Forall_app in Hl as [Ha Hl2]. inversion Hl2 as [|? ? Hr0 Hb]; subst.
  assert (Hai : live ai).
  { apply (Forall_map fst (fun x => 0 < x)). rewrite <- Ea. now apply Forall_map. }
  assert (Hva : volume ai = volume a) by (unfold volume; now rewrite Ea).
  assert (Hla : length ai = length a) by (rewrite <- (map_length fst ai), <- Ea; apply map_length).
  assert (Hlb : length bi = length b) by (rewrite <- (map_length fst bi), <- Eb; apply map_length).
  assert (Ei : index_above_cloud v ((a ++ r :: b) ++ Zs n (S k)) mx = Z.of_nat (length a)).
  { rewrite <- app_assoc. cbn [app]. apply index_above_at; auto using live_nonneg; try lra.
    apply nonneg_app; auto using live_nonneg, nonneg_Zs. }
  rewrite Ei. unfold below, above. rewrite !cut_at by (auto; rewrite <- ?Er, ?Hva; lra).
  rewrite Hva, <- Er. unfold slow_split; rnum.
  destruct (Rltb_spec 0 v) as [_|]; [|lra]. cbn [andb].
  pose proof (cumsum_at v a r (b ++ Zs n (S k)) (live_nonneg a Ha)
    (nonneg_app _ _ (live_nonneg b Hb) (nonneg_Zs n (S k))) Hr) as Hc.
  destruct (Req_EM_T v (volume a + fst r)) as [Hev|Hev].
  - exists (S k). replace (cy_value_in_cumsum v (map vol ((a ++ r :: b) ++ Zs n (S k)))) with true
      by (symmetry; rewrite <- app_assoc; cbn [app]; now apply Hc).
    cbn [negb fst snd]. rewrite <- !app_assoc, !app_length; cbn [app length]. repeat split; try lia.
    do 2 f_equal. lia.
  - exists k. replace (cy_value_in_cumsum v (map vol ((a ++ r :: b) ++ Zs n (S k)))) with false.
    2: { symmetry. rewrite <- app_assoc. cbn [app]. apply not_true_iff_false. intros E. now apply Hev, Hc. }
    cbn [negb fst snd]. rewrite Zs_S, <- !app_assoc. cbn [app]. 
    rewrite !(app_assoc b), !(app_assoc bi). rewrite split_at. cbn [bind].
    rewrite <- Hla, split_at. cbn [bind]. rewrite !app_length; cbn [length].
    rewrite Hva, <- Er. repeat split; try lia.
    do 2 f_equal. lia.
Qed.

(** ** Preparing the levels for a cloud of volume [v]. *)
Definition prep_below (n : nat) (v : R) (l : wmarks R) : wmarks R :=
  if Rle_dec v (volume l) then below v l else l ++ [(v - volume l, repeat 0 n)].
Definition prep_above (v : R) (l : wmarks R) : wmarks R :=
  if Rle_dec v (volume l) then above v l else [].

Lemma set_vol_top l n k v : set_vol (l ++ Zs n (S k)) (length l) v = l ++ (v, repeat 0 n) :: Zs n k.
Proof. change (Zs n (S k)) with (zrow n :: Zs n k). rewrite set_vol_at. reflexivity. Qed.
Lemma new_top l li n k cloud mx : length l = length li -> mx = (Z.of_nat (length l) - 1)%Z ->
  new_top_watermark (l ++ Zs n (S k)) (li ++ Zs n (S k)) cloud (mx + 1)
  = Ok (l ++ (cloud - volume l, repeat 0 n) :: Zs n k, li ++ (cloud - volume l, repeat 0 n) :: Zs n k).
Proof.
  intros Hl ->. unfold new_top_watermark. rewrite app_length, Zs_length.
  replace ((0 <=? Z.of_nat (length l) - 1 + 1) && (Z.of_nat (length l) - 1 + 1 <? Z.of_nat (length l + S k)))%Z with true
    by (symmetry; apply andb_true_intro; split; [apply Z.leb_le|apply Z.ltb_lt]; lia).
  replace (Z.to_nat (Z.of_nat (length l) - 1 + 1)) with (length l) by lia.
  rewrite sumF_Rsum, map_app, Rsum_app. rnum.
  replace (Rsum (map vol (Zs n (S k)))) with 0 by (symmetry; apply (volume_Zs n (S k))).
  rewrite Rplus_0_r. change (Rsum (map vol l)) with (volume l).
  rewrite set_vol_top, Hl, set_vol_top. reflexivity.
Qed.

(** ** Collapsing. *)
Lemma full_prefix filled n (l : wmarks R) : exists f g, l = f ++ g /\ Forall (full_row filled n) f /\
  (g = [] \/ exists r g', g = r :: g' /\ ~ full_row filled n r).
Proof.
  assert (Dec : forall r, full_row filled n r \/ ~ full_row filled n r).
  { intros r. unfold full_row. clear. induction n as [|n IH]; [left; lia|].
    destruct IH as [IH|IH]; [|right; intros H; apply IH; intros; apply H; lia].
    destruct (Req_dec (nth n (snd r) 0) filled).
    - left. intros i Hi. destruct (Nat.eq_dec i n); [subst; auto|apply IH; lia].
    - right. intros H'. apply H, H'. lia. }
  induction l as [|r l (f & g & -> & Hf & Hg)].
  - exists [], []. auto.
  - destruct (Dec r) as [Hr|Hr].
    + exists (r :: f), g. split; [reflexivity|]. split; [now constructor|auto].
    + exists [], (r :: f ++ g). split; [reflexivity|]. split; [constructor|]. right. exists r, (f ++ g). auto.
Qed.

Lemma not_full_witness filled n r : ~ full_row filled n r -> exists i, (i < n)%nat /\ nth i (snd r) 0 <> filled.
Proof.
  unfold full_row. induction n as [|n IH]; intros H; [exfalso; apply H; lia|].
  destruct (Req_dec (nth n (snd r) 0) filled) as [E|E]; [|exists n; split; [lia|auto]].
  destruct IH as (i & Hi & Hn).
  - intros H'. apply H. intros i Hi. destruct (Nat.eq_dec i n); [subst; auto|apply H'; lia].
  - exists i. split; [lia|auto].
Qed.

Lemma full_row_eq filled n r : length (snd r) = n -> full_row filled n r -> snd r = repeat filled n.
Proof.
  intros Hn H. apply (nth_ext _ _ 0 0); [now rewrite repeat_length|]. intros i Hi.
  rewrite H by lia. symmetry.
  rewrite (nth_indep _ 0 filled) by (rewrite repeat_length; lia). apply nth_repeat.
Qed.

Lemma nth_zeros n i : nth i (repeat 0 n) 0 = 0.
Proof. revert i; induction n; intros [|i]; cbn; auto. Qed.
Lemma nth_const c n i : (i < n)%nat -> nth i (repeat c n) 0 = c.
Proof. intros. rewrite (nth_indep _ 0 c) by (rewrite repeat_length; lia). apply nth_repeat. Qed.

(** The collapse index of levels followed by free rows, for fill fractions. *)
Definition head_not_full (n : nat) (g : wmarks R) : Prop :=
  g = [] \/ exists r g', g = r :: g' /\ ~ full_row 1 n r.
Lemma collapse_index_levels n f g k : (0 < n)%nat -> Forall (full_row 1 n) f -> head_not_full n g ->
  collapse_index 1 n (f ++ g ++ Zs n (S k)) = length f.
Proof.
  intros Hn Hf [->|(r & g' & -> & Hr)].
  - change (f ++ [] ++ Zs n (S k)) with (f ++ zrow n :: Zs n k).
    apply Nat.le_antisymm.
    + eapply Nat.le_trans; [apply (collapse_index_le _ _ _ 0); lia|]. apply argmax_first. rnum.
      apply negb_true_iff, Reqb_false. unfold zrow, vals; cbn [snd]. rewrite nth_zeros. lra.
    + apply collapse_index_ge; auto. exists (zrow n). split; [now left|].
      intros. unfold zrow; cbn [snd]. rewrite nth_zeros. lra.
  - cbn [app]. apply collapse_index_at; auto using not_full_witness.
    exists (zrow n). split; [apply in_or_app; right; now left|].
    intros. unfold zrow; cbn [snd]. rewrite nth_zeros. lra.
Qed.

Lemma collapse_rows_form n f g k v vs : f <> [] -> width n f ->
  collapse_rows (length f) v vs (f ++ g ++ Zs n (S k)) = (v, vs) :: g ++ Zs n (k + length f).
Proof.
  intros Hf Hw. destruct (exists_last Hf) as (f' & r & ->). rewrite app_length. cbn [length].
  replace (length f' + 1)%nat with (S (length f')) by lia. rewrite <- app_assoc. cbn [app].
  rewrite collapse_rows_at. apply Forall_app in Hw as [Hw _]. rewrite (map_zrow n) by exact Hw.
  rewrite <- app_assoc. change (repeat (zrow n) (length f')) with (Zs n (length f')). rewrite Zs_app.
  replace (S k + length f')%nat with (k + S (length f'))%nat by lia. reflexivity.
Qed.
Lemma firstn_vol n f g k : sumF (map vol (firstn (length f) (f ++ g ++ Zs n k))) = volume f.
Proof. now rewrite firstn_app_exact, sumF_Rsum. Qed.

Definition means (n : nat) (w : wmarks R) : list R := map (fun i => species_sum i w / volume w) (seq 0 n).
Lemma copy_fill_means n fi gi k : copy_fill_values (length fi) n (fi ++ gi ++ Zs n k) = means n fi.
Proof.
  unfold copy_fill_values, means. apply map_ext. intros i. rewrite !firstn_app_exact, !sumF_Rsum. reflexivity.
Qed.
Lemma means_single n r : length (snd r) = n -> 0 < fst r -> means n [r] = snd r.
Proof.
  intros Hn Hr. unfold means. apply (nth_ext _ _ (species_sum 0 [r] / volume [r]) 0).
  - now rewrite map_length, seq_length.
  - intros i Hi. rewrite map_length, seq_length in Hi.
    rewrite (map_nth (fun i => species_sum i [r] / volume [r]) (seq 0 n) 0%nat i), seq_nth by auto. cbn [Nat.add].
    unfold species_sum, volume, Rsum; cbn. field. lra.
Qed.

Lemma collapse_form n f g k : (0 < n)%nat -> width n f -> Forall (full_row 1 n) f -> head_not_full n g -> f <> [] ->
  collapse 1 n (f ++ g ++ Zs n (S k)) = (volume f, repeat 1 n) :: g ++ Zs n (k + length f).
Proof.
  intros Hn Hw Hf Hg Hne. unfold collapse. rewrite collapse_index_levels by auto.
  destruct (Nat.leb_spec (length f) 1) as [Hle|Hgt].
  - destruct f as [|r [|r' f]]; [congruence| |cbn in Hle; lia]. cbn [app length].
    inversion Hw; inversion Hf; subst. rewrite <- (full_row_eq 1 (length (snd r)) r) by auto.
    rewrite Nat.add_1_r. f_equal. destruct r as [v fs]; cbn [snd]. f_equal. unfold volume, Rsum; cbn. ring.
  - rewrite firstn_vol. now apply collapse_rows_form.
Qed.
Lemma collapse_form_nil n g k : (0 < n)%nat -> head_not_full n g ->
  collapse 1 n (g ++ Zs n (S k)) = g ++ Zs n (S k).
Proof.
  intros Hn Hg. unfold collapse. pose proof (collapse_index_levels n [] g k Hn (Forall_nil _) Hg) as E.
  cbn [app length] in E. rewrite E. reflexivity.
Qed.
Lemma collapse_with_copy_form n f g fi gi k : (0 < n)%nat -> width n f -> width n fi -> live f ->
  Forall (full_row 1 n) f -> head_not_full n g -> f <> [] -> map fst f = map fst fi ->
  collapse_with_copy 1 n (f ++ g ++ Zs n (S k)) (fi ++ gi ++ Zs n (S k))
  = Ok ((volume f, repeat 1 n) :: g ++ Zs n (k + length f),
        (volume f, means n fi) :: gi ++ Zs n (k + length f)).
Proof.
  intros Hn Hw Hwi Hlf Hf Hg Hne Hs. unfold collapse_with_copy. rewrite collapse_index_levels by auto.
  assert (Hvi : volume fi = volume f) by (unfold volume; now rewrite Hs).
  assert (Hli : length f = length fi) by (rewrite <- (map_length fst f), Hs; apply map_length).
  destruct (Nat.leb_spec (length f) 1) as [Hle|Hgt].
  - destruct f as [|r [|r' f]]; [congruence| |cbn in Hle; lia]. 
    destruct fi as [|ri [|ri' fi]]; try discriminate. cbn [app length].
    inversion Hw; inversion Hf; inversion Hwi; inversion Hlf; subst. rewrite <- (full_row_eq 1 (length (snd r)) r) by auto.
    cbn [map] in Hs. injection Hs as Hs.
    rewrite Nat.add_1_r. rewrite means_single by (auto; rewrite <- Hs; auto).
    destruct r as [v fs], ri as [vi fsi]; cbn [fst snd] in *; subst vi.
    replace (volume [(v, fs)]) with v by (unfold volume, Rsum; cbn; ring). reflexivity.
  - rewrite firstn_vol. rewrite Hli at 1. rewrite firstn_vol, Hvi. rnum.
    destruct (Reqb_spec (volume f) 0) as [E|_].
    { exfalso. pose proof (live_volume_pos f Hlf Hne). lra. }
    rewrite collapse_rows_form by auto. rewrite Hli. rewrite copy_fill_means, collapse_rows_form; auto.
    intros ->. cbn in Hli. lia.
Qed.
Lemma collapse_with_copy_nil n g k wi : (0 < n)%nat -> head_not_full n g ->
  collapse_with_copy 1 n (g ++ Zs n (S k)) wi = Ok (g ++ Zs n (S k), wi).
Proof.
  intros Hn Hg. unfold collapse_with_copy. pose proof (collapse_index_levels n [] g k Hn (Forall_nil _) Hg) as E.
  cbn [app length] in E. rewrite E. reflexivity.
Qed.

(** Collapsing is invisible: whatever the levels, the profile, the volume and the number
    of trapped electrons are unchanged and no level is added. *)
Definition good (n : nat) (l : wmarks R) : Prop := Forall (live_level n) l.
Lemma good_live n l : good n l -> live l.
Proof. apply Forall_impl. now intros r (H & _). Qed.
Lemma good_width n l : good n l -> width n l.
Proof. apply Forall_impl. now intros r (_ & H & _). Qed.
Lemma good_app n a b : good n (a ++ b) <-> good n a /\ good n b.
Proof. apply Forall_app. Qed.
Lemma repeat_range c n : 0 <= c <= 1 -> Forall (fun f => 0 <= f <= 1) (repeat c n).
Proof. intros. apply Forall_forall. intros x Hx. apply repeat_spec in Hx. now subst. Qed.

Lemma full_trapped ds n f : width n f -> Forall (full_row 1 n) f -> length ds = n -> 
  trapped ds f = volume f * Rsum ds.
Proof.
  intros Hw Hf Hd. induction f as [|r f IH]; [rewrite trapped_nil, volume_nil; ring|].
  inversion Hw; inversion Hf; subst. rewrite trapped_cons, volume_cons, IH by auto.
  unfold row_trapped. rewrite (full_row_eq 1 (length ds) r) by auto. rewrite dot_ones by auto. ring.
Qed.
Lemma full_occ n f s x : live f -> width n f -> Forall (full_row 1 n) f -> (s < n)%nat -> 0 <= x < volume f ->
  occupancy f s x = 1.
Proof.
  intros Hl Hw Hf Hs. revert x. induction f as [|[v fs] f IH]; intros x Hx; [rewrite volume_nil in Hx; lra|].
  inversion Hw; inversion Hf; inversion Hl; subst. rewrite volume_cons in Hx. cbn [fst] in *.
  rewrite occupancy_cons. destruct (Rlt_dec x v).
  - match goal with H : full_row _ _ (v, fs) |- _ => apply (H s Hs) end.
  - apply IH; auto. lra.
Qed.

Lemma collapse_sound n l k : (0 < n)%nat -> good n l ->
  exists l' k', collapse 1 n (l ++ Zs n (S k)) = l' ++ Zs n (S k') /\ good n l' /\
    (length l' <= length l)%nat /\ (length l' + k' = length l + k)%nat /\ volume l' = volume l /\
    (forall ds, length ds = n -> trapped ds l' = trapped ds l) /\
    (forall s x, (s < n)%nat -> 0 <= x -> occupancy l' s x = occupancy l s x).
Proof.
  intros Hn Hl. destruct (full_prefix 1 n l) as (f & g & -> & Hf & Hg).
  apply good_app in Hl as [Hlf Hlg].
  destruct f as [|r f].
  - exists g, k. cbn [app]. rewrite collapse_form_nil by auto. repeat split; auto.
  - set (f0 := r :: f) in *. exists ((volume f0, repeat 1 n) :: g), (k + length f)%nat.
    assert (0 < volume f0) by (apply live_volume_pos; [now apply (good_live n)|discriminate]).
    rewrite <- app_assoc, collapse_form; auto using (good_width n); [|discriminate].
    split; [subst f0; cbn [app length]; do 4 f_equal; lia|].
    split; [constructor; auto; split; [auto|split; [apply repeat_length|apply repeat_range; lra]]|].
    split; [subst f0; cbn [app length]; rewrite app_length; lia|].
    split; [subst f0; cbn [app length]; rewrite app_length; lia|].
    split; [rewrite volume_cons, volume_app; reflexivity|].
    split.
    + intros ds Hd. rewrite trapped_cons, trapped_app, (full_trapped ds n f0) by (auto using (good_width n)).
      unfold row_trapped; cbn [fst snd]. rewrite dot_ones by auto. ring.
    + intros s x Hs Hx. rewrite occupancy_cons, occupancy_app by (auto; apply live_nonneg, (good_live n); auto).
      destruct (Rlt_dec x (volume f0)); [|reflexivity].
      rewrite nth_const by auto. symmetry. apply (full_occ n); auto using (good_width n), (good_live n).
Qed.
