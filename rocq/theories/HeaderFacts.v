(** * Proofs about update_fits_header_info. *)
From Coq Require Import List Bool String Ascii Arith Lia Decimal DecimalString DecimalNat DecimalFacts.
From Verif Require Import Num Py CCDModel TrapsModel MainModel HeaderModel SpecHeader.
Import ListNotations.
Open Scope string_scope.

Section Header.
Context {V : Type}.
Implicit Types h : header V.

Lemma value_hset h key v c key' : value_of (hset h key v c) key' = if String.eqb key key' then Some v else value_of h key'.
Proof.
  induction h as [|[k [old co]] h IH]; unfold value_of in *; cbn.
  - destruct (String.eqb key key'); reflexivity.
  - destruct (String.eqb k key) eqn:E.
    + apply String.eqb_eq in E as ->. cbn. destruct (String.eqb key key') eqn:E'; reflexivity.
    + cbn. destruct (String.eqb k key') eqn:E'.
      * apply String.eqb_eq in E' as ->. rewrite String.eqb_sym, E. reflexivity.
      * exact IH.
Qed.

(** Keywords *)
Lemma append_inv_r s t c : s ++ String c "" = t ++ String c "" -> s = t.
Proof.
  revert t. induction s as [|a s IH]; intros [|b t]; cbn; intros H; try reflexivity.
  - injection H as <- H. destruct t; discriminate.
  - injection H as <- H. destruct s; discriminate.
  - injection H as <- H. f_equal. now apply IH.
Qed.
Lemma append_last s t c d : s ++ String c "" = t ++ String d "" -> c = d.
Proof.
  revert t. induction s as [|a s IH]; intros [|b t]; cbn; intros H.
  - now injection H.
  - injection H as <- H. destruct t; discriminate.
  - injection H as <- H. destruct s; discriminate.
  - injection H as <- H. now apply (IH t).
Qed.
Lemma to_uint_nonnil n : Nat.to_uint n <> Nil.
Proof. rewrite <- (Unsigned.of_to n) at 1. rewrite Unsigned.to_of. apply unorm_nonnil. Qed.
Lemma str_inj i j : @str V (fun _ => "") (INumber i) = @str V (fun _ => "") (INumber j) -> i = j.
Proof.
  cbn. intros H. apply Unsigned.to_uint_inj. apply (f_equal NilZero.uint_of_string) in H.
  rewrite !NilZero.usu in H by apply to_uint_nonnil. now injection H.
Qed.
Variable repr : object V -> string.
Definition dkey i := "cte_pt" ++ str repr (INumber i) ++ "d".
Definition tkey i := "cte_pt" ++ str repr (INumber i) ++ "t".
Lemma prefix_inv s t : "cte_pt" ++ s = "cte_pt" ++ t -> s = t.
Proof. cbn. intros H. now injection H. Qed.
Lemma dkey_inj i j : dkey i = dkey j -> i = j.
Proof. intros H. apply prefix_inv, append_inv_r in H. now apply str_inj. Qed.
Lemma tkey_inj i j : tkey i = tkey j -> i = j.
Proof. intros H. apply prefix_inv, append_inv_r in H. now apply str_inj. Qed.
Lemma dkey_tkey i j : dkey i <> tkey j.
Proof. intros H. apply prefix_inv, append_last in H. discriminate. Qed.

(** ** What stays *)
Lemma andthen_keeps (P : header V -> header V -> Prop) h (o : outcome V) k :
  (forall a b c, P a b -> P b c -> P a c) -> P h (fst o) -> (forall h', P h' (fst (k h'))) -> P h (fst (andthen o k)).
Proof. intros T H1 H2. destruct o as [h' [e|]]; cbn in *; [exact H1|]. eapply T; [exact H1|apply H2]. Qed.
Definition keeps (key : string) (h h' : header V) : Prop := value_of h' key = value_of h key.
Lemma keeps_trans key a b c : keeps key a b -> keeps key b c -> keeps key a c.
Proof. unfold keeps. congruence. Qed.
Lemma keeps_refl key a : keeps key a a.
Proof. reflexivity. Qed.
Lemma attribute_keeps key h k o a c : k <> key -> keeps key h (fst (set_attribute h k o a c)).
Proof. intros H. unfold set_attribute, keeps. destruct (o a); [|reflexivity]. cbn [fst]. rewrite value_hset. now apply String.eqb_neq in H as ->. Qed.
Section Frame.
Variable key : string.
Hypothesis Hkey : String.prefix "cte_" key = false.
Lemma other k : String.prefix "cte_" k = true -> k <> key.
Proof. intros H ->. congruence. Qed.
Ltac frame := first [apply keeps_refl | apply attribute_keeps, other; reflexivity | apply (andthen_keeps (keeps key)); [exact (keeps_trans key)| |intros ?]].
Lemma element_keeps name e h : keeps key h (fst (add_element repr name e h)).
Proof. destruct e as [o|[|i [|t [|u l]]]]; cbn [add_element]; try apply keeps_refl. unfold add_one_trap. repeat frame. Qed.
Lemma traps_keep name l h : keeps key h (fst (add_traps repr name l h)).
Proof.
  unfold add_traps. enough (G : forall o, keeps key (fst o) (fst (fold_left (fun o e => andthen o (add_element repr name e)) l o))) by apply (G (h, None)).
  induction l as [|e l IH]; intros o; cbn [fold_left]; [apply keeps_refl|]. eapply keeps_trans; [|apply IH].
  apply (andthen_keeps (keeps key)); [exact (keeps_trans key)|apply keeps_refl|]. intros h'. apply element_keeps.
Qed.
Lemma ccd_keeps k1 k2 name c h : String.prefix "cte_" k1 = true -> String.prefix "cte_" k2 = true -> keeps key h (fst (add_ccd k1 k2 name c h)).
Proof. intros H1 H2. unfold add_ccd. apply (andthen_keeps (keeps key)); [exact (keeps_trans key)| |intros h']; now apply attribute_keeps, other. Qed.
Lemma given_keeps {A} (a : option A) k h : (forall a h, keeps key h (fst (k a h))) -> keeps key h (fst (if_given a k h)).
Proof. intros H. destruct a; [apply H|apply keeps_refl]. Qed.
Lemma update_keeps h pc sc pt st pccd sccd : keeps key h (fst (update_header repr h pc sc pt st pccd sccd)).
Proof.
  unfold update_header. apply (andthen_keeps (keeps key)); [exact (keeps_trans key)|apply given_keeps; intros; frame|]. intros h1. destruct sc; [|apply keeps_refl].
  apply (andthen_keeps (keeps key)); [exact (keeps_trans key)|frame|]. intros h2.
  apply (andthen_keeps (keeps key)); [exact (keeps_trans key)|apply given_keeps; intros; apply traps_keep|]. intros h3.
  apply (andthen_keeps (keeps key)); [exact (keeps_trans key)|apply given_keeps; intros; apply traps_keep|]. intros h4.
  apply (andthen_keeps (keeps key)); [exact (keeps_trans key)|apply given_keeps; intros; now apply ccd_keeps|]. intros h5.
  apply given_keeps; intros; now apply ccd_keeps.
Qed.
End Frame.

(** ** What is set *)
Record traps_added (l : list (nat * object V)) (h h' : header V) : Prop := {
  ta_density : forall i, value_of h' (dkey i) = or_else (numbered_attribute l i "trap_density") (value_of h (dkey i));
  ta_lifetime : forall i, value_of h' (tkey i) = or_else (numbered_attribute l i "trap_lifetime") (value_of h (tkey i));
  ta_other : forall key, (forall i, key <> dkey i) -> (forall i, key <> tkey i) -> value_of h' key = value_of h key
}.
Lemma fold_error name l h e : fold_left (fun o x => andthen o (add_element repr name x)) l (h, Some e) = (h, Some e).
Proof. induction l as [|x l IH]; [reflexivity|exact IH]. Qed.
Lemma add_traps_described name l h : described l -> exists h', add_traps repr name (numbered l) h = (h', None) /\ traps_added l h h'.
Proof.
  induction l as [|[i o] l IH] using rev_ind; intros D.
  - exists h. split; [reflexivity|]. constructor; reflexivity.
  - apply Forall_app in D as [D Do]. destruct (IH D) as (h1 & E & [H1 H2 H3]). apply Forall_inv in Do. inversion Do as [|a0 l0 Hd Dt]; subst. apply Forall_inv in Dt. rename Dt into Ht. cbn [snd] in Hd, Ht.
    destruct (o "trap_density") as [d|] eqn:Ed; [|contradiction]. destruct (o "trap_lifetime") as [t|] eqn:Et; [|contradiction].
    eexists. unfold add_traps, numbered in *. rewrite map_app, fold_left_app, E. cbn [map fold_left andthen add_element]. unfold add_one_trap, set_attribute. cbn [as_object]. rewrite Ed. cbn [andthen]. rewrite Et.
    split; [reflexivity|]. change ("cte_pt" ++ str repr (INumber i) ++ "d")%string with (dkey i). change ("cte_pt" ++ str repr (INumber i) ++ "t")%string with (tkey i).
    assert (N : forall j a, numbered_attribute (l ++ [(i, o)])%list j a = if Nat.eqb i j then o a else numbered_attribute l j a).
    { intros j a. unfold numbered_attribute. rewrite rev_unit. cbn. destruct (Nat.eqb i j); reflexivity. }
    constructor.
    + intros j. rewrite N, !value_hset. destruct (String.eqb (tkey i) (dkey j)) eqn:E1; [apply String.eqb_eq in E1; exfalso; now apply (dkey_tkey j i)|].
      destruct (Nat.eqb i j) eqn:Ej; [apply Nat.eqb_eq in Ej as ->; rewrite String.eqb_refl, Ed; reflexivity|].
      destruct (String.eqb (dkey i) (dkey j)) eqn:E2; [apply String.eqb_eq, dkey_inj in E2 as ->; now rewrite Nat.eqb_refl in Ej|apply H1].
    + intros j. rewrite N, !value_hset. destruct (Nat.eqb i j) eqn:Ej; [apply Nat.eqb_eq in Ej as ->; rewrite String.eqb_refl, Et; reflexivity|].
      destruct (String.eqb (tkey i) (tkey j)) eqn:E1; [apply String.eqb_eq, tkey_inj in E1 as ->; now rewrite Nat.eqb_refl in Ej|].
      destruct (String.eqb (dkey i) (tkey j)) eqn:E2; [apply String.eqb_eq in E2; exfalso; now apply (dkey_tkey i j)|apply H2].
    + intros key K1 K2. rewrite !value_hset. destruct (String.eqb (tkey i) key) eqn:E1; [apply String.eqb_eq in E1; exfalso; now apply (K2 i)|].
      destruct (String.eqb (dkey i) key) eqn:E2; [apply String.eqb_eq in E2; exfalso; now apply (K1 i)|]. now apply H3.
Qed.
End Header.

Section Calls.
Context {V : Type}.
Variable repr : object V -> string.
Implicit Types h : header V.
Lemma set_ok h k (o : object V) a c v : o a = Some v -> set_attribute h k o a c = (hset h k v c, None).
Proof. intros H. unfold set_attribute. now rewrite H. Qed.
Lemma trap_key_fixed key : String.prefix "cte_pt" key = false -> (forall i, key <> dkey repr i) /\ (forall i, key <> tkey repr i).
Proof. intros H. split; intros i ->; revert H; unfold dkey, tkey; generalize (@str V repr (INumber i)); intros [|c s]; discriminate. Qed.
Lemma update_described h pc sc lp ls pccd sccd ip is np bp ns bs :
  pc "iterations" = Some ip -> sc "iterations" = Some is -> described lp -> described ls ->
  pccd "well_notch_depth" = Some np -> pccd "well_fill_beta" = Some bp -> sccd "well_notch_depth" = Some ns -> sccd "well_fill_beta" = Some bs ->
  exists h', update_header repr h (Some pc) (Some sc) (Some (numbered lp)) (Some (numbered ls)) (Some pccd) (Some sccd) = (h', None) /\
    value_of h' "cte_pite" = Some ip /\ value_of h' "cte_site" = Some is /\
    value_of h' "cte_pwln" = Some np /\ value_of h' "cte_pwlp" = Some bp /\ value_of h' "cte_swln" = Some ns /\ value_of h' "cte_swlp" = Some bs /\
    forall i, value_of h' (dkey repr i) = or_else (numbered_attribute ls i "trap_density") (or_else (numbered_attribute lp i "trap_density") (value_of h (dkey repr i))) /\
              value_of h' (tkey repr i) = or_else (numbered_attribute ls i "trap_lifetime") (or_else (numbered_attribute lp i "trap_lifetime") (value_of h (tkey repr i))).
Proof.
  intros E1 E2 Dp Ds E3 E4 E5 E6. unfold update_header, if_given. rewrite (set_ok _ _ pc _ _ ip E1). cbn [andthen]. rewrite (set_ok _ _ sc _ _ is E2). cbn [andthen].
  set (h2 := hset (hset h _ _ _) _ _ _). destruct (add_traps_described repr "Parallel" lp h2 Dp) as (h3 & F3 & [A1 A2 A3]). rewrite F3. cbn [andthen].
  destruct (add_traps_described repr "Serial" ls h3 Ds) as (h4 & F4 & [B1 B2 B3]). rewrite F4. cbn [andthen].
  unfold add_ccd. rewrite (set_ok _ _ sccd _ _ ns E5). cbn [andthen]. rewrite (set_ok _ _ sccd _ _ bs E6). cbn [andthen]. rewrite (set_ok _ _ pccd _ _ np E3). cbn [andthen]. rewrite (set_ok _ _ pccd _ _ bp E4).
  eexists. split; [reflexivity|].
  assert (K : forall key, String.prefix "cte_pt" key = false -> value_of h4 key = value_of h2 key).
  { intros key H. destruct (trap_key_fixed key H) as [K1 K2]. rewrite (B3 key K1 K2). exact (A3 key K1 K2). }
  repeat split; rewrite ?value_hset; cbn [String.eqb Ascii.eqb Bool.eqb andb]; try reflexivity.
  - rewrite (K "cte_pite" eq_refl). subst h2. rewrite !value_hset. reflexivity.
  - rewrite (K "cte_site" eq_refl). subst h2. rewrite !value_hset. reflexivity.
  - rewrite B1, A1. subst h2. rewrite !value_hset. reflexivity.
  - rewrite B2, A2. subst h2. rewrite !value_hset. reflexivity.
Qed.

(** ** The package's own objects *)
Lemma package_traps name l h : Forall package_element l ->
  add_traps repr name l h = (h, match l with [] => None | EObject _ :: _ => Some TypeError | ESequence s :: _ => if Nat.eqb (List.length s) 2 then Some AttributeError else Some ValueError end).
Proof.
  intros H. destruct l as [|e l]; [reflexivity|]. apply Forall_inv in H. unfold add_traps. cbn [fold_left andthen].
  replace (add_element repr name e h) with (h, match e with EObject _ => Some TypeError | ESequence s => if Nat.eqb (List.length s) 2 then Some AttributeError else Some ValueError end).
  - destruct e as [o|s]; [apply fold_error|]. destruct (Nat.eqb (List.length s) 2); apply fold_error.
  - destruct e as [o|[|i [|t [|u s]]]]; try reflexivity. cbn. inversion H as [|? ? _ Ht]; subst. apply Forall_inv in Ht. destruct t as [n|o]; [destruct Ht|]. destruct Ht as [Ht _].
    unfold add_one_trap, set_attribute. cbn [as_object]. now rewrite Ht.
Qed.
Lemma agree h header (pc sc : option (object V)) pt st pccd sccd :
  (forall c, pc = Some c -> c "iterations" <> None) -> (forall c, sc = Some c -> c "iterations" <> None) ->
  (forall l, pt = Some l -> Forall package_element l) -> (forall l, st = Some l -> Forall package_element l) ->
  (forall c, pccd = Some c -> exists notch, is_ccd c notch) -> (forall c, sccd = Some c -> exists notch, is_ccd c notch) ->
  agrees (update_header repr h pc sc pt st pccd sccd)
    (update_fits_header_info header (given pc) (given sc) (option_map (map shape_of) pt) (option_map (map shape_of) st) (given pccd) (given sccd)).
Proof.
  intros H1 H2 H3 H4 H5 H6. unfold update_header, update_fits_header_info, agrees.
  assert (G1 : exists h1, if_given pc (fun (c : object V) h => set_attribute h "cte_pite" c "iterations" "Iterations Used In Correction (Parallel)") h = (h1, None)).
  { destruct pc as [c|]; cbn; [|eauto]. unfold set_attribute. specialize (H1 c eq_refl). destruct (c "iterations"); [eauto|contradiction]. }
  destruct G1 as [h1 ->]. cbn [andthen]. destruct sc as [c|]; [|reflexivity]. cbn [given]. unfold set_attribute at 1. specialize (H2 c eq_refl). destruct (c "iterations") as [v|]; [|contradiction]. cbn [andthen].
  assert (G : forall traps name k h0, (forall l, traps = Some l -> Forall package_element l) ->
    if_given traps (add_traps repr name) h0 = (h0, match opt_do (option_map (map shape_of) traps) add_trap k with Ok _ => None | Err e => Some e end) /\
    (forall k', opt_do (option_map (map shape_of) traps) add_trap k = Ok k' -> k' = k)).
  { intros [l|] name k h0 H; cbn; [|split; [reflexivity|congruence]]. rewrite package_traps by now apply H. destruct l as [|[o|s] l]; cbn; [split; [reflexivity|congruence]|split; [reflexivity|discriminate]|].
    destruct (Nat.eqb (List.length s) 2); split; try reflexivity; discriminate. }
  set (k := (_ ++ [1])%list). destruct (G pt "Parallel" k (hset h1 "cte_site" v "Iterations Used In Correction (Serial)") H3) as [-> Gp]. destruct (opt_do (option_map (map shape_of) pt) add_trap k) as [k1|e] eqn:Ep; cbn [andthen bind]; [|reflexivity].
  specialize (Gp k1 eq_refl). subst k1. destruct (G st "Serial" k (hset h1 "cte_site" v "Iterations Used In Correction (Serial)") H4) as [-> Gs]. destruct (opt_do (option_map (map shape_of) st) add_trap k) as [k1|e] eqn:Es; cbn [andthen bind]; [|reflexivity].
  assert (Gc : forall (o : object V) notch k1 k2 name h0, is_ccd o notch -> add_ccd k1 k2 name o h0 = (hset h0 k1 notch ("CCD Well notch depth (" ++ name ++ ")"), Some AttributeError)).
  { intros o notch x1 x2 name h0 [N B]. unfold add_ccd. rewrite (set_ok _ _ o _ _ notch N). cbn [andthen]. unfold set_attribute. now rewrite B. }
  destruct sccd as [o|]; cbn [if_given given].
  - destruct (H6 o eq_refl) as [notch H]. rewrite (Gc _ notch) by exact H. reflexivity.
  - cbn [andthen]. destruct pccd as [o|]; cbn [if_given given]; [|reflexivity]. destruct (H5 o eq_refl) as [notch H]. rewrite (Gc _ notch) by exact H. reflexivity.
Qed.
(** The header after a call with one of the package's CCDs and no traps. *)
Lemma failed_call h sc ccd notch is : sc "iterations" = Some is -> is_ccd ccd notch ->
  exists h', update_header repr h None (Some sc) None None None (Some ccd) = (h', Some AttributeError) /\ value_of h' "cte_site" = Some is /\ value_of h' "cte_swln" = Some notch.
Proof.
  intros E [N B]. unfold update_header. cbn [if_given andthen]. rewrite (set_ok _ _ sc _ _ is E). cbn [andthen]. unfold add_ccd. rewrite (set_ok _ _ ccd _ _ notch N). cbn [andthen].
  unfold set_attribute. rewrite B. eexists. split; [reflexivity|]. rewrite !value_hset. split; reflexivity.
Qed.
Lemma no_serial_clocker h pc pt st pccd sccd ip : pc "iterations" = Some ip ->
  update_header repr h (Some pc) None pt st pccd sccd = (hset h "cte_pite" ip "Iterations Used In Correction (Parallel)", None).
Proof. intros E. unfold update_header. cbn [if_given]. rewrite (set_ok _ _ pc _ _ ip E). reflexivity. Qed.
End Calls.
