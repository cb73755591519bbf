(** * Facts about the clock sequence (roe.py:142-334). *)
From Coq Require Import ZArith List Bool Reals Lra Lia.
From Verif Require Import Num Py RFacts ROEModel Spec SpecROE.
Import ListNotations.
Open Scope Z_scope.

Lemma step_prime_moved N step : (0 < N)%nat -> (step < 2 * N)%nat ->
  step_prime (Z.of_nat N) (Z.of_nat step) = moved N step.
Proof.
  intros HN Hs. unfold step_prime, moved.
  destruct (Nat.leb_spec step N) as [Hle|Hgt].
  - destruct (Nat.eq_dec step N) as [->|Hne].
    + replace (Z.of_nat N + Z.of_nat N) with (Z.of_nat N * 2) by lia.
      rewrite Z.mod_same by lia. lia.
    + rewrite Z.mod_small by lia. lia.
  - replace (Z.of_nat step + Z.of_nat N) with ((Z.of_nat step - Z.of_nat N) + 1 * (Z.of_nat N * 2)) by lia.
    rewrite Z.mod_add by lia. rewrite Z.mod_small by lia. lia.
Qed.

Lemma moved_range N step : (0 < N)%nat -> (step < 2 * N)%nat -> 0 <= moved N step <= Z.of_nat N.
Proof. intros. unfold moved. destruct (Nat.leb_spec step N); lia. Qed.

(** Nearest integer multiples. *)
Definition closest (n x d : Z) : Prop := forall d', Z.abs (x - d * n) <= Z.abs (x - d' * n).
Lemma closest_iff n x d : 0 < n -> closest n x d <-> 2 * Z.abs (x - d * n) <= n.
Proof.
  intros Hn. split.
  - intros H. pose proof (H (d + 1)). pose proof (H (d - 1)). nia.
  - intros H d'. destruct (Z.eq_dec d d') as [->|Hne]; [lia|].
    assert (n <= Z.abs (d * n - d' * n)). { replace (d * n - d' * n) with ((d - d') * n) by ring. nia. }
    lia.
Qed.
Lemma nearest_iff N step phase d : nearest N step phase d <-> closest (Z.of_nat N) (moved N step - Z.of_nat phase) d.
Proof.
  unfold nearest, closest, position, cloud_position. split.
  - intros H d'. specialize (H 0 d'). lia.
  - intros H p d'. specialize (H d'). lia.
Qed.
Lemma holds_cloud_iff N step phase d : holds_cloud N step phase d <-> moved N step - Z.of_nat phase = d * Z.of_nat N.
Proof. unfold holds_cloud, position, cloud_position. split; [intros H; specialize (H 0); lia|intros H p; lia]. Qed.

(** The targets of one phase before the shift. *)
Definition base_capture (n sp k : Z) := (sp - k + (n - 1) / 2) / n.
Lemma base_capture_closest n sp k : 0 < n -> closest n (sp - k) (base_capture n sp k).
Proof.
  intros Hn. apply closest_iff; [lia|]. unfold base_capture.
  pose proof (Z.div_mod (sp - k + (n - 1) / 2) n ltac:(lia)).
  pose proof (Z.mod_pos_bound (sp - k + (n - 1) / 2) n ltac:(lia)).
  pose proof (Z.div_mod (n - 1) 2 ltac:(lia)).
  pose proof (Z.mod_pos_bound (n - 1) 2 ltac:(lia)).
  set (q := (sp - k + (n - 1) / 2) / n) in *. nia.
Qed.

(** For an even number of phases, the split phase is the one midway between two clouds. *)
Lemma split_iff n sp k : 0 < n -> 0 <= k < n -> n mod 2 = 0 ->
  (k = (sp mod n + n / 2) mod n <-> sp - k - base_capture n sp k * n = n / 2).
Proof.
  intros Hn Hk Hev.
  pose proof (Z.div_mod n 2 ltac:(lia)) as E2.
  set (h := n / 2) in *. assert (En : n = 2 * h) by lia.
  assert (Em : (n - 1) / 2 = h - 1).
  { rewrite En. replace (2 * h - 1) with (1 + (h - 1) * 2) by lia. rewrite Z.div_add by lia. reflexivity. }
  unfold base_capture. rewrite Em.
  pose proof (Z.div_mod sp n ltac:(lia)) as Es. pose proof (Z.mod_pos_bound sp n ltac:(lia)).
  pose proof (Z.div_mod (sp - k + (h - 1)) n ltac:(lia)) as Eq.
  pose proof (Z.mod_pos_bound (sp - k + (h - 1)) n ltac:(lia)).
  pose proof (Z.div_mod (sp mod n + h) n ltac:(lia)) as Er.
  pose proof (Z.mod_pos_bound (sp mod n + h) n ltac:(lia)).
  set (q := (sp - k + (h - 1)) / n) in *. set (r := (sp - k + (h - 1)) mod n) in *.
  set (a := sp mod n) in *. set (b := sp / n) in *.
  set (c := (a + h) / n) in *. set (d := (a + h) mod n) in *.
  clearbody q r a b c d h. clear Hev.
  split.
  - intros ->. assert (Hr : r = n - 1).
    { assert (r + 1 = (b + c - q - 1 + 1) * n) by nia.
      assert (0 < b + c - q - 1 + 1) by nia. assert (b + c - q - 1 + 1 <= 1) by nia. nia. }
    nia.
  - intros H2. assert (Hr : sp = k + q * n + h) by lia.
    assert (Hkd : k - d = (b + c - q - 1) * n) by nia. set (w := b + c - q - 1) in *. clearbody w.
    assert (w < 1) by nia. assert (-1 < w) by nia. assert (w = 0) by lia. nia.
Qed.

Lemma closest_list n x d : 0 < n -> closest n x d -> 2 * (x - d * n) <> n -> 2 * (x - d * n) <> - n ->
  forall d', closest n x d' <-> d' = d.
Proof.
  intros Hn Hd H1 H2 d'. split; [|intros ->; auto].
  intros Hd'. apply closest_iff in Hd; [|lia]. apply closest_iff in Hd'; [|lia].
  destruct (Z.eq_dec d' d) as [|Hne]; [auto|exfalso].
  assert (n <= Z.abs ((d - d') * n)) by nia.
  assert (Z.abs (x - d * n) * 2 < n) by lia. lia.
Qed.
Lemma closest_two n x d : 0 < n -> 2 * (x - d * n) = n ->
  forall d', closest n x d' <-> d' = d \/ d' = d + 1.
Proof.
  intros Hn Hd d'. rewrite closest_iff by lia. split.
  - intros H.
    assert (2 * Z.abs (d - d') * n <= 2 * n) by nia. assert (Z.abs (d - d') <= 1) by nia.
    assert (d' = d - 1 \/ d' = d \/ d' = d + 1) as [E|[E|E]] by lia; auto. subst d'. nia.
  - intros [->| ->]; nia.
Qed.

(** What [clock_phase] returns, in terms of geometry. *)
Section Phase.
Context (force : bool) (N step phase : nat).
Hypothesis HN : (0 < N)%nat.
Hypothesis Hs : (step < 2 * N)%nat.
Hypothesis Hp : (phase < N)%nat.
Let rp : roe_phase R := clock_phase force (Z.of_nat N) (Z.of_nat step) (Z.of_nat phase).
Let n := Z.of_nat N.
Let sp := moved N step.
Let k := Z.of_nat phase.

Definition is_split : bool :=
  match (if n mod 2 =? 0 then Some ((sp mod n + n / 2) mod n) else None) with
  | Some s => k =? s | None => false end.
Definition the_shift : Z := if (force && (sp mod n <? k))%bool then 1 else 0.

Lemma rp_eq : rp = mkRP (k =? sp mod n)
    (base_capture n sp k + the_shift)
    (map (Z.add the_shift) (if is_split then [base_capture n sp k; base_capture n sp k + 1] else [base_capture n sp k]))
    (if is_split then [1/2; 1/2]%R else [1%R]).
Proof.
  unfold rp, clock_phase. rewrite step_prime_moved by assumption. fold sp n k.
  unfold is_split, the_shift, base_capture.
  destruct (force && (sp mod n <? k))%bool; f_equal.
  - rewrite Z.add_0_r. reflexivity.
  - destruct (match _ with Some s => k =? s | None => false end); reflexivity.
Qed.

Lemma split_spec : if is_split then 2 * (sp - k - base_capture n sp k * n) = n
  else 2 * (sp - k - base_capture n sp k * n) <> n /\ 2 * (sp - k - base_capture n sp k * n) <> - n.
Proof.
  unfold is_split.
  assert (Hn : 0 < n) by lia.
  assert (Hlow : 2 * (sp - k - base_capture n sp k * n) <> - n).
  { unfold base_capture.
    pose proof (Z.div_mod (sp - k + (n - 1) / 2) n ltac:(lia)).
    pose proof (Z.mod_pos_bound (sp - k + (n - 1) / 2) n ltac:(lia)).
    pose proof (Z.div_mod (n - 1) 2 ltac:(lia)).
    pose proof (Z.mod_pos_bound (n - 1) 2 ltac:(lia)).
    set (q := (sp - k + (n - 1) / 2) / n) in *. nia. }
  destruct (Z.eqb_spec (n mod 2) 0) as [Hev|Hodd].
  - pose proof (split_iff n sp k Hn ltac:(lia) Hev) as Hi.
    pose proof (Z.div_mod n 2 ltac:(lia)) as E2.
    destruct (Z.eqb_spec k ((sp mod n + n / 2) mod n)) as [E|E].
    + apply Hi in E. lia.
    + split; [|exact Hlow]. intros H. apply E, Hi. lia.
  - split; [|exact Hlow]. intros H. apply Hodd. rewrite <- H. rewrite Z.mul_comm. apply Z.mod_mul. lia.
Qed.

Lemma release_nearest d : In d (rp_release rp) <-> nearest N step phase (d - the_shift).
Proof.
  rewrite nearest_iff. fold n sp k. rewrite rp_eq. cbn [rp_release].
  pose proof split_spec as Hsp. assert (Hn : 0 < n) by lia.
  pose proof (base_capture_closest n sp k Hn) as Hc.
  destruct is_split; cbn [map In].
  - rewrite (closest_two n (sp - k) (base_capture n sp k) Hn Hsp). lia.
  - rewrite (closest_list n (sp - k) (base_capture n sp k) Hn Hc (proj1 Hsp) (proj2 Hsp)). lia.
Qed.

Lemma release_nodup : NoDup (rp_release rp).
Proof.
  rewrite rp_eq. cbn [rp_release]. destruct is_split; cbn [map]; repeat constructor; cbn; lia.
Qed.
Lemma fraction_eq : rp_fraction rp = repeat (1 / INR (length (rp_release rp)))%R (length (rp_release rp)).
Proof.
  rewrite rp_eq. cbn [rp_release rp_fraction]. destruct is_split; cbn [map length repeat INR].
  - replace (1 + 1)%R with 2%R by lra. reflexivity.
  - replace (1 / 1)%R with 1%R by lra. reflexivity.
Qed.

Lemma high_iff : rp_high rp = true <-> exists d, holds_cloud N step phase d.
Proof.
  rewrite rp_eq. cbn [rp_high]. rewrite Z.eqb_eq. assert (Hn : 0 < n) by lia. split.
  - intros E. exists (sp / n). apply holds_cloud_iff. fold n sp k.
    pose proof (Z.div_mod sp n ltac:(lia)). lia.
  - intros [d Hd]. apply holds_cloud_iff in Hd. fold n sp k in Hd.
    replace sp with (k + d * n) by lia. rewrite Z.mod_add by lia. rewrite Z.mod_small; lia.
Qed.

Lemma high_targets d : holds_cloud N step phase d ->
  rp_high rp = true /\ rp_capture rp = d /\ rp_release rp = [d] /\ rp_fraction rp = [1%R].
Proof.
  intros Hd. assert (Hn : 0 < n) by lia.
  assert (Hh : rp_high rp = true) by (apply high_iff; eauto).
  split; [exact Hh|]. rewrite rp_eq in *. cbn [rp_high rp_capture rp_release rp_fraction] in *.
  apply Z.eqb_eq in Hh. apply holds_cloud_iff in Hd. fold n sp k in Hd.
  assert (Hsh : the_shift = 0).
  { unfold the_shift. rewrite <- Hh. rewrite Z.ltb_irrefl, andb_false_r. reflexivity. }
  assert (Hb : base_capture n sp k = d).
  { unfold base_capture. rewrite Hd.
    pose proof (Z.div_mod (n - 1) 2 ltac:(lia)). pose proof (Z.mod_pos_bound (n - 1) 2 ltac:(lia)).
    rewrite Z.add_comm, Z.div_add by lia. rewrite Z.div_small; lia. }
  pose proof split_spec as Hs2. rewrite Hsh, Hb in *. destruct is_split.
  - exfalso. rewrite Hd in Hs2. lia.
  - cbn [map]. rewrite Z.add_0_r, Z.add_0_l. auto.
Qed.

Lemma shift_iff : the_shift = 1 <-> force = true /\ ahead_of_cloud N step phase.
Proof.
  unfold the_shift, ahead_of_cloud. fold sp n k. destruct force; cbn [andb].
  - destruct (Z.ltb_spec (sp mod n) k); split; try tauto; try lia.
  - split; [lia|intros [? _]; discriminate].
Qed.

(** All pixels touched in normal readout. *)
Lemma capture_in_release : In (rp_capture rp) (rp_release rp).
Proof.
  rewrite rp_eq. cbn [rp_capture rp_release]. rewrite Z.add_comm.
  destruct is_split; cbn [map In]; auto.
Qed.
Lemma pixels_standard : (step < N)%nat -> forall d, In d (rp_release rp) ->
  (if force then 0 else -1) <= d <= 1.
Proof.
  intros Hst d Hd. apply release_nearest, nearest_iff in Hd. assert (Hn : 0 < n) by lia.
  apply closest_iff in Hd; [|exact Hn]. fold n sp k in Hd.
  assert (Esp : sp = Z.of_nat step). { unfold sp, moved. destruct (Nat.leb_spec step N); lia. }
  unfold the_shift in Hd. rewrite Esp in *. rewrite Z.mod_small in Hd by lia.
  destruct force; cbn [andb] in Hd.
  - destruct (Z.ltb_spec (Z.of_nat step) k); nia.
  - nia.
Qed.
End Phase.

(** ** The whole sequence *)
Lemma nth_error_map_seq {A} (f : nat -> A) n i : (i < n)%nat -> nth_error (map f (seq 0 n)) i = Some (f i).
Proof.
  intros Hi. rewrite nth_error_map. rewrite (nth_error_nth' (seq 0 n) 0%nat) by (rewrite seq_length; lia).
  cbn [option_map]. rewrite seq_nth by lia. reflexivity.
Qed.
Lemma generate_nth force n_steps N step rps : nth_error (@generate_clock_sequence R _ force n_steps N) step = Some rps ->
  (step < n_steps)%nat /\ length rps = N /\
  forall phase rp, nth_error rps phase = Some rp -> (phase < N)%nat /\
    rp = clock_phase force (Z.of_nat N) (Z.of_nat step) (Z.of_nat phase).
Proof.
  unfold generate_clock_sequence. intros H.
  assert (Hl : (step < n_steps)%nat).
  { assert (Hne : nth_error (map (fun step => map (fun phase => @clock_phase R _ force (Z.of_nat N) (Z.of_nat step) (Z.of_nat phase))
          (seq 0 N)) (seq 0 n_steps)) step <> None) by congruence.
    apply nth_error_Some in Hne. rewrite map_length, seq_length in Hne. exact Hne. }
  rewrite nth_error_map_seq in H by exact Hl. injection H as <-.
  split; [exact Hl|]. split; [rewrite map_length, seq_length; reflexivity|].
  intros phase rp Hp.
  assert (Hlp : (phase < N)%nat).
  { assert (Hne : nth_error (map (fun phase => @clock_phase R _ force (Z.of_nat N) (Z.of_nat step) (Z.of_nat phase))
          (seq 0 N)) phase <> None) by congruence.
    apply nth_error_Some in Hne. rewrite map_length, seq_length in Hne. exact Hne. }
  rewrite nth_error_map_seq in Hp by exact Hlp. injection Hp as <-. auto.
Qed.

Theorem clock_sequence_spec force n_steps N step rps phase rp :
  (n_steps <= 2 * N)%nat ->
  nth_error (@generate_clock_sequence R _ force n_steps N) step = Some rps ->
  nth_error rps phase = Some rp ->
  exists shift, (shift = 0 \/ shift = 1) /\
    (shift = 1 <-> force = true /\ ahead_of_cloud N step phase) /\
    (forall d, In d (rp_release rp) <-> nearest N step phase (d - shift)) /\
    NoDup (rp_release rp) /\
    rp_fraction rp = repeat (1 / INR (length (rp_release rp)))%R (length (rp_release rp)) /\
    (rp_high rp = true <-> exists d, holds_cloud N step phase d) /\
    (forall d, holds_cloud N step phase d -> rp_capture rp = d /\ rp_release rp = [d]).
Proof.
  intros Hst H1 H2. destruct (generate_nth _ _ _ _ _ H1) as (Hs & Hl & Hr). destruct (Hr _ _ H2) as (Hp & ->).
  assert (HN : (0 < N)%nat) by lia. assert (Hs' : (step < 2 * N)%nat) by lia.
  exists (the_shift force N step phase). split; [unfold the_shift; destruct (_ && _)%bool; auto|].
  split; [apply shift_iff; assumption|]. split; [apply release_nearest; assumption|].
  split; [apply release_nodup; assumption|]. split; [apply fraction_eq; assumption|].
  split; [apply high_iff; assumption|]. intros d Hd. apply (high_targets force) in Hd; [|assumption..]. tauto.
Qed.

(** Standard readout: as many steps as phases. *)
Theorem standard_sequence_spec force N step rps : 
  nth_error (@generate_clock_sequence R _ force N N) step = Some rps ->
  length rps = N /\
  forall phase rp, nth_error rps phase = Some rp ->
    (rp_high rp = true <-> phase = step) /\
    (phase = step -> rp_capture rp = 0 /\ rp_release rp = [0] /\ rp_fraction rp = [1%R]) /\
    (forall d, In d (rp_capture rp :: rp_release rp) -> (if force then 0 else -1) <= d <= 1) /\
    Rsum (rp_fraction rp) = 1%R /\ length (rp_release rp) = length (rp_fraction rp).
Proof.
  intros H1. destruct (generate_nth _ _ _ _ _ H1) as (Hs & Hl & Hr). split; [exact Hl|].
  intros phase rp H2. destruct (Hr _ _ H2) as (Hp & ->).
  assert (HN : (0 < N)%nat) by lia. assert (Hs' : (step < 2 * N)%nat) by lia.
  assert (Em : moved N step = Z.of_nat step). { unfold moved. destruct (Nat.leb_spec step N); lia. }
  assert (Hh : phase = step <-> holds_cloud N step phase 0).
  { rewrite holds_cloud_iff, Em. lia. }
  split; [|split; [|split; [|split]]].
  - rewrite high_iff by assumption. split.
    + intros [d Hd]. apply holds_cloud_iff in Hd. rewrite Em in Hd. assert (d = 0) by nia. subst d. lia.
    + intros E. exists 0. apply Hh, E.
  - intros E. apply Hh in E. apply (high_targets force) in E; [|assumption..]. tauto.
  - intros d Hd. apply (pixels_standard force N step phase HN Hs' Hp Hs).
    destruct Hd as [<-|Hd]; [apply capture_in_release; assumption|exact Hd].
  - rewrite rp_eq by assumption. cbn [rp_fraction]. destruct (is_split _ _ _); unfold Rsum; cbn; lra.
  - rewrite rp_eq by assumption. cbn [rp_fraction rp_release]. rewrite map_length. destruct (is_split _ _ _); reflexivity.
Qed.

(** The pixels accessed, and the rows of padding. *)
Lemma list_max_ge l d : d <= list_max_Z d l /\ forall x, In x l -> x <= list_max_Z d l.
Proof.
  revert d. induction l as [|a l IH]; intros d; cbn [list_max_Z In]; [split; [lia|tauto]|].
  destruct (IH (Z.max d a)) as [H1 H2]. split; [lia|]. intros x [->|Hx]; [lia|auto].
Qed.
Lemma list_max_in l d : list_max_Z d l = d \/ In (list_max_Z d l) l.
Proof.
  revert d. induction l as [|a l IH]; intros d; cbn [list_max_Z In]; [auto|].
  destruct (IH (Z.max d a)) as [H|H]; [|auto]. rewrite H. lia.
Qed.
Lemma list_min_le l d : list_min_Z d l <= d /\ forall x, In x l -> list_min_Z d l <= x.
Proof.
  revert d. induction l as [|a l IH]; intros d; cbn [list_min_Z In]; [split; [lia|tauto]|].
  destruct (IH (Z.min d a)) as [H1 H2]. split; [lia|]. intros x [->|Hx]; [lia|auto].
Qed.
Lemma list_min_in l d : list_min_Z d l = d \/ In (list_min_Z d l) l.
Proof.
  revert d. induction l as [|a l IH]; intros d; cbn [list_min_Z In]; [auto|].
  destruct (IH (Z.min d a)) as [H|H]; [|auto]. rewrite H. lia.
Qed.

Lemma in_pixels (cs : list (list (roe_phase R))) step rps phase rp d :
  nth_error cs step = Some rps -> nth_error rps phase = Some rp -> In d (rp_capture rp :: rp_release rp) ->
  In d (generate_pixels_accessed cs).
Proof.
  intros H1 H2 Hd. unfold generate_pixels_accessed. right.
  apply in_flat_map. exists rps. split; [eapply nth_error_In; eauto|].
  apply in_flat_map. exists rp. split; [eapply nth_error_In; eauto|exact Hd].
Qed.
Lemma pixels_in (cs : list (list (roe_phase R))) d : In d (generate_pixels_accessed cs) ->
  d = 0 \/ exists step rps phase rp, nth_error cs step = Some rps /\ nth_error rps phase = Some rp /\
    In d (rp_capture rp :: rp_release rp).
Proof.
  unfold generate_pixels_accessed. intros [H|H]; [auto|]. right.
  apply in_flat_map in H as (rps & Hr & H). apply in_flat_map in H as (rp & Hp & H).
  apply In_nth_error in Hr as [step Hs]. apply In_nth_error in Hp as [phase Hph]. eauto 8.
Qed.
