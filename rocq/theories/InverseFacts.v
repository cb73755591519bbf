(** * Readouts can be undone: every image with enough charge is the readout of one image. *)
From Coq Require Import ZArith List Bool Reals Lra Lia Sorted.
From Coquelicot Require Import Rcomplements.
From Verif Require Import Num Py RFacts CCDModel TrapsModel ManagerModel ROEModel ClockModel MainModel Spec SpecROE SpecImage SpecReadout SpecColumn SpecBound SpecRecovery SpecPhases SpecExpressOrder SpecInjectionOrder SpecWindowOrder SpecAbove
  ClockFacts MainFacts RemoveFacts TameFacts MainReadoutFacts RecoverImageFacts LiftFacts GridFacts SteadyFacts ContractFacts WindowGridFacts AboveGridFacts.
Import ListNotations.
Open Scope R_scope.

(** The image with the given pixels, row by row. *)
Definition unflat (rows cols : nat) (x : list R) : image R := map (fun i => map (fun j => nth (i * cols + j) x 0) (seq 0 cols)) (seq 0 rows).
Lemma unflat_shape rows cols x : shape rows cols (unflat rows cols x).
Proof. split; [unfold unflat; rewrite map_length, seq_length; reflexivity|]. apply Forall_map, Forall_forall. intros i _. rewrite map_length, seq_length. reflexivity. Qed.
Lemma unflat_pixel rows cols x i j : (i < rows)%nat -> (j < cols)%nat -> pixel (unflat rows cols x) i j = nth (i * cols + j) x 0.
Proof.
  intros Hi Hj. unfold pixel, unflat. rewrite (nth_indep _ n0 0) by (rewrite (nth_indep _ [] (map (fun j => nth (0 * cols + j) x 0) (seq 0 cols))) by (rewrite map_length, seq_length; exact Hi); rewrite (map_nth (fun i => map (fun j => nth (i * cols + j) x 0) (seq 0 cols)) (seq 0 rows) 0%nat i), map_length, seq_length; exact Hj).
  rewrite (nth_indep _ [] (map (fun j => nth (0 * cols + j) x 0) (seq 0 cols))) by (rewrite map_length, seq_length; exact Hi). rewrite (map_nth (fun i => map (fun j => nth (i * cols + j) x 0) (seq 0 cols)) (seq 0 rows) 0%nat i). rewrite seq_nth by exact Hi.
  rewrite (nth_indep _ 0 (nth ((0 + i) * cols + 0) x 0)) by (rewrite map_length, seq_length; exact Hj). rewrite (map_nth (fun j => nth ((0 + i) * cols + j) x 0) (seq 0 cols) 0%nat j), seq_nth by exact Hj. reflexivity.
Qed.
Lemma unflat_concat rows cols x : (0 < cols)%nat -> length x = (rows * cols)%nat -> concat (unflat rows cols x) = x.
Proof. intros Hc E. apply (flat_ext cols Hc rows); [apply unflat_shape|exact E|]. intros i j Hi Hj. now rewrite unflat_pixel. Qed.

Section Inverse.
Context (floor times : R) (parallel serial : direction R) (rows cols : nat).
Hypothesis Hfloor : 0 <= floor.
Hypothesis Htimes : 0 <= times.
Hypothesis Hr : (0 < rows)%nat.
Hypothesis Hc : (0 < cols)%nat.
Context (rp rs : roe R) (time : option (list Z)) (gain big : R) (F : list R -> list R).
Hypothesis Hgain : 0 < gain <= 1.
Hypothesis Hbig : 0 <= big.
Hypothesis HT : steady gain big F.
Hypothesis HF : forall im, shape rows cols im -> nonneg im -> charged_above floor times parallel serial rows cols im ->
  exists im', add_cti im parallel serial time = Ok (im', rp, rs) /\ shape rows cols im' /\ nonneg im' /\ concat im' = F (concat im) /\
    forall i j p s, (i < rows)%nat -> (j < cols)%nat -> call_limit parallel rows i p -> call_limit serial cols j s -> Rabs (pixel im' i j - pixel im i j) <= p + s.
Lemma near_charged im est : charged_above floor (times + 1) parallel serial rows cols im -> shape rows cols est ->
  (forall i j p s, (i < rows)%nat -> (j < cols)%nat -> call_limit parallel rows i p -> call_limit serial cols j s -> Rabs (pixel est i j - pixel im i j) <= p + s) ->
  nonneg est /\ charged_above floor times parallel serial rows cols est.
Proof.
  intros Hch Se Be.
  assert (C : charged_above floor times parallel serial rows cols est).
  { intros i j Hi Hj. destruct (Hch i j Hi Hj) as (p & s & Lp & Ls & B). exists p, s. split; [exact Lp|]. split; [exact Ls|]. specialize (Be i j p s Hi Hj Lp Ls). apply Rabs_le_between in Be. lra. }
  split; [|exact C]. apply (shape_nonneg rows cols Hr Hc); [exact Se|]. intros i j Hi Hj. destruct (C i j Hi Hj) as (p & s & Lp & Ls & B). apply call_limit_nonneg in Lp. apply call_limit_nonneg in Ls.
  assert (0 <= times * (p + s)) by (apply Rmult_le_pos; lra). lra.
Qed.
Lemma estimates im : shape rows cols im -> charged_above floor (times + 1) parallel serial rows cols im ->
  forall k, exists est, remove_cti im k parallel serial time = Ok est /\ shape rows cols est /\ nonneg est /\ concat est = corrected F (concat im) k /\
    forall i j p s, (i < rows)%nat -> (j < cols)%nat -> call_limit parallel rows i p -> call_limit serial cols j s -> Rabs (pixel est i j - pixel im i j) <= p + s.
Proof.
  intros Si Hch. assert (B0 : forall i j p s, (i < rows)%nat -> (j < cols)%nat -> call_limit parallel rows i p -> call_limit serial cols j s -> Rabs (pixel im i j - pixel im i j) <= p + s).
  { intros i j p s Hi Hj Lp Ls. rewrite Rminus_eq_0, Rabs_R0. apply call_limit_nonneg in Lp. apply call_limit_nonneg in Ls. lra. }
  induction k as [|k (est & Ee & Se & Ne & Ke & Be)].
  - exists im. split; [reflexivity|]. split; [exact Si|]. split; [apply (near_charged im im Hch Si B0)|]. split; [reflexivity|exact B0].
  - destruct (near_charged im est Hch Se Be) as [_ Ce]. destruct (HF est Se Ne Ce) as (added & Ea & Sa & _ & Fa & Ba).
    set (out := image_zip nadd est (image_zip nsub im added)).
    assert (So : shape rows cols out) by (unfold out; repeat (apply image_zip_shape; try assumption)).
    assert (Po : forall i j, (i < rows)%nat -> (j < cols)%nat -> pixel out i j = pixel est i j + (pixel im i j - pixel added i j)).
    { intros i j Hi Hj. unfold out. rewrite (image_zip_pixel _ _ _ rows cols) by (try apply image_zip_shape; assumption).
      rewrite (image_zip_pixel _ _ _ rows cols) by assumption. reflexivity. }
    assert (Bo : forall i j p s, (i < rows)%nat -> (j < cols)%nat -> call_limit parallel rows i p -> call_limit serial cols j s -> Rabs (pixel out i j - pixel im i j) <= p + s).
    { intros i j p s Hi Hj Lp Ls. rewrite (Po i j Hi Hj). specialize (Ba i j p s Hi Hj Lp Ls). rewrite Rabs_minus_sym in Ba. replace (pixel est i j + (pixel im i j - pixel added i j) - pixel im i j) with (pixel est i j - pixel added i j) by ring. exact Ba. }
    exists out. split; [|split; [exact So|split; [apply (near_charged im out Hch So Bo)|split; [|exact Bo]]]].
    + apply (remove_S im parallel serial time rows cols Si Hr Hc k out). exists est, added, rp, rs.
      split; [exact Ee|]. split; [exact Ea|]. split; [exact So|exact Po].
    + cbn [corrected]. cbv zeta. rewrite <- Ke, <- Fa.
      apply (flat_ext cols Hc rows); [exact So| |].
      * rewrite plus_list_length; rewrite ?(concat_length cols Hc est rows Se), ?(concat_length cols Hc im rows Si), ?(concat_length cols Hc added rows Sa); reflexivity.
      * intros i j Hi Hj. rewrite plus_list_nth by (rewrite ?(concat_length cols Hc est rows Se), ?(concat_length cols Hc im rows Si), ?(concat_length cols Hc added rows Sa); nia).
        rewrite !(concat_nth cols Hc _ rows) by assumption. symmetry. now apply Po.
Qed.
Lemma estimates_nonneg im : shape rows cols im -> charged_above floor (times + 1) parallel serial rows cols im -> forall k, Forall (Rle 0) (corrected F (concat im) k).
Proof. intros Si Hch k. destruct (estimates im Si Hch k) as (est & _ & _ & Ne & <- & _). now apply flat_nonneg. Qed.
Lemma undone im : shape rows cols im -> charged_above floor (times + 1) parallel serial rows cols im ->
  exists x, shape rows cols x /\ nonneg x /\ charged_above floor times parallel serial rows cols x /\ add_cti x parallel serial time = Ok (im, rp, rs) /\
    (forall y pr sr, shape rows cols y -> nonneg y -> charged_above floor times parallel serial rows cols y -> add_cti y parallel serial time = Ok (im, pr, sr) -> y = x) /\
    forall n, exists est, remove_cti im n parallel serial time = Ok est /\ shape rows cols est /\
      image_apart est x <= scale_of gain big (rows * cols) * (1 - gain / 2) ^ n * image_apart im x.
Proof.
  intros Si Hch. pose proof (concat_length cols Hc im rows Si) as Li.
  destruct (corrected_limit gain big F HT Hbig Hgain (concat im) (estimates_nonneg im Si Hch)) as (l & El & Nl & Fl & (K & Kl) & Al). rewrite Li in El, Al.
  set (x := unflat rows cols l). assert (Cx : concat x = l) by (now apply unflat_concat). assert (Sx : shape rows cols x) by apply unflat_shape.
  assert (Bx : forall i j p s, (i < rows)%nat -> (j < cols)%nat -> call_limit parallel rows i p -> call_limit serial cols j s -> Rabs (pixel x i j - pixel im i j) <= p + s).
  { intros i j p s Hi Hj Lp Ls. assert (D : Rabs (pixel x i j - pixel im i j) - (p + s) <= 0); [|lra].
    apply (small_enough _ K (1 - gain / 2) ltac:(lra)). intros k. destruct (estimates im Si Hch k) as (est & _ & Se & _ & Ke & Be). specialize (Be i j p s Hi Hj Lp Ls).
    specialize (Kl k (i * cols + j)%nat). rewrite <- Ke, (concat_nth cols Hc est rows) in Kl by assumption. unfold x. rewrite unflat_pixel by assumption. rewrite Rabs_minus_sym in Kl.
    replace (nth (i * cols + j) l 0 - pixel im i j) with ((nth (i * cols + j) l 0 - pixel est i j) + (pixel est i j - pixel im i j)) by ring. pose proof (Rabs_triang (nth (i * cols + j) l 0 - pixel est i j) (pixel est i j - pixel im i j)). lra. }
  destruct (near_charged im x Hch Sx Bx) as [Nx Chx]. destruct (HF x Sx Nx Chx) as (im' & Ex & Si' & _ & Fx & _).
  assert (Eim : im' = im) by (apply (flat_equal rows cols Hc im' im Si' Si); rewrite Fx, Cx; exact Fl). subst im'.
  exists x. split; [exact Sx|]. split; [exact Nx|]. split; [exact Chx|]. split; [exact Ex|]. split.
  - intros y pr sr Sy Ny Cy Ey. destruct (HF y Sy Ny Cy) as (im'' & Ey' & _ & _ & Fy & _). rewrite Ey in Ey'. injection Ey' as <- _ _.
    apply (flat_equal rows cols Hc y x Sy Sx). apply (steady_injective gain big F HT (proj1 Hgain)); [now rewrite (concat_length cols Hc y rows Sy), (concat_length cols Hc x rows Sx)|now apply flat_nonneg|now apply flat_nonneg|congruence].
  - intros n. destruct (estimates im Si Hch n) as (est & Ee & Se & _ & Ke & _). exists est. split; [exact Ee|]. split; [exact Se|]. unfold image_apart. rewrite Ke, Cx. apply Al.
Qed.
Lemma noise a b : shape rows cols a -> shape rows cols b -> charged_above floor (times + 1) parallel serial rows cols a -> charged_above floor (times + 1) parallel serial rows cols b ->
  forall n, exists a' b', remove_cti a n parallel serial time = Ok a' /\ remove_cti b n parallel serial time = Ok b' /\
    image_apart a' b' <= scale_of gain big (rows * cols) * (1 + 2 / gain) * image_apart a b.
Proof.
  intros Sa Sb Ca Cb n. destruct (estimates a Sa Ca n) as (a' & Ea & _ & _ & Ka & _). destruct (estimates b Sb Cb n) as (b' & Eb & _ & _ & Kb & _). exists a', b'. split; [exact Ea|]. split; [exact Eb|].
  unfold image_apart. rewrite Ka, Kb. pose proof (concat_length cols Hc a rows Sa) as La. pose proof (concat_length cols Hc b rows Sb) as Lb.
  pose proof (runs_apart gain big F HT Hbig Hgain (corrected F (concat a)) (corrected F (concat b)) (concat a) (concat b) ltac:(congruence) eq_refl ltac:(cbn; congruence) (corrected_run F (concat a)) (corrected_run F (concat b)) (estimates_nonneg a Sa Ca) (estimates_nonneg b Sb Cb) n) as K.
  cbn [corrected] in K. rewrite La in K. pose proof (apart_nonneg (concat a) (concat b)) as A.
  assert (P : (1 - gain / 2) ^ n <= 1) by (pose proof (pow_incr (1 - gain / 2) 1 n ltac:(split; lra)) as P0; rewrite pow1 in P0; exact P0).
  eapply Rle_trans; [exact K|]. rewrite Rmult_assoc. apply Rmult_le_compat_l; [left; now apply scale_pos|]. apply (Rmult_le_compat_r _ _ _ A) in P. lra.
Qed.
End Inverse.
Lemma rate_range gain : 0 < gain <= 1 -> 0 <= 1 - gain / 2 < 1. Proof. intros H. split; lra. Qed.
