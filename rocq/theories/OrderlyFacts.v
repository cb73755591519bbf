(** * Readouts in both directions, each past traps of any kind that keep the order of images. *)
From Coq Require Import ZArith List Bool Reals Lra Lia Sorted.
From Coquelicot Require Import Rcomplements Rbar Hierarchy RInt.
From Verif Require Import Num Py RFacts CCDModel TrapsModel ManagerModel ROEModel ClockModel MainModel Spec SpecROE SpecImage SpecReadout SpecColumn SpecHistory SpecHold SpecBound SpecRecovery SpecPhases SpecWork SpecExpressOrder SpecInjectionOrder SpecWindowOrder SpecAbove SpecFlatten
  CallFacts WmFacts ClockFacts MainFacts ShapeFacts ColumnFacts ReadoutImage RemoveFacts ROEExpressFacts ReadoutFull TameFacts MainReadoutFacts RecoverImageFacts LiftFacts GridFacts SteadyFacts ContractFacts WindowFacts WindowMainFacts MaskFacts WindowGridFacts AboveGridFacts InverseFacts TimesGridFacts.
Import ListNotations.
Open Scope R_scope.

(** Every pixel has [floor] electrons and [times] what the limits say. *)
Definition limits_above (floor times : R) (Bp Bs : nat -> R -> Prop) (rows cols : nat) (im : image R) : Prop :=
  forall i j, (i < rows)%nat -> (j < cols)%nat -> exists p s, Bp i p /\ Bs j s /\ floor + times * (p + s) <= pixel im i j.

(** ** Both directions *)
Section Both.
Context (floor : R) (parallel serial : direction R) (rows cols : nat).
Context (Bp Bs : nat -> R -> Prop).
Hypothesis Bp_pos : forall i x, Bp i x -> 0 <= x.
Hypothesis Bs_pos : forall i x, Bs i x -> 0 <= x.
Notation above times im := (limits_above floor times Bp Bs rows cols im).
Hypothesis Hfloor : 0 < floor.
Hypothesis Hr : (0 < rows)%nat.
Hypothesis Hc : (0 < cols)%nat.
Context (rp rs : roe R) (time : option (list Z)) (tw lines : list Z).
Hypothesis Htimes : resolve_time_window time (selected (d_window parallel) rows) rows (d_offset parallel) = Ok (tw, lines).
Hypothesis Hlines : columns_ok lines rows.
Hypothesis Hcolumns : columns_ok (selected (d_window serial) cols) cols.
Hypothesis Hpar : does_above floor parallel rows (Some tw) (Bp) rp.
Hypothesis Hser : does_above floor serial cols None (Bs) rs.
Lemma orderly_map : exists gain big F, 0 < gain <= 1 /\ 0 <= big /\ steady gain big F /\
  forall im, shape rows cols im -> nonneg im -> above 1 im ->
  exists im', add_cti im parallel serial time = Ok (im', rp, rs) /\ shape rows cols im' /\ nonneg im' /\ concat im' = F (concat im) /\
    forall i j p s, (i < rows)%nat -> (j < cols)%nat -> Bp i p -> Bs j s -> Rabs (pixel im' i j - pixel im i j) <= p + s.
Proof.
  destruct Hpar as (g1 & b1 & G1 & Hg1 & Hb1 & T1 & A1). destruct Hser as (g2 & b2 & G2 & Hg2 & Hb2 & T2 & A2).
  exists (g1 * g2), (b1 * b2), (fun x => some_rows cols G2 (listed lines) (some_columns cols G1 (listed (selected (d_window serial) cols)) x)). split; [split; [apply Rmult_lt_0_compat; lra|rewrite <- (Rmult_1_l 1); apply Rmult_le_compat; lra]|].
  split; [apply Rmult_le_pos; lra|].
  split; [apply (steady_compose g1 g2 b1 b2 (some_columns cols G1 (listed (selected (d_window serial) cols))) (some_rows cols G2 (listed lines))); [lra|lra|apply some_columns_steady; (assumption || lra)|apply some_rows_steady; (assumption || lra)]|].
  intros im Hs Hp Hch. pose proof Hs as [Lim _]. pose proof (MainReadoutFacts.shape_columns rows cols im Hs Hr) as Ncol.
  unfold add_cti. rewrite Lim, Ncol, !resolve_selected, Htimes. cbn [bind].
  assert (Q1 : forall i j, (i < rows)%nat -> (j < cols)%nat -> exists x, Bp i x /\ floor + x <= pixel im i j).
  { intros i j Hi Hj. destruct (Hch i j Hi Hj) as (p & s & Lp & Ls & H). exists p. split; [exact Lp|]. apply Bs_pos in Ls. lra. }
  destruct (A1 im cols (selected (d_window serial) cols) Hs Hp Hcolumns Q1) as (im1 & E1 & S1 & P1 & C1 & D1). rewrite E1. cbn [bind].
  assert (F1 : concat im1 = some_columns cols G1 (listed (selected (d_window serial) cols)) (concat im)) by (eapply (some_columns_flat cols Hc G1 g1 b1 T1); eauto).
  assert (St : shape cols rows (transpose im1)) by (apply transpose_shape; assumption).
  assert (Pt : nonneg (transpose im1)) by (intros i j; rewrite (transpose_pixel_all rows cols) by assumption; apply P1).
  assert (Q2 : forall i j, (i < cols)%nat -> (j < rows)%nat -> exists x, Bs i x /\ floor + x <= pixel (transpose im1) i j).
  { intros i j Hi Hj. destruct (Hch j i Hj Hi) as (p & s & Lp & Ls & H). exists s. split; [exact Ls|]. rewrite (transpose_pixel_all rows cols) by assumption. specialize (D1 j i p Hj Hi Lp). apply Rabs_le_between in D1. lra. }
  destruct (A2 (transpose im1) rows lines St Pt Hlines Q2) as (im2 & E2 & S2 & P2 & C2 & D2).
  assert (S2' : shape rows cols (transpose im2)) by (apply transpose_shape; assumption).
  assert (P2' : nonneg (transpose im2)) by (intros i j; rewrite (transpose_pixel_all cols rows) by assumption; apply P2).
  assert (F2 : concat (transpose im2) = some_rows cols G2 (listed lines) (concat im1)).
  { eapply (some_rows_flat cols Hc G2 g2 b2 T2); eauto. intros i Hi. rewrite <- (transposed_column im1 rows cols i S1 Hr Hi), <- (C2 i Hi).
    rewrite <- (transposed_column (transpose im2) rows cols i S2' Hr Hi). f_equal. apply (RemoveFacts.image_ext _ _ cols rows); [apply transpose_shape; assumption|assumption|].
    intros a b Ha Hb. rewrite (transpose_pixel_all rows cols), (transpose_pixel_all cols rows) by assumption. reflexivity. }
  assert (D : forall i j p s, (i < rows)%nat -> (j < cols)%nat -> Bp i p -> Bs j s -> Rabs (pixel (transpose im2) i j - pixel im i j) <= p + s).
  { intros i j p s Hi Hj Lp Ls. specialize (D1 i j p Hi Hj Lp). specialize (D2 j i s Hj Hi Ls).
    rewrite (transpose_pixel_all cols rows) by assumption. rewrite (transpose_pixel_all rows cols im1) in D2 by assumption.
    apply Rabs_le_between in D1. apply Rabs_le_between in D2. apply Rabs_le_between. lra. }
  destruct (d_traps serial) as [traps|] eqn:Et.
  - rewrite E2. cbn [bind]. exists (transpose im2). split; [reflexivity|]. split; [exact S2'|]. split; [exact P2'|]. split; [now rewrite F2, F1|exact D].
  - assert (Eim : transpose im2 = im1).
    { injection E2 as E2 _. subst im2. apply (RemoveFacts.image_ext _ _ rows cols); [assumption|assumption|].
      intros a b Ha Hb. rewrite (transpose_pixel_all cols rows), (transpose_pixel_all rows cols) by assumption. reflexivity. }
    injection E2 as _ Ers. cbn [bind]. rewrite Ers. exists im1. split; [reflexivity|]. split; [exact S1|]. split; [exact P1|]. rewrite Eim in F2, D. split; [now rewrite F2, F1|exact D].
Qed.
Lemma orderly_pair : exists gain big F, 0 < gain <= 1 /\ 0 <= big /\ steady gain big F /\
  forall a b, shape rows cols a -> shape rows cols b -> nonneg a -> nonneg b -> above 1 a -> above 1 b ->
  exists a' b', add_cti a parallel serial time = Ok (a', rp, rs) /\ add_cti b parallel serial time = Ok (b', rp, rs) /\
    shape rows cols a' /\ shape rows cols b' /\ concat a' = F (concat a) /\ concat b' = F (concat b).
Proof.
  destruct orderly_map as (gain & big & F & Hg & Hb & HT & HF). exists gain, big, F. split; [exact Hg|]. split; [exact Hb|]. split; [exact HT|]. intros a b Sa Sb Pa Pb Ca Cb.
  destruct (HF a Sa Pa Ca) as (a' & Ea & Sa' & Pa' & Fa & _). destruct (HF b Sb Pb Cb) as (b' & Eb & Sb' & Pb' & Fb & _). exists a', b'. auto 10.
Qed.
Lemma orderly_order a b : shape rows cols a -> shape rows cols b -> nonneg a -> above 1 a -> (forall i j, (i < rows)%nat -> (j < cols)%nat -> pixel a i j <= pixel b i j) ->
  exists a' b', add_cti a parallel serial time = Ok (a', rp, rs) /\
    add_cti b parallel serial time = Ok (b', rp, rs) /\
    forall i j, (i < rows)%nat -> (j < cols)%nat -> pixel a' i j <= pixel b' i j.
Proof.
  intros Sa Sb Pa Ca Hab. destruct orderly_pair as (gain & big & F & Hg & _ & HT & HF).
  assert (Pb : nonneg b) by (apply (shape_nonneg rows cols Hr Hc b Sb); intros i j Hi Hj; specialize (Hab i j Hi Hj); specialize (Pa i j); lra).
  assert (Cb : above 1 b) by (intros i j Hi Hj; destruct (Ca i j Hi Hj) as (p & s & Lp & Ls & H); exists p, s; split; [exact Lp|]; split; [exact Ls|]; specialize (Hab i j Hi Hj); lra).
  destruct (HF a b Sa Sb Pa Pb Ca Cb) as (a' & b' & Ea & Eb & Sa' & Sb' & Fa & Fb). exists a', b'. split; [exact Ea|]. split; [exact Eb|].
  apply (flat_ordered rows cols Hr Hc); [assumption|assumption|]. rewrite Fa, Fb. apply (st_mono _ _ _ HT). now apply (flat_ordered rows cols Hr Hc).
Qed.
Lemma orderly_apart : exists K, 0 <= K /\ forall a b, shape rows cols a -> shape rows cols b -> nonneg a -> nonneg b -> above 1 a -> above 1 b ->
  exists a' b', add_cti a parallel serial time = Ok (a', rp, rs) /\
    add_cti b parallel serial time = Ok (b', rp, rs) /\ image_apart a' b' <= K * image_apart a b.
Proof.
  destruct orderly_pair as (gain & big & F & Hg & Hb & HT & HF). exists big. split; [exact Hb|]. intros a b Sa Sb Pa Pb Ca Cb.
  destruct (HF a b Sa Sb Pa Pb Ca Cb) as (a' & b' & Ea & Eb & Sa' & Sb' & Fa & Fb). exists a', b'. split; [exact Ea|]. split; [exact Eb|]. unfold image_apart. rewrite Fa, Fb. apply (steady_apart gain big F); [exact HT|].
  now rewrite (concat_length cols Hc a rows Sa), (concat_length cols Hc b rows Sb).
Qed.
Lemma orderly_injective a b out pr sr pr' sr' : shape rows cols a -> shape rows cols b -> nonneg a -> nonneg b -> above 1 a -> above 1 b ->
  add_cti a parallel serial time = Ok (out, pr, sr) -> add_cti b parallel serial time = Ok (out, pr', sr') -> a = b.
Proof.
  intros Sa Sb Pa Pb Ca Cb Ea' Eb'. destruct orderly_pair as (gain & big & F & Hg & _ & HT & HF).
  destruct (HF a b Sa Sb Pa Pb Ca Cb) as (a' & b' & Ea & Eb & Sa' & Sb' & Fa & Fb). rewrite Ea in Ea'. rewrite Eb in Eb'. injection Ea' as -> _ _. injection Eb' as -> _ _.
  apply (flat_equal rows cols Hc a b Sa Sb). apply (steady_injective gain big F HT (proj1 Hg)); [now rewrite (concat_length cols Hc a rows Sa), (concat_length cols Hc b rows Sb)|now apply flat_nonneg|now apply flat_nonneg|congruence].
Qed.

(** ** Recovery *)
Lemma orderly_recover x : shape rows cols x -> above 3 x ->
  exists im, add_cti x parallel serial time = Ok (im, rp, rs) /\
  exists C r, 0 <= C /\ 0 <= r < 1 /\ forall k, exists est, remove_cti im k parallel serial time = Ok est /\ shape rows cols est /\
    image_apart est x <= C * r ^ k.
Proof.
  intros Sx Hx. destruct orderly_map as (gain & big & F & Hg & Hbig & HT & HF).
  assert (Px : forall i j, (i < rows)%nat -> (j < cols)%nat -> 0 < pixel x i j).
  { intros i j Hi Hj. destruct (Hx i j Hi Hj) as (p & s & Lp & Ls & H). apply Bp_pos in Lp. apply Bs_pos in Ls. lra. }
  assert (Nx : nonneg x) by (apply (shape_nonneg rows cols Hr Hc); [exact Sx|]; intros i j Hi Hj; left; now apply Px).
  assert (BD : forall a, shape rows cols a -> nonneg a -> above 1 a -> exists a', add_cti a parallel serial time = Ok (a', rp, rs) /\ shape rows cols a' /\ concat a' = F (concat a) /\
    forall i j p s, (i < rows)%nat -> (j < cols)%nat -> Bp i p -> Bs j s -> Rabs (pixel a' i j - pixel a i j) <= p + s).
  { intros a Sa Pa Ca. destruct (HF a Sa Pa Ca) as (a' & Ea & Sa' & _ & Fa & Ba). exists a'. auto. }
  assert (Cx : above 1 x).
  { intros i j Hi Hj. destruct (Hx i j Hi Hj) as (p & s & Lp & Ls & H). exists p, s. split; [exact Lp|]. split; [exact Ls|]. apply Bp_pos in Lp. apply Bs_pos in Ls. lra. }
  destruct (BD x Sx Nx Cx) as (im & E & Si & Fi & Bi). exists im. split; [exact E|].
  destruct (steady_converges gain big F HT Hbig Hg (concat x)) as (C & r & HC & Hr1 & HCr).
  { apply Forall_forall. intros v Hv. apply (In_nth _ _ 0) in Hv. destruct Hv as (l & Hl & <-). rewrite (concat_length cols Hc x rows Sx) in Hl.
    pose proof (Nat.div_mod l cols ltac:(lia)) as El. pose proof (Nat.mod_upper_bound l cols ltac:(lia)) as Hm.
    assert (Hd : (l / cols < rows)%nat) by (apply Nat.div_lt_upper_bound; lia).
    replace l with (l / cols * cols + l mod cols)%nat by lia. rewrite (concat_nth cols Hc x rows) by assumption. now apply Px. }
  exists C, r. split; [exact HC|]. split; [exact Hr1|].
  assert (ST : forall k, exists est, remove_cti im k parallel serial time = Ok est /\ shape rows cols est /\ concat est = corrected F (F (concat x)) k /\
    forall i j p s, (i < rows)%nat -> (j < cols)%nat -> Bp i p -> Bs j s -> Rabs (pixel est i j - pixel x i j) <= 2 * (p + s)).
  { induction k as [|k (est & Ee & Se & Ke & Be)].
    - exists im. split; [reflexivity|]. split; [exact Si|]. split; [exact Fi|]. intros i j p s Hi Hj Lp Ls. specialize (Bi i j p s Hi Hj Lp Ls). apply Bp_pos in Lp. apply Bs_pos in Ls. lra.
    - assert (Ne : nonneg est).
      { apply (shape_nonneg rows cols Hr Hc); [exact Se|]. intros i j Hi Hj. destruct (Hx i j Hi Hj) as (p & s & Lp & Ls & H). specialize (Be i j p s Hi Hj Lp Ls). apply Bp_pos in Lp. apply Bs_pos in Ls. apply Rabs_le_between in Be. lra. }
      assert (Ce : above 1 est).
      { intros i j Hi Hj. destruct (Hx i j Hi Hj) as (p & s & Lp & Ls & H). exists p, s. split; [exact Lp|]. split; [exact Ls|]. specialize (Be i j p s Hi Hj Lp Ls). apply Rabs_le_between in Be. lra. }
      destruct (BD est Se Ne Ce) as (added & Ea & Sa & Fa & Ba).
      set (out := image_zip nadd est (image_zip nsub im added)).
      assert (So : shape rows cols out) by (unfold out; repeat (apply image_zip_shape; try assumption)).
      assert (Po : forall i j, (i < rows)%nat -> (j < cols)%nat -> pixel out i j = pixel est i j + (pixel im i j - pixel added i j)).
      { intros i j Hi Hj. unfold out. rewrite (image_zip_pixel _ _ _ rows cols) by (try apply image_zip_shape; assumption).
        rewrite (image_zip_pixel _ _ _ rows cols) by assumption. reflexivity. }
      exists out. split; [|split; [exact So|split]].
      + apply (remove_S im parallel serial time rows cols Si Hr Hc k out). exists est, added, rp, rs.
        split; [exact Ee|]. split; [exact Ea|]. split; [exact So|exact Po].
      + cbn [corrected]. cbv zeta. rewrite <- Ke, <- Fa, <- Fi.
        apply (flat_ext cols Hc rows); [exact So| |].
        * rewrite plus_list_length; rewrite ?(concat_length cols Hc est rows Se), ?(concat_length cols Hc im rows Si), ?(concat_length cols Hc added rows Sa); reflexivity.
        * intros i j Hi Hj. rewrite plus_list_nth by (rewrite ?(concat_length cols Hc est rows Se), ?(concat_length cols Hc im rows Si), ?(concat_length cols Hc added rows Sa); nia).
          rewrite !(concat_nth cols Hc _ rows) by assumption. symmetry. now apply Po.
      + intros i j p s Hi Hj Lp Ls. rewrite (Po i j Hi Hj). specialize (Ba i j p s Hi Hj Lp Ls). specialize (Bi i j p s Hi Hj Lp Ls).
        replace (pixel est i j + (pixel im i j - pixel added i j) - pixel x i j) with ((pixel im i j - pixel x i j) - (pixel added i j - pixel est i j)) by lra.
        apply Rabs_le_between in Ba. apply Rabs_le_between in Bi. apply Rabs_le_between. lra. }
  intros k. destruct (ST k) as (est & Ee & Se & Ke & _). exists est. split; [exact Ee|]. split; [exact Se|]. unfold image_apart. rewrite Ke. apply HCr.
Qed.
End Both.

(** ** The inverse *)
Section Inverse.
Context (floor times : R) (parallel serial : direction R) (rows cols : nat).
Context (Bp Bs : nat -> R -> Prop).
Hypothesis Bp_pos : forall i x, Bp i x -> 0 <= x.
Hypothesis Bs_pos : forall i x, Bs i x -> 0 <= x.
Notation above times im := (limits_above floor times Bp Bs rows cols im).
Hypothesis Hfloor : 0 <= floor.
Hypothesis Htimes : 0 <= times.
Hypothesis Hr : (0 < rows)%nat.
Hypothesis Hc : (0 < cols)%nat.
Context (rp rs : roe R) (time : option (list Z)) (gain big : R) (F : list R -> list R).
Hypothesis Hgain : 0 < gain <= 1.
Hypothesis Hbig : 0 <= big.
Hypothesis HT : steady gain big F.
Hypothesis HF : forall im, shape rows cols im -> nonneg im -> above times im ->
  exists im', add_cti im parallel serial time = Ok (im', rp, rs) /\ shape rows cols im' /\ nonneg im' /\ concat im' = F (concat im) /\
    forall i j p s, (i < rows)%nat -> (j < cols)%nat -> Bp i p -> Bs j s -> Rabs (pixel im' i j - pixel im i j) <= p + s.
Lemma orderly_near_charged im est : above (times + 1) im -> shape rows cols est ->
  (forall i j p s, (i < rows)%nat -> (j < cols)%nat -> Bp i p -> Bs j s -> Rabs (pixel est i j - pixel im i j) <= p + s) ->
  nonneg est /\ above times est.
Proof.
  intros Hch Se Be.
  assert (C : above times est).
  { intros i j Hi Hj. destruct (Hch i j Hi Hj) as (p & s & Lp & Ls & B). exists p, s. split; [exact Lp|]. split; [exact Ls|]. specialize (Be i j p s Hi Hj Lp Ls). apply Rabs_le_between in Be. lra. }
  split; [|exact C]. apply (shape_nonneg rows cols Hr Hc); [exact Se|]. intros i j Hi Hj. destruct (C i j Hi Hj) as (p & s & Lp & Ls & B). apply Bp_pos in Lp. apply Bs_pos in Ls.
  assert (0 <= times * (p + s)) by (apply Rmult_le_pos; lra). lra.
Qed.
Lemma orderly_estimates im : shape rows cols im -> above (times + 1) im ->
  forall k, exists est, remove_cti im k parallel serial time = Ok est /\ shape rows cols est /\ nonneg est /\ concat est = corrected F (concat im) k /\
    forall i j p s, (i < rows)%nat -> (j < cols)%nat -> Bp i p -> Bs j s -> Rabs (pixel est i j - pixel im i j) <= p + s.
Proof.
  intros Si Hch. assert (B0 : forall i j p s, (i < rows)%nat -> (j < cols)%nat -> Bp i p -> Bs j s -> Rabs (pixel im i j - pixel im i j) <= p + s).
  { intros i j p s Hi Hj Lp Ls. rewrite Rminus_eq_0, Rabs_R0. apply Bp_pos in Lp. apply Bs_pos in Ls. lra. }
  induction k as [|k (est & Ee & Se & Ne & Ke & Be)].
  - exists im. split; [reflexivity|]. split; [exact Si|]. split; [apply (orderly_near_charged im im Hch Si B0)|]. split; [reflexivity|exact B0].
  - destruct (orderly_near_charged im est Hch Se Be) as [_ Ce]. destruct (HF est Se Ne Ce) as (added & Ea & Sa & _ & Fa & Ba).
    set (out := image_zip nadd est (image_zip nsub im added)).
    assert (So : shape rows cols out) by (unfold out; repeat (apply image_zip_shape; try assumption)).
    assert (Po : forall i j, (i < rows)%nat -> (j < cols)%nat -> pixel out i j = pixel est i j + (pixel im i j - pixel added i j)).
    { intros i j Hi Hj. unfold out. rewrite (image_zip_pixel _ _ _ rows cols) by (try apply image_zip_shape; assumption).
      rewrite (image_zip_pixel _ _ _ rows cols) by assumption. reflexivity. }
    assert (Bo : forall i j p s, (i < rows)%nat -> (j < cols)%nat -> Bp i p -> Bs j s -> Rabs (pixel out i j - pixel im i j) <= p + s).
    { intros i j p s Hi Hj Lp Ls. rewrite (Po i j Hi Hj). specialize (Ba i j p s Hi Hj Lp Ls). rewrite Rabs_minus_sym in Ba. replace (pixel est i j + (pixel im i j - pixel added i j) - pixel im i j) with (pixel est i j - pixel added i j) by ring. exact Ba. }
    exists out. split; [|split; [exact So|split; [apply (orderly_near_charged im out Hch So Bo)|split; [|exact Bo]]]].
    + apply (remove_S im parallel serial time rows cols Si Hr Hc k out). exists est, added, rp, rs.
      split; [exact Ee|]. split; [exact Ea|]. split; [exact So|exact Po].
    + cbn [corrected]. cbv zeta. rewrite <- Ke, <- Fa.
      apply (flat_ext cols Hc rows); [exact So| |].
      * rewrite plus_list_length; rewrite ?(concat_length cols Hc est rows Se), ?(concat_length cols Hc im rows Si), ?(concat_length cols Hc added rows Sa); reflexivity.
      * intros i j Hi Hj. rewrite plus_list_nth by (rewrite ?(concat_length cols Hc est rows Se), ?(concat_length cols Hc im rows Si), ?(concat_length cols Hc added rows Sa); nia).
        rewrite !(concat_nth cols Hc _ rows) by assumption. symmetry. now apply Po.
Qed.
Lemma orderly_estimates_nonneg im : shape rows cols im -> above (times + 1) im -> forall k, Forall (Rle 0) (corrected F (concat im) k).
Proof. intros Si Hch k. destruct (orderly_estimates im Si Hch k) as (est & _ & _ & Ne & <- & _). now apply flat_nonneg. Qed.
Lemma orderly_undone im : shape rows cols im -> above (times + 1) im ->
  exists x, shape rows cols x /\ nonneg x /\ above times x /\ add_cti x parallel serial time = Ok (im, rp, rs) /\
    (forall y pr sr, shape rows cols y -> nonneg y -> above times y -> add_cti y parallel serial time = Ok (im, pr, sr) -> y = x) /\
    forall n, exists est, remove_cti im n parallel serial time = Ok est /\ shape rows cols est /\
      image_apart est x <= scale_of gain big (rows * cols) * (1 - gain / 2) ^ n * image_apart im x.
Proof.
  intros Si Hch. pose proof (concat_length cols Hc im rows Si) as Li.
  destruct (corrected_limit gain big F HT Hbig Hgain (concat im) (orderly_estimates_nonneg im Si Hch)) as (l & El & Nl & Fl & (K & Kl) & Al). rewrite Li in El, Al.
  set (x := unflat rows cols l). assert (Cx : concat x = l) by (now apply unflat_concat). assert (Sx : shape rows cols x) by apply unflat_shape.
  assert (Bx : forall i j p s, (i < rows)%nat -> (j < cols)%nat -> Bp i p -> Bs j s -> Rabs (pixel x i j - pixel im i j) <= p + s).
  { intros i j p s Hi Hj Lp Ls. assert (D : Rabs (pixel x i j - pixel im i j) - (p + s) <= 0); [|lra].
    apply (small_enough _ K (1 - gain / 2) ltac:(lra)). intros k. destruct (orderly_estimates im Si Hch k) as (est & _ & Se & _ & Ke & Be). specialize (Be i j p s Hi Hj Lp Ls).
    specialize (Kl k (i * cols + j)%nat). rewrite <- Ke, (concat_nth cols Hc est rows) in Kl by assumption. unfold x. rewrite unflat_pixel by assumption. rewrite Rabs_minus_sym in Kl.
    replace (nth (i * cols + j) l 0 - pixel im i j) with ((nth (i * cols + j) l 0 - pixel est i j) + (pixel est i j - pixel im i j)) by ring. pose proof (Rabs_triang (nth (i * cols + j) l 0 - pixel est i j) (pixel est i j - pixel im i j)). lra. }
  destruct (orderly_near_charged im x Hch Sx Bx) as [Nx Chx]. destruct (HF x Sx Nx Chx) as (im' & Ex & Si' & _ & Fx & _).
  assert (Eim : im' = im) by (apply (flat_equal rows cols Hc im' im Si' Si); rewrite Fx, Cx; exact Fl). subst im'.
  exists x. split; [exact Sx|]. split; [exact Nx|]. split; [exact Chx|]. split; [exact Ex|]. split.
  - intros y pr sr Sy Ny Cy Ey. destruct (HF y Sy Ny Cy) as (im'' & Ey' & _ & _ & Fy & _). rewrite Ey in Ey'. injection Ey' as <- _ _.
    apply (flat_equal rows cols Hc y x Sy Sx). apply (steady_injective gain big F HT (proj1 Hgain)); [now rewrite (concat_length cols Hc y rows Sy), (concat_length cols Hc x rows Sx)|now apply flat_nonneg|now apply flat_nonneg|congruence].
  - intros n. destruct (orderly_estimates im Si Hch n) as (est & Ee & Se & _ & Ke & _). exists est. split; [exact Ee|]. split; [exact Se|]. unfold image_apart. rewrite Ke, Cx. apply Al.
Qed.
Lemma orderly_noise a b : shape rows cols a -> shape rows cols b -> above (times + 1) a -> above (times + 1) b ->
  forall n, exists a' b', remove_cti a n parallel serial time = Ok a' /\ remove_cti b n parallel serial time = Ok b' /\
    image_apart a' b' <= scale_of gain big (rows * cols) * (1 + 2 / gain) * image_apart a b.
Proof.
  intros Sa Sb Ca Cb n. destruct (orderly_estimates a Sa Ca n) as (a' & Ea & _ & _ & Ka & _). destruct (orderly_estimates b Sb Cb n) as (b' & Eb & _ & _ & Kb & _). exists a', b'. split; [exact Ea|]. split; [exact Eb|].
  unfold image_apart. rewrite Ka, Kb. pose proof (concat_length cols Hc a rows Sa) as La. pose proof (concat_length cols Hc b rows Sb) as Lb.
  pose proof (runs_apart gain big F HT Hbig Hgain (corrected F (concat a)) (corrected F (concat b)) (concat a) (concat b) ltac:(congruence) eq_refl ltac:(cbn; congruence) (corrected_run F (concat a)) (corrected_run F (concat b)) (orderly_estimates_nonneg a Sa Ca) (orderly_estimates_nonneg b Sb Cb) n) as K.
  cbn [corrected] in K. rewrite La in K. pose proof (apart_nonneg (concat a) (concat b)) as A.
  assert (P : (1 - gain / 2) ^ n <= 1) by (pose proof (pow_incr (1 - gain / 2) 1 n ltac:(split; lra)) as P0; rewrite pow1 in P0; exact P0).
  eapply Rle_trans; [exact K|]. rewrite Rmult_assoc. apply Rmult_le_compat_l; [left; now apply scale_pos|]. apply (Rmult_le_compat_r _ _ _ A) in P. lra.
Qed.
End Inverse.

(** ** Traps of either kind *)
Lemma instant_not_timed d n c f g w k traps : single_phase d n c f g w k -> kind_for g = KTime -> d_traps d = Some traps -> instant_traps traps -> False.
Proof.
  intros H1 H2 H3 [_ H4]. destruct (sp_traps _ _ _ _ _ _ _ H1) as (traps' & E & G). rewrite H3 in E. injection E as <-. rewrite G in H4.
  inversion H4 as [|? ? [H5 H6] _]; subst. destruct g as [|t g]; [contradiction|]. inversion H6 as [|? ? [_ Hc] _]; subst. unfold kind_for in H2. rewrite Hc in H2. discriminate.
Qed.
Lemma some_traps d n c f g w k : single_phase d n c f g w k -> d_traps d <> None.
Proof. intros H. destruct (sp_traps _ _ _ _ _ _ _ H) as (traps & -> & _). discriminate. Qed.
Lemma slow_not_timed floor d n c f g w k : slow_call floor d n -> single_phase d n c f g w k -> kind_for g = KTime -> False.
Proof.
  intros H H1 H2. assert (X : exists traps, d_traps d = Some traps /\ instant_traps traps).
  { destruct H as [[(b & _ & _ & _ & [E|(c' & traps & dw & dt & gr & S & _)])|(_ & c' & traps & dw & npt & gr & S & _)]|[(b & _ & _ & _ & c' & traps & dw & dt & gr & S & _)|(_ & c' & traps & dw & npt & gr & S & _)]].
    - now apply some_traps in H1.
    - exists traps. split; [apply S|apply S].
    - exists traps. split; [apply S|apply S].
    - exists traps. split; [apply S|apply S].
    - exists traps. split; [apply S|apply S]. }
  destruct X as (traps & E & I). exact (instant_not_timed d n c f g w k traps H1 H2 E I).
Qed.
Lemma limit_not_timed d n i x c f g w k : (i < n)%nat -> call_limit d n i x -> single_phase d n c f g w k -> kind_for g = KTime -> False.
Proof.
  intros Hi H H1 H2. destruct H as [H _|b x _ H|x H].
  - apply H. rewrite (sp_window _ _ _ _ _ _ _ H1). cbn [selected]. apply in_map, in_seq. lia.
  - destruct H as [E|c' traps dw dt S|c' traps dw dt S].
    + now apply some_traps in H1.
    + apply (instant_not_timed d n c f g w k traps H1 H2); apply S.
    + apply (instant_not_timed d n c f g w k traps H1 H2); apply S.
  - destruct H as [c' traps dw npt S|c' traps dw npt S]; apply (instant_not_timed d n c f g w k traps H1 H2); apply S.
Qed.
Lemma does_above_ext floor d n tw (B B' : nat -> R -> Prop) r : (forall i x, (i < n)%nat -> (B i x <-> B' i x)) -> does_above floor d n tw B r -> does_above floor d n tw B' r.
Proof.
  intros HB (g & b & G & H1 & H2 & H3 & H4). exists g, b, G. split; [exact H1|]. split; [exact H2|]. split; [exact H3|]. intros im cols columns Hs Hp Hc Hch.
  destruct (H4 im cols columns Hs Hp Hc) as (im' & E & S & P & C & D).
  - intros i j Hi Hj. destruct (Hch i j Hi Hj) as (x & Bx & Hx). exists x. split; [now apply HB|exact Hx].
  - exists im'. split; [exact E|]. split; [exact S|]. split; [exact P|]. split; [exact C|]. intros i j x Hi Hj Bx. apply D; [exact Hi|exact Hj|now apply HB].
Qed.
Lemma orderly_nonneg floor d n i x : orderly_call floor d n -> orderly_limit d n i x -> 0 <= x.
Proof.
  intros [Hs|Ht] [H|H]; try now apply call_limit_nonneg in H.
  - destruct H as [c f g w H1 H2]. now destruct (slow_not_timed floor d n c f g w false Hs H1 H2).
  - now apply (timed_limit_nonneg floor d n i).
Qed.
Lemma slow_limits floor d n i x : slow_call floor d n -> orderly_limit d n i x <-> call_limit d n i x.
Proof. intros Hs. split; [intros [H|[c f g w H1 H2]]; [exact H|now destruct (slow_not_timed floor d n c f g w false Hs H1 H2)]|now left]. Qed.
Lemma timed_limits floor d n i x : (i < n)%nat -> timed_call floor d n -> orderly_limit d n i x <-> timed_limit d n i x.
Proof.
  intros Hi (c & f & g & w & full & beta & H1 & H2 & _). split; [intros [H|H]; [now destruct (limit_not_timed d n i x c f g w false Hi H H1 H2)|exact H]|now right].
Qed.
Lemma orderly_ready floor parallel serial rows cols time : 0 < floor -> (0 < rows)%nat -> (0 < cols)%nat -> times_fit floor parallel rows time -> orderly_call floor parallel rows -> orderly_call floor serial cols ->
  exists rp rs tw lines, resolve_time_window time (selected (d_window parallel) rows) rows (d_offset parallel) = Ok (tw, lines) /\
    columns_ok lines rows /\ columns_ok (selected (d_window serial) cols) cols /\
    does_above floor parallel rows (Some tw) (orderly_limit parallel rows) rp /\ does_above floor serial cols None (orderly_limit serial cols) rs.
Proof.
  intros Hfl Hr Hc [Ht Hfit] Hp Hs.
  assert (HS : columns_ok (selected (d_window serial) cols) cols /\ exists rs, does_above floor serial cols None (orderly_limit serial cols) rs).
  { destruct Hs as [Hs|Hs].
    - destruct (slow_window floor serial cols Hc Hs) as (b' & S1 & S2 & S3). split; [now apply (window_columns _ b')|].
      destruct (does_slow_call floor serial cols None Hfl Hc I Hs) as [rs Ds]. exists rs. apply (does_above_ext _ _ _ _ (call_limit serial cols)); [|exact Ds]. intros i x _. symmetry. now apply (slow_limits floor).
    - split.
      + destruct Hs as (c & f & g & w & full & beta & H1 & _). rewrite (sp_window _ _ _ _ _ _ _ H1). cbn [selected]. rewrite <- py_range_0. apply (window_columns _ cols); [apply range_sorted_from|now apply window_ok_range|lia].
      + exists (the_roe serial). apply (does_above_ext _ _ _ _ (timed_limit serial cols)); [|apply does_timed; auto]. intros i x Hi. symmetry. now apply (timed_limits floor). }
  destruct HS as (HC & rs & Ds).
  assert (HP : exists rp tw lines, resolve_time_window time (selected (d_window parallel) rows) rows (d_offset parallel) = Ok (tw, lines) /\ columns_ok lines rows /\ does_above floor parallel rows (Some tw) (orderly_limit parallel rows) rp).
  { assert (SL : slow_call floor parallel rows -> exists rp tw lines, resolve_time_window time (selected (d_window parallel) rows) rows (d_offset parallel) = Ok (tw, lines) /\ columns_ok lines rows /\ does_above floor parallel rows (Some tw) (orderly_limit parallel rows) rp).
    { intros Hsl. destruct (slow_window floor parallel rows Hr Hsl) as (b & P1 & P2 & P3). destruct (call_times time _ b rows (d_offset parallel) Ht P2 P3 P1 Hr) as ([t0 t1] & lines & E & Htw & Hl).
      destruct (does_slow_call floor parallel rows (Some (t0, t1)) Hfl Hr Htw Hsl) as [rp Dp]. exists rp, (py_range t0 t1), lines. split; [exact E|]. split; [exact Hl|].
      apply (does_above_ext _ _ _ _ (call_limit parallel rows)); [|exact Dp]. intros i x _. symmetry. now apply (slow_limits floor). }
    destruct Hp as [Hp|Hp]; [now apply SL|]. destruct Hfit as [->|Hsl]; [|now apply SL].
    exists (the_roe parallel), (py_range 0 (Z.of_nat (rows + d_offset parallel))), (selected (d_window parallel) rows). split; [reflexivity|]. split.
    - destruct Hp as (c & f & g & w & full & beta & H1 & _). rewrite (sp_window _ _ _ _ _ _ _ H1). cbn [selected]. rewrite <- py_range_0. apply (window_columns _ rows); [apply range_sorted_from|now apply window_ok_range|lia].
    - apply (does_above_ext _ _ _ _ (timed_limit parallel rows)); [|apply does_timed; auto]. intros i x Hi. symmetry. now apply (timed_limits floor). }
  destruct HP as (rp & tw & lines & E & Hl & Dp). exists rp, rs, tw, lines. auto.
Qed.

(** ** Filling curves that flatten *)
From Coquelicot Require Import Continuity.
From Verif Require Import SpecTime ContinuumModel SpecContinuum ContinuumFacts LogNormalFacts HistoryBoundFacts.
Lemma decay_flattens x a b d : 0 < x -> 0 <= a <= b -> 0 <= d -> exp (- b / x) - exp (- (b + d) / x) <= exp (- a / x) - exp (- (a + d) / x).
Proof.
  intros Hx Hab Hd. assert (E : forall s, exp (- (s + d) / x) = exp (- s / x) * exp (- d / x)) by (intros s; rewrite <- exp_plus; f_equal; field; lra).
  rewrite !E. pose proof (decay_falls a b x ltac:(lra) Hx). pose proof (decay_range d x Hd Hx).
  assert (0 <= (exp (- a / x) - exp (- b / x)) * (1 - exp (- d / x))) by (apply Rmult_le_pos; lra). lra.
Qed.
Lemma survival_flattens p a b d : lifetimes p -> 0 <= a <= b -> 0 <= d -> survival p b - survival p (b + d) <= survival p a - survival p (a + d).
Proof.
  intros Hp Hab Hd. rewrite <- !(gap_average p Hp) by lra.
  assert (G : forall s x, 0 <= s -> 0 < x -> -1 <= exp (- s / x) - exp (- (s + d) / x) <= 1).
  { intros s x Hs Hx. pose proof (decay_range s x Hs Hx). pose proof (decay_range (s + d) x ltac:(lra) Hx). lra. }
  apply (average_le p Hp).
  - intros x Hx. now apply gap_continuous.
  - intros x Hx. apply G; lra.
  - intros x Hx. now apply gap_continuous.
  - intros x Hx. apply G; lra.
  - intros x Hx. apply decay_flattens; lra.
Qed.
Lemma log_normal_flattens root density m sigma t : 0 <= density -> 0 < m -> 0 < sigma -> log_normal_trap root density m sigma = Ok t -> flattening t.
Proof.
  intros Hd Hm Hs E. split; [now apply (log_normal_holds root density m sigma)|]. pose proof (log_normal_lifetimes m sigma Hs) as Hl.
  destruct (continuum_built log_normal_distribution root density m sigma ltac:(lra)) as (t' & E' & Ed & Ec).
  unfold log_normal_trap in E. rewrite E in E'. injection E' as <-. intros a b d Hab Hdd. unfold fill_fraction_from_time_elapsed. rewrite Ec, !fill_survival.
  now apply survival_flattens.
Qed.
