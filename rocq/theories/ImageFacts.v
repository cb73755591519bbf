(** * add_cti: columns, and the ROE objects after the call. *)
From Coq Require Import ZArith List Bool Lia.
From Verif Require Import Num Py CCDModel TrapsModel ManagerModel ROEModel ClockModel MainModel SpecImage ClockFacts MainFacts ShapeFacts ColumnFacts.
Import ListNotations.

Section Image.
Context {F : Type} {num : Num F}.
Implicit Types (im : image F) (r : roe F) (d : direction F).

Lemma one_column_length (col : list F) : length (one_column col) = length col.
Proof. apply map_length. Qed.
Lemma one_column_columns (col : list F) : (0 < length col)%nat -> n_columns (one_column col) = 1%nat.
Proof. destruct col; cbn; [lia|reflexivity]. Qed.
Lemma column_of_length im j : length (column_of im j) = length im.
Proof. apply map_length. Qed.

(** C40 *)
Lemma add_cti_columns im parallel serial tw im' pr sr rows cols j :
  shape rows cols im -> (0 < rows)%nat -> roe_empty_between (the_roe parallel) = true ->
  d_traps serial = None -> NoDup (selected (d_window serial) cols) -> In (Z.of_nat j) (selected (d_window serial) cols) ->
  add_cti im parallel serial tw = Ok (im', pr, sr) ->
  add_cti (one_column (column_of im j)) parallel no_direction tw = Ok (one_column (column_of im' j), pr, the_roe no_direction).
Proof.
  intros Hs Hr He Ht Hnd Hj H. apply add_cti_halves in H as (tw' & columns & im1 & Etw & H1 & H2). rewrite Ht in H2. destruct H2 as [-> _].
  assert (Ecols : n_columns im = cols). { destruct Hs as [<- Hs]. destruct im; [cbn in Hr; lia|]. inversion Hs; assumption. }
  assert (Erows : length im = rows) by apply Hs.
  rewrite Ecols, Erows in H1. rewrite Erows in Etw.
  unfold add_cti. rewrite one_column_length, column_of_length, one_column_columns by (rewrite column_of_length; lia).
  rewrite !resolve_selected, Erows. rewrite Etw. cbn [bind].
  destruct (d_traps parallel) as [traps|] eqn:Ep; [|destruct H1 as [-> ->]; reflexivity].
  unfold clock_direction in *. destruct (d_ccd parallel) as [c|].
  - pose proof (columns_independent _ _ _ _ _ _ _ _ _ _ _ rows cols Hs Hr He Hnd H1 j Hj) as G. cbn [selected d_window no_direction seq map].
    change (Z.of_nat 0) with 0%Z. rewrite G. reflexivity.
  - exfalso. apply bind_ok in H1 as ([[x y] z] & _ & H1). apply bind_ok in H1 as (? & _ & H1). discriminate.
Qed.

(** The ROE object returned is the one passed in, but for charge injection. *)
Lemma direction_keeps_roe im d r traps window columns tw im' r' :
  clock_direction im d r traps window columns tw = Ok (im', r') ->
  (forall npt, roe_kind_of r <> Injection npt) -> r' = r.
Proof.
  intros H Hk. unfold clock_direction in H.
  assert (G : forall em mon r', express_and_monitor r window (d_express d) (d_offset d) tw = Ok (r', em, mon) -> r' = r).
  { intros em mon r1 E. unfold express_and_monitor in E. destruct (roe_kind_of r) as [ef|npt|n ef]; [|destruct (Hk npt eq_refl)|];
    apply bind_ok in E as ([em' mon'] & _ & E); injection E as <- _ _; reflexivity. }
  destruct (d_ccd d) as [c|].
  - unfold clock_charge_in_one_direction in H. apply bind_ok in H as ([[r1 em] mon] & E & H). apply G in E as ->.
    apply bind_ok in H as (? & _ & H). apply bind_ok in H as (? & _ & H). apply bind_ok in H as (? & _ & H).
    apply bind_ok in H as ([? ?] & _ & H). injection H as _ <-. reflexivity.
  - apply bind_ok in H as ([[x y] z] & _ & H). apply bind_ok in H as (? & _ & H). discriminate.
Qed.
Lemma add_cti_keeps_roe im parallel serial tw im' pr sr : add_cti im parallel serial tw = Ok (im', pr, sr) ->
  ((forall npt, roe_kind_of (the_roe parallel) <> Injection npt) -> pr = the_roe parallel) /\
  ((forall npt, roe_kind_of (the_roe serial) <> Injection npt) -> sr = the_roe serial).
Proof.
  intros H. apply add_cti_halves in H as (tw' & columns & im1 & Etw & H1 & H2). split; intros Hk.
  - destruct (d_traps parallel); [|tauto]. exact (direction_keeps_roe _ _ _ _ _ _ _ _ _ H1 Hk).
  - destruct (d_traps serial); [|tauto]. destruct H2 as (im2 & H2 & _). exact (direction_keeps_roe _ _ _ _ _ _ _ _ _ H2 Hk).
Qed.
End Image.
