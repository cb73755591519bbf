(** * Property C42, continued: nothing changes if no trap has time to act
    (main.py:36-233, main_utils.pyx:132-257). *)
From Coq Require Import ZArith List Bool Reals Lra Lia.
From Verif Require Import Num Py RFacts CCDModel TrapsModel ManagerModel ROEModel ClockModel MainModel SpecImage SpecIdle
  ReadoutFull MainReadoutFacts ReadoutExamples IdleFacts.
Import ListNotations.
Open Scope R_scope.

(** Whatever the kind of ROE and of traps, the express value, the windows, and the pixels,
    which may be negative, or NaN: any type of numbers will do. *)
Theorem C42_no_time_or_no_share {F} {num : Num F} (im : image F) parallel serial tw im' pr sr rows cols :
  shape rows cols im -> (0 < rows)%nat -> (0 < cols)%nat -> idle parallel -> idle serial ->
  add_cti im parallel serial tw = Ok (im', pr, sr) -> im' = im.
Proof. exact (idle_unchanged im parallel serial tw im' pr sr rows cols). Qed.
Print Assumptions C42_no_time_or_no_share.

(** A dwell time of 0, and a negative pixel, which any readout that takes time sets to 0. *)
Definition timeless : direction R := mkDir (Some small_ccd) (Some (roe_init [0] true true true DFloat)) (Some (TOne (small_trap 1))) 0 0 WNone.
Example C42_time_example : shape 2 1 [[-1]; [5]] /\ idle timeless /\ idle (@no_direction R) /\
  exists pr sr, add_cti [[-1]; [5]] timeless no_direction None = Ok ([[-1]; [5]], pr, sr).
Proof.
  assert (H1 : shape 2 1 [[-1]; [5]]) by (split; [reflexivity|repeat constructor]).
  assert (H2 : idle timeless). { right. constructor; [|constructor]. rnum. apply Rltb_false. lra. }
  assert (H3 : idle (@no_direction R)). { left. discriminate. }
  split; [exact H1|]. split; [exact H2|]. split; [exact H3|].
  destruct (add_cti [[-1]; [5]] timeless no_direction None) as [[[im' pr] sr]|e] eqn:E.
  - exists pr, sr. rewrite (C42_no_time_or_no_share _ timeless no_direction None im' pr sr 2 1 H1 ltac:(lia) ltac:(lia) H2 H3 E). reflexivity.
  - exfalso. destruct (express_all_range true DFloat 2 0 0 ltac:(lia) (or_introl eq_refl)) as (em & mon & Eex & _).
    rewrite (add_cti_only_parallel _ timeless no_direction (TOne (small_trap 1)) eq_refl eq_refl) in E.
    unfold clock_direction, clock_charge_in_one_direction, express_and_monitor in E. cbn [d_ccd timeless the_roe d_roe roe_init make_roe roe_kind_of roe_dtype d_express d_offset d_window resolve_window length no_direction n_columns] in E.
    rewrite Eex in E. cbn [bind] in E.
    match type of E with context [save_matrix ?r em] => change (save_matrix r em) with (Ok (map (map (fun _ : R => false)) em)) in E end. cbn [bind] in E.
    match type of E with context [atm_init ?t ?n ?c] => destruct (atm_init t n c) as [a|e1] eqn:Ea; [|discriminate] end. cbn [bind] in E.
    match type of E with context [n_padding ?r] => change (n_padding r) with (@Ok nat 0%nat) in E end. cbn [bind] in E.
    assert (Hz : never_positive [0]) by (constructor; [rnum; apply Rltb_false; lra|constructor]).
    match type of E with context [clock_columns ?c ?r ?w ?cs ?ps (?im, ?a)] =>
      destruct (idle_columns c r w (or_intror Hz) cs ps 2 1 im a H1 ltac:(lia)) as (a' & E') end.
    { intros j [<-|[]]. lia. }
    rewrite E' in E. discriminate.
Qed.
