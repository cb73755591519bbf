(** * Property C90: what update_fits_header_info (arcticpy/util.py) leaves in the header. *)
From Coq Require Import List Bool String.
From Verif Require Import Py MainModel HeaderModel SpecHeader HeaderFacts.
Import ListNotations.
Open Scope string_scope.

(** C90: for objects of any class, whether the call returns or raises, the values under keywords
    that do not begin with cte_ stay as they were. *)
Theorem C90_other_keywords_stay {V} (repr : object V -> string) (h : header V) pc sc pt st pccd sccd key : String.prefix "cte_" key = false ->
  value_of (fst (update_header repr h pc sc pt st pccd sccd)) key = value_of h key.
Proof. intros H. exact (update_keeps repr key H h pc sc pt st pccd sccd). Qed.
Print Assumptions C90_other_keywords_stay.

(** Objects that have all the attributes asked for, with the traps numbered (as by [enumerate]):
    everything is recorded, the value of the serial trap if there are a parallel and a serial
    trap with the same number. *)
Theorem C90_described_objects_are_recorded {V} (repr : object V -> string) (h : header V) (pc sc : object V) lp ls (pccd sccd : object V) ip is np bp ns bs :
  pc "iterations" = Some ip -> sc "iterations" = Some is -> described lp -> described ls ->
  pccd "well_notch_depth" = Some np -> pccd "well_fill_beta" = Some bp -> sccd "well_notch_depth" = Some ns -> sccd "well_fill_beta" = Some bs ->
  exists h', update_header repr h (Some pc) (Some sc) (Some (numbered lp)) (Some (numbered ls)) (Some pccd) (Some sccd) = (h', None) /\
    value_of h' "cte_pite" = Some ip /\ value_of h' "cte_site" = Some is /\
    value_of h' "cte_pwln" = Some np /\ value_of h' "cte_pwlp" = Some bp /\ value_of h' "cte_swln" = Some ns /\ value_of h' "cte_swlp" = Some bs /\
    forall i,
      value_of h' (density_key i) =
        or_else (numbered_attribute ls i "trap_density") (or_else (numbered_attribute lp i "trap_density") (value_of h (density_key i))) /\
      value_of h' (lifetime_key i) =
        or_else (numbered_attribute ls i "trap_lifetime") (or_else (numbered_attribute lp i "trap_lifetime") (value_of h (lifetime_key i))).
Proof. exact (update_described repr h pc sc lp ls pccd sccd ip is np bp ns bs). Qed.
Print Assumptions C90_described_objects_are_recorded.

(** So with [enumerate] for both directions nothing of the parallel traps is left, up to the
    number of serial traps: they share their keywords. *)
Theorem C90_both_directions_are_recorded_refuted {V} (repr : object V -> string) (h : header V) pc sc lp ls pccd sccd i parallel serial :
  has pc ["iterations"] -> has sc ["iterations"] -> described lp -> described ls ->
  has pccd ["well_notch_depth"; "well_fill_beta"] -> has sccd ["well_notch_depth"; "well_fill_beta"] ->
  numbered_attribute lp i "trap_density" = Some parallel -> numbered_attribute ls i "trap_density" = Some serial ->
  value_of (fst (update_header repr h (Some pc) (Some sc) (Some (numbered lp)) (Some (numbered ls)) (Some pccd) (Some sccd))) (density_key i) = Some serial.
Proof.
  intros H1 H2 Dp Ds H3 H4 _ E.
  assert (G : forall (o : object V) l a, has o (a :: l) -> exists v, o a = Some v).
  { intros o l a H. apply Forall_inv in H. destruct (o a); [eauto|contradiction]. }
  assert (G2 : forall (o : object V) l b a, has o (b :: a :: l) -> exists v, o a = Some v) by (intros o l b a H; exact (G o l a (Forall_inv_tail H))).
  destruct (G _ _ _ H1) as [ip E1]. destruct (G _ _ _ H2) as [is E2]. destruct (G _ _ _ H3) as [np E3]. destruct (G2 _ _ _ _ H3) as [bp E4].
  destruct (G _ _ _ H4) as [ns E5]. destruct (G2 _ _ _ _ H4) as [bs E6].
  destruct (C90_described_objects_are_recorded repr h pc sc lp ls pccd sccd ip is np bp ns bs E1 E2 Dp Ds E3 E4 E5 E6) as (h' & -> & _ & _ & _ & _ & _ & _ & K).
  cbn [fst]. now rewrite (proj1 (K i)), E.
Qed.
Print Assumptions C90_both_directions_are_recorded_refuted.

(** Without a serial clocker only the iterations are recorded, whatever the objects are. *)
Theorem C90_parallel_settings_are_recorded_refuted {V} (repr : object V -> string) (h : header V) (pc : object V) pt st pccd sccd ip : pc "iterations" = Some ip ->
  exists h', update_header repr h (Some pc) None pt st pccd sccd = (h', None) /\ value_of h' "cte_pite" = Some ip /\
    forall key, key <> "cte_pite" -> value_of h' key = value_of h key.
Proof.
  intros E. eexists. split; [exact (no_serial_clocker repr h pc pt st pccd sccd ip E)|]. split; [now rewrite value_hset|].
  intros key K. rewrite value_hset. apply not_eq_sym, String.eqb_neq in K. now rewrite K.
Qed.
Print Assumptions C90_parallel_settings_are_recorded_refuted.

(** A call that fails leaves its traces: with one of the package's CCDs the notch depth is in the
    header when AttributeError is raised. *)
Theorem C90_a_failed_call_changes_nothing_refuted {V} (repr : object V -> string) (h : header V) (sc ccd : object V) notch is : sc "iterations" = Some is -> is_ccd ccd notch ->
  exists h', update_header repr h None (Some sc) None None None (Some ccd) = (h', Some AttributeError) /\
    value_of h' "cte_site" = Some is /\ value_of h' "cte_swln" = Some notch.
Proof. exact (failed_call repr h sc ccd notch is). Qed.
Print Assumptions C90_a_failed_call_changes_nothing_refuted.

(** For the package's own objects the exceptions are those of C48. *)
Theorem C90_exceptions {V} (repr : object V -> string) (h : header V) numbers (pc sc : option (object V)) pt st pccd sccd :
  (forall c, pc = Some c -> c "iterations" <> None) -> (forall c, sc = Some c -> c "iterations" <> None) ->
  (forall l, pt = Some l -> Forall package_element l) -> (forall l, st = Some l -> Forall package_element l) ->
  (forall c, pccd = Some c -> exists notch, is_ccd c notch) -> (forall c, sccd = Some c -> exists notch, is_ccd c notch) ->
  agrees (update_header repr h pc sc pt st pccd sccd)
    (update_fits_header_info numbers (given pc) (given sc) (option_map (map shape_of) pt) (option_map (map shape_of) st) (given pccd) (given sccd)).
Proof. exact (agree repr h numbers pc sc pt st pccd sccd). Qed.
Print Assumptions C90_exceptions.

(** Three iterations, two traps in each direction, both CCDs; the header had a title and an
    old density. *)
Definition fields (l : list (string * nat)) : object nat := fun a => option_map snd (find (fun c => String.eqb (fst c) a) l).
Definition clocker := fields [("iterations", 3)].
Definition some_trap d t := fields [("trap_density", d); ("trap_lifetime", t)].
Definition some_ccd n b := fields [("well_notch_depth", n); ("well_fill_beta", b)].
Definition old_header : header nat := [("title", (7, "an image")); ("cte_pt1d", (99, "old"))].
Example C90_objects : has clocker ["iterations"] /\ described [(0, some_trap 10 1); (1, some_trap 20 2)] /\ has (some_ccd 5 1) ["well_notch_depth"; "well_fill_beta"].
Proof. repeat split; repeat constructor; discriminate. Qed.
Example C90_example :
  update_header (fun _ => "") old_header (Some clocker) (Some clocker) (Some (numbered [(0, some_trap 10 1); (1, some_trap 20 2)]))
    (Some (numbered [(0, some_trap 30 3)])) (Some (some_ccd 5 1)) (Some (some_ccd 6 2)) =
  ([("title", (7, "an image")); ("cte_pt1d", (20, "Trap trap 1 density (Parallel)")); ("cte_pite", (3, "Iterations Used In Correction (Parallel)"));
    ("cte_site", (3, "Iterations Used In Correction (Serial)")); ("cte_pt0d", (30, "Trap trap 0 density (Serial)"));
    ("cte_pt0t", (3, "Trap trap 0 lifetime (Serial)")); ("cte_pt1t", (2, "Trap trap 1 lifetime (Parallel)"));
    ("cte_swln", (6, "CCD Well notch depth (Serial)")); ("cte_swlp", (2, "CCD Well filling power (Serial)"));
    ("cte_pwln", (5, "CCD Well notch depth (Parallel)")); ("cte_pwlp", (1, "CCD Well filling power (Parallel)"))], None).
Proof. reflexivity. Qed.
Example C90_package_objects : is_trap (fields [("density", 10); ("release_timescale", 1)]) /\ is_ccd (fields [("well_notch_depth", 4); ("well_fill_power", 1)]) 4.
Proof. repeat split. Qed.
