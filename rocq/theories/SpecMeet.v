(** * Specification of a readout past groups of traps of all kinds: any number of phases, any groups. *)
From Coq Require Import ZArith List Bool Reals Sorted.
From Verif Require Import Num Py CCDModel TrapsModel ManagerModel ROEModel ClockModel MainModel Spec SpecROE SpecImage SpecReadout SpecTime SpecSlow SpecHistory SpecHold SpecFlatten SpecBound SpecWork SpecWindowOrder.
Import ListNotations.
Open Scope R_scope.

(** What is known of the traps of a group: their occupancies, or the times since they were filled. *)
Inductive group_state := Occupied (P : profile) | Since (T : times).
Definition unfilled (g : list (trap R)) : group_state :=
  match kind_for g with KTime => Since never | _ => Occupied empty_profile end.

(** A cloud of [n] electrons stays for a time [dwell]: the electrons that the group gives (or takes,
    when negative), and its state afterwards.  Instant capture: release, then capture as in
    Spec.v.  Slow capture: the rate equation as in SpecSlow.v.  Otherwise: the traps reached
    are all filled anew, as in SpecTime.v. *)
Definition group_net (g : list (trap R)) (well : R -> R) (dwell n : R) (s : group_state) : R :=
  match s with
  | Occupied P => match kind_for g with KSlow => - slow_taken g well dwell n P | _ => transfer_net g well dwell n P end
  | Since T => held g T - held g (times_after g well dwell n T)
  end.
Definition group_after (g : list (trap R)) (well : R -> R) (dwell n : R) (s : group_state) : group_state :=
  match s with
  | Occupied P => Occupied match kind_for g with KSlow => slow_after g well dwell n P | _ => transfer_after g well dwell n P end
  | Since T => Since (times_after g well dwell n T)
  end.
(** The groups of a site all meet the same [n] electrons. *)
Definition groups_net (s : site) (dwell n : R) (states : list group_state) : R :=
  Rsum (map (fun '(g, x) => group_net g (site_well s) dwell n x) (combine (site_groups s) states)).
Definition groups_after (s : site) (dwell n : R) (states : list group_state) : list group_state :=
  map (fun '(g, x) => group_after g (site_well s) dwell n x) (combine (site_groups s) states).

Section Meet.
(** How the traps of phase [k] respond to a cloud of [n] electrons. *)
Context {St : Type} (net : nat -> R -> R -> St -> R) (after : nat -> R -> R -> St -> St).
Context (phases : list nat) (steps : list (R * list (roe_phase R))).
Definition set_phase (T : nat -> St) (k : nat) (s : St) : nat -> St := fun k' => if Nat.eqb k' k then s else T k'.
(** As [expose], [transfer_pixel] and [readout] in SpecReadout.v; the traps of a new pixel are in
    the state [start]. *)
Definition meet (row : Z) (mult dwell : R) (es : list (roe_phase R)) (st : column * (nat -> St)) (k : nat)
    : column * (nat -> St) :=
  let '(c, T) := st in
  let e := electrode es k in
  let n := if rp_high e then c (row + rp_capture e)%Z else 0 in
  (deposit (combine (rp_release e) (rp_fraction e)) row (net k dwell n (T k) * mult) c,
   set_phase T k (after k dwell n (T k))).
Definition meet_pixel (row : Z) (mult : R) (st : column * (nat -> St)) : column * (nat -> St) :=
  fold_left (fun st '(dwell, es) => fold_left (meet row mult dwell es) phases st) steps st.
Definition meet_cells (cells : list (Z * R * bool)) (st : column * (nat -> St)) : column * (nat -> St) :=
  fold_left (fun st '(row, mult, _) => meet_pixel row mult st) cells st.
Definition meet_all (start : nat -> St) (passes : list (list (Z * R * bool))) (c : column) : column :=
  fold_left (fun c cells => fst (meet_cells cells (c, start))) passes c.
End Meet.

(** The readout of a column past groups of traps of any kind. *)
Definition meeting (c : ccd R) (groups : list (list (trap R))) (steps : list (R * list (roe_phase R)))
    (passes : list (list (Z * R * bool))) : column -> column :=
  meet_all (fun k => groups_net (site_of c groups k)) (fun k => groups_after (site_of c groups k))
    (trap_phases c) steps (fun k => map unfilled (site_groups (site_of c groups k))) passes.

(** Groups of one kind each: instant traps, slow traps, or traps that record times. *)
Definition kind_group (g : list (trap R)) : Prop :=
  g <> [] /\
  (Forall (fun t => physical t /\ t_class t = CInstant) g
   \/ Forall (fun t => capturing t /\ t_class t = CTrap) g
   \/ kind_for g = KTime /\ Forall flattening g).
Definition kind_traps (a : traps_arg R) : Prop := groups_in a <> [] /\ Forall kind_group (groups_in a).
(** The electrons that a group can hold. *)
Definition group_traps (g : list (trap R)) : R :=
  match kind_for g with KTime => filled_traps g | _ => full_traps g end.
(** If an electron more in the cloud reaches [r] traps more, at most so many more electrons are
    taken: slow traps also give back less of what they had. *)
Definition grip (k : mkind) (r : R) : R := match k with KSlow => 1 - (1 - r) ^ 2 | _ => r end.
(** In phase [k], an electron more in a cloud leads to less than one more being taken by all groups in
    all the [x] transfers that one computed transfer stands for. *)
Definition mild_phase (c : ccd R) (groups : list (list (trap R))) (x : R) (k : nat) : Prop :=
  exists full beta, phase_params c k 0 beta full /\ 1 <= beta /\
    Forall (fun g => share c k * group_traps g * beta < full) groups /\
    x * Rsum (map (fun g => grip (kind_for g) (share c k * group_traps g * beta / full)) groups) < 1.

(** In phase [k], an electron more in a cloud leads to less than one more trap being reached, for
    each group of traps that are not instant. *)
Definition roomy_phase (c : ccd R) (groups : list (list (trap R))) (k : nat) : Prop :=
  Forall (fun g => kind_for g = KInstant \/
    exists full beta, phase_params c k 0 beta full /\ 1 <= beta /\ share c k * group_traps g * beta < full) groups.

(** As [plain_setting] in SpecReadout.v, with groups of any kind. *)
Record kinds_setting (d : direction R) (n : nat) (c : ccd R) (traps : traps_arg R) (dwell : list R) (dt : dtype) : Prop := {
  ks_ccd : d_ccd d = Some c;
  ks_traps : d_traps d = Some traps;
  ks_roe : d_roe d = Some (roe_init dwell true true true dt)
           \/ d_roe d = None /\ dwell = [1] /\ dt = DFloat;
  ks_plain : plain_ccd c;
  ks_phases : (ccd_n_phases c <= length dwell)%nat;
  ks_kinds : kind_traps traps;
  ks_express : d_express d = 0%nat \/ S (d_express d) <> n
}.
Record kinds_injection (d : direction R) (n : nat) (c : ccd R) (traps : traps_arg R) (dwell : list R) (npt : option nat) : Prop := {
  ki_ccd : d_ccd d = Some c;
  ki_traps : d_traps d = Some traps;
  ki_roe : d_roe d = Some (roe_injection_init dwell npt true true DFloat);
  ki_plain : plain_ccd c;
  ki_phases : (ccd_n_phases c <= length dwell)%nat;
  ki_kinds : kind_traps traps;
  ki_some : (0 < injection_transfers npt n (d_offset d))%nat
}.
(** One direction: clocked within a window of any rows in order, or by charge injection. *)
Definition kinds_in_window (d : direction R) (n : nat) : Prop :=
  exists b, StronglySorted Z.lt (selected (d_window d) n) /\ window_ok (selected (d_window d) n) b /\ (b <= n)%nat /\
  (d_traps d = None \/ exists c traps dwell dt, kinds_setting d b c traps dwell dt /\
     forall k x, (k < ccd_n_phases c)%nat -> per_pass dt (b + d_offset d) (passes_for (b + d_offset d) (d_express d)) x ->
       mild_phase c (groups_in traps) x k).
Definition kinds_injected (d : direction R) (n : nat) : Prop :=
  d_window d = WNone /\
  exists c traps dwell npt, kinds_injection d n c traps dwell npt /\
    let N := injection_transfers npt n (d_offset d) in
    forall k, (k < ccd_n_phases c)%nat -> mild_phase c (groups_in traps) (INR N / INR (passes_for N (d_express d))) k.
Definition kinds_call (d : direction R) (n : nat) : Prop := kinds_in_window d n \/ kinds_injected d n.

(** What the traps can do to a pixel (as in SpecBound.v). *)
Definition all_traps (groups : list (list (trap R))) : R := Rsum (map group_traps groups).
Inductive kinds_limit (d : direction R) (n i : nat) : R -> Prop :=
| kinds_none : d_traps d = None -> kinds_limit d n i 0
| kinds_out : ~ In (Z.of_nat i) (selected (d_window d) n) -> ~ In (Z.of_nat i - 1)%Z (selected (d_window d) n) -> kinds_limit d n i 0
| kinds_step b c traps dwell dt : window_ok (selected (d_window d) n) b -> kinds_setting d b c traps [dwell] dt ->
    kinds_limit d n i (INR (i + 1 + d_offset d) * (all_shares c * all_traps (groups_in traps)))
| kinds_steps b c traps dwell dt : window_ok (selected (d_window d) n) b -> kinds_setting d b c traps dwell dt ->
    kinds_limit d n i ((INR (i + 1 + d_offset d) + match i with O => 0 | S _ => INR (i + d_offset d) end)
                        * (INR (length dwell) * (all_shares c * all_traps (groups_in traps))))
| kinds_injection_step c traps dwell npt : kinds_injection d n c traps [dwell] npt ->
    kinds_limit d n i (INR (injection_transfers npt n (d_offset d)) * (all_shares c * all_traps (groups_in traps)))
| kinds_injection_steps c traps dwell npt : kinds_injection d n c traps dwell npt ->
    kinds_limit d n i (INR (injection_transfers npt n (d_offset d)) * match i with O => 1 | S _ => 2 end
                           * (INR (length dwell) * (all_shares c * all_traps (groups_in traps)))).
Definition kinds_enough (parallel serial : direction R) (rows cols : nat) (im : image R) : Prop :=
  forall i j, (i < rows)%nat -> (j < cols)%nat -> exists p s,
    kinds_limit parallel rows i p /\ kinds_limit serial cols j s /\ 2 * (p + s) < pixel im i j.
