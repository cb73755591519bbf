(** * Specification of a readout: charge clouds moving past traps, as a mathematical model.

    Uses the trap model of Spec.v (release, then instant capture) and only the data types of
    the code's model.  Columns are functions from row numbers to charge, and the state of the
    traps is a profile per trap group: there are no watermarks here. *)
From Coq Require Import ZArith List Bool Reals.
From Verif Require Import Num CCDModel TrapsModel ManagerModel ROEModel ClockModel MainModel Spec SpecImage.
Import ListNotations.
Open Scope R_scope.

Definition column := Z -> R.
(** Column [j] of an image; zero below its last row (negative rows are never asked for). *)
Definition col_fun (im : image R) (j : nat) : column := fun z => pixel im (Z.to_nat z) j.

(** [q] electrons are added to the charge in a row, which cannot become negative. *)
Definition give (c : column) (row : Z) (q : R) : column :=
  fun i => if (i =? row)%Z then Rmax 0 (c i + q) else c i.
(** ... or shared between several rows: a list of (distance, fraction). *)
Definition deposit (targets : list (Z * R)) (row : Z) (q : R) (c : column) : column :=
  fold_left (fun c '(d, f) => give c (row + d)%Z (q * f)) targets c.

(** The traps in one phase of a pixel: one or more groups of species, and the depth reached by
    a charge cloud in this phase. *)
Record site := mkSite { site_groups : list (list (trap R)); site_well : R -> R }.

(** The states of the groups of a site, one profile each; every group meets the same [n]
    free electrons. *)
Definition site_net (s : site) (dwell n : R) (Ps : list profile) : R :=
  Rsum (map (fun '(g, P) => transfer_net g (site_well s) dwell n P) (combine (site_groups s) Ps)).
Definition site_after (s : site) (dwell n : R) (Ps : list profile) : list profile :=
  map (fun '(g, P) => transfer_after g (site_well s) dwell n P) (combine (site_groups s) Ps).

(** The trap states of all phases. *)
Definition traps_state := nat -> list profile.
Definition put (T : traps_state) (k : nat) (Ps : list profile) : traps_state :=
  fun k' => if Nat.eqb k' k then Ps else T k'.
Definition all_empty (sites : nat -> site) : traps_state :=
  fun k => map (fun _ => empty_profile) (site_groups (sites k)).

Definition no_electrode : roe_phase R := mkRP false 0%Z [] [].
Definition electrode (es : list (roe_phase R)) (k : nat) : roe_phase R := nth k es no_electrode.

Section Readout.
(** The traps, the phases that contain any, and the clocking steps: a dwell time and the
    state of the electrodes. *)
Context (sites : nat -> site) (phases : list nat) (steps : list (R * list (roe_phase R))).

(** The traps in phase [k] of pixel [row] for the duration of one clocking step.  [mult]
    is the number of identical transfers that this one stands for. *)
Definition expose (row : Z) (mult dwell : R) (es : list (roe_phase R))
    (st : column * traps_state) (k : nat) : column * traps_state :=
  let '(c, T) := st in
  let e := electrode es k in
  let n := if rp_high e then c (row + rp_capture e)%Z else 0 in
  (deposit (combine (rp_release e) (rp_fraction e)) row (site_net (sites k) dwell n (T k) * mult) c,
   put T k (site_after (sites k) dwell n (T k))).

(** All the steps it takes to move the charge of pixel [row] past these traps. *)
Definition transfer_pixel (row : Z) (mult : R) (st : column * traps_state) : column * traps_state :=
  fold_left (fun st '(dwell, es) => fold_left (expose row mult dwell es) phases st) steps st.

(** One pass: the pixels [(row, mult, save)] move in turn past the same traps.  Where
    [save] is set, the trap states at that moment are the ones the next passes start from. *)
Definition pass_cell (st : column * traps_state * traps_state) (cell : Z * R * bool)
    : column * traps_state * traps_state :=
  let '(c, T, saved) := st in
  let '(row, mult, save) := cell in
  let '(c', T') := transfer_pixel row mult (c, T) in
  (c', T', if save then T' else saved).
Definition transfer_pass (st : column * traps_state) (cells : list (Z * R * bool))
    : column * traps_state :=
  let '(c, saved) := st in
  let '(c', _, saved') := fold_left pass_cell cells (c, saved, saved) in
  (c', saved').

(** The passes in turn, starting with empty traps. *)
Definition readout (passes : list (list (Z * R * bool))) (c : column) : column :=
  fst (fold_left transfer_pass passes (c, all_empty sites)).
End Readout.

(** ** The configurations of the package *)

(** Depth reached in a well without notch (C02). *)
Definition depth (full beta n : R) : R :=
  if Rle_dec n 0 then 0 else Rpower (Rmin 1 (n / full)) beta.

(** The share of a trap density that is in one phase. *)
Definition thinned (fraction : R) (t : trap R) : trap R :=
  mkTrap (t_density t * fraction) (t_release_timescale t) (t_capture_rate t)
         (t_emission_rate t) (t_surface t) (t_class t).
Definition share (c : ccd R) (k : nat) : R := nth k (ccd_fractions c) 0.
Definition site_of (c : ccd R) (groups : list (list (trap R))) (k : nat) : site :=
  mkSite (map (map (thinned (share c k))) groups)
         (depth (nth k (ccd_full_well c) 1) (nth k (ccd_fill_power c) 1)).
Definition trap_phases (c : ccd R) : list nat :=
  filter (fun k => if Rlt_dec 0 (share c k) then true else false) (seq 0 (ccd_n_phases c)).

(** The clocking steps that take any time. *)
Definition timed_steps (r : roe R) : list (R * list (roe_phase R)) :=
  filter (fun '(d, _) => if Rlt_dec 0 d then true else false)
         (combine (roe_dwell_times r) (roe_clock_sequence r)).

(** A CCD without notch, with consistent parameter lists. *)
Record plain_ccd (c : ccd R) : Prop := {
  pc_fractions : length (ccd_fractions c) = ccd_n_phases c;
  pc_share : forall k, 0 <= share c k;
  pc_phase : forall k, (k < ccd_n_phases c)%nat ->
    exists full beta, phase_params c k 0 beta full /\ 0 < full /\ 0 < beta
}.

(** Groups of instant-capture traps: non-empty, physical. *)
Definition instant_group (g : list (trap R)) : Prop :=
  g <> [] /\ Forall (fun t => physical t /\ t_class t = CInstant) g.

(** The passes described by the rows of an express matrix, for the given image rows: the
    pixels to monitor, with their multipliers, and where to save. *)
Definition cells_of (window : list Z) (mults : list R) (monitors saves : list bool)
    : list (Z * R * bool) :=
  flat_map (fun '(row, (m, (monitor, save))) => if monitor : bool then [(row, m, save)] else [])
    (combine window (combine mults (combine monitors saves))).

(** The readout of the default windows, without time window, when every transfer is
    computed: pass [e] contains the rows that are still at least [e - offset] rows away
    from the readout register. *)
Definition full_passes (rows offset : nat) : list (list (Z * R * bool)) :=
  map (fun e => map (fun w => (Z.of_nat w, 1, false)) (seq (e - offset) (rows - (e - offset))))
      (seq 0 (rows + offset)).

(** With empty_traps_for_first_transfers=False (and no offset): each pass but the last
    saves the trap states after its first pixel, and the next one starts from them. *)
Definition saving_passes (rows : nat) : list (list (Z * R * bool)) :=
  map (fun e => map (fun w => (Z.of_nat w, 1, (Nat.eqb w e && Nat.ltb (S e) rows)%bool)) (seq e (rows - e)))
      (seq 0 rows).

(** The groups in a [traps] argument: a single species, one group, or a list of groups. *)
Definition groups_in (a : traps_arg R) : list (list (trap R)) :=
  match a with TOne t => [[t]] | TFlat l => [l] | TNested l => l end.
Definition instant_traps (a : traps_arg R) : Prop :=
  groups_in a <> [] /\ Forall instant_group (groups_in a).

(** The settings of one direction of readout in which everything is instant: no traps, or
    instant-capture traps in a CCD without notch, read out by a ROE as built by the
    constructor of ROE, with its defaults except for the dwell times and dtype, and an
    express value other than the one that never works (C29). *)
Record plain_setting (d : direction R) (n : nat) (c : ccd R) (traps : traps_arg R)
    (dwell : list R) (dt : dtype) : Prop := {
  ps_ccd : d_ccd d = Some c;
  ps_traps : d_traps d = Some traps;
  ps_roe : d_roe d = Some (roe_init dwell true true true dt)
           \/ d_roe d = None /\ dwell = [1] /\ dt = DFloat;
  ps_plain : plain_ccd c;
  ps_phases : (ccd_n_phases c <= length dwell)%nat;
  ps_instant : instant_traps traps;
  ps_express : d_express d = 0%nat \/ S (d_express d) <> n
}.
Definition plain_direction (d : direction R) (n : nat) : Prop :=
  d_window d = WNone /\
  (d_traps d = None \/ exists c traps dwell dt, plain_setting d n c traps dwell dt).
(** No traps in spite of the trap species given. *)
Definition no_density (traps : traps_arg R) : Prop :=
  Forall (Forall (fun t => t_density t = 0)) (groups_in traps).
(** Columns of an image, each at most once. *)
Definition columns_ok (columns : list Z) (cols : nat) : Prop :=
  NoDup columns /\ forall j, In j columns -> (0 <= j < Z.of_nat cols)%Z.

(** Charge injection: every pass contains all the rows, with the same multiplier. *)
Definition injection_passes (rows passes : nat) (mult : nat -> R) : list (list (Z * R * bool)) :=
  map (fun i => map (fun w => (Z.of_nat w, mult i, false)) (seq 0 rows)) (seq 0 passes).
(** The number of passes that the [express] argument asks for. *)
Definition passes_for (transfers express : nat) : nat :=
  if Nat.eqb express 0 then transfers else Nat.min express transfers.
