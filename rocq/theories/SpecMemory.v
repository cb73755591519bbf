(** * Specification vocabulary: calls that do not make the compiled loops leave their arrays. *)
From Coq Require Import ZArith List Bool Reals.
From Verif Require Import Num Py CCDModel TrapsModel ManagerModel ROEModel ClockModel MainModel SpecImage.
Import ListNotations.

Section Memory.
Context {F : Type} {num : Num F}.

(** A readout object from one of the constructors, with electrodes for [phases] phases. *)
Inductive fresh : roe F -> nat -> Prop :=
| fresh_roe dwell ef eb force dt : fresh (roe_init dwell ef eb force dt) (length dwell)
| fresh_injection dwell npt eb force dt : fresh (roe_injection_init dwell npt eb force dt) (length dwell)
| fresh_pumping dwell n_pumps ef dt r : roe_pumping_init dwell n_pumps ef dt = Ok r -> fresh r (Nat.div2 (length dwell)).

(** Clouds with a volume contain charge. *)
Definition no_cloud_without_charge (c : ccd F) : Prop :=
  forall phase n v, well_fill c phase false n = Ok v -> (n0 <? v)%num = true -> (n0 <? n)%num = true.

(** The groups of traps in an argument. *)
Inductive group_in : list (trap F) -> traps_arg F -> Prop :=
| group_one t : group_in [t] (TOne t)
| group_flat l : group_in l (TFlat l)
| group_nested g l : In g l -> group_in g (TNested l).

(** One direction of clocking [n] pixels.  The pixels of the window are in the image, and the
    first pixel is not in it if electrons may be released towards the readout register; the
    device has no more phases than the readout; no group is headed by a trap whose capture
    takes time. *)
Record kept_inside (d : direction F) (n : nat) : Prop := {
  ki_roe : exists phases, fresh (the_roe d) phases /\ forall c, d_ccd d = Some c -> (length (ccd_fractions c) <= phases)%nat;
  ki_window : forall i, In i (selected (d_window d) n) -> ((if roe_force (the_roe d) then 0 else 1) <= i < Z.of_nat n)%Z;
  ki_well : forall c, d_ccd d = Some c -> no_cloud_without_charge c;
  ki_traps : forall traps t l, d_traps d = Some traps -> group_in (t :: l) traps -> t_class t <> CTrap
}.
End Memory.

(** A well that charge fills from the notch upwards, in all phases. *)
Definition real_wells (c : ccd R) : Prop :=
  forall phase notch beta full,
    nth_error (ccd_notch c) phase = Some notch -> nth_error (ccd_fill_power c) phase = Some beta ->
    nth_error (ccd_full_well c) phase = Some full -> (0 <= notch < full)%R /\ (0 < beta)%R.
