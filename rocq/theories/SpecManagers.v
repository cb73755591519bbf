(** * Specification: collections of trap managers, and the removal of trails. *)
From Coq Require Import ZArith List Bool Reals.
From Verif Require Import Num CCDModel TrapsModel ManagerModel ROEModel ClockModel MainModel Spec SpecImage SpecReadout.
Import ListNotations.
Open Scope R_scope.

(** The manager of one group of species in a phase that holds the given fraction of the
    pixel, with room for [transfers] transfers: empty traps, each species with its share of
    the density. *)
Definition manages (transfers : nat) (fraction : R) (g : list (trap R)) (m : manager R) : Prop :=
  match g with
  | [] => False
  | t :: _ =>
      m_kind m = match t_class t with CTrap => KSlow | CInstant => KInstant | CContinuum _ _ _ => KTime end
  end /\
  Forall2 (fun t t' => t' = thinned fraction t) g (m_traps m) /\
  length (m_wm m) = S (match m_kind m with KSlow => 2 * transfers | _ => transfers end) /\
  Forall (fun row => row = (0, repeat 0 (length g))) (m_wm m).

(** What can happen to the managers: saving, restoring, emptying, and any other change. *)
Inductive action := Save | Restore | Empty | Change (data : list (list (manager R))).

(** The same managers with every volume and every entry 0. *)
Definition emptied : list (list (manager R)) -> list (list (manager R)) :=
  map (map (fun m => mkManager (m_kind m) (m_traps m)
                       (map (fun row => (0, repeat 0 (length (snd row)))) (m_wm m)))).

(** The electrons in the traps, by any way of counting them. *)
Section Account.
Context (count : list (list (manager R)) -> R).
(** The trap states after a history, the most recent first, starting with empty traps
    [d0]: restoring goes back to the last save, or to empty traps. *)
Fixpoint states (d0 : list (list (manager R))) (history : list action)
    : list (list (manager R)) * option (list (list (manager R))) :=
  match history with
  | [] => (d0, None)
  | a :: earlier =>
      let '(data, saved) := states d0 earlier in
      match a with
      | Save => (data, Some data)
      | Restore => (match saved with Some d => d | None => emptied data end, saved)
      | Empty => (emptied data, saved)
      | Change data' => (data', saved)
      end
  end.
(** The electrons that entered the traps less those that left them, over the whole
    history; those in traps that are saved or restored do not move. *)
Fixpoint entered (d0 : list (list (manager R))) (history : list action) : R :=
  match history with
  | [] => 0
  | a :: earlier =>
      let before := fst (states d0 earlier) in
      let after := fst (states d0 history) in
      entered d0 earlier + match a with Save | Restore => 0 | _ => count after - count before end
  end.
End Account.
