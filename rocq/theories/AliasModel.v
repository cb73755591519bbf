(** * Lists in which one trap object appears more than once (/repo/arcticpy/trap_managers.py):
    what ManagerModel.v leaves out.  Objects live in a heap, a list of traps is a list of
    addresses.  [deepcopy] (trap_managers.py:202) copies the objects that can be reached, once
    each, so the copy has the same addresses in a heap of its own. *)
From Coq Require Import List Bool.
From Verif Require Import Num Py CCDModel TrapsModel ManagerModel.
Import ListNotations.
Open Scope num_scope.

Section Alias.
Context {F : Type} {num : Num F}.
Definition heap := list (trap F).
(** An address that is in no heap cannot occur in Python. *)
Definition load (h : heap) (i : nat) : result (trap F) := of_option OtherException (nth_error h i).
(** trap_managers.py:296, [self.traps[i].density = float(value)]. *)
Definition store_density (h : heap) (i : nat) (density : F) : heap :=
  match nth_error h i with Some t => upd h i (with_density t density) | None => h end.
(** trap_managers.py:284-287. *)
Definition densities_of (h : heap) (refs : list nat) : result (list F) :=
  do traps <- mapM (load h) refs; Ok (map t_density traps).
(** trap_managers.py:289-296. *)
Definition store_densities (h : heap) (refs : list nat) (values : list F) : result heap :=
  if Nat.eqb (length values) (length refs)
  then Ok (fold_left (fun h '(i, v) => store_density h i v) (combine refs values) h)
  else Err UnboundLocalError.
(** trap_managers.py:90-107: one manager of one phase.  Its watermarks and rates are made from
    the traps before the densities change, which they do not depend on. *)
Definition manager_of_objects (h : heap) (refs : list nat) (max_n_transfers : nat) (fraction : F) : result (manager F) :=
  do traps <- mapM (load h) refs;
  do k <- kind_of_group traps;
  do densities <- densities_of h refs;
  do h' <- store_densities h refs (map (fun d => d * fraction) densities);
  do traps' <- mapM (load h') refs;
  let m := manager_init k traps max_n_transfers in
  Ok (mkManager (m_kind m) traps' (m_wm m)).
(** trap_managers.py:23-115, with a list of lists. *)
Definition atm_of_objects (h : heap) (groups : list (list nat)) (max_n_transfers : nat) (c : ccd F) : result (all_managers F) :=
  match groups with
  | [] => Err IndexError
  | _ =>
      do data <- mapM (fun phase =>
          mapM (fun g =>
              do traps <- mapM (load h) g;
              do _ <- kind_of_group traps;
              do fraction <- of_option IndexError (nth_error (ccd_fractions c) phase);
              manager_of_objects h g max_n_transfers fraction)
            groups) (seq 0 (ccd_n_phases c));
      Ok (mkATM data None n0 n0)
  end.
End Alias.
Arguments heap : clear implicits.
