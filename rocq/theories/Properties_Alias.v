(** * Property C85: one trap object in several places of a list (arcticpy/trap_managers.py). *)
From Coq Require Import Arith List Bool Reals Lra Lia.
From Verif Require Import Num Py RFacts CCDModel TrapsModel ManagerModel AliasModel AliasFacts ReadoutExamples.
Import ListNotations.
Open Scope R_scope.

(** ** C85: a list of lists in which objects are shared, within a group or between groups,
    makes the same managers as one with an object of its own in each place. *)
Theorem C85_shared_objects_do_not_matter {F} {num : Num F} (h : heap F) d groups n c :
  (forall g i, In g groups -> In i g -> (i < length h)%nat) ->
  atm_of_objects h groups n c = atm_init (TNested (map (map (fun i => nth i h d)) groups)) n c.
Proof. exact (atm_objects h d groups n c). Qed.
Print Assumptions C85_shared_objects_do_not_matter.
(** Densities assigned to distinct objects are read back. *)
Theorem C85_assigned_densities {F} {num : Num F} (h : heap F) refs values :
  NoDup refs -> (forall i, In i refs -> (i < length h)%nat) -> length values = length refs ->
  exists h', store_densities h refs values = Ok h' /\ densities_of h' refs = Ok values.
Proof. exact (assigned_apart h refs values). Qed.
Print Assumptions C85_assigned_densities.
(** Violated for shared objects: every place has the density assigned to the last of them. *)
Theorem C85_last_assignment_wins {F} {num : Num F} (h h' : heap F) refs1 i refs2 values1 v values2 : length refs1 = length values1 -> ~ In i refs2 -> (i < length h)%nat ->
  store_densities h (refs1 ++ i :: refs2) (values1 ++ v :: values2) = Ok h' ->
  forall p ds, nth_error (refs1 ++ i :: refs2) p = Some i -> densities_of h' (refs1 ++ i :: refs2) = Ok ds -> nth_error ds p = Some v.
Proof. exact (assigned_last h h' refs1 i refs2 values1 v values2). Qed.
Print Assumptions C85_last_assignment_wins.
Theorem C85_shared_densities_are_read_back_refuted (x y : R) : x <> y ->
  exists h' ds, store_densities [small_trap 1] [0; 0]%nat [x; y] = Ok h' /\ densities_of h' [0; 0]%nat = Ok ds /\ ds = [y; y] /\ ds <> [x; y].
Proof.
  intros H. do 2 eexists. split; [reflexivity|]. split; [reflexivity|]. split; [reflexivity|]. intros Q. injection Q as Q. congruence.
Qed.
Print Assumptions C85_shared_densities_are_read_back_refuted.
(** A wrong number of densities should raise a ValueError that gives the numbers
    (trap_managers.py:291-294).  Violated: its message names a variable that has no value yet, so
    every such assignment raises UnboundLocalError. *)
Theorem C85_wrong_number_is_a_ValueError_refuted {F} {num : Num F} (h : heap F) refs values :
  length values <> length refs -> store_densities h refs values = Err UnboundLocalError.
Proof. intros H. unfold store_densities. now rewrite (proj2 (Nat.eqb_neq _ _) H). Qed.
Print Assumptions C85_wrong_number_is_a_ValueError_refuted.
Example C85_wrong_number_example : store_densities [small_trap 1] [0]%nat [3; 4] = Err UnboundLocalError.
Proof. apply C85_wrong_number_is_a_ValueError_refuted. discriminate. Qed.
(** One object twice in a group, and once more in another. *)
Example C85_example : exists a, atm_of_objects [small_trap 1; small_trap 2] [[0; 1; 0]; [0]]%nat 1 small_ccd = Ok a /\
  map (map (fun m => map t_density (m_traps m))) (atm_data a) = [[[1 * 1; 2 * 1; 1 * 1]; [1 * 1]]].
Proof. eexists. split; reflexivity. Qed.
Example C85_assigned_example : NoDup [0; 1]%nat /\ exists h', store_densities [small_trap 1; small_trap 2] [0; 1]%nat [3; 4] = Ok h' /\ densities_of h' [0; 1]%nat = Ok [3; 4].
Proof.
  assert (N : NoDup [0; 1]%nat) by (repeat constructor; [intros [Q|[]]; discriminate|intros []]). split; [exact N|].
  apply C85_assigned_densities; [exact N| |reflexivity]. intros i [<-|[<-|[]]]; cbn; lia.
Qed.
