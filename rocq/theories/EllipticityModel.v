(** * Model of [Trap.delta_ellipticity] (/repo/arcticpy/traps.py:132-157) and its sum over the
    traps of a manager (/repo/arcticpy/trap_managers.py:298-300).
    Over the real numbers only, as [Num] has no arc tangent; the release timescale is
    positive wherever the logarithm is used below (numpy gives nan or -inf otherwise). *)
From Coq Require Import Reals List.
From Verif Require Import TrapsModel ManagerModel.
Open Scope R_scope.

(** traps.py:132-157, statement by statement. *)
Definition delta_ellipticity (t : trap R) : R :=
  let a := 5333 / 100000 in
  let d_a := 3357 / 100000 in
  let d_p := 1628 / 1000 in
  let d_w := 2951 / 10000 in
  let g_a := 9901 / 100000 in
  let g_p := 4553 / 10000 in
  let g_w := 4132 / 10000 in
  t_density t *
    (a + d_a * atan ((ln (t_release_timescale t) - d_p) / d_w)
       + g_a * exp (- (ln (t_release_timescale t) - g_p) ^ 2 / (2 * g_w ^ 2))).

(** trap_managers.py:298-300. *)
Definition manager_delta_ellipticity (m : manager R) : R :=
  fold_left (fun total t => total + delta_ellipticity t) (m_traps m) 0.
