(** * Property C96: how the time a readout takes depends on the express argument
    (roe.py:460-583, main_utils.pyx:119-130 and 180-190). *)
From Coq Require Import ZArith List Bool Reals Lra Lia.
From Verif Require Import Num Py RFacts ROEModel Spec SpecROE SpecReadout SpecWork ROEMatrixFacts ROEExpressFacts WorkFacts.
Import ListNotations.
Open Scope R_scope.

(** The number of passes in which the traps meet the charge of a pixel that undergoes [t]
    transfers, out of [N] for the farthest: [t] shared out over the passes and rounded up; one
    more, for the first transfer, if that is computed separately.  A time window changes nothing. *)
Theorem C96_visits ef eb force dwell dt window n_pixels express offset tw r' em mon k w : window_ok window n_pixels ->
  express_and_monitor (roe_init dwell ef eb force dt) window express offset tw = Ok (r', em, mon) -> nth_error window k = Some w ->
  let N := (n_pixels + offset)%nat in let t := (Z.to_nat w + 1 + offset)%nat in
  (ef = true /\ (0 < express < n_pixels)%nat -> exists v x, visits mon k = S v /\ per_pass dt (N - 1) express x /\ rounded_up (INR (t - 1) / x) v) /\
  (ef = false \/ express = 0%nat \/ (n_pixels <= express)%nat -> exists x, per_pass dt N (passes_for N express) x /\ rounded_up (INR t / x) (visits mon k)).
Proof. exact (call_visits ef eb force dwell dt window n_pixels express offset tw r' em mon k w). Qed.
Print Assumptions C96_visits.

(** "Recompute on k occasions the effect of each transfer": no pixel is computed more often
    than [express] times, plus once for the separate first transfer. *)
Theorem C96_at_most_express_times ef eb force dwell dt window n_pixels express offset tw r' em mon k w : window_ok window n_pixels ->
  express_and_monitor (roe_init dwell ef eb force dt) window express offset tw = Ok (r', em, mon) -> nth_error window k = Some w -> (0 < express)%nat ->
  (visits mon k <= express + (if ef then 1 else 0))%nat.
Proof. exact (visits_at_most ef eb force dwell dt window n_pixels express offset tw r' em mon k w). Qed.
Print Assumptions C96_at_most_express_times.

(** The transfers computed for a column of [n] pixels: half of [n * (express + 1)], up to [n],
    and [n] more when the first transfers are separate (the default). *)
Theorem C96_work ef eb force dwell n express tw r' em mon : (0 < n)%nat ->
  express_and_monitor (roe_init dwell ef eb force DFloat) (py_range 0 (Z.of_nat n)) express 0 tw = Ok (r', em, mon) ->
  (ef = false \/ express = 0%nat \/ (n <= express)%nat -> let K := INR (passes_for n express) in
     K * (INR n + 1) / 2 <= INR (work mon) <= K * (INR n + 1) / 2 + INR n) /\
  (ef = true -> (0 < express)%nat -> (S express < n)%nat ->
     INR n + INR express * INR n / 2 <= INR (work mon) <= 2 * INR n + INR express * INR n / 2).
Proof.
  intros Hn H. split.
  - intros Hc K. exact (plain_work ef eb force dwell n express tw r' em mon Hn H _ Hc eq_refl).
  - exact (first_work ef eb force dwell n express tw r' em mon Hn H).
Qed.
Print Assumptions C96_work.

(** Ten pixels with express = 3 and the default readout electronics: between 25 and 35
    transfers are computed (all of them would be 55), and no pixel more than four times. *)
Example C96_example : exists em mon, express_and_monitor (roe_init [1] true true true DFloat) (py_range 0 10) 3 0 None = Ok (roe_init [1] true true true DFloat, em, mon) /\
  25 <= INR (work mon) <= 35 /\ forall k, (k < 10)%nat -> (visits mon k <= 4)%nat.
Proof.
  destruct (call_succeeds true true true [1] 10 3 ltac:(lia) ltac:(lia)) as (em & mon & E). exists em, mon. split; [exact E|]. split.
  - pose proof (proj2 (C96_work true true true [1] 10 3 None _ em mon ltac:(lia) E) eq_refl ltac:(lia) ltac:(lia)) as H. replace (INR 10) with 10 in H by (cbn; lra). replace (INR 3) with 3 in H by (cbn; lra). lra.
  - intros k Hk. exact (C96_at_most_express_times true true true [1] DFloat _ 10 3 0 None _ em mon k (Z.of_nat k) (window_ok_range 10 ltac:(lia)) E (rows_nth 10 k Hk) ltac:(lia)).
Qed.

(** The documentation says "Runtime scales approximately as O(express^0.5)" (roe.py:490,
    main_utils.pyx:80).  It does not: by C96_work it grows in proportion to express.  No constant [C] bounds
    the number of transfers computed by [C] times the root of express times the number for
    express = 1, with the default readout electronics. *)
Theorem C96_runtime_grows_as_the_root_refuted : ~ exists C, forall n express r1 em1 mon1 r em mon, (0 < express)%nat -> (S express < n)%nat ->
  express_and_monitor (roe_init [1] true true true DFloat) (py_range 0 (Z.of_nat n)) 1 0 None = Ok (r1, em1, mon1) ->
  express_and_monitor (roe_init [1] true true true DFloat) (py_range 0 (Z.of_nat n)) express 0 None = Ok (r, em, mon) ->
  INR (work mon) <= C * sqrt (INR express) * INR (work mon1).
Proof.
  intros (C & H). assert (exists q0, 5 * C < INR q0) as (q0 & Hq0).
  { exists (Z.to_nat (up (5 * C))). rewrite INR_IZR_INZ. pose proof (proj1 (archimed (5 * C))). assert (IZR (up (5 * C)) <= IZR (Z.of_nat (Z.to_nat (up (5 * C))))) by (apply IZR_le; lia). lra. }
  set (q := S q0). assert (Hq : 5 * C < INR q) by (unfold q; rewrite S_INR; lra). set (e := (q * q)%nat).
  assert (Hqp : (0 < q)%nat) by (unfold q; lia). assert (Hpos : (0 < e)%nat) by (unfold e; nia). set (n := (e + 2)%nat).
  destruct (call_succeeds true true true [1] n 1 ltac:(unfold n; lia) ltac:(unfold n; lia)) as (em1 & mon1 & E1).
  destruct (call_succeeds true true true [1] n e ltac:(unfold n; lia) ltac:(unfold n; lia)) as (em & mon & E).
  specialize (H n e _ em1 mon1 _ em mon Hpos ltac:(unfold n; lia) E1 E).
  pose proof (proj2 (C96_work true true true [1] n 1 None _ em1 mon1 ltac:(unfold n; lia) E1) eq_refl ltac:(lia) ltac:(unfold n; lia)) as [_ W1].
  pose proof (proj2 (C96_work true true true [1] n e None _ em mon ltac:(unfold n; lia) E) eq_refl Hpos ltac:(unfold n; lia)) as [W _].
  assert (Hq1 : 1 <= INR q) by (change 1 with (INR 1); apply le_INR; lia).
  assert (Hs : sqrt (INR e) = INR q) by (unfold e; rewrite mult_INR; apply sqrt_square; lra). rewrite Hs in H.
  assert (He : INR e = INR q * INR q) by (unfold e; apply mult_INR). rewrite He in W. change (INR 1) with 1 in W1.
  assert (Hn : 0 < INR n) by (apply lt_0_INR; unfold n; lia). clearbody n q. pose proof (pos_INR (work mon)) as P0. pose proof (pos_INR (work mon1)) as P1.
  destruct (Rle_lt_dec C 0) as [L|L].
  - assert (C * INR q * INR (work mon1) <= 0) by (assert (0 <= INR q * INR (work mon1)) by nra; nra). nra.
  - assert (A : C * INR q * INR (work mon1) <= C * INR q * (5 / 2 * INR n)) by (apply Rmult_le_compat_l; [nra|lra]).
    assert (B : C * INR q * (5 / 2 * INR n) < INR q * INR q * INR n / 2) by nra. lra.
Qed.
Print Assumptions C96_runtime_grows_as_the_root_refuted.
