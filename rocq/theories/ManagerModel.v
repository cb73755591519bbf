(** * Model of /repo/arcticpy/trap_managers.py and trap_managers_utils.pyx. *)
From Coq Require Import ZArith List Bool.
From Verif Require Import Num Py CCDModel TrapsModel.
Import ListNotations.
Open Scope num_scope.

(** One row of the watermark array (trap_managers.py:183-191): the fractional volume
    of the level (column 0) and one value per trap species (columns 1:). *)
Notation wrow F := (F * list F)%type (only parsing).
Notation wmarks F := (list (F * list F)) (only parsing).

Section Manager.
Context {F : Type} {num : Num F}.

Definition vol (r : (wrow F)) : F := fst r.
Definition vals (r : (wrow F)) : list F := snd r.

(** ** trap_managers_utils.pyx *)

(** trap_managers_utils.pyx:14-36, [roll_2d_vertical_1]: the last row moves to the front. *)
Definition roll1 (w : (wmarks F)) : (wmarks F) :=
  match rev w with
  | [] => []
  | last :: rest => last :: rev rest
  end.

(** trap_managers_utils.pyx:42-56, [cy_value_in_cumsum].  (An empty array would be an
    out-of-bounds read of arr[0]; the watermark array always has a row.) *)
Fixpoint value_in_cumsum_loop (value total : F) (rest : list F) : bool :=
  match rest with
  | [] => value =? total
  | a :: rest' => if value =? total then true else value_in_cumsum_loop value (total + a) rest'
  end.
Definition cy_value_in_cumsum (value : F) (arr : list F) : bool :=
  match arr with
  | [] => false
  | a :: rest => value_in_cumsum_loop value a rest
  end.

(** trap_managers_utils.pyx:62-73, [cy_n_trapped_electrons_from_watermarks]. *)
Definition cy_n_trapped (w : (wmarks F)) (n_traps_per_pixel : list F) : F :=
  fold_left (fun total r =>
      fold_left (fun total '(f, d) => total + vol r * f * d)
                (combine (vals r) n_traps_per_pixel) total) w n0.

(** trap_managers_utils.pyx:79-99,
    [cy_watermark_index_above_cloud_from_cloud_fractional_volume]. *)
Fixpoint index_above_loop (cloud : F) (w : (wmarks F)) (i : Z) (total : F) (index : Z) : F * Z :=
  match w with
  | [] => (total, index)
  | r :: w' =>
      let total' := total + vol r in
      let index' := if cloud <=? total' then Z.min index i else index in
      index_above_loop cloud w' (i + 1)%Z total' index'
  end.
Definition cy_index_above (cloud : F) (w : (wmarks F)) (max_index : Z) : Z :=
  let '(total, index) := index_above_loop cloud w 0%Z n0 (Z.of_nat (length w)) in
  if total <? cloud then (max_index + 1)%Z else index.

(** trap_managers_utils.pyx:105-141, [cy_update_watermark_volumes_for_cloud_below_highest].
    All accesses are unchecked: an index or index+1 outside the array is [OutOfBounds].
    The loop at 130-132 copies row i+1 over row i, for i = 0 .. index, in order (126-128
    is the case index = 0). *)
Fixpoint copy_rows_up (n : nat) (i : nat) (w : (wmarks F)) : (wmarks F) :=
  match n with
  | O => w
  | S n' => copy_rows_up n' (S i) (upd w i (nth (S i) w (n0, [])))
  end.
Definition set_vol (w : (wmarks F)) (i : nat) (v : F) : (wmarks F) :=
  upd w i (v, vals (nth i w (n0, []))).
Definition cy_update_volumes (w : (wmarks F)) (cloud : F) (index : Z) : result (wmarks F) :=
  if ((0 <=? index) && (index + 1 <? Z.of_nat (length w)))%Z then
    let k := Z.to_nat index in
    let watermark_volume := vol (nth k w (n0, [])) in
    let cumulative := fold_left nadd (map vol (firstn (S k) w)) n0 in
    let w1 := roll1 w in
    let w2 := copy_rows_up (S k) 0 w1 in
    let new_volume := cloud - (cumulative - watermark_volume) in
    let w3 := set_vol w2 k new_volume in
    Ok (set_vol w3 (S k) (watermark_volume - new_volume))
  else Err OutOfBounds.

(** ** The trap manager classes *)

(** TrapManager (trap_managers.py:159), TrapManagerInstantCapture (:847),
    TrapManagerTrackTime (:1208). *)
Inductive mkind := KSlow | KInstant | KTime.

(** The attributes used by the methods.  [m_traps] is the manager's own deep copy of
    the traps (trap_managers.py:202): its densities are the [n_traps_per_pixel]. *)
Record manager := mkManager {
  m_kind : mkind;
  m_traps : list (trap F);
  m_wm : (wmarks F)
}.
Definition with_wm (m : manager) (w : (wmarks F)) : manager := mkManager (m_kind m) (m_traps m) w.

(** trap_managers.py:284-287, [n_traps_per_pixel]. *)
Definition n_traps_per_pixel (m : manager) : list F := map t_density (m_traps m).

(** trap_managers.py:267-272 and 850-852. *)
Definition n_watermarks_per_transfer (k : mkind) : nat :=
  match k with KSlow => 2 | KInstant | KTime => 1 end.

(** trap_managers.py:260-265 and 1226-1229. *)
Definition filled_value (k : mkind) : F :=
  match k with KSlow | KInstant => n1 | KTime => n0 end.

(** trap_managers.py:160-216, TrapManager.__init__: 1 + max_n_transfers * per_transfer
    zero rows. *)
Definition zero_row (m_species : nat) : (wrow F) := (n0, repeat n0 m_species).
Definition manager_init (k : mkind) (traps : list (trap F)) (max_n_transfers : nat) : manager :=
  mkManager k traps
    (repeat (zero_row (length traps))
            (1 + max_n_transfers * n_watermarks_per_transfer k)).

(** trap_managers.py:364-366, [empty_all_traps]: [self.watermarks.fill(0)]. *)
Definition empty_all_traps (m : manager) : manager :=
  with_wm m (map (fun r => (n0, map (fun _ => n0) (vals r))) (m_wm m)).

(** [np.argmax(watermarks[:, 0] == 0)] (trap_managers.py:735, 906, 1052, 1243, ...). *)
Definition first_zero_volume (w : (wmarks F)) : nat :=
  np_argmax (map (fun r => vol r =? n0) w).
Definition max_watermark_index (w : (wmarks F)) : Z := (Z.of_nat (first_zero_volume w) - 1)%Z.

(** trap_managers.py:302-349, [fill_probabilities_from_dwell_time], for one species:
    (from_empty, from_full, from_release).
    With an infinite capture rate and dwell_time > 0 IEEE arithmetic gives
    exponential_factor = (1 - 0) / inf = 0, from_empty = inf * 0 = NaN, replaced by 1
    (:337), and from_full = 1 - emission_rate * 0 = 1.  With dwell_time <= 0 the factor
    is itself NaN and so is from_full.  Likewise 0 / 0 when the total
    rate is 0.  (An infinite EMISSION rate is excluded: the release timescale is not
    0, see TrapsModel.trap_init_class.) *)
Definition release_probability (dwell_time : F) (t : trap F) : F :=
  nexp (- t_emission_rate t * dwell_time).                            (* :343 *)
Definition fill_probabilities1 (dwell_time : F) (t : trap F) : result (F * F * F) :=
  let from_release := release_probability dwell_time t in
  match t_capture_rate t with
  | RInf => if n0 <? dwell_time then Ok (n1, n1, from_release) else do nan <- zero_over_zero; Ok (n1, nan, from_release)
  | RFin c =>
      let total := c + t_emission_rate t in
      if total =? n0 then do nan <- zero_over_zero; Ok (n1, nan, from_release)
      else
        let exponential_factor := (n1 - nexp (- total * dwell_time)) / total in
        Ok (c * exponential_factor, n1 - t_emission_rate t * exponential_factor, from_release)
  end.
Definition fill_probabilities (traps : list (trap F)) (dwell_time : F)
    : result (list (F * F * F)) :=
  mapM (fill_probabilities1 dwell_time) traps.
Definition p_empty (p : F * F * F) : F := fst (fst p).
Definition p_full (p : F * F * F) : F := snd (fst p).
Definition p_release (p : F * F * F) : F := snd p.

(** Elementwise combination of two rows of values (numpy broadcasting). *)
Definition zip_with {A B C} (f : A -> B -> C) (a : list A) (b : list B) : list C :=
  map (fun '(x, y) => f x y) (combine a b).

(** [watermarks[a:b, 1:] = f(watermarks[a:b, 1:])] (slices are clipped to the array). *)
Definition map_vals_slice (a b : nat) (f : list F -> list F) (w : (wmarks F)) : (wmarks F) :=
  map (fun '(i, r) => if (Nat.leb a i && Nat.ltb i b)%bool then (vol r, f (vals r)) else r)
      (combine (seq 0 (length w)) w).

(** trap_managers.py:351-362 [n_trapped_electrons_from_watermarks]; for TrackTime,
    1271-1286 with the conversion 1231-1249 of the levels below the first zero volume. *)
Definition to_fill_fractions (traps : list (trap F)) (w : (wmarks F)) : (wmarks F) :=
  map_vals_slice 0 (first_zero_volume w)
    (fun times => zip_with (fun t time => fill_fraction_from_time_elapsed t time) traps times) w.
(** trap_managers.py:1251-1269 [watermarks_converted_to_elapsed_times_from_fill_fractions]
    (not called by the package itself): the levels below the first zero volume are
    converted; a continuum trap may raise its AssertionError. *)
Definition to_elapsed_times (traps : list (trap F)) (w : (wmarks F)) : result (wmarks F) :=
  let k := first_zero_volume w in
  mapM (fun '(i, r) =>
      if Nat.ltb i k then
        do vs <- mapM (fun '(t, f) => time_elapsed_from_fill_fraction t f)
                      (combine traps (vals r));
        Ok (vol r, vs)
      else Ok r) (combine (seq 0 (length w)) w).

Definition n_trapped (m : manager) (w : (wmarks F)) : F :=
  match m_kind m with
  | KTime => cy_n_trapped (to_fill_fractions (m_traps m) w) (n_traps_per_pixel m)
  | _ => cy_n_trapped w (n_traps_per_pixel m)
  end.

(** trap_managers.py:368-395. *)
Definition index_above_cloud (cloud : F) (w : (wmarks F)) (max_index : Z) : Z :=
  if cloud =? n0 then (-1)%Z else cy_index_above cloud w max_index.

(** trap_managers.py:425-458 [updated_watermarks_from_capture_not_enough]:
    [w[:,1:] = enough * w[:,1:] + (1 - enough) * w_initial[:,1:]].
    The TrackTime override (1288-1344) calls
    [super().updated_watermarks_from_capture_not_enough(self, watermarks=...)], which
    passes [watermarks] twice: TypeError, always. *)
Definition blend (enough : F) (w w_initial : (wmarks F)) : (wmarks F) :=
  zip_with (fun r ri =>
      (vol r, zip_with (fun f fi => enough * f + (n1 - enough) * fi) (vals r) (vals ri)))
    w w_initial.
Definition not_enough (m : manager) (w w_initial : (wmarks F)) (enough : F) : result (wmarks F) :=
  match m_kind m with
  | KTime => Err TypeError
  | _ => Ok (blend enough w w_initial)
  end.

(** trap_managers.py:492-498: the first watermark not completely filled for all traps. *)
Definition collapse_index (filled : F) (n_species : nat) (w : (wmarks F)) : nat :=
  match map (fun i => np_argmax (map (fun r => negb (nth i (vals r) n0 =? filled)) w))
            (seq 0 n_species) with
  | [] => 0     (* min([]) would be a ValueError; a manager always has a species *)
  | k :: ks => fold_left Nat.min ks k
  end.

Definition sumF (l : list F) : F := fold_left nadd l n0.

(** trap_managers.py:523-537: zero the first k rows, roll up by k - 1, rewrite row 0. *)
Definition collapse_rows (k : nat) (v : F) (values : list F) (w : (wmarks F)) : (wmarks F) :=
  let zeroed := map (fun '(i, r) =>
        if Nat.ltb i k then (n0, map (fun _ => n0) (vals r)) else r)
      (combine (seq 0 (length w)) w) in
  let rolled := skipn (k - 1) zeroed ++ firstn (k - 1) zeroed in
  upd rolled 0 (v, values).

(** trap_managers.py:460-545 [collapse_redundant_watermarks(watermarks)]. *)
Definition collapse (filled : F) (n_species : nat) (w : (wmarks F)) : (wmarks F) :=
  let k := collapse_index filled n_species w in
  if Nat.leb k 1 then w
  else
    let v := sumF (map vol (firstn k w)) in
    collapse_rows k v (repeat filled n_species) w.

(** ... and with a copy edited in the same way (trap_managers.py:510-521, 538-540): the
    values of the copy's collapsed levels are replaced by their volume-weighted mean
    (0 / 0 = NaN if the collapsed levels have no volume at all). *)
Definition copy_fill_values (k n_species : nat) (w_copy : (wmarks F)) : list F :=
  map (fun i =>
      sumF (map (fun r => vol r * nth i (vals r) n0) (firstn k w_copy))
      / sumF (map vol (firstn k w_copy))) (seq 0 n_species).
Definition collapse_with_copy (filled : F) (n_species : nat) (w w_copy : (wmarks F))
    : result ((wmarks F) * (wmarks F)) :=
  let k := collapse_index filled n_species w in
  if Nat.leb k 1 then Ok (w, w_copy)
  else
    do _ <- (if sumF (map vol (firstn k w_copy)) =? n0 then zero_over_zero else Ok n0);
    let v := sumF (map vol (firstn k w)) in
    Ok (collapse_rows k v (repeat filled n_species) w,
     collapse_rows k v (copy_fill_values k n_species w_copy) w_copy).

(** The well-filling function handed to the methods (a closure from ccd.py:230-265; it
    may raise). [fraction_of_traps_exposed_from_n_electrons] (trap_managers.py:226-258)
    just calls it, since [distribution_within_pixel] always returns None
    (traps.py:53-59); the [surface] flag is never passed on. *)
Definition filling := F -> result F.

(** [w[i] = r] on a numpy array, [i] in range (see each use). *)
Definition set_row0 (w : (wmarks F)) (r : (wrow F)) : (wmarks F) := upd w 0 r.

(** *** TrapManager.n_electrons_released_and_captured *)

(** trap_managers.py:547-589.  Row 0 always exists. Returns the net number released and
    the new watermarks. *)
Definition slow_first_capture (m : manager) (n_free cloud : F) (w_initial : (wmarks F))
    (probs : list (F * F * F)) : result (F * (wmarks F)) :=
  let w := set_row0 (m_wm m) (cloud, map p_empty probs) in
  let w_initial := set_vol w_initial 0 cloud in
  let final := n_trapped m w in
  if final =? n0 then Ok (n0, w)
  else
    let enough := n_free / final in
    if enough <? n1 then
      do w' <- not_enough m w w_initial enough;
      Ok (- n_trapped m w', w')
    else Ok (- final, w).

(** trap_managers.py:591-674. *)
Definition slow_split (w w_initial : (wmarks F)) (cloud : F) (index : Z) (max_index : Z)
    : result ((wmarks F) * (wmarks F) * Z) :=
  if ((n0 <? cloud) && negb (cy_value_in_cumsum cloud (map vol w)))%bool then
    do w' <- cy_update_volumes w cloud index;
    do w_initial' <- cy_update_volumes w_initial cloud index;
    Ok (w', w_initial', (max_index + 1)%Z)
  else Ok (w, w_initial, max_index).
Record slow_below_out := mkSB {
  sb_free : F; sb_wm : (wmarks F); sb_wm_initial : (wmarks F);
  sb_cloud : F; sb_index : Z; sb_max : Z }.
Definition slow_cloud_below (m : manager) (n_free cloud : F) (w_initial : (wmarks F))
    (index max_index : Z) (probs : list (F * F * F)) (n_trapped_initial : F)
    (fill : filling) : result slow_below_out :=
  do '(w1, wi1, max1) <- slow_split (m_wm m) w_initial cloud index max_index;
  (* release from the levels above the cloud, [index + 1 : max_index + 1] *)
  let w2 := map_vals_slice (Z.to_nat (index + 1)) (Z.to_nat (max1 + 1))
              (fun fs => zip_with (fun f p => f * p_release p) fs probs) w1 in
  let n_free' := n_free + (n_trapped_initial - n_trapped m w2) in
  do cloud' <- fill n_free';
  let index' := index_above_cloud cloud' w2 max1 in
  do '(w3, wi3, max3) <- slow_split w2 wi1 cloud' index' max1;
  Ok (mkSB n_free' w3 wi3 cloud' index' max3).

(** trap_managers.py:789-797 and 1097-1105: a new watermark above the existing ones.
    numpy raises IndexError if [index] is not a row. *)
Definition new_top_watermark (w w_initial : (wmarks F)) (cloud : F) (index : Z)
    : result ((wmarks F) * (wmarks F)) :=
  if ((0 <=? index) && (index <? Z.of_nat (length w)))%Z then
    let v := cloud - sumF (map vol w) in
    Ok (set_vol w (Z.to_nat index) v, set_vol w_initial (Z.to_nat index) v)
  else Err IndexError.

(** trap_managers.py:676-844. *)
Definition slow_step (m : manager) (n_free : F) (fill : filling) (dwell_time : F)
    : result (F * manager) :=
  let w_initial := m_wm m in
  let initial := n_trapped m (m_wm m) in
  do probs <- fill_probabilities (m_traps m) dwell_time;
  let max_index := max_watermark_index (m_wm m) in
  do cloud <- fill n_free;
  let index := index_above_cloud cloud (m_wm m) max_index in
  if ((max_index =? -1)%Z && (n0 <? n_free))%bool then
    do '(net, w) <- slow_first_capture m n_free cloud w_initial probs;
    Ok (net, with_wm m w)
  else
    do '(n_free, w, w_initial, index) <-
      (if ((index <=? max_index) || (max_index =? -1))%Z then
         do o <- slow_cloud_below m n_free cloud w_initial index max_index probs initial fill;
         Ok (sb_free o, sb_wm o, sb_wm_initial o, sb_index o)
       else
         do '(w, wi) <- new_top_watermark (m_wm m) w_initial cloud index;
         Ok (n_free, w, wi, index));
    (* release and capture all the way to watermarks below the cloud *)
    let w1 := map_vals_slice 0 (Z.to_nat (index + 1))
                (fun fs => zip_with (fun f p => f * p_full p + (n1 - f) * p_empty p) fs probs) w in
    let n_species := length (m_traps m) in
    do '(w2, wi2) <- collapse_with_copy (filled_value (m_kind m)) n_species w1 w_initial;
    let final := n_trapped m w2 in
    if final =? initial then Ok (n0, with_wm m w2)
    else
      let enough := n_free / (final - initial) in
      do '(w3, final3) <-
        (if ((n0 <? enough) && (enough <? n1))%bool then
           do w' <- not_enough m w2 wi2 enough;
           Ok (w', n_trapped m w')
         else Ok (w2, final));
      let w4 := collapse (filled_value (m_kind m)) n_species w3 in
      Ok (initial - final3, with_wm m w4).

(** *** TrapManagerInstantCapture (and TrackTime) *)

(** trap_managers.py:854-877 (only the third of the fill probabilities is used, so a NaN
    in the other two is harmless) and, for TrackTime, 1346-1363 (add the dwell time). *)
Definition released_values (m : manager) (dwell_time : F) : list F -> list F :=
  match m_kind m with
  | KTime => map (fun time => time + dwell_time)
  | _ => fun fs => zip_with (fun f t => f * release_probability dwell_time t) fs (m_traps m)
  end.

(** trap_managers.py:879-923, [n_electrons_released]. *)
Definition n_electrons_released (m : manager) (dwell_time : F) : F * manager :=
  let initial := n_trapped m (m_wm m) in
  let max_index := max_watermark_index (m_wm m) in
  let w := map_vals_slice 0 (Z.to_nat (max_index + 1)) (released_values m dwell_time) (m_wm m) in
  (initial - n_trapped m w, with_wm m w).

(** trap_managers.py:925-966. *)
Definition instant_first_capture (m : manager) (n_free cloud : F) (w_initial : (wmarks F))
    : result (F * (wmarks F)) :=
  let w := set_row0 (m_wm m) (cloud, repeat (filled_value (m_kind m)) (length (m_traps m))) in
  let w_initial := set_vol w_initial 0 cloud in
  let final := n_trapped m w in
  if final =? n0 then Ok (n0, w)
  else
    let enough := n_free / final in
    if enough <? n1 then
      do w' <- not_enough m w w_initial enough;
      Ok (n_trapped m w', w')
    else Ok (final, w).

(** trap_managers.py:968-999 ([cloud not in np.cumsum(...)] is the same test as
    cy_value_in_cumsum). *)
Definition instant_cloud_below := slow_split.

(** trap_managers.py:1001-1150, [n_electrons_captured]. *)
Definition n_electrons_captured (m : manager) (n_free : F) (fill : filling)
    : result (F * manager) :=
  let w_initial := m_wm m in
  let initial := n_trapped m (m_wm m) in
  let max_index := max_watermark_index (m_wm m) in
  do cloud <- fill n_free;
  let index := index_above_cloud cloud (m_wm m) max_index in
  if ((max_index =? -1)%Z && (n0 <? n_free))%bool then
    do '(net, w) <- instant_first_capture m n_free cloud w_initial;
    Ok (net, with_wm m w)
  else
    do '(w, w_initial) <-
      (if ((index <=? max_index) || (max_index =? -1))%Z then
         do '(w, wi, _) <- instant_cloud_below (m_wm m) w_initial cloud index max_index;
         Ok (w, wi)
       else new_top_watermark (m_wm m) w_initial cloud index);
    let n_species := length (m_traps m) in
    let w1 := map_vals_slice 0 (Z.to_nat (index + 1))
                (fun _ => repeat (filled_value (m_kind m)) n_species) w in
    do '(w2, wi2) <- collapse_with_copy (filled_value (m_kind m)) n_species w1 w_initial;
    let final := n_trapped m w2 in
    if final =? initial then Ok (n0, with_wm m w2)
    else
      let enough := n_free / (final - initial) in
      do '(w3, final3) <-
        (if ((n0 <? enough) && (enough <? n1))%bool then
           do w' <- not_enough m w2 wi2 enough;
           Ok (w', n_trapped m w')
         else Ok (w2, final));
      let w4 := collapse (filled_value (m_kind m)) n_species w3 in
      Ok (final3 - initial, with_wm m w4).

(** trap_managers.py:1152-1205. *)
Definition instant_step (m : manager) (n_free : F) (fill : filling) (dwell_time : F)
    : result (F * manager) :=
  let '(released, m1) := n_electrons_released m dwell_time in
  do '(captured, m2) <- n_electrons_captured m1 (n_free + released) fill;
  Ok (released - captured, m2).

(** [trap_manager.n_electrons_released_and_captured(...)], dispatched on the class.  The
    [express_multiplier] argument is "not currently used" (trap_managers.py:701). *)
Definition manager_step (m : manager) (n_free : F) (fill : filling) (dwell_time : F)
    : result (F * manager) :=
  match m_kind m with
  | KSlow => slow_step m n_free fill dwell_time
  | KInstant | KTime => instant_step m n_free fill dwell_time
  end.

(** ** AllTrapManager (trap_managers.py:22-156) *)

(** [traps] as the user may pass it (trap_managers.py:79-82): a trap, a list of traps or
    a list of lists.  (A list whose first element is a list but which also holds bare
    traps is not modelled.) *)
Inductive traps_arg :=
| TOne (t : trap F)
| TFlat (l : list (trap F))
| TNested (l : list (list (trap F))).
(** trap_managers.py:79-82; [traps[0]] of an empty list is an IndexError. *)
Definition normalise_traps (a : traps_arg) : result (list (list (trap F))) :=
  match a with
  | TOne t => Ok [[t]]
  | TFlat [] => Err IndexError
  | TFlat l => Ok [l]
  | TNested [] => Err IndexError
  | TNested l => Ok l
  end.

(** trap_managers.py:90-106: the manager class is chosen from the FIRST trap of a group. *)
Definition kind_of_group (g : list (trap F)) : result mkind :=
  match g with
  | [] => Err IndexError
  | t :: _ => Ok match t_class t with
                 | CContinuum _ _ _ => KTime
                 | CInstant => KInstant
                 | CTrap => KSlow
                 end
  end.

(** trap_managers.py:289-296, the setter of n_traps_per_pixel.  Supplying the wrong number of densities raises an
    UnboundLocalError: the message of the ValueError uses the loop variable [value] before
    it exists.  (The traps of a manager are taken to be distinct objects.) *)
Definition with_density (t : trap F) (density : F) : trap F :=
  mkTrap density (t_release_timescale t) (t_capture_rate t) (t_emission_rate t) (t_surface t) (t_class t).
Definition set_n_traps_per_pixel (m : manager) (values : list F) : result manager :=
  if Nat.eqb (length values) (length (m_traps m))
  then Ok (mkManager (m_kind m) (zip_with with_density (m_traps m) values) (m_wm m))
  else Err UnboundLocalError.

(** trap_managers.py:107: [n_traps_per_pixel *= fraction] through the setter (289-296). *)
Definition scale_density (fraction : F) (t : trap F) : trap F :=
  mkTrap (t_density t * fraction) (t_release_timescale t) (t_capture_rate t)
         (t_emission_rate t) (t_surface t) (t_class t).

Record all_managers := mkATM {
  atm_data : list (list manager);                 (* [phase][group] *)
  atm_saved : option (list (list manager));       (* _saved_data *)
  atm_in_save : F;                                (* _n_electrons_trapped_in_save *)
  atm_previously : F                              (* _n_electrons_trapped_previously *)
}.

(** trap_managers.py:23-115. *)
Definition atm_init (traps : traps_arg) (max_n_transfers : nat) (c : ccd F) : result all_managers :=
  do groups <- normalise_traps traps;
  do data <- mapM (fun phase =>
      mapM (fun g =>
          do k <- kind_of_group g;
          do frac <- of_option IndexError (nth_error (ccd_fractions c) phase);
          let m := manager_init k g max_n_transfers in
          Ok (mkManager (m_kind m) (map (scale_density frac) (m_traps m)) (m_wm m)))
        groups) (seq 0 (ccd_n_phases c));
  Ok (mkATM data None n0 n0).

(** trap_managers.py:117-128, [n_electrons_trapped_currently]. *)
Definition trapped_currently (data : list (list manager)) : F :=
  fold_left (fun acc phase =>
      fold_left (fun acc m => acc + n_trapped m (m_wm m)) phase acc) data n0.

(** trap_managers.py:130-134. *)
Definition atm_empty (a : all_managers) : all_managers :=
  mkATM (map (map empty_all_traps) (atm_data a)) (atm_saved a) (atm_in_save a) (atm_previously a).

(** trap_managers.py:136-141. *)
Definition atm_save (a : all_managers) : all_managers :=
  mkATM (atm_data a) (Some (atm_data a)) (trapped_currently (atm_data a)) (atm_previously a).

(** trap_managers.py:143-156. *)
Definition atm_restore (a : all_managers) : all_managers :=
  let prev := atm_previously a + (trapped_currently (atm_data a) - atm_in_save a) in
  match atm_saved a with
  | None => mkATM (map (map empty_all_traps) (atm_data a)) None (atm_in_save a) prev
  | Some d => mkATM d (Some d) (atm_in_save a) prev
  end.

End Manager.
Arguments manager : clear implicits.
Arguments traps_arg : clear implicits.
Arguments all_managers : clear implicits.
Arguments filling : clear implicits.
Arguments mkManager {F} _ _ _.
