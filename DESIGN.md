# Formal model of arcticpy in Rocq

## What is modelled

Every function of /repo/arcticpy is modelled, with the exceptions in the last column.

| file in /repo/arcticpy | model file | not modelled |
|---|---|---|
| util.py | CCDModel.v (`set_min_max`), MainModel.v and HeaderModel.v (`update_fits_header_info`) | the limits of the FITS format |
| ccd.py | CCDModel.v; CallModel.v (negative phases) | - |
| traps.py | TrapsModel.v; ContinuumModel.v (continua of lifetimes); EllipticityModel.v (`delta_ellipticity`) | in TrapsModel.v scipy's quadrature and root finding are arbitrary functions; in ContinuumModel.v the quadrature is the exact improper integral and the root finder an arbitrary function; numpy's Poisson generator is an arbitrary function of column, species and mean |
| trap_managers.py | ManagerModel.v; EllipticityModel.v (sum over a manager); CallModel.v (lists that mix traps and lists); AliasModel.v (one object in several places) | - |
| trap_managers_utils.pyx | ManagerModel.v (`cy_*`, `roll1`) | - |
| roe.py | ROEModel.v; SignedModel.v (negative express, offset and windows); EndsModel.v (time windows of any real times); CountModel.v (negative numbers of pumps and of transfers) | - |
| main_utils.pyx | ClockModel.v | the column index is checked once for each column, not at each access |
| main.py | MainModel.v; SignedModel.v; CallModel.v (integer images, one ROE object for both directions) | `autoarray` Frame wrapping of the result (the identity on the array); number types other than float64 and unbounded integers |

Every definition cites the lines it models, and states its simplifications. Python exceptions
are values of type `result`; unchecked Cython accesses that would leave the array are
`Err OutOfBounds`; places where the program goes on with NaN
are `Err NotANumber` in arithmetic that has no NaN (the reals), and go on with NaN in doubles.
Objects that the program mutates (managers, ROE objects) are passed and returned.

The model is written once over a bundle of arithmetic operations (`Num F`, in Num.v).
Theorems are about `F = R` (Coq's real numbers), about IEEE doubles (C87-C89), or about every `F`
where the statement does not depend on arithmetic (such as C34, C35, C40, C46, C53, C83). `Tests.v`, `TestsRoe.v`, `TestsMain.v` and `TestsTraps.v` run the same model at
`F = float` on inputs of the repository's unit tests and compare with the values the
tests expect, as evidence that the model is the program. Between them they cover nearly all of test_ccd.py, test_roe.py,
test_main.py and test_traps.py; left out are the tests that draw random (Poisson) densities, those that integrate
numerically (trap lifetime continua), and time windows that are not whole rows. Nothing in a theorem depends on
these files.

## Trusted base

* Coq 8.16.1's kernel (and coqchk).
* The standard library's axioms that `Print Assumptions` lists under each theorem in the
  `Properties*.v` files; see the last section. No axioms are added. The Coquelicot library is
  used (integrals, derivatives); it has no axioms of its own.
* The model itself, i.e. the correspondence of each definition with the lines it cites.
* In the theorems about `F = R` rounding is not modelled: IEEE double arithmetic is idealised
  to exact real arithmetic, `np.exp`, `np.log` and `**` to the real functions. Comparisons such as
  `cloud in cumsum` are exact there.
* C87-C89 and the refutation in C95 are about IEEE double arithmetic (DoubleNum.v, on Coq's SpecFloat, which computes
  with integers and has no axioms), with arbitrary functions for the C library's exp, log and pow
  under the laws named in each theorem. `np.sum` adds in pairs from eight terms on, the model
  from left to right (on the calls of C87 and C88 both give the same numbers).

## Specification

Small files that use the data types of the model but none of its functions (except to name
the function a theorem is about):

* Spec.v: the physical state of the traps of one species is an occupancy profile:
  `occupancy w s x` is the fraction of the traps of species `s` at fractional depth `x` that
  hold an electron, read off the watermark levels by walking up from depth 0. The number of
  trapped electrons is the density times the integral of the profile over depth.
* SpecReadout.v: a readout as a mathematical model. Charge clouds move past traps; the traps
  of each phase are a profile; a call releases and captures by one formula. No arrays,
  levels or watermarks. SpecColumn.v: the same for a single column and one phase (the textbook
  form). SpecEnds.v: windows between two times.  SpecSlowCalibration.v: settings that differ a little, for traps of any class, and narrow continua of lifetimes (C141). SpecLinear.v: what linear wells ask for (C142). SpecFirst.v, SpecInTurn.v: the first packet of a column and the first pixel of an image (C116, C143-C146, C148). SpecReturn.v: wells in which a brighter first charge leaves more (C146).  SpecExpress.v: with several transfers at once, in parts, with mixtures of species.
* SpecSlow.v: capture that takes time, as the rate equation. SpecTime.v: recorded times.
  SpecBalance.v: electrons stored level by level. SpecManagers.v: collections of managers,
  histories of save and restore. SpecROE.v, SpecObjects.v: geometry of clocking. SpecImage.v:
  images. SpecContinuum.v: distributions. SpecHST.v: the HST model. SpecHistory.v: the order in
  which the packets of charge meet the traps, for traps with any kind of response.
  SpecRecovery.v: readouts of images with pixels of any sign, and the conditions on wells under
  which readouts can be compared and undone. SpecCalls.v: changes of the arguments of a
  call. SpecUnits.v: the arguments of a call in other units.
  SpecGroups.v: groups of traps that should be the same to an image.
  SpecMemory.v: calls whose accesses should be inside the arrays. SpecSigned.v: calls with
  negative numbers. SpecDouble.v: the numbers that doubles stand for.
  SpecHeader.v: what is in a header. SpecCount.v: settings with counts that may be negative.
  SpecBound.v: what the traps on the way can do to a pixel. SpecTrail.v: exponential trails.
  SpecIdle.v: settings that leave traps no time. SpecZeroCapture.v: traps that capture in no time.
  SpecBlind.v: traps that cannot capture. SpecWork.v: how many transfers are computed.
  SpecWindow.v: blank rows.  SpecShared.v: columns that pass the same traps in turn.  SpecPhases.v: conditions on the wells of several phases, the difference of images.  SpecExpressOrder.v: the same condition for any express value.  SpecInjectionOrder.v: the same for charge injection, and what it can do to one pixel.  SpecWindowOrder.v: the same within windows and time windows.  SpecAbove.v: the same for wells of any power and pixels that keep some charge.  SpecHold.v: how many electrons the traps of a pixel can hold.  SpecFlatten.v: filling curves that fall ever more slowly.  SpecFirst.v: the first packet of a column.  SpecOwnPixel.v: charge that passes the pixels in the order of the detector.  SpecPatient.v: readout past traps of any of the three kinds, in wells that grow slowly enough.  SpecMild.v: the same for wells of power at least 1 and images that may have empty pixels.  SpecCalibration.v: how far two settings are apart.  SpecInjected.v: charge injection past traps of any kind, and the charge near a corner of the image.  SpecMeet.v: readout past groups of traps of several kinds.  SpecEven.v: calls in which one pass moves all rows alike.  SpecHSTImage.v: the correction call of the HST ACS example and the images that are bright enough for it. SpecTop.v: calls clocked in a single step in which no pixel can become brighter than the brightest one. SpecSharp.v: what full traps release in a dwell time, readouts whose packets stay between two numbers of electrons, and images with room for it. SpecHSTFrame.v: the range of brightness of the HST example's frame. SpecPumping.v: charge that goes back and forth over
  the traps of one pixel.

## Files

`*Model.v` model; `Spec*.v` specification; `*Facts.v` and `Readout*.v` lemmas; `*Example.v`,
`*Examples.v` concrete cases that are used as witnesses; `Properties_*.v` the theorems, each
followed by `Print Assumptions` and accompanied by a concrete case that meets its hypotheses.

| properties | file |
|---|---|
| C01-C05 | Properties_CCD.v |
| C06-C08 | Properties_Traps.v |
| C09-C12 | Properties_Watermarks.v |
| C13-C15, C17 | Properties_Instant.v |
| C16, C22 | Properties_Time.v |
| C18-C21, C23 | Properties_Slow.v |
| C24, C25 | Properties_Managers.v |
| C26-C33 | Properties_ROE.v |
| C34, C35, C40, C46 | Properties_Image.v |
| C36-C39, C41-C43, C45, C49, C50 | Properties_Readout.v |
| C44, C47, C48, C51 | Properties_Main.v |
| C52-C54 | Properties_Small.v |
| C55, C56 | Properties_Continuum.v |
| C57-C59 | Properties_Misuse.v |
| C60-C62 | Properties_Express.v |
| C63 | Properties_Densities.v |
| C23 (images), C64-C66 | Properties_Histories.v |
| C67-C70 | Properties_Recovery.v |
| C71-C73 | Properties_Pumping.v |
| C74-C78 | Properties_Calls.v |
| C79-C80 | Properties_Units.v |
| C81-C82 | Properties_Groups.v |
| C83 | Properties_Memory.v |
| C84 | Properties_Signed.v |
| C85 | Properties_Alias.v |
| C86 | Properties_Wells.v |
| C87-C89 | Properties_Double.v |
| C90 | Properties_Header.v |
| C91 | Properties_Count.v |
| C92 | Properties_Bound.v |
| C93 | Properties_Trail.v |
| C94 | Properties_ZeroCapture.v |
| C95 | Properties_Blind.v |
| C96 | Properties_Work.v |
| C97, C98 | Properties_Window.v |
| C99 | Properties_Shared.v |
| C100, C101 | Properties_Phases.v |
| C102, C103 | Properties_ExpressOrder.v |
| C104, C105 | Properties_InjectionOrder.v |
| C106, C107 | Properties_WindowOrder.v |
| C108, C109 | Properties_AboveOrder.v |
| C110, C111 | Properties_Inverse.v |
| C112, C113 | Properties_HistoryBound.v |
| C114, C115 | Properties_TimesOrder.v |
| C45 (time windows) | Properties_SerialTime.v |
| C102, C108 (limits) | Properties_Limits.v |
| C116 | Properties_First.v |
| C117 | Properties_OwnPixel.v |
| C118, C119 | Properties_Patient.v |
| C120, C121 | Properties_Mild.v |
| C122, C123 | Properties_Calibration.v |
| C124-C127 | Properties_Injected.v |
| C128-C130 | Properties_Meet.v |
| C131 | Properties_Even.v |
| C132 | Properties_Hst.v |
| C133 | Properties_Top.v |
| C134 | Properties_Sharp.v |
| C135 | Properties_Frame.v |
| C136 | Properties_Grouping.v |
| C137 | Properties_Ends.v |
| C138, C139, C140 | Properties_SlowCalibration.v |
| C42 (no time) | Properties_Idle.v |

## Method per property

C01-C05 direct real analysis on `well_fill`; constructors by case analysis; refutations by
witness. C06-C08 real analysis (exp/ln); the rate equation with Coquelicot's `is_derive`.
C09 induction on levels, Coquelicot integral. C10-C12 induction on the watermark list.
C13-C17 a well-formedness invariant (`wf`: positive volumes first, then empty levels with no
contents; volumes sum to at most 1; occupancies in [0,1]) and a refinement of each branch
to one function on profiles; histories by induction on the list of calls.
C18 the same for the slow manager under the stated conditions (the full statement is false:
C19, C20). C19-C21, C23 refuted by concrete reachable states. C22 a simulation
relation between two managers. C24-C25 case analysis/induction on phases and groups.
C26 modular arithmetic (Z.div_mod, nia) for every number of phases. C27-C33 matrices:
induction on rows; column sums telescope. C34-C35, C40 invariants of the nested
`foldM` loops of ClockModel for every kind of number. C36-C38, C41-C43, C45 refinement of
the loops to the readout model (ReadoutFacts, ReadoutImage, MainReadoutFacts), then facts
about that model. C39 refuted for all images. C44 induction on iterations. C47, C51 real
arithmetic. C48 case analysis. C49, C50, C57, C58 failure for all inputs or a witness.
C52-C54 unfolding and induction. C55 bounds of arctan and exp. C56 improper integrals
(dominated by the distribution), the Gaussian integral, the intermediate value theorem. C59 an invariant of processed
pixels, and reachability of every pixel (ReachFacts). C60 the readout model with multipliers.
C61 profiles that agree as functions of the mixture. C62 passes outside the time window do
nothing, by a map between the rows of the parts and of the whole. C63 induction. C64 the loops
of one phase as calls of one manager, errors included; C65, C66 a simulation between managers and
their specification, over passes and columns. C67 the readout model with clouds cut at zero. C68 a
class of column maps (`tame`: monotone, with bounded gain, and a balance of what enters, leaves and
stays) closed under composition. C69 a geometric bound row by row, from the head of the column on.
C70 a recurrence for two pixels. C71 the loops for one pixel as passes of the pumping model; C72, C73
frame and balance facts about that model; the refutation by a closed form in the number of pumps. C74-C78 case analysis of calls. C79-C82
lock-step simulation of two calls through every function of the model; C83 an invariant of
every loop, and for its slow-trap witness a homomorphism of the model from the rational
numbers (where it is computed) to the real ones (HomFacts.v). C84 equality of two models, and
case analysis of the sizes of matrices. C85 induction on the list of references. C86 real analysis. C87, C88: evaluation in double
arithmetic with arbitrary library functions behind the assumed cases; C88 case analysis of a step; C89 signs of
rounded results. C90 induction on the list of traps. C91 case analysis.
  C92 induction over the exposures of a readout, with the trapped electrons between 0 and the density.
  C93 induction over the packets of a column and over its passes, on top of C64. C94 the first packet on empty
  traps, step by step; the witness is evaluated with rational numbers. C95 an invariant of the watermarks (no fill
  above 0, or no traps) kept by every step; the witness is evaluated in doubles. C96 the matrix entries add up to
  the transfers of a pixel, so that the full entries are counted by rounding up. C97 and C98 a relation
  between two readouts: equal columns from a row on, blank before it, and trap states that agree inside the pixel. C99 evaluates three
  readouts with rational numbers, which the instant manager's homomorphism (HomInstantFacts.v) carries over to the reals.

Claims of the package, or expectations of a user, that the code violates are kept as
properties and proved as `..._refuted` theorems (existence of a violating reachable input,
or failure for all inputs). Nothing is marked not applicable: every property listed can be
expressed in the model.

## Wrong programs

seeded/LOG.jsonl records edits of the model's definitions, each made in a scratch copy and
followed by a rebuild. "Theorems that failed" are those whose proofs, or the proofs of lemmas
they rest on, no longer go through. Where every theorem survived an edit, a property was
added or tightened, and the log says which.

## Axioms of each theorem

The axioms are `ClassicalDedekindReals.sig_forall_dec`, `ClassicalDedekindReals.sig_not_dec`,
`FunctionalExtensionality.functional_extensionality_dep` and `Classical_Prop.classic`, all of Coq's
standard library.

Closed under the global context (63):
`C03_constructor_accepts_exactly` `C03_constructor_rejects_with_ValueError`
`C03_constructor_result` `C144_both_directions_are_clocked_in_turn`
`C147_assigning_fractions_of_traps` `C147_assigning_full_well_depth`
`C147_assigning_well_bloom_level` `C147_assigning_well_fill_power`
`C147_assigning_well_notch_depth` `C147_changed_is_built_anew`
`C34_pixels_outside_windows_are_unchanged` `C34_shape_is_preserved` `C35_no_negative_pixels`
`C35_no_pixel_becomes_negative` `C40_columns_are_independent` `C42_no_time_or_no_share`
`C42_no_traps` `C46_calls_are_independent` `C48_kinds_of_failure`
`C48_settings_are_not_recorded_refuted` `C48_settings_fail_refuted`
`C53_bloom_level_is_a_number_refuted` `C53_no_such_phase` `C53_phase_of_a_ccd`
`C63_assigned_densities` `C63_wrong_number_is_an_error` `C74_float_images`
`C74_integer_images_are_corrected_refuted` `C74_integer_images_are_read_out`
`C74_integer_images_without_traps` `C75_one_roe_is_two_calls` `C75_sharing_makes_no_difference`
`C77_mixed_lists_fail` `C77_plain_lists` `C78_no_such_phase` `C78_phases_from_the_end`
`C78_phases_from_the_start` `C83_columns_outside_stay_inside_refuted`
`C84_negative_express_is_a_ValueError` `C84_negative_express_is_refused`
`C84_negative_express_needs_a_special_pump` `C84_negative_offset_in_injection`
`C84_negative_offset_is_refused` `C84_window_before_the_image_is_refused`
`C84_without_negative_numbers` `C85_assigned_densities` `C85_last_assignment_wins`
`C85_shared_objects_do_not_matter` `C85_wrong_number_is_a_ValueError_refuted`
`C87_without_rounding` `C88_nan_after_charge_is_an_IndexError` `C89_double_wells_need_charge`
`C90_a_failed_call_changes_nothing_refuted` `C90_both_directions_are_recorded_refuted`
`C90_described_objects_are_recorded` `C90_exceptions` `C90_other_keywords_stay`
`C90_parallel_settings_are_recorded_refuted` `C91_negative_pumps_are_refused`
`C91_negative_transfers_are_refused` `C91_without_negative_numbers`
`C99_emptying_does_not_matter_to_the_first_column` `C99_later_columns_do_not_matter`

All four axioms (355):
`C01_volume_in_unit_interval` `C02_volume_by_cases` `C02_volume_monotone`
`C03_no_IndexError_after_construction` `C04_more_phases_always_fail`
`C04_reassigned_fractions_refuted` `C05_surface_query_refuted` `C06_fill_fraction_decreases`
`C06_fill_fraction_range` `C06_fill_of_time` `C06_full_at_time_zero` `C06_time_of_fill`
`C07_release_bounds` `C07_release_composes` `C07_release_is_drop_of_fill` `C08_fill_probabilities`
`C08_instant_capture` `C08_rate_equation` `C08_two_dwell_times` `C09_count_bounds`
`C09_count_is_integral_of_occupancy` `C100_differences_do_not_grow`
`C100_different_images_stay_different` `C100_more_charge_in_more_charge_out`
`C101_correction_recovers_the_image` `C102_covers_every_transfer_computed`
`C102_differences_grow_at_most_by_a_factor` `C102_different_images_stay_different`
`C102_more_charge_in_more_charge_out` `C102_without_the_factor_refuted`
`C103_correction_recovers_the_image` `C104_differences_grow_at_most_by_a_factor`
`C104_different_images_stay_different` `C104_more_charge_in_more_charge_out`
`C104_no_pixel_changes_by_more_than_the_traps_it_passes` `C105_correction_recovers_the_image`
`C106_differences_grow_at_most_by_a_factor` `C106_different_images_stay_different`
`C106_more_charge_in_more_charge_out` `C106_no_pixel_changes_by_more_than_the_traps_it_passes`
`C107_correction_recovers_the_image` `C108_differences_grow_at_most_by_a_factor`
`C108_different_images_stay_different` `C108_little_charge_is_told_apart_refuted`
`C108_more_charge_in_more_charge_out` `C108_no_pixel_changes_by_more_than_the_traps_it_passes`
`C109_correction_recovers_the_image` `C10_split_changes_nothing`
`C110_every_image_is_the_readout_of_one_image`
`C110_every_image_is_the_readout_of_one_image_past_any_wells`
`C111_noise_is_amplified_by_a_bounded_factor`
`C111_noise_is_amplified_by_a_bounded_factor_past_any_wells`
`C112_change_past_recorded_times_is_limited` `C112_slow_change_is_limited`
`C113_recorded_times_create_no_charge` `C114_continua_flatten`
`C114_differences_grow_at_most_by_a_factor` `C114_different_images_stay_different`
`C114_more_charge_in_more_charge_out` `C114_no_pixel_changes_by_more_than_the_traps_it_passes`
`C115_correction_recovers_the_image` `C115_every_image_is_the_readout_of_one_image`
`C115_noise_is_amplified_by_a_bounded_factor` `C116_first_packet_in_closed_form`
`C116_first_packet_tells_the_density` `C116_more_traps_leave_less_charge_refuted`
`C116_more_traps_take_more_from_the_first_packet`
`C117_clouds_meet_empty_traps_in_their_own_pixel_refuted` `C117_first_packet_as_in_the_detector`
`C117_row_behind_loses_charge` `C117_row_behind_meets_its_own_pixel_last`
`C118_description_past_slow_traps_is_complete` `C118_differences_grow_at_most_by_a_factor`
`C118_different_images_stay_different` `C118_more_charge_in_more_charge_out`
`C118_no_pixel_changes_by_more_than_the_traps_it_passes` `C119_correction_recovers_the_image`
`C119_every_image_is_the_readout_of_one_image` `C119_noise_is_amplified_by_a_bounded_factor`
`C11_collapse_changes_nothing` `C120_differences_grow_at_most_by_a_factor`
`C120_different_images_stay_different` `C120_more_charge_in_more_charge_out`
`C120_no_pixel_changes_by_more_than_the_traps_it_passes` `C121_correction_recovers_the_image`
`C122_readout_changes_little_with_the_settings` `C123_correction_with_settings_a_little_wrong`
`C123_iterations_make_up_for_wrong_settings_refuted` `C124_injection_by_manager_histories`
`C124_injection_past_slow_traps` `C124_injection_past_traps_that_record_times`
`C125_differences_grow_at_most_by_a_factor` `C125_different_images_stay_different`
`C125_more_charge_in_more_charge_out` `C125_no_pixel_changes_by_more_than_the_traps_it_passes`
`C126_correction_recovers_the_image` `C127_no_corner_gains_charge`
`C127_no_corner_gains_charge_refuted` `C127_no_end_of_a_column_gains_charge`
`C128_injection_past_all_kinds_of_traps` `C128_readout_past_all_kinds_of_traps`
`C129_differences_grow_at_most_by_a_factor` `C129_different_images_stay_different`
`C129_more_charge_in_more_charge_out` `C129_no_pixel_changes_by_more_than_the_traps_it_passes`
`C12_index_above_cloud` `C130_correction_recovers_the_image` `C131_no_corner_gains_charge`
`C131_no_corner_gains_charge_refuted` `C132_correction_with_the_hst_model`
`C132_noise_with_the_hst_model` `C133_dense_groups_refuted` `C133_dense_slow_traps_refuted`
`C133_express_refuted` `C133_no_pixel_becomes_brighter_than_the_brightest`
`C134_every_image_is_the_readout_of_one_image` `C134_more_charge_in_more_charge_out`
`C134_no_pixel_changes_by_more_than_the_traps_it_reaches`
`C134_noise_is_amplified_by_a_bounded_factor` `C135_correction_of_the_hst_frame`
`C135_loss_in_the_hst_frame` `C135_noise_in_the_hst_frame`
`C136_the_grouping_of_traps_does_not_matter_refuted` `C137_a_range_adds_no_transfers_refuted`
`C137_a_window_adds_no_transfers_refuted` `C137_a_window_ends_one_transfer_past_its_last_time`
`C137_charge_injection_between_two_times` `C137_no_row_is_read_out_before_it_arrives_refuted`
`C137_readout_between_two_times` `C137_serial_rows_between_two_times`
`C137_successive_windows_add_up` `C137_the_split_of_the_test_refuted`
`C137_whole_times_are_the_range` `C137_windows_that_share_an_end_add_up_refuted`
`C138_readout_changes_little_with_the_settings` `C139_short_capture_timescales_are_almost_none`
`C13_instant_capture_with_enough_electrons` `C140_correction_with_almost_the_right_settings`
`C140_errors_of_the_image_stay_small` `C141_a_narrow_continuum_gives_back_like_one_lifetime`
`C141_a_narrow_continuum_releases_like_one_lifetime`
`C141_narrow_continua_act_like_single_lifetimes` `C141_times_of_a_narrow_continuum`
`C142_brighter_or_fainter_images_lead_to_the_same_in_proportion`
`C142_corrections_of_fainter_images_are_in_proportion` `C142_full_wells_refuted`
`C142_other_fill_powers_refuted` `C143_brighter_packets_keep_a_larger_share`
`C143_distant_packets_are_lost` `C143_fainter_packets_keep_a_larger_share_in_steep_wells`
`C143_full_wells_lose_the_same_in_every_pixel`
`C143_linear_wells_have_a_charge_transfer_efficiency`
`C143_overfull_packets_keep_the_same_share_refuted` `C144_corrections_in_turn_refuted`
`C144_efficiencies_multiply` `C144_first_pixel_in_closed_form`
`C144_the_order_of_the_directions_does_not_matter_refuted` `C145_correction_of_the_first_charge`
`C145_first_charge_comes_back` `C146_corrections_never_overshoot_the_first_charge`
`C146_steep_wells_refuted` `C146_the_first_charge_comes_back`
`C147_every_phase_has_a_well_after_assigning_fractions_refuted`
`C148_charge_in_front_shields_charge_behind` `C148_every_pixel_keeps_the_share_in_both_directions`
`C148_every_pixel_keeps_the_share_of_the_first` `C148_every_pixel_keeps_what_the_first_would`
`C148_every_pixel_keeps_what_the_first_would_in_both_directions`
`C148_every_pixel_keeps_what_the_first_would_refuted` `C148_extra_charge_comes_out_in_part`
`C148_outputs_of_parts_add_up_refuted` `C148_outputs_of_parts_add_up_to_no_more`
`C14_instant_capture_limited_by_supply` `C15_release_is_exponential_decay`
`C16_every_call_balances` `C16_every_call_balances_tracking_time`
`C16_package_count_is_stored_electrons` `C17_any_history_follows_the_trap_model`
`C18_orderly_histories` `C18_slow_capture_follows_the_rate_equation`
`C19_histories_with_any_supply` `C19_slow_capture_takes_the_recomputed_cloud`
`C19_slow_capture_with_any_supply` `C19_slow_capture_within_supply_refuted`
`C20_outgrown_levels_leave_a_negative_volume` `C20_volumes_stay_nonnegative_refuted`
`C21_notch_is_harmless_refuted` `C21_notch_then_capture` `C22_any_falling_curve`
`C22_histories_recording_times` `C22_one_call_recording_times`
`C23_balance_after_any_history_refuted` `C23_missing_charge_fits_in_the_traps_refuted`
`C23_overfull_array_is_overwritten` `C24_empty_groups_fail` `C24_managers_share_the_densities`
`C25_restore_brings_back_the_save` `C25_restore_without_save` `C25_save_then_restore`
`C26_clock_sequence_releases_to_nearest_clouds` `C26_standard_sequence` `C26_steps_and_phases`
`C27_C30_whole_time_window` `C27_every_pixel_gets_its_transfers` `C27_first_transfer_counted_once`
`C28_express_0_computes_every_transfer` `C29_every_express_works_refuted`
`C29_only_failing_express` `C30_time_window_keeps_the_overlap` `C30_time_windows_partition`
`C31_injection_columns_equal` `C31_integer_dtype_refuted`
`C31_time_window_truncates_injection_refuted` `C32_float_multipliers_positive`
`C32_integer_multipliers` `C32_integer_pumps_refuted` `C32_no_pumps_refuted`
`C32_one_pixel_saves_every_pass` `C32_pumping_columns_sum_to_n_pumps` `C32_two_pixels_refuted`
`C33_empty_first_never_saves` `C33_one_save_per_pass` `C33_pass_from_first_pixel_refuted`
`C33_saved_just_before_next_pass` `C33_single_pixel_refuted` `C35_no_negative_pixels_real`
`C36_charge_balance` `C36_charge_is_not_created` `C37_groups_create_charge_refuted`
`C38_add_cti_returns` `C38_injection_returns` `C39_injection_row_minus_one_refuted`
`C39_pumping_row_minus_one_refuted` `C39_row_minus_one_refuted`
`C41_rows_depend_on_earlier_rows_only` `C42_no_density_or_no_charge` `C43_injection_model`
`C43_readout_model` `C43_textbook_model` `C44_errors` `C44_fixed_points` `C44_iterations`
`C44_no_traps` `C44_stays` `C45_injection_differs_refuted` `C45_serial_is_transposed_parallel`
`C45_serial_readout_of_the_rows_in_time` `C45_time_window_alone_selects_rows`
`C46_injection_remembers_refuted` `C47_hst_model` `C47_hst_readout`
`C49_saving_creates_charge_refuted` `C50_injection_window_fails_refuted`
`C51_warm_traps_release_slowly_refuted` `C52_every_column_has_all_traps`
`C52_kind_of_trap_is_lost` `C52_no_rows` `C52_one_draw_for_each_column_and_species`
`C52_realisations_keep_the_species_refuted` `C54_every_level_in_use_is_converted_refuted`
`C54_fractions_to_times_and_back` `C54_full_array_is_not_converted` `C54_time_found_is_accurate`
`C54_times_to_fractions_and_back` `C55_ellipticity_bounds` `C55_most_harmful_lifetime`
`C55_proportional_to_density` `C55_slow_species` `C56_constructor` `C56_fill_fraction`
`C56_log_normal_is_a_distribution` `C56_log_normal_traps_fade` `C56_old_traps_release_no_faster`
`C56_released_from_electrons_refuted` `C56_released_is_the_drop` `C56_times_are_recovered`
`C57_assignment_is_construction` `C57_more_steps_fail_refuted`
`C57_odd_numbers_of_steps_are_refused` `C57_rejected_assignment_has_no_effect_refuted`
`C58_too_many_ccd_phases_refuted` `C59_negative_images_keep_their_charge_refuted`
`C59_processed_pixels_are_not_negative` `C60_even_passes` `C60_express_creates_no_charge_refuted`
`C60_express_model` `C61_only_the_mixture_matters` `C61_order_of_species`
`C62_successive_time_windows` `C63_electrons_scale_with_the_densities`
`C63_ellipticity_of_all_managers` `C64_readout_by_manager_histories` `C65_readout_past_slow_traps`
`C66_readout_past_traps_recording_times` `C67_readout_of_any_image` `C68_any_well_refuted`
`C68_differences_do_not_grow` `C68_different_images_stay_different`
`C68_more_charge_in_more_charge_out` `C69_correction_recovers_the_image`
`C70_correction_settles_refuted` `C71_no_density_or_no_charge` `C71_pumping_model`
`C71_two_pixels` `C72_pumping_changes_neighbours_only`
`C73_express_pumping_creates_charge_refuted` `C73_pumping_charge_balance`
`C73_pumping_creates_no_charge` `C75_sharing_injection_makes_no_difference_refuted`
`C76_fractions_multiply_densities` `C76_units_do_not_matter_refuted` `C79_units_do_not_matter`
`C79_units_of_a_correction_do_not_matter` `C80_blooming_level_has_no_effect`
`C80_surface_flag_has_no_effect` `C80_surface_traps_need_blooming_refuted`
`C81_only_the_species_matter` `C81_only_the_species_matter_to_a_correction`
`C81_the_order_of_classes_does_not_matter_refuted` `C82_the_order_of_groups_does_not_matter`
`C82_the_order_of_groups_does_not_matter_to_a_correction` `C83_correction_stays_inside`
`C83_first_pixel_stays_inside_refuted` `C83_real_wells_need_charge`
`C83_slow_traps_stay_inside_refuted` `C83_unchecked_accesses_stay_inside`
`C84_last_row_by_minus_one_refuted` `C84_negative_express_integer_pumps`
`C84_negative_express_pumps_once` `C84_pumping_refuses_negative_express_refuted`
`C86_deep_notch_refuted` `C86_negative_power_refuted` `C86_power_zero` `C86_volume_exists_exactly`
`C89_double_accesses_stay_inside` `C89_double_correction_stays_inside` `C92_change_is_limited`
`C93_exponential_trails` `C93_timescale_from_the_trail` `C94_first_row_agrees`
`C94_zero_capture_is_instant_capture_refuted` `C95_traps_that_cannot_capture_do_nothing`
`C96_at_most_express_times` `C96_runtime_grows_as_the_root_refuted` `C96_visits` `C96_work`
`C97_a_window_of_the_result_refuted` `C97_rows_before_a_window_count_as_empty`
`C97_window_of_the_whole_readout` `C98_an_offset_is_blank_rows`
`C98_an_offset_is_blank_rows_for_every_express_refuted`
`C99_each_pixel_keeps_its_own_traps_refuted` `C99_kept_traps_create_no_charge_refuted`
`C99_the_first_column` `C99_the_trail_goes_on_refuted`

Only `functional_extensionality_dep` (5):
`C87_rounding_creates_no_charge_refuted` `C87_traps_hold_no_negative_charge_refuted`
`C88_nan_images_are_read_out_refuted` `C88_nan_is_like_no_charge_refuted`
`C95_frozen_traps_do_nothing_refuted`

Only `functional_extensionality_dep` and `sig_forall_dec` (4):
`C147_default_blooming_level_follows_the_full_well_refuted` `C24_densities_add_up`
`C47_density_grows` `C85_shared_densities_are_read_back_refuted`

Only `sig_forall_dec` (1):
`C63_wrong_number_is_a_ValueError_refuted`
