{"id": "C01", "title": "Cloud volume is a fraction of the pixel", "statement": "For a CCD phase with well_fill_power >= 0 and full_well_depth != well_notch_depth, CCD.cloud_fractional_volume_from_n_electrons_and_phase returns a value between 0 and 1 for every number of electrons.", "quantifier": "every CCD with such parameters, every phase, every real number of electrons", "why_tests_cant": "The number of electrons is a real number: the clamp, the power and the special case n = 0 must combine correctly at every one of them.", "anchors": ["arcticpy/ccd.py:CCD.well_filling_function", "arcticpy/ccd.py:CCD.cloud_fractional_volume_from_n_electrons_and_phase", "arcticpy/util.py:set_min_max"]}
{"id": "C02", "title": "Cloud volume grows with the charge, from the notch to the full well", "statement": "With 0 <= notch < full well and a positive fill power, the cloud volume is monotone in the number of electrons, 0 exactly at or below the notch depth, 1 exactly at or above the full well depth, and ((n - notch) / (full - notch)) ** power in between. A negative number of electrons gives 0.", "quantifier": "every CCD, phase and pair of electron numbers", "why_tests_cant": "Monotonicity relates all pairs of inputs.", "anchors": ["arcticpy/ccd.py:CCD.well_filling_function"]}
{"id": "C03", "title": "The CCD constructor replicates scalars and rejects lists of the wrong length", "statement": "CCD(...) succeeds exactly when every list argument has one element per entry of fraction_of_traps_per_phase; then every per-phase property has exactly n_phases entries and scalars are replicated to all phases. A volume query for any phase below n_phases then cannot raise IndexError.", "quantifier": "every combination of scalar and list arguments of every length", "why_tests_cant": "Ranges over all list lengths and argument shapes.", "anchors": ["arcticpy/ccd.py:CCD.__init__", "arcticpy/ccd.py:CCD.full_well_depth", "arcticpy/ccd.py:CCD.well_fill_power", "arcticpy/ccd.py:CCD.well_notch_depth", "arcticpy/ccd.py:CCD.well_bloom_level"]}
{"id": "C04", "title": "Re-assigning fraction_of_traps_per_phase keeps the CCD consistent (violated)", "statement": "A user expects that a CCD whose fraction_of_traps_per_phase is re-assigned still answers volume queries for all its phases. It does not: the other per-phase lists keep their old length and the query raises IndexError.", "quantifier": "every CCD and every new list of fractions", "why_tests_cant": "A refuted universal claim: the counterexample is a history of two operations no unit test performs.", "anchors": ["arcticpy/ccd.py:CCD.fraction_of_traps_per_phase"]}
{"id": "C05", "title": "Surface traps can query the cloud volume (violated)", "statement": "A user expects surface=True to give a volume based on the blooming level. For every CCD and every non-zero number of electrons the call raises AttributeError instead.", "quantifier": "every CCD, phase and non-zero number of electrons", "why_tests_cant": "The failure must be shown for every CCD, including ones with an explicit well_bloom_level.", "anchors": ["arcticpy/ccd.py:CCD.well_filling_function"]}
{"id": "C06", "title": "Fill fraction and elapsed time are mutually inverse", "statement": "For a Trap or TrapInstantCapture with positive release timescale, fill_fraction_from_time_elapsed is 1 at time 0, lies in (0, 1] for all later times, strictly decreases, and is inverted in both directions by time_elapsed_from_fill_fraction.", "quantifier": "every trap, elapsed time and fill fraction in (0, 1]", "why_tests_cant": "Inverse functions on a continuum of inputs.", "anchors": ["arcticpy/traps.py:Trap.fill_fraction_from_time_elapsed", "arcticpy/traps.py:Trap.time_elapsed_from_fill_fraction"]}
{"id": "C07", "title": "Release composes over time and conserves electrons", "statement": "electrons_released_from_electrons_and_dwell_time never releases more than it was given nor a negative number; waiting t1 and then t2 releases in total what waiting t1 + t2 releases; and electrons_released_from_time_elapsed_and_dwell_time is the drop of the fill fraction over the dwell time.", "quantifier": "every trap, number of electrons and pair of non-negative times", "why_tests_cant": "A semigroup law over all pairs of times.", "anchors": ["arcticpy/traps.py:Trap.electrons_released_from_electrons_and_dwell_time", "arcticpy/traps.py:Trap.electrons_released_from_time_elapsed_and_dwell_time"]}
{"id": "C08", "title": "Fill probabilities solve the capture/release rate equation", "statement": "For a trap with positive capture and release timescales the three fill probabilities lie in [0, 1], are ordered (from_empty <= from_full, from_release <= from_full), and the fill fraction f*from_full + (1-f)*from_empty as a function of the dwell time is the solution of df/dt = capture_rate*(1-f) - emission_rate*f with f(0) = f; in particular two consecutive dwell times compose.", "quantifier": "every trap, dwell time >= 0 and initial fill fraction in [0, 1]", "why_tests_cant": "A differential equation quantifies over all times and rates.", "anchors": ["arcticpy/trap_managers.py:TrapManager.fill_probabilities_from_dwell_time"]}
{"id": "C09", "title": "n_trapped_electrons_from_watermarks counts the occupied traps", "statement": "The number of trapped electrons reported for a watermark array is the sum over species of the density times the integral over the pixel depth of the occupancy described by the watermarks; with fill fractions in [0, 1] and volumes adding up to at most 1 it lies between 0 and the total trap density.", "quantifier": "every watermark array (any number of levels and species)", "why_tests_cant": "Any number of levels and any real contents.", "anchors": ["arcticpy/trap_managers.py:TrapManager.n_trapped_electrons_from_watermarks", "arcticpy/trap_managers_utils.pyx:cy_n_trapped_electrons_from_watermarks"]}
{"id": "C10", "title": "Splitting a watermark at the cloud changes nothing physical", "statement": "update_watermark_volumes_for_cloud_below_highest leaves the occupancy at every depth, for every species, and the number of trapped electrons unchanged, puts a level boundary exactly at the cloud volume and needs one free level.", "quantifier": "every well-formed watermark array with a free level and every cloud volume inside it", "why_tests_cant": "In-place shifting of rows must be right for every position of the cloud and every number of levels.", "anchors": ["arcticpy/trap_managers.py:TrapManager.update_watermark_volumes_for_cloud_below_highest", "arcticpy/trap_managers_utils.pyx:cy_update_watermark_volumes_for_cloud_below_highest", "arcticpy/trap_managers_utils.pyx:roll_2d_vertical_1"]}
{"id": "C11", "title": "Collapsing redundant watermarks changes nothing physical", "statement": "collapse_redundant_watermarks leaves the occupancy at every depth and the number of trapped electrons unchanged, never increases the number of levels in use; with a copy, the copy keeps its total volume and number of electrons, and its occupancy above the collapsed levels.", "quantifier": "every watermark array with non-negative volumes", "why_tests_cant": "Any number of full levels, species and levels.", "anchors": ["arcticpy/trap_managers.py:TrapManager.collapse_redundant_watermarks"]}
{"id": "C12", "title": "The watermark level above the cloud is found correctly", "statement": "watermark_index_above_cloud_from_cloud_fractional_volume returns the first level whose cumulative volume reaches the cloud volume, one more than the highest level in use if there is none, and -1 for an empty cloud.", "quantifier": "every watermark array and cloud volume", "why_tests_cant": "Boundary cases (equality of the cumulative sum with the cloud) for any array.", "anchors": ["arcticpy/trap_managers.py:TrapManager.watermark_index_above_cloud_from_cloud_fractional_volume", "arcticpy/trap_managers_utils.pyx:cy_watermark_index_above_cloud_from_cloud_fractional_volume"]}
{"id": "C13", "title": "Instant capture fills exactly the traps inside the cloud", "statement": "When there are enough free electrons, TrapManagerInstantCapture.n_electrons_captured leaves every trap at a depth inside the cloud full and every other trap as it was, and returns exactly the number of newly filled traps.", "quantifier": "every well-formed watermark state, number of electrons and filling function with 0 -> 0 and positive -> (0, 1]", "why_tests_cant": "Four code branches over watermark arrays must all implement the same function on occupancy profiles.", "anchors": ["arcticpy/trap_managers.py:TrapManagerInstantCapture.n_electrons_captured"]}
{"id": "C14", "title": "Instant capture never takes more electrons than are available", "statement": "TrapManagerInstantCapture.n_electrons_captured returns a number between 0 and the number of free electrons; if the traps inside the cloud could take more than is available, exactly all available electrons are captured, and the traps outside the cloud are untouched.", "quantifier": "every well-formed state without completely full traps above the cloud, every non-negative number of electrons", "why_tests_cant": "The interpolation with the collapsed copy is only correct through an averaging argument over all levels.", "anchors": ["arcticpy/trap_managers.py:TrapManagerInstantCapture.n_electrons_captured", "arcticpy/trap_managers.py:TrapManager.updated_watermarks_from_capture_not_enough"]}
{"id": "C15", "title": "Release lets every trap decay exponentially", "statement": "TrapManagerInstantCapture.n_electrons_released multiplies the occupancy at every depth by exp(-dwell_time / release_timescale) of its species and returns the number of electrons lost, which is between 0 and the number trapped.", "quantifier": "every well-formed state and dwell time >= 0", "why_tests_cant": "All arrays and times.", "anchors": ["arcticpy/trap_managers.py:TrapManagerInstantCapture.n_electrons_released"]}
{"id": "C16", "title": "What leaves the traps enters the cloud", "statement": "n_electrons_released_and_captured of every trap-manager class returns exactly the number of trapped electrons before minus the number after.", "quantifier": "every manager class, well-formed state, number of electrons, filling function and dwell time for which the call returns", "why_tests_cant": "Bookkeeping across all branches, with several in-place edits of the arrays.", "anchors": ["arcticpy/trap_managers.py:TrapManager.n_electrons_released_and_captured", "arcticpy/trap_managers.py:TrapManagerInstantCapture.n_electrons_released_and_captured", "arcticpy/trap_managers.py:TrapManagerTrackTime"]}
{"id": "C17", "title": "Instant-capture watermarks stay well formed through any history", "statement": "Starting from empty traps and through any sequence of at most max_n_transfers calls of n_electrons_released_and_captured, the call never raises or accesses memory outside the array, volumes stay non-negative with sum at most 1, levels in use stay contiguous, and occupancies stay in [0, 1].", "quantifier": "every sequence of calls with any electron numbers >= 0 and dwell times > 0, of any length up to max_n_transfers", "why_tests_cant": "An invariant over all histories; an overflow of the array would be silent memory corruption.", "anchors": ["arcticpy/trap_managers.py:TrapManagerInstantCapture", "arcticpy/trap_managers.py:TrapManager.__init__"]}
{"id": "C18", "title": "Slow capture follows the rate equation on both sides of the cloud", "statement": "TrapManager.n_electrons_released_and_captured, when there are enough electrons and the cloud recomputed after release stays below the highest level (or the first cloud is above it, or the traps are empty): traps above the first cloud decay, traps inside the final cloud evolve by the from_full/from_empty probabilities, and nothing else changes.", "quantifier": "every well-formed state, number of electrons, dwell time and filling function meeting those conditions", "why_tests_cant": "Three branches with up to two splits and two collapses must implement one function on occupancy profiles.", "anchors": ["arcticpy/trap_managers.py:TrapManager.n_electrons_released_and_captured", "arcticpy/trap_managers.py:TrapManager._n_electrons_released_and_captured__cloud_below_watermarks", "arcticpy/trap_managers.py:TrapManager._n_electrons_released_and_captured__first_capture"]}
{"id": "C19", "title": "Slow capture takes at most the available electrons (violated)", "statement": "A user expects TrapManager.n_electrons_released_and_captured to return at least -n_free_electrons. It can return less: the 'enough' test compares electrons that already include the released ones with the net change.", "quantifier": "every state reachable from empty traps and every number of electrons", "why_tests_cant": "A refuted universal claim, found by reasoning on the formula for all states.", "anchors": ["arcticpy/trap_managers.py:TrapManager.n_electrons_released_and_captured"]}
{"id": "C20", "title": "Slow capture keeps watermark volumes non-negative (violated)", "statement": "A user expects watermark volumes to stay non-negative. If the cloud recomputed after release exceeds the highest level, TrapManager creates a level of negative volume.", "quantifier": "every state reachable from empty traps", "why_tests_cant": "A refuted invariant; needs a particular relation between released charge and the filling function.", "anchors": ["arcticpy/trap_managers.py:TrapManager._n_electrons_released_and_captured__cloud_below_watermarks"]}
{"id": "C21", "title": "A notch does not disturb later captures (violated)", "statement": "A user expects that a cloud that does not reach out of the notch leaves the traps empty and the next capture unaffected. Instead level 0 keeps a fill value of 1 with volume 0, and the next capture can take more electrons than are available.", "quantifier": "every CCD with a positive notch depth", "why_tests_cant": "A refuted claim about two consecutive calls.", "anchors": ["arcticpy/trap_managers.py:TrapManagerInstantCapture._n_electrons_captured__first_capture"]}
{"id": "C22", "title": "Tracking times is equivalent to tracking fill fractions, while charge is plentiful", "statement": "TrapManagerTrackTime and TrapManagerInstantCapture with the same exponential traps, started from corresponding states, return the same numbers of electrons and reach corresponding states, as long as there are enough electrons; otherwise TrapManagerTrackTime raises TypeError.", "quantifier": "every pair of corresponding well-formed states, every call", "why_tests_cant": "A simulation between two implementations over all states.", "anchors": ["arcticpy/trap_managers.py:TrapManagerTrackTime"]}
{"id": "C23", "title": "Trap states survive any history without a free level (violated)", "statement": "A user expects a watermark array of the allocated size to be enough. With every level in use the highest-level search finds no empty level and reports 'no level in use': the next capture discards the recorded trap state. This is reachable through add_cti with empty_traps_between_columns=False.", "quantifier": "every history of calls", "why_tests_cant": "A refuted claim about long histories.", "anchors": ["arcticpy/trap_managers.py:TrapManager.n_electrons_released_and_captured", "arcticpy/main_utils.pyx:cy_clock_charge_in_one_direction"]}
{"id": "C24", "title": "AllTrapManager distributes each trap density over the phases", "statement": "AllTrapManager has one manager per phase and trap group, of the class selected by the group's first trap, with empty watermarks; each species' densities over the phases are density * fraction, so they add up to the density when the fractions add up to 1.", "quantifier": "every traps argument (single, flat or nested list) and CCD", "why_tests_cant": "Any number of groups, species and phases.", "anchors": ["arcticpy/trap_managers.py:AllTrapManager.__init__"]}
{"id": "C25", "title": "Save and restore bring back exactly the saved trap states", "statement": "After save, any changes to the managers followed by restore give back exactly the saved states; without a save, restore gives empty traps; and restore keeps the total electrons 'previously trapped + currently trapped' unchanged.", "quantifier": "every collection of managers and every intermediate change", "why_tests_cant": "Arbitrary intermediate histories.", "anchors": ["arcticpy/trap_managers.py:AllTrapManager.save", "arcticpy/trap_managers.py:AllTrapManager.restore", "arcticpy/trap_managers.py:AllTrapManager.n_electrons_trapped_currently"]}
{"id": "C26", "title": "The clock sequence moves charge by at most one pixel and loses none", "statement": "For every number of phases, each step of a standard sequence has exactly one high phase, which captures from and releases to its own pixel only; release fractions of every phase add up to 1; with force_release_away_from_readout all pixels accessed are 0 or +1, and without it they are within -1..+1.", "quantifier": "every number of phases >= 1, every step and phase", "why_tests_cant": "Modular arithmetic over all numbers of phases, even and odd.", "anchors": ["arcticpy/roe.py:ROEAbstract._generate_clock_sequence", "arcticpy/roe.py:ROEAbstract._generate_pixels_accessed_during_clocking"]}
{"id": "C27", "title": "Every pixel undergoes exactly its number of transfers", "statement": "For a standard ROE with default time window, the express matrix is non-negative and its column for pixel p sums to p + 1 + offset, for every express, dtype and choice of empty_traps_for_first_transfers for which a matrix is returned.", "quantifier": "every number of pixels, express, offset, dtype and flag", "why_tests_cant": "The unit test checks 3 sizes; rounding up multipliers and the row-insertion trick must work for all.", "anchors": ["arcticpy/roe.py:ROE.express_matrix_and_monitor_traps_matrix_from_pixels_and_express"]}
{"id": "C28", "title": "express = 0 computes every transfer exactly once", "statement": "With express = 0, or express >= pixels + offset, the express matrix is the 0/1 matrix whose entry (e, p) is 1 exactly when e <= p + offset.", "quantifier": "every number of pixels, offset, dtype and flag", "why_tests_cant": "All sizes.", "anchors": ["arcticpy/roe.py:ROE.express_matrix_and_monitor_traps_matrix_from_pixels_and_express"]}
{"id": "C29", "title": "Every express value works (violated)", "statement": "A user expects any express between 1 and the number of pixels to be usable. With the default ROE, express = n_pixels - 1 raises IndexError for every image, window, offset and time window; every other express value gives a matrix.", "quantifier": "every number of pixels >= 2", "why_tests_cant": "The failing value depends on the image size; the unit tests' sizes miss it.", "anchors": ["arcticpy/roe.py:ROE.express_matrix_and_monitor_traps_matrix_from_pixels_and_express"]}
{"id": "C30", "title": "Time windows partition the transfers", "statement": "The express matrices for time windows that partition [0, pixels + offset) add up, entry by entry, to the matrix without a time window, each entry lies between 0 and the unrestricted one, and the monitor matrix does not depend on the time window.", "quantifier": "every partition into consecutive windows, every matrix parameter", "why_tests_cant": "All partitions of all lengths.", "anchors": ["arcticpy/roe.py:ROE.restrict_time_span_of_express_matrix", "arcticpy/roe.py:ROE.express_matrix_and_monitor_traps_matrix_from_pixels_and_express"]}
{"id": "C31", "title": "Charge injection gives every pixel the same number of transfers", "statement": "For ROEChargeInjection (float dtype) every column of the express matrix sums to n_pixel_transfers (default pixels + offset), with equal entries; the default parallel time window of add_cti however truncates it to n_rows + offset transfers (violated), and integer dtype raises NameError (violated).", "quantifier": "every number of pixels, transfers, express and offset", "why_tests_cant": "All sizes, and an interaction between two functions.", "anchors": ["arcticpy/roe.py:ROEChargeInjection", "arcticpy/main.py:add_cti"]}
{"id": "C32", "title": "Trap pumping performs n_pumps pumps", "statement": "For ROETrapPumping every pixel's multipliers add up to n_pumps, for every express and dtype; but an integer dtype can give a negative last multiplier, which the monitor matrix then skips (violated), and two pixels make the save matrix raise IndexError (violated).", "quantifier": "every n_pumps >= 1, express, dtype and flag", "why_tests_cant": "Rounding over all pairs (n_pumps, express).", "anchors": ["arcticpy/roe.py:ROETrapPumping"]}
{"id": "C33", "title": "Trap states are saved just before the next express pass starts", "statement": "For a standard ROE with empty_traps_for_first_transfers=False the save matrix has exactly one True per row but the last, at the pixel before the first pixel of the next pass, when that pass starts after pixel 0; with it True there is none. When the next pass starts with pixel 0 the state after that pixel is saved instead, and a single-pixel window with express > 1 raises UnboundLocalError (both violated).", "quantifier": "every express matrix produced for any pixels and express", "why_tests_cant": "All sizes.", "anchors": ["arcticpy/roe.py:ROE.save_trap_states_matrix_from_express_matrix"]}
{"id": "C34", "title": "add_cti preserves the image shape and the pixels outside the window", "statement": "Whenever add_cti returns, the image has the shape of its input, columns outside the window are unchanged, and so are rows that are not in the row window extended by the pixels the clock sequence can reach.", "quantifier": "every rectangular image, ROE, CCD, traps, express, offset, windows and time window", "why_tests_cant": "Frame condition over arbitrary images and settings.", "anchors": ["arcticpy/main.py:add_cti", "arcticpy/main_utils.pyx:cy_clock_charge_in_one_direction"]}
{"id": "C35", "title": "add_cti never returns a negative pixel", "statement": "Whenever parallel or serial clocking returns for an image without negative pixels, the result has no negative pixel - for every trap type, express factor and window.", "quantifier": "every non-negative image and all settings for which the call returns", "why_tests_cant": "All histories of captures, including those where the trap managers over-capture.", "anchors": ["arcticpy/main_utils.pyx:cy_clock_charge_in_one_direction", "arcticpy/main.py:add_cti"]}
{"id": "C36", "title": "Readout never creates charge", "statement": "With express = 0, one group of instant-capture traps, a CCD without notch and a standard ROE, the total charge of the image returned by parallel clocking is at most that of the input, and the difference in each pass is exactly what is left in the traps or leaves the image.", "quantifier": "every non-negative image, any number of rows, columns, phases, species, any dwell times", "why_tests_cant": "A conservation law over all images.", "anchors": ["arcticpy/main_utils.pyx:cy_clock_charge_in_one_direction", "arcticpy/main.py:add_cti"]}
{"id": "C37", "title": "Several trap groups do not create charge (violated)", "statement": "A user expects the same for several trap groups. Each group is offered the same free electrons, the pixel count is clamped at 0, and the total charge of the image can increase.", "quantifier": "every nested list of traps", "why_tests_cant": "A refuted conservation law.", "anchors": ["arcticpy/main_utils.pyx:cy_clock_charge_in_one_direction"]}
{"id": "C38", "title": "add_cti terminates normally and stays inside its arrays", "statement": "For every rectangular non-negative image with default windows, express = 0, instant-capture traps in any number of groups, a CCD without notch and with the ROE's number of phases, and a ROE with force_release, add_cti (parallel) returns a result: no exception, no out-of-bounds access, no NaN.", "quantifier": "every such image and configuration", "why_tests_cant": "Memory safety with bounds checks switched off cannot be tested.", "anchors": ["arcticpy/main_utils.pyx:cy_clock_charge_in_one_direction", "arcticpy/trap_managers_utils.pyx:cy_update_watermark_volumes_for_cloud_below_highest"]}
{"id": "C39", "title": "force_release=False stays inside the image (violated)", "statement": "With force_release_away_from_readout=False and two or more phases, the charge of row 0 is exchanged with row -1, which the compiled code accesses without any check: undefined behaviour for every image, trap type and express value. The same holds for charge injection, and for trap pumping of row 0.", "quantifier": "every image, every CCD with traps in the last phase, every ROE whose first step takes time", "why_tests_cant": "Undefined behaviour need not fail in a test.", "anchors": ["arcticpy/main_utils.pyx:cy_clock_charge_in_one_direction", "arcticpy/roe.py:ROEAbstract._generate_clock_sequence"]}
{"id": "C40", "title": "Columns are read out independently", "statement": "With empty_traps_between_columns=True, column j of the result of parallel clocking is the result of clocking the one-column image made of column j alone.", "quantifier": "every image, number of columns, and all settings", "why_tests_cant": "Trap states are shared mutable objects reused for all columns; independence must hold for any contents.", "anchors": ["arcticpy/main_utils.pyx:cy_clock_charge_in_one_direction", "arcticpy/trap_managers.py:AllTrapManager.empty_all_traps"]}
{"id": "C41", "title": "CTI trails only go away from the readout register", "statement": "With force_release_away_from_readout and express = 0, rows 0..p of the result depend only on rows 0..p of the image: clocking the image cut after row p gives exactly the first p + 1 rows of the full result.", "quantifier": "every image and every p", "why_tests_cant": "Causality over all images.", "anchors": ["arcticpy/main_utils.pyx:cy_clock_charge_in_one_direction", "arcticpy/roe.py:ROE"]}
{"id": "C42", "title": "No traps, no charge, or no density means no change", "statement": "add_cti without traps returns the image; with traps of density 0 it returns the image; an image of zeros stays zero.", "quantifier": "every image; every trap configuration", "why_tests_cant": "All sizes.", "anchors": ["arcticpy/main.py:add_cti", "arcticpy/main_utils.pyx:cy_clock_charge_in_one_direction"]}
{"id": "C43", "title": "Readout of a column equals the mathematical trap model", "statement": "For one phase, instant-capture traps and no notch, add_cti computes, for every row and transfer in order, the textbook model: traps described by an occupancy function of depth decay exponentially during the dwell time and then those inside the cloud fill up, limited by the available charge; watermark arrays are an implementation detail.", "quantifier": "every image, number of transfers and species", "why_tests_cant": "A refinement proof over all histories.", "anchors": ["arcticpy/main_utils.pyx:cy_clock_charge_in_one_direction", "arcticpy/trap_managers.py:TrapManagerInstantCapture"]}
{"id": "C44", "title": "remove_cti iterates towards an image whose CTI-added version is the input", "statement": "remove_cti with 0 iterations returns the input; each iteration adds the residual image - add_cti(estimate); an estimate is a fixed point exactly when add_cti maps it to the input; without traps the input is returned.", "quantifier": "every image, number of iterations and settings", "why_tests_cant": "Any number of iterations.", "anchors": ["arcticpy/main.py:remove_cti"]}
{"id": "C45", "title": "Serial clocking is parallel clocking of the transposed image", "statement": "add_cti with only serial arguments on a rectangular image gives the transpose of add_cti with the same arguments as parallel ones on the transposed image, for the standard ROE; for charge injection with more transfers than pixels the two differ (violated).", "quantifier": "every rectangular image and settings", "why_tests_cant": "Relates two executions on all images.", "anchors": ["arcticpy/main.py:add_cti"]}
{"id": "C46", "title": "Calls do not influence one another (violated for charge injection)", "statement": "add_cti leaves the ROE object unchanged for standard ROEs and trap pumping; a charge-injection ROE built with n_pixel_transfers=None remembers the size of the first image and so changes the result of a later call.", "quantifier": "every pair of calls sharing an ROE", "why_tests_cant": "History dependence between calls.", "anchors": ["arcticpy/roe.py:ROEChargeInjection.express_matrix_and_monitor_traps_matrix_from_pixels_and_express"]}
{"id": "C47", "title": "The HST ACS model is physical for every date since launch", "statement": "model_for_HST_ACS(date) fails for dates before launch and otherwise returns three traps with positive densities adding up to the modelled total density and positive release times in increasing order, and a CCD and ROE with one phase.", "quantifier": "every date", "why_tests_cant": "A continuum of dates with two switch-over dates.", "anchors": ["arcticpy/main.py:model_for_HST_ACS"]}
{"id": "C48", "title": "update_fits_header_info records the settings (violated)", "statement": "A user expects the header to record traps and CCD settings. With a serial clocker and any non-empty list of traps, or any CCD, the call raises; without a serial clocker nothing but the parallel iterations is recorded.", "quantifier": "every combination of arguments", "why_tests_cant": "A refuted universal claim.", "anchors": ["arcticpy/util.py:update_fits_header_info"]}
{"id": "C49", "title": "Keeping trap states between transfers does not create charge (violated)", "statement": "A user expects empty_traps_for_first_transfers=False to leave the total charge bounded by that of the input (one trap group, express = 0). The electrons in the saved trap states are released once for every pass that starts from them, so that charge is created.", "quantifier": "every image and instant-capture trap", "why_tests_cant": "A refuted universal claim: needs exact arithmetic to distinguish creation of charge from rounding.", "anchors": ["arcticpy/roe.py:ROE.save_trap_states_matrix_from_express_matrix", "arcticpy/trap_managers.py:AllTrapManager.restore", "arcticpy/main_utils.pyx:cy_clock_charge_in_one_direction"]}
{"id": "C50", "title": "Charge injection works on a window of rows (violated)", "statement": "A user expects the row window to select the rows to be processed. The matrices of charge injection have one column for every row up to the end of the window, not one for every row of the window, so that add_cti raises IndexError for every window that has fewer rows than its end.", "quantifier": "every image, CCD with traps and window that does not contain every row from 0", "why_tests_cant": "A refuted universal claim: every image and setting fails.", "anchors": ["arcticpy/roe.py:ROEChargeInjection.express_matrix_and_monitor_traps_matrix_from_pixels_and_express", "arcticpy/main_utils.pyx:cy_clock_charge_in_one_direction"]}
{"id": "C51", "title": "The HST ACS model releases faster when it is warmer (violated)", "statement": "Thermal release is faster at a higher temperature. model_for_HST_ACS scales the release times for the warmer period before July 2006 (-77 C instead of -81 C) with the opposite sign of the exponent, so that every species releases more slowly than at the lower temperature.", "quantifier": "every date from launch to the change of temperature", "why_tests_cant": "A refuted claim about a continuum of dates; the package has no test of the direction of the temperature correction.", "anchors": ["arcticpy/main.py:model_for_HST_ACS"]}
{"id": "C52", "title": "Poisson realisations of trap densities (partly violated)", "statement": "poisson_trap returns, column after column and species after species, a trap whose density times the number of rows is the number of traps drawn for that column with mean density times rows, and whose release timescale is that of the species. A user also expects the realisation to keep the kind of trap and its capture timescale, and each column of an image to see only its own realisation: both are violated (every result is a plain trap with instantaneous capture, and the flat list gives every column the traps of all columns).", "quantifier": "every list of species, every image shape and every outcome of the random generator", "why_tests_cant": "Random outcomes; tests only compare a few densities for a fixed seed and never clock charge with the result.", "anchors": ["arcticpy/traps.py:Trap.poisson_trap", "arcticpy/trap_managers.py:AllTrapManager.__init__"]}
{"id": "C53", "title": "CCDPhase extracts the values of one phase", "statement": "CCDPhase(ccd, phase) holds the fraction, full well, notch and fill power given to the constructor for that phase, and a filling function that agrees with that of the CCD; a phase that does not exist raises IndexError. A user expects its blooming level to be a number; by default it is the list of the full-well depths of all phases (violated).", "quantifier": "every CCD, phase and charge", "why_tests_cant": "All CCDs, phases and charges; CCDPhase is not tested.", "anchors": ["arcticpy/ccd.py:CCDPhase", "arcticpy/ccd.py:CCD.well_bloom_level"]}
{"id": "C54", "title": "Times since capture and fill fractions are equivalent records", "statement": "Converting a watermark array of elapsed times to fill fractions and back returns the same array, and the other way round for positive fractions; the time found for a fill fraction reproduces it to 1e-7 for any trap. A user expects every level in use to be converted; if no level is unused none is (violated).", "quantifier": "every watermark array (any number of levels and species) and all traps with a single release timescale; any continuum for the accuracy", "why_tests_cant": "All arrays and real-valued contents.", "anchors": ["arcticpy/trap_managers.py:TrapManagerTrackTime.watermarks_converted_to_fill_fractions_from_elapsed_times", "arcticpy/trap_managers.py:TrapManagerTrackTime.watermarks_converted_to_elapsed_times_from_fill_fractions", "arcticpy/traps.py:TrapLifetimeContinuumAbstract.time_elapsed_from_fill_fraction"]}
{"id": "C55", "title": "Every species adds to the ellipticity, in bounds", "statement": "delta_ellipticity is proportional to the density and strictly between 0.0005 and 0.2051 times the density for every release timescale; above exp(1.628) it exceeds 0.05333 times the density. Traps that release in about 1.58 transfers do more harm than all that are faster than 1 or slower than 7.4.", "quantifier": "every density and every positive release timescale", "why_tests_cant": "A sign and a bound over a continuum of timescales; the lower bound holds by a margin of 0.0006 only and depends on the value of pi.", "anchors": ["arcticpy/traps.py:Trap.delta_ellipticity"]}
{"id": "C56", "title": "A continuum of lifetimes empties gradually, and ages (partly violated)", "statement": "The log-normal density integrates to 1, half of it below the median. For every distribution of lifetimes the fill fraction is 1 at first, positive, strictly falling and tends to 0; the fraction released in a dwell time is the drop of the fill fraction; and traps that are still full release no faster than new ones. Every fraction above 0 and up to 1 is reached, and the time computed from a fill fraction is the time at which it is filled, provided the equation solver finds the solution of equations with just one. A user also expects electrons_released_from_electrons_and_dwell_time to agree with electrons_released_from_time_elapsed_and_dwell_time: for a log-normal continuum it is always too large (violated).", "quantifier": "every probability density on the positive lifetimes, every time and dwell time", "why_tests_cant": "Improper integrals over a continuum of lifetimes; tests compare a few numerical quadratures.", "anchors": ["arcticpy/traps.py:TrapLifetimeContinuumAbstract", "arcticpy/traps.py:TrapLogNormalLifetimeContinuum"]}
{"id": "C57", "title": "dwell_times can be changed (violated)", "statement": "Assigning roe.dwell_times gives the object that the constructor would have built from the new values, if and only if their number is the same. A user expects this for any number: with more dwell times than before no image can be read out, because the clock sequence is not recomputed (violated). A user also expects a rejected assignment to have no effect: ROETrapPumping stores the odd list before it raises (violated).", "quantifier": "every ROE of the three classes, every list of dwell times, every image, CCD, traps and window", "why_tests_cant": "All objects, lists and images; tests construct a new ROE for every setting.", "anchors": ["arcticpy/roe.py:ROEAbstract.dwell_times", "arcticpy/roe.py:ROETrapPumping.dwell_times", "arcticpy/main_utils.pyx:cy_clock_charge_in_one_direction"]}
{"id": "C58", "title": "CCD and ROE may have different numbers of phases (violated)", "statement": "A user expects an error message, or the documented behaviour, for a CCD whose phases outnumber those of the ROE; if any surplus phase contains traps, add_cti reads beyond the end of the list of ROE phases for every image (violated).", "quantifier": "every image, CCD, ROE of the three classes, traps, window and express value", "why_tests_cant": "All settings and images; the access is unchecked.", "anchors": ["arcticpy/main_utils.pyx:cy_clock_charge_in_one_direction", "arcticpy/roe.py:ROEAbstract._generate_clock_sequence"]}
{"id": "C59", "title": "Negative pixels are replaced by charge (violated)", "statement": "Whatever the image and the traps, every pixel that is processed is non-negative afterwards. A user expects the charge of background-subtracted images not to grow: every image whose pixels sum to less than zero gains charge (violated).", "quantifier": "every image with any pixel values, CCD, ROE of the three classes, any traps, window and express value", "why_tests_cant": "All images and settings for which the call returns.", "anchors": ["arcticpy/main_utils.pyx:cy_clock_charge_in_one_direction"]}
{"id": "C60", "title": "What the express argument approximates", "statement": "For every express value that works, add_cti computes the readout model in which each pass moves each pixel by a non-negative number of transfers at once, adding up to exactly row + 1 + offset; when there are at least as many passes as rows these numbers are min(M, max(0, row + 1 + offset - pass * M)) with M = (rows + offset) / passes. A user expects the approximation to create no charge, like the full calculation (C36): it can (violated).", "quantifier": "every non-negative image of any size, instant-capture traps, notchless CCD, dwell times, offset and express value; the violation by a witness", "why_tests_cant": "All images, sizes and express values; tests compare a few express values within a tolerance.", "anchors": ["arcticpy/main.py:add_cti", "arcticpy/roe.py:ROE.express_matrix_and_monitor_traps_matrix_from_pixels_and_express", "arcticpy/main_utils.pyx:cy_clock_charge_in_one_direction"]}
{"id": "C61", "title": "Only the mixture of trap species matters", "statement": "Reordering the instant-capture species of a trap group, or splitting a species into several with the same release timescale and the same total density (or merging them), leaves the result of add_cti unchanged, in both directions.", "quantifier": "every non-negative image of any size, every two lists of species with the same density at every release timescale, notchless CCD, any express value, offset and dwell times", "why_tests_cant": "All images and all pairs of lists; tests compare one pair.", "anchors": ["arcticpy/trap_managers.py:TrapManagerInstantCapture.n_electrons_released_and_captured", "arcticpy/main.py:add_cti"]}
{"id": "C62", "title": "A readout can be split into time windows", "statement": "Calling add_cti once for each of any number of successive time windows that cover the whole readout gives exactly the image of a single call without time window, when every parallel transfer is computed (express=0, or at least rows + offset); also when serial clocking, with any express value, takes place in the same calls.", "quantifier": "every non-negative image of any size, every increasing list of window ends, instant-capture traps, notchless CCD, dwell times, offsets", "why_tests_cant": "All images and all ways of splitting; tests split one image in a few places and compare within a tolerance.", "anchors": ["arcticpy/main.py:add_cti", "arcticpy/roe.py:ROE.restrict_time_span_of_express_matrix", "arcticpy/main_utils.pyx:cy_clock_charge_in_one_direction"]}
{"id": "C63", "title": "Assigned trap densities", "statement": "Assigning n_traps_per_pixel gives the species of a manager these densities in order and changes nothing else; multiplying them by a number multiplies the electrons of every trap state by it. A wrong number of densities is an error, but not the intended ValueError (refuted: an UnboundLocalError, as the message uses a loop variable). The ellipticity effects of the managers of all phases and groups add up to those of the given species.", "quantifier": "every manager of any kind, every list of densities, every trap state, every collection of trap groups and phases", "why_tests_cant": "All lists and trap states; no test assigns a wrong number of densities.", "anchors": ["arcticpy/trap_managers.py:TrapManager.n_traps_per_pixel", "arcticpy/trap_managers.py:TrapManager.delta_ellipticity", "arcticpy/trap_managers.py:AllTrapManager.__init__"]}
{"id": "C64", "title": "Readout as manager histories, for traps of any kind", "statement": "With one phase, one group of traps of any kind and every transfer computed, add_cti returns the image in which every packet of a column meets the traps of each pixel it passes, one manager call per packet in order, with emptied traps for each new pixel of traps; with empty_traps_between_columns=False the traps passed last are those the next column starts with. If a call fails, add_cti fails with the error of the first failing call.", "quantifier": "every image, offset, express 0 or at least rows+offset, dwell time, trap group of any class, ROE force_release_away flag and empty_traps_between_columns setting", "why_tests_cant": "The equality with per-packet histories, errors included, is for all images, offsets and trap classes.", "anchors": ["arcticpy/main.py:add_cti", "arcticpy/main_utils.pyx:cy_clock_charge_in_one_direction", "arcticpy/trap_managers.py:AllTrapManager"]}
{"id": "C65", "title": "Readout past slow-capture traps follows the rate equation", "statement": "For traps of the class Trap, capture timescale 0 (the default) included, whenever the recomputed clouds stay inside the recorded levels (and, with capture timescale 0, are no smaller than the gain), add_cti returns the readout in which the traps above each cloud release, those below the recomputed cloud exchange charge with it by the rate equation, and each packet loses the net gain of the traps or, if that is less, the whole recomputed cloud.", "quantifier": "every non-negative image, one-phase CCD with a sensitive filling function, group of traps with capture timescales of 0 or more, dwell time and offset", "why_tests_cant": "Equality of real-valued readouts over all images and parameters.", "anchors": ["arcticpy/main.py:add_cti", "arcticpy/trap_managers.py:TrapManager.n_electrons_released_and_captured"]}
{"id": "C66", "title": "Readout past traps that record times", "statement": "For a continuum of lifetimes (any falling filling curve), add_cti returns the readout in which released and captured electrons follow the recorded times, while every packet together with the electrons released to it suffices for the traps it reaches; the first transfer at which it does not suffice makes add_cti raise TypeError.", "quantifier": "every non-negative image, one-phase CCD with a sensitive filling function, group of continuum traps with falling curves, dwell time and offset", "why_tests_cant": "All images and curves; the error case depends on the whole preceding readout.", "anchors": ["arcticpy/main.py:add_cti", "arcticpy/trap_managers.py:TrapManagerTrackTime", "arcticpy/traps.py:TrapLifetimeContinuumAbstract"]}
{"id": "C67", "title": "Readout of any image, with negative pixels", "statement": "With one phase and one group of instant-capture traps, add_cti returns, for an image with pixels of any sign, the readout in which a packet acts as a cloud only as far as it is above zero once the electrons released to it have joined it, and leaves each pixel of traps with at least zero electrons.", "quantifier": "every real image (pixels of either sign), offset, dwell time, trap group, well depth and fill power", "why_tests_cant": "Equality of real-valued readouts for all images; remove_cti feeds add_cti with negative pixels that no test image contains.", "anchors": ["arcticpy/main.py:add_cti", "arcticpy/main_utils.pyx:cy_clock_charge_in_one_direction", "arcticpy/trap_managers.py:TrapManagerInstantCapture.n_electrons_captured"]}
{"id": "C68", "title": "Readout keeps the order of images and does not enlarge differences", "statement": "If one electron more in a cloud never leads to one more electron being captured, and clouds suffice for the traps they reach, then pixelwise more charge in gives pixelwise more charge out, the total absolute difference of two images in the rows up to any row of a column does not grow, and different non-negative images are read out differently. Without the condition on the wells, the order can be reversed and different images can be read out as the same.", "quantifier": "every pair of images, offset, dwell time and trap group; wells with fill power at least 1 and traps*power below the full well, or any power with pixels above an explicit floor", "why_tests_cant": "Comparison of all pairs of images, with histories of trap states that depend on them.", "anchors": ["arcticpy/main.py:add_cti", "arcticpy/ccd.py:CCD.well_filling_function", "arcticpy/trap_managers.py:TrapManagerInstantCapture"]}
{"id": "C69", "title": "remove_cti recovers the image that was read out", "statement": "Under the condition of C68, if the input of remove_cti is what add_cti makes of an image whose pixels are positive (or above an explicit level, where the depth of clouds is steep near zero), then the estimates converge to that image: after n iterations every pixel is within C*r^n of it, for some r < 1.", "quantifier": "every such image, every number of iterations, offset, dwell time and trap group", "why_tests_cant": "Convergence is a statement about all numbers of iterations.", "anchors": ["arcticpy/main.py:remove_cti", "arcticpy/main.py:add_cti"]}
{"id": "C70", "title": "remove_cti settles on every image (violated)", "statement": "The estimates of remove_cti should stay bounded as the number of iterations grows, for every image. They do not: for an image with an empty pixel after one electron, one pixel away from the output, the estimate of the empty pixel falls below every bound.", "quantifier": "every number of iterations, from a concrete image on", "why_tests_cant": "Divergence is only visible in the limit of many iterations.", "anchors": ["arcticpy/main.py:remove_cti"]}
{"id": "C71", "title": "Trap pumping moves charge back and forth through the traps of one pixel", "statement": "add_cti with a trap pumping ROE and a window of one pixel gives exactly the image of the pumping model: per column, the traps of that pixel start empty and meet, step by step of the sequence and pump by pump, the charge that the sequence brings to each phase, with pumps grouped and multiplied as express says. With one phase the model is a two-pixel recurrence. With zero density or an empty image nothing changes.", "quantifier": "every non-negative image, even number of steps, dwell times, number of pumps, express, phases of the CCD, groups of instant-capture traps; a CCD with plain wells; a pixel with a neighbour on the readout side, or a sequence of two steps", "why_tests_cant": "All images, numbers of pumps and phases.", "anchors": ["arcticpy/roe.py:ROETrapPumping", "arcticpy/main.py:add_cti", "arcticpy/main_utils.pyx:cy_clock_charge_in_one_direction"]}
{"id": "C72", "title": "Trap pumping leaves dipoles", "statement": "Trap pumping of pixel p changes only rows p-1, p and p+1. If all the traps are in phases before the middle of the sequence row p-1 does not change, and if all are after the middle row p+1 does not change.", "quantifier": "as C71", "why_tests_cant": "All images, numbers of pumps and phases.", "anchors": ["arcticpy/roe.py:ROEAbstract._generate_clock_sequence", "arcticpy/main.py:add_cti"]}
{"id": "C73", "title": "Charge balance of trap pumping (violated with express)", "statement": "If every pump is computed, the charge missing from a column after trap pumping is what the traps hold plus what was moved beyond the last row, so pumping creates no charge. With express=1 and empty_traps_for_first_transfers=False the claim fails: the charge created has no bound.", "quantifier": "as C71, one trap group; the refutation for every bound", "why_tests_cant": "All images and numbers of pumps; the violation grows with the number of pumps.", "anchors": ["arcticpy/roe.py:ROETrapPumping", "arcticpy/main.py:add_cti"]}
{"id": "C74", "title": "Images of integers can be read out and corrected (violated)", "statement": "add_cti of an array of integers is add_cti of the same numbers as floats, and returns floats. remove_cti should correct such images too; it raises TypeError for every image of integers, with any traps and at least one iteration. Without traps images of integers stay as they are in both.", "quantifier": "every integer image and setting for which add_cti returns", "why_tests_cant": "Universal over images and settings; the tests only use float arrays.", "anchors": ["arcticpy/main.py:remove_cti", "arcticpy/main.py:add_cti", "arcticpy/main_utils.pyx:cy_clock_charge_in_one_direction"]}
{"id": "C75", "title": "One ROE object may serve both directions (violated for charge injection)", "statement": "add_cti with one ROE object for both directions is parallel-only clocking followed by serial-only clocking with the object as parallel clocking left it. It equals a call with two separate objects for every ROE except charge injection with n_pixel_transfers=None, where serial clocking uses the number of transfers found for the parallel direction.", "quantifier": "every image, ROE, settings of both directions, time window", "why_tests_cant": "Aliasing effects on all inputs.", "anchors": ["arcticpy/main.py:add_cti", "arcticpy/roe.py:ROEChargeInjection"]}
{"id": "C76", "title": "The units of fraction_of_traps_per_phase do not matter (violated)", "statement": "ccd.py says that fraction_of_traps_per_phase can be in any units and that only fractional widths are ever returned. In fact the numbers are not normalised: multiplying all of them by k > 0 equals multiplying all trap densities by k, and changes the image.", "quantifier": "every k, image, ROE, traps of any kind, windows, both directions", "why_tests_cant": "A relation between two calls, for all inputs.", "anchors": ["arcticpy/ccd.py:CCD.fraction_of_traps_per_phase", "arcticpy/trap_managers.py:AllTrapManager.__init__"]}
{"id": "C77", "title": "Lists of traps, and lists of lists, are accepted; mixtures are not", "statement": "AllTrapManager can be built from a non-empty list of traps (one group) or a non-empty list of non-empty lists of traps, and from no list that mixes the two.", "quantifier": "every list, CCD with at least one phase", "why_tests_cant": "All lists.", "anchors": ["arcticpy/trap_managers.py:AllTrapManager.__init__"]}
{"id": "C78", "title": "Phases can be counted from the end", "statement": "For a constructed CCD with n phases, phase k - n means phase k in well_filling_function and CCDPhase, and any phase outside -n..n-1 raises IndexError.", "quantifier": "every constructed CCD, phase and number of electrons", "why_tests_cant": "All CCDs and phases.", "anchors": ["arcticpy/ccd.py:CCD.well_filling_function", "arcticpy/ccd.py:CCDPhase"]}
{"id": "C79", "title": "Units of charge and of time do not matter", "statement": "Counting charge in another unit (image, densities, full well depth, notch, blooming level all times q) and time in another unit (dwell times and timescales times s, rates divided by s) gives the same image times q, or the same exception, for add_cti and remove_cti with any number of iterations. For groups managed by TrapManagerTrackTime only the unit of charge is changed.", "quantifier": "every q, s > 0, image, traps, CCD, ROE of any kind, express, offsets, windows, both directions, iterations", "why_tests_cant": "A relation between two calls, for all inputs.", "anchors": ["arcticpy/main.py:add_cti", "arcticpy/main.py:remove_cti", "arcticpy/main_utils.pyx:cy_clock_charge_in_one_direction", "arcticpy/trap_managers.py:TrapManager", "arcticpy/ccd.py:CCD.well_filling_function"]}
{"id": "C80", "title": "Surface traps are limited by the blooming level (violated)", "statement": "ccd.py says that well_bloom_level acts similarly to a notch, but for surface traps. In fact neither the surface flag of a trap nor the blooming level of the CCD has any effect on add_cti: two calls that differ only in them return the same, and a surface trap captures charge far below the blooming level.", "quantifier": "every image, traps, CCD, ROE, windows, flags, blooming levels, both directions", "why_tests_cant": "The absence of an effect, on all inputs.", "anchors": ["arcticpy/ccd.py:CCD.well_bloom_level", "arcticpy/traps.py:Trap.__init__", "arcticpy/trap_managers.py:TrapManager.fraction_of_traps_exposed_from_n_electrons"]}
{"id": "C81", "title": "Only the species of a trap group matter, for traps of any class", "statement": "Within groups of traps of one class (Trap, TrapInstantCapture or the continuum classes) the order of the species does not matter, and a species may be listed in several parts with the same total density: add_cti and remove_cti return the same image, or raise the same exception. In a group of several classes the order does matter (refuted): the class of the manager is that of the first trap.", "quantifier": "every image, groups, CCD (notches included), ROE of any kind, express, offsets, windows, both directions, iterations", "why_tests_cant": "A relation between two calls, for all inputs and any number of species.", "anchors": ["arcticpy/trap_managers.py:AllTrapManager.__init__", "arcticpy/trap_managers.py:TrapManager", "arcticpy/trap_managers.py:TrapManagerInstantCapture", "arcticpy/trap_managers.py:TrapManagerTrackTime", "arcticpy/main.py:add_cti"]}
{"id": "C82", "title": "The order of the trap groups does not matter", "statement": "Two calls of add_cti or remove_cti whose lists of trap groups are permutations of each other return the same image, or both raise.", "quantifier": "every image, groups of any classes, CCD, ROE of any kind, express, offsets, windows, both directions, iterations", "why_tests_cant": "A relation between two calls, for all inputs and any number of groups.", "anchors": ["arcticpy/main_utils.pyx:cy_clock_charge_in_one_direction", "arcticpy/trap_managers.py:AllTrapManager"]}
{"id": "C83", "title": "The compiled loops stay inside their arrays", "statement": "add_cti and remove_cti never read or write outside an array in the functions compiled without bounds checks, if window pixels are in the image (and the first is not among them when electrons may be released towards the readout register), ROE objects come from their constructors and have a phase for each CCD phase, clouds with a volume contain charge, and no trap group is headed by a Trap. The last two restrictions on pixels and traps are needed: with release in both directions the first pixel reads from the row before the image, and a slow trap can need more watermarks than were allocated (refuted, with images).", "quantifier": "every kind of number, image, ROE of any kind, number of steps and phases, trap groups, express, offset, time window, traps kept between columns, iterations", "why_tests_cant": "An access out of bounds need not crash or change a result, and the bounds depend on all sizes at once.", "anchors": ["arcticpy/main_utils.pyx:cy_clock_charge_in_one_direction", "arcticpy/trap_managers_utils.pyx:cy_update_watermark_volumes_for_cloud_below_highest", "arcticpy/trap_managers.py:TrapManager.n_electrons_released_and_captured", "arcticpy/trap_managers.py:TrapManagerInstantCapture.n_electrons_captured"]}
{"id": "C84", "title": "Negative express, offset and windows are refused (partly violated)", "statement": "Without negative numbers the calls are those of C34-C83. In calls with traps, a negative express is refused by standard readout and charge injection (ValueError), a negative offset and a window of one pixel before the image by standard readout; charge injection takes a negative offset as fewer transfers. Violated: trap pumping accepts a negative express and computes one pump only, however many were asked for (or, with integer matrices, one that counts for all), and charge injection with window -1 processes nothing and returns the image as it was. With a single pump, or without empty_traps_for_first_transfers, it raises IndexError instead.", "quantifier": "every kind of number, image, direction, express, offset, window, time window, number of pumps", "why_tests_cant": "The tests pass no negative numbers; whether an error is raised depends on arithmetic between window, express and offset.", "anchors": ["arcticpy/roe.py:ROE.express_matrix_and_monitor_traps_matrix_from_pixels_and_express", "arcticpy/roe.py:ROEChargeInjection.express_matrix_and_monitor_traps_matrix_from_pixels_and_express", "arcticpy/roe.py:ROETrapPumping.express_matrix_and_monitor_traps_matrix_from_pixels_and_express", "arcticpy/main.py:add_cti"]}
{"id": "C85", "title": "One trap object in several places", "statement": "A list of trap lists in which objects are shared makes the same managers as one with an object of its own in each place (the constructor copies). Densities assigned one by one to distinct objects are read back; for shared objects they are not: every place has the density assigned last (refuted). Assigning a wrong number of densities should raise a ValueError; it raises UnboundLocalError (refuted).", "quantifier": "every kind of number, heap of trap objects, lists of references of every length, values", "why_tests_cant": "Ranges over all ways of sharing; the tests share no objects.", "anchors": ["arcticpy/trap_managers.py:AllTrapManager.__init__", "arcticpy/trap_managers.py:TrapManager.n_traps_per_pixel"]}
{"id": "C86", "title": "Wells of every shape that the constructor accepts (partly violated)", "statement": "For every full well, notch and power (of any sign and order), a cloud with charge has a volume exactly if full well and notch differ and, when the power is negative, the cloud is on the full well's side of the notch; the only error otherwise is ZeroDivisionError. Violated expectations: with a negative power volumes exceed 1 or do not exist; a notch deeper than the full well makes smaller clouds larger; power 0 makes every cloud fill the pixel.", "quantifier": "every CCD, phase, full well, notch, power and non-zero number of electrons", "why_tests_cant": "Real parameters of any sign; the constructor checks none of them.", "anchors": ["arcticpy/ccd.py:CCD.well_filling_function", "arcticpy/ccd.py:CCD.__init__"]}
{"id": "C87", "title": "Rounding does not create charge (violated for traps whose capture takes time)", "statement": "In IEEE double arithmetic, with class Trap, a readout can return more charge than the image held by much more than rounding errors: five pixels with 127 electrons come out with more than 128, for every C library in which exp underflows below -750 and the first power of x is x; the same call in exact rational arithmetic loses charge. The traps then hold fewer than -1 electrons, on a watermark with a volume below -4/5.", "quantifier": "every C library exp, log, pow with the two named laws", "why_tests_cant": "Tests compare floats with tolerances on well-behaved inputs; the failure needs a cloud boundary to reappear one unit in the last place away.", "anchors": ["arcticpy/trap_managers.py:TrapManager.n_electrons_released_and_captured", "arcticpy/trap_managers_utils.pyx:cy_value_in_cumsum", "arcticpy/trap_managers_utils.pyx:cy_update_watermark_volumes_for_cloud_below_highest"]}
{"id": "C88", "title": "Pixels that are not numbers (violated)", "statement": "In double arithmetic a NaN pixel that meets traps whose first watermark has a volume (and that still have an unused one) is an IndexError, for every class of trap, number of species and state. So images with a NaN below charge cannot be read out; in the first row a NaN is accepted, but changes the other pixels: it is not like an empty pixel.", "quantifier": "every manager, number of levels and species, CCD with a positive power, dwell time, C library", "why_tests_cant": "No test has a NaN; the statement is for all states of the traps.", "anchors": ["arcticpy/trap_managers_utils.pyx:cy_watermark_index_above_cloud_from_cloud_fractional_volume", "arcticpy/trap_managers.py:TrapManagerInstantCapture.n_electrons_captured", "arcticpy/trap_managers.py:TrapManager.n_electrons_released_and_captured"]}
{"id": "C89", "title": "Memory safety in double arithmetic", "statement": "In IEEE double arithmetic, with any pixels (NaN and infinities included), no call of add_cti or remove_cti reads or writes outside its arrays, if windows are in the image, readout objects come from their constructors, no group is headed by a trap whose capture takes time, and the wells have a notch from 0 on, a positive depth and a positive power.", "quantifier": "every image of doubles, number of rows, columns, phases, steps, species, express, offset; every C library in which a positive power of 0 or NaN is not above 0", "why_tests_cant": "Unchecked accesses do not fail visibly; ranges over all doubles.", "anchors": ["arcticpy/main_utils.pyx:cy_clock_charge_in_one_direction", "arcticpy/trap_managers_utils.pyx:cy_update_watermark_volumes_for_cloud_below_highest", "arcticpy/ccd.py:CCD.well_filling_function"]}
{"id": "C90", "title": "What update_fits_header_info leaves in the header (partly violated)", "statement": "Whatever the objects and whether the call returns or raises, keywords that do not begin with cte_ keep their values. Objects that have all the attributes asked for, with numbered traps, are recorded. Violated expectations: parallel and serial traps share their keywords, so the serial values replace the parallel ones; without a serial clocker no trap or CCD setting is recorded; a failed call leaves the header changed.", "quantifier": "every header, every class of objects (partial maps from attribute names to values), lists of traps of every length and numbering", "why_tests_cant": "The function has no test; ranges over all headers and objects.", "anchors": ["arcticpy/util.py:update_fits_header_info"]}
{"id": "C91", "title": "Negative numbers of pumps and of pixel transfers are refused", "statement": "ROETrapPumping with a negative n_pumps and ROEChargeInjection with a negative n_pixel_transfers construct objects, but no image is read out with them: add_cti raises ValueError for negative transfers, and IndexError for negative pumps and a non-empty window. Without negative numbers nothing changes.", "quantifier": "all images, windows, traps, CCDs, offsets and express values, all negative integers; no time window for the refusals", "why_tests_cant": "Unbounded integers; the tests use positive numbers only.", "anchors": ["arcticpy/roe.py:ROETrapPumping.express_matrix_and_monitor_traps_matrix_from_pixels_and_express", "arcticpy/roe.py:ROEChargeInjection.express_matrix_and_monitor_traps_matrix_from_pixels_and_express", "arcticpy/main_utils.pyx:cy_clock_charge_in_one_direction"]}
{"id": "C92", "title": "No pixel changes by more than the traps it passes", "statement": "With instant-capture traps and the standard ROE, clocking changes the pixel i rows from the register by at most (i + 1 + offset) times the traps in a pixel, for one clocking step; for several steps by at most the traps met in every step by the pixel itself and by the pixel before it. Parallel and serial limits add up.", "quantifier": "all images without negative pixels, species, groups, phases, dwell times, offsets and express values", "why_tests_cant": "A bound for all images and settings, including the approximate express calculation.", "anchors": ["arcticpy/main.py:add_cti", "arcticpy/main_utils.pyx:cy_clock_charge_in_one_direction", "arcticpy/trap_managers.py:TrapManagerInstantCapture.n_electrons_released_and_captured"]}
{"id": "C93", "title": "Above a notch the trail behind a bright pixel is exactly exponential", "statement": "With a single phase, instant-capture traps and a notch that holds every pixel of a column but one, the readout leaves the pixels ahead of the bright one as they are, takes from it the traps of the volume it sweeps in its transfers, and adds to the k-th pixel behind it that volume times the sum over species of density * exp(-k t / tau) * (1 - exp(-t / tau)). With one species the release timescale is dwell time / log(ratio of two neighbours in the trail).", "quantifier": "all numbers of rows and columns, positions and charges of the bright pixels, mixtures of species, offsets, fill powers, notches and full wells; the trail itself must stay inside the notch", "why_tests_cant": "An exact formula for all images of this kind; the tests compare a few images with stored numbers.", "anchors": ["arcticpy/main.py:add_cti", "arcticpy/main_utils.pyx:cy_clock_charge_in_one_direction", "arcticpy/trap_managers.py:TrapManagerInstantCapture.n_electrons_released_and_captured", "arcticpy/ccd.py:CCD.well_filling_function"]}
{"id": "C94", "title": "A capture timescale of 0 acts like TrapInstantCapture", "statement": "Reading out an image with traps of the class Trap whose capture timescale is 0 ('0 for instant capture') gives the same image as with the TrapInstantCapture of the same density and release timescale.", "quantifier": "all images, mixtures of species, densities, timescales, wells and offsets", "why_tests_cant": "The tests compare the two managers on chosen watermarks only; equality of the images is a statement about whole readouts. It is violated from the second row on: the first row agrees always.", "anchors": ["arcticpy/traps.py:Trap.__init__", "arcticpy/traps.py:TrapInstantCapture", "arcticpy/trap_managers.py:TrapManager.n_electrons_released_and_captured", "arcticpy/trap_managers.py:TrapManagerInstantCapture.n_electrons_released_and_captured"]}
{"id": "C95", "title": "Traps that cannot capture do nothing", "statement": "If every trap of every group in use has an infinite capture timescale, or density 0, add_cti returns the image it was given; and this stays so when the release timescale is infinite as well.", "quantifier": "all images, shapes, windows, readout electronics, both directions, mixtures of species, densities and release timescales", "why_tests_cant": "No test uses an infinite timescale; that the image is unchanged after any sequence of transfers is a statement about unboundedly many steps. It holds for finite release timescales and is violated, with a lost electron count and NaN in the image, when both timescales are infinite.", "anchors": ["arcticpy/traps.py:Trap.__init__", "arcticpy/trap_managers.py:TrapManager.fill_probabilities_from_dwell_time", "arcticpy/trap_managers.py:TrapManager.n_electrons_released_and_captured"]}
{"id": "C96", "title": "Runtime grows as the root of express (violated)", "statement": "The number of pixel transfers that a readout computes is at most express for each pixel (plus one for a separate first transfer), and grows in proportion to the square root of express.", "quantifier": "all windows, offsets, time windows, column lengths, values of express, multiplier types and settings of empty traps", "why_tests_cant": "The number of transfers computed is a sum over a matrix whose size grows with the image and with express; tests time nothing and check matrices of a few rows. The per-pixel bound holds; the documented growth rate does not, the count being about n(express+1)/2.", "anchors": ["arcticpy/roe.py:ROE.express_matrix_and_monitor_traps_matrix_from_pixels_and_express", "arcticpy/main_utils.pyx:cy_clock_charge_in_one_direction"]}
{"id": "C97", "title": "A window of rows is read out as though no charge came before it", "statement": "add_cti with parallel_window_range = range(a, b) leaves the rows before a alone and gives in the others what the readout of the rows up to b gives for the image without the charge of the rows before a; when every transfer is computed, what the readout of the whole of that image gives there. It does not give the pixels of the readout of the whole image (the documented edge effects).", "quantifier": "all images, sizes, windows, offsets, values of express that return, trap groups with instant capture, wells without notch, numbers of phases, columns", "why_tests_cant": "Tests of windows compare a few literal images; the claim relates two different readouts of unboundedly many transfers through the trap states, which must stay empty while blank pixels pass.", "anchors": ["arcticpy/main.py:add_cti", "arcticpy/main_utils.pyx:cy_clock_charge_in_one_direction", "arcticpy/roe.py:ROE.express_matrix_and_monitor_traps_matrix_from_pixels_and_express"]}
{"id": "C98", "title": "An offset is that many blank rows before the image", "statement": "add_cti with parallel_offset k + o gives the pixels that add_cti with offset o gives for the image with k blank rows before it, which stay blank; for express = 0, for express below the number of rows minus one, and for express of at least k + rows. For values of express in between the two differ (violated).", "quantifier": "all images, sizes, offsets, trap groups with instant capture, wells without notch, numbers of phases, columns", "why_tests_cant": "No test relates an offset to a larger image; the two calls build different matrices and pass different numbers of pixels, for every size.", "anchors": ["arcticpy/main.py:add_cti", "arcticpy/roe.py:ROE.express_matrix_and_monitor_traps_matrix_from_pixels_and_express"]}
{"id": "C99", "title": "With the traps kept between columns each pixel keeps its own traps", "statement": "With empty_traps_between_columns=False \"each column moves through the same traps\". What a column becomes does not depend on the columns after it, and the first column is read out past empty traps, each pixel's on their own. The later columns are not read out past the traps of their own pixels (violated): all of them start from the state of the pixel that was read out last, the trail in a single row stops after the second column, and charge can be created.", "quantifier": "all images, trap types and modes (independence of later columns); all images, sizes, instant trap groups, dwell times (first column); every row length (stopping trail)", "why_tests_cant": "No test keeps traps between columns of more than one row; the claim relates the trap states of every pixel over all columns.", "anchors": ["arcticpy/roe.py:ROE.__init__", "arcticpy/main_utils.pyx:cy_clock_charge_in_one_direction", "arcticpy/trap_managers.py:TrapManager.n_electrons_released_and_captured"]}
{"id": "C100", "title": "With any number of phases more charge in gives more charge out", "statement": "With one group of instant traps per direction, any number of phases and clocking steps, both directions clocked, and wells that fill at least in proportion and are large for their traps: an image with more charge in every pixel is read out with at least as much charge in every pixel, the total absolute difference of two images does not grow in the readout, and different images are read out as different images.", "quantifier": "all pairs of images, sizes, offsets, numbers of phases, shares, dwell times, wells of power at least one, densities below what the wells can hold per unit of power", "why_tests_cant": "Compares the readouts of every pair of images; no test compares two readouts.", "anchors": ["arcticpy/main.py:add_cti", "arcticpy/main_utils.pyx:cy_clock_charge_in_one_direction", "arcticpy/roe.py:ROEAbstract._generate_clock_sequence"]}
{"id": "C101", "title": "With any number of phases remove_cti recovers the image at a geometric rate", "statement": "Under the conditions of C100, and if every pixel has more than twice the electrons that the traps it passes can take or give, the total absolute difference between what remove_cti returns after n iterations and the image that was read out is at most C * r^n, with r below one.", "quantifier": "all images with enough charge, sizes, offsets, numbers of phases, numbers of iterations, both directions", "why_tests_cant": "Convergence is about every number of iterations; the tests compare a few iterations on a few images.", "anchors": ["arcticpy/main.py:remove_cti", "arcticpy/main.py:add_cti"]}
{"id": "C102", "title": "With any express value more charge in gives more charge out", "statement": "With one group of instant traps per direction, any number of phases, both directions clocked, any express value that works, and wells that fill at least in proportion and are large for the traps met in all the transfers that one computed transfer stands for: an image with more charge in every pixel is read out with at least as much charge in every pixel, the total absolute difference of two images grows at most by a factor that does not depend on the images, and different images are read out as different images.", "quantifier": "all pairs of images, sizes, offsets, express values, dtypes, numbers of phases, shares, dwell times, wells of power at least one, densities below what the wells can hold per unit of power and transfer of a pass", "why_tests_cant": "Compares the readouts of every pair of images for every express value; the tests compare a few express values on one image.", "anchors": ["arcticpy/main.py:add_cti", "arcticpy/main_utils.pyx:cy_clock_charge_in_one_direction", "arcticpy/roe.py:ROE.express_matrix_and_monitor_traps_matrix_from_pixels_and_express"]}
{"id": "C103", "title": "With any express value remove_cti recovers the image at a geometric rate", "statement": "Under the conditions of C102, and if every pixel has more than twice the electrons that the traps it passes can take or give, the total absolute difference between what remove_cti returns after n iterations and the image that was read out is at most C * r^n, with r below one.", "quantifier": "all images with enough charge, sizes, offsets, express values, dtypes, numbers of phases, numbers of iterations, both directions", "why_tests_cant": "Convergence is about every number of iterations; the tests compare a few iterations on a few images.", "anchors": ["arcticpy/main.py:remove_cti", "arcticpy/main.py:add_cti"]}
{"id": "C104", "title": "With charge injection more charge in gives more charge out", "statement": "Under the conditions of C102, but with either direction read out by charge injection (every pixel moved through the same number of pixels, given or the size of the image) or normally: an image with more charge in every pixel is read out with at least as much charge in every pixel, the total absolute difference of two images grows at most by a factor that does not depend on the images, different images are read out as different images, and no pixel changes by more than the traps of the pixels it is moved through (and, with several steps, those met by the pixel in front of it).", "quantifier": "all pairs of images, sizes, offsets, express values, numbers of pixels to be moved through, numbers of phases, shares, dwell times, wells of power at least one, densities below what the wells can hold per unit of power and transfer of a pass", "why_tests_cant": "Compares the readouts of every pair of images; the tests of charge injection look at the express matrices and one image.", "anchors": ["arcticpy/main.py:add_cti", "arcticpy/main_utils.pyx:cy_clock_charge_in_one_direction", "arcticpy/roe.py:ROEChargeInjection"]}
{"id": "C105", "title": "With charge injection remove_cti recovers the image at a geometric rate", "statement": "Under the conditions of C104, and if every pixel has more than twice the electrons that the traps it passes can take or give, the total absolute difference between what remove_cti returns after n iterations and the image that was read out is at most C * r^n, with r below one. The clock remembers the number of transfers between iterations, and this makes no difference.", "quantifier": "all images with enough charge, sizes, offsets, express values, numbers of pixels to be moved through, numbers of phases, numbers of iterations, both directions", "why_tests_cant": "Convergence is about every number of iterations; no test corrects a charge injection image.", "anchors": ["arcticpy/main.py:remove_cti", "arcticpy/main.py:add_cti", "arcticpy/roe.py:ROEChargeInjection"]}
{"id": "C106", "title": "With any windows and time windows more charge in gives more charge out", "statement": "Under the conditions of C102 and C104, but with any increasing list of rows and of columns as windows (gaps allowed) and any time window that is a range of times not negative: an image with more charge in every pixel is read out with at least as much charge in every pixel, the total absolute difference of two images grows at most by a factor that does not depend on the images, different images are read out as different images, and no pixel changes by more than the traps of the pixels it is moved through, and by nothing in a direction in which neither it nor the pixel before it is in the window.", "quantifier": "all pairs of images, sizes, windows of rows and columns, time windows, offsets, express values, numbers of phases, shares, dwell times, wells of power at least one, densities below what the wells can hold per unit of power and transfer of a pass", "why_tests_cant": "Compares the readouts of every pair of images under every window; the tests use a few windows on a few images.", "anchors": ["arcticpy/main.py:add_cti", "arcticpy/main_utils.pyx:cy_clock_charge_in_one_direction", "arcticpy/roe.py:ROE.express_matrix_and_monitor_traps_matrix_from_pixels_and_express"]}
{"id": "C107", "title": "With any windows and time windows remove_cti recovers the image at a geometric rate", "statement": "Under the conditions of C106, and if every pixel has more than twice the electrons that the traps it passes can take or give, the total absolute difference between what remove_cti returns after n iterations with the same windows and the image that was read out is at most C * r^n, with r below one.", "quantifier": "all images with enough charge, sizes, windows of rows and columns, time windows, offsets, express values, numbers of phases, numbers of iterations, both directions", "why_tests_cant": "Convergence is about every number of iterations; no test corrects an image within a window.", "anchors": ["arcticpy/main.py:remove_cti", "arcticpy/main.py:add_cti"]}
{"id": "C108", "title": "With wells of any power more charge in gives more charge out, if every pixel keeps some", "statement": "For readouts with a single clocking step (any windows, time window, express value or charge injection) past wells that fill as any power of the charge: if the traps reached by floor electrons, for all the transfers that one computed transfer stands for, are fewer than floor, and every pixel has floor electrons besides those that the traps it passes can take, then an image with more charge in every pixel is read out with at least as much charge in every pixel, the total absolute difference of two images grows at most by a factor that does not depend on the images, different images are read out as different images, and no pixel changes by more than the traps it passes.", "quantifier": "all pairs of images with enough charge, sizes, windows, time windows, offsets, express values, dwell times, powers of the wells (below one too), densities, both directions", "why_tests_cant": "Compares the readouts of every pair of images; below one the power makes the first electrons reach traps fastest, so that small clouds behave differently, and the tests never compare two images.", "anchors": ["arcticpy/ccd.py:CCD.cloud_fractional_volume_from_n_electrons_and_phase", "arcticpy/main.py:add_cti", "arcticpy/trap_managers.py:TrapManagerInstantCapture.n_electrons_captured"]}
{"id": "C109", "title": "With wells of any power remove_cti recovers the image at a geometric rate", "statement": "Under the conditions of C108, and if every pixel has floor electrons and three times those that the traps it passes can take or give, the total absolute difference between what remove_cti returns after n iterations and the image that was read out is at most C * r^n, with r below one.", "quantifier": "all images with enough charge, sizes, windows, time windows, offsets, express values, dwell times, powers of the wells, densities, numbers of iterations, both directions", "why_tests_cant": "Convergence is about every number of iterations; the tests correct a few images a few times.", "anchors": ["arcticpy/main.py:remove_cti", "arcticpy/main.py:add_cti", "arcticpy/ccd.py:CCD.cloud_fractional_volume_from_n_electrons_and_phase"]}
{"id": "C110", "title": "Every image with enough charge is the readout of exactly one image, which remove_cti finds", "statement": "Under the conditions of C106 there are C and r below one, the same for all images of a size, such that for every image in which each pixel has at least what the traps it passes can take or give: there is an image without negative pixels that add_cti turns into it, there is only one, and what remove_cti returns after n iterations differs from it by at most C * r^n times the difference between the two images. The same holds past wells of any power (C108) with twice that charge and floor electrons more.", "quantifier": "all images with enough charge, whether they come from a readout or not, sizes, windows, time windows, offsets, express values, charge injection, phases, numbers of iterations, both directions", "why_tests_cant": "That every image has an inverse, and one rate for all images, are statements about all images and all numbers of iterations; the tests correct images that they have read out before.", "anchors": ["arcticpy/main.py:remove_cti", "arcticpy/main.py:add_cti"]}
{"id": "C111", "title": "remove_cti amplifies noise by a bounded factor, however many iterations", "statement": "Under the conditions of C110 there is a factor K, the same for all images of a size and all numbers of iterations, such that the results of remove_cti on two images differ by at most K times the difference of the images.", "quantifier": "all pairs of images with enough charge, sizes, windows, time windows, offsets, express values, charge injection, phases, numbers of iterations, both directions", "why_tests_cant": "A bound for every number of iterations and every pair of images; the tests use at most a handful of iterations on one image.", "anchors": ["arcticpy/main.py:remove_cti", "arcticpy/main.py:add_cti"]}
{"id": "C112", "title": "Slow traps and traps that record times change no pixel by more than they can hold", "statement": "Whenever add_cti returns for a readout with a single clocking step past traps that record times (continuum species included), and for slow traps as long as they follow the rate equation (C65), every pixel of the returned image is non-negative and differs from the pixel before by at most the electrons that the traps of the pixels it passes can hold.", "quantifier": "all non-negative images, sizes, offsets, dwell times, wells, densities, filling curves that never rise and never fall below zero, numbers of species", "why_tests_cant": "A limit on every pixel of every image, over all histories of packets; the tests read out single images.", "anchors": ["arcticpy/trap_managers.py:TrapManager.n_electrons_released_and_captured", "arcticpy/trap_managers.py:TrapManagerTrackTime", "arcticpy/main_utils.pyx:cy_clock_charge_in_one_direction", "arcticpy/main.py:add_cti"]}
{"id": "C113", "title": "Traps that record times create no charge", "statement": "Whenever add_cti returns for a readout with a single clocking step past traps that record times, no column of the returned image has more charge than the same column of the image before.", "quantifier": "all non-negative images, sizes, offsets, dwell times, wells, densities, filling curves that never rise and never fall below zero, numbers of species", "why_tests_cant": "A conservation law over all histories of packets and all filling curves; the tests compare a few numbers with stored ones.", "anchors": ["arcticpy/trap_managers.py:TrapManagerTrackTime", "arcticpy/traps.py:TrapLifetimeContinuumAbstract", "arcticpy/main.py:add_cti"]}
{"id": "C114", "title": "Past traps that record times, more charge in gives more charge out, if every pixel keeps some", "statement": "For readout with a single clocking step past traps that record times, whose filling curve falls ever more slowly (the log-normal continua of the code do), or past slow-filling wells with instant capture, in either direction: if every pixel keeps some charge above the traps that it passes, and filling never grows faster than the charge there, then add_cti never fails, an image with more charge everywhere gives an image with more charge everywhere, differences grow at most by a constant factor, different images stay different, and no pixel changes by more than the traps that it passes can hold.", "quantifier": "all images, sizes, offsets, dwell times, wells of any power, densities, flattening filling curves, numbers of species, and mixtures of kinds of traps between the directions", "why_tests_cant": "Relates the readouts of every pair of images through all histories of packets; the tests read out single images.", "anchors": ["arcticpy/trap_managers.py:TrapManagerTrackTime", "arcticpy/traps.py:TrapLifetimeContinuumAbstract", "arcticpy/main_utils.pyx:cy_clock_charge_in_one_direction", "arcticpy/main.py:add_cti"]}
{"id": "C115", "title": "Past traps that record times, remove_cti finds the one image of which an image is the readout", "statement": "In the setting of C114, every image with enough charge is the readout of exactly one image that keeps its charge above the traps, remove_cti converges to it at a geometric rate that is the same for all images, images are recovered from their readouts, and noise is amplified by a bounded factor however many iterations.", "quantifier": "all images with enough charge, sizes, offsets, dwell times, wells of any power, densities, flattening filling curves, numbers of iterations", "why_tests_cant": "Existence, uniqueness and a convergence rate for every image and every number of iterations; no finite set of images shows it.", "anchors": ["arcticpy/main.py:remove_cti", "arcticpy/main.py:add_cti", "arcticpy/trap_managers.py:TrapManagerTrackTime", "arcticpy/traps.py:TrapLifetimeContinuumAbstract"]}
{"id": "C116", "title": "More traps take more from the first packet of a column (violated: not from the whole image)", "statement": "With a single clocking step and instant capture, the first charge in a column is read out as a closed form of the number of traps in a pixel and the filling of the wells alone: lifetimes, dwell time and later pixels do not matter. More traps leave less of it, so it tells their density. The total charge of the image does not obey this: there are wells and traps for which adding a further species of traps leaves more charge in the image that is read out.", "quantifier": "all images, sizes, offsets, dwell times, lifetimes, densities, numbers of species, wells of any power", "why_tests_cant": "Compares every pair of detectors on every image; the violation needs a steep well and a particular mixture of lifetimes that no test tries.", "anchors": ["arcticpy/trap_managers.py:TrapManagerInstantCapture", "arcticpy/main_utils.pyx:cy_clock_charge_in_one_direction", "arcticpy/main.py:add_cti"]}
{"id": "C117", "title": "Charge meets the traps of its own pixel first, while they are empty (violated when every transfer is computed)", "statement": "roe.py:360-372 says that the pixel in which a charge cloud starts has empty traps, and that those of the later pixels may have been filled. When every transfer is computed (express 0 or at least the number of rows) add_cti takes the pixels in the opposite order: the first charge of a column is still read out as in the detector, but the row behind a lone bright pixel passes its own, empty traps after it has been given the trail, so that it is read out as the exact value of the detector less what the traps of one more empty pixel take, which is strictly less in slowly filling wells. There is an image for which express 0 gives half the charge of the detector in that row and express 1 all of it.", "quantifier": "all images, sizes, offsets, dwell times, densities, lifetimes, numbers of species and wells of any power with a single clocking step and instant capture", "why_tests_cant": "The tests compare the code with itself or with an older version; they do not compare it with an independent model of the order of transfers.", "anchors": ["arcticpy/roe.py:ROE.express_matrix_and_monitor_traps_matrix_from_pixels_and_express", "arcticpy/roe.py:ROE.__init__", "arcticpy/main_utils.pyx:cy_clock_charge_in_one_direction", "arcticpy/main.py:add_cti"]}
{"id": "C118", "title": "More charge in gives more charge out past traps that take time to capture, and no two images give the same result", "statement": "For traps of the class Trap, whatever their capture timescale (0, the default, included), read out past every pixel with every transfer computed, in wells of any power in which an electron more reaches less than one trap more: if every pixel has a little charge and what the traps that it passes can hold, then add_cti never fails, an image with more charge in every pixel gives more charge in every pixel, differences grow at most by a factor that depends on the settings only, different images give different results, and no pixel changes by more than the traps that it passes hold. The other direction may have traps of any kind. In such wells the recomputed cloud never passes the highest level, so that the description of C65 is complete.", "quantifier": "all images with enough charge, sizes, offsets, dwell times, densities, lifetimes, capture times, numbers of species and powers of the wells, with a single clocking step for slow traps; the other direction may have instant traps, windows, times, injection and several steps, or traps that record times", "why_tests_cant": "The tests of slow capture call one trap manager on a few clouds; an order and an inverse for all images cannot be sampled.", "anchors": ["arcticpy/trap_managers.py:TrapManager.n_electrons_released_and_captured", "arcticpy/main.py:add_cti"]}
{"id": "C119", "title": "Correction recovers the image past traps that take time to capture", "statement": "For the settings of C118: every image in which each pixel has a little charge and twice what the traps that it passes can hold is the readout of exactly one image, to which remove_cti converges at a geometric rate that is the same for all images; remove_cti recovers an image that was read out by add_cti; and it enlarges noise by at most a factor that does not depend on the number of iterations.", "quantifier": "as for C118, and all numbers of iterations", "why_tests_cant": "The tests correct a few images with a few iterations and compare with stored values.", "anchors": ["arcticpy/main.py:remove_cti", "arcticpy/main.py:add_cti"]}
{"id": "C120", "title": "In wells that fill evenly or ever more slowly, more charge in gives more charge out past traps of every kind, for all images", "statement": "For a well fill power of at least 1 (the default is 1) and traps of any of the three kinds, instant, recording times or slow, of which an electron more reaches less than one more: for every image without negative pixels, empty ones included, add_cti never fails, an image with more charge in every pixel gives more charge in every pixel, differences grow at most by a factor that depends on the settings only, different images give different results, and no pixel changes by more than the traps that it passes.", "quantifier": "all images without negative pixels, sizes, offsets, dwell times, densities, lifetimes, capture times, numbers of species; the two directions may have traps of different kinds; windows, times and several clocking steps with instant traps", "why_tests_cant": "The tests read out a few images with a few traps and compare with stored values; an order of all images cannot be sampled.", "anchors": ["arcticpy/trap_managers.py:TrapManager.n_electrons_released_and_captured", "arcticpy/trap_managers.py:TrapManagerInstantCapture.n_electrons_released_and_captured", "arcticpy/trap_managers.py:TrapManagerTrackTime.n_trapped_electrons_from_watermarks", "arcticpy/main.py:add_cti"]}
{"id": "C121", "title": "In such wells correction recovers every image with more charge than twice the traps", "statement": "For the settings of C120: if every pixel has more than twice what the traps that it passes can hold, the estimates of remove_cti, applied to the readout of an image, converge to that image at a geometric rate.", "quantifier": "as for C120, with enough charge in every pixel, and all numbers of iterations", "why_tests_cant": "The tests correct a few images with a few iterations and compare with stored values.", "anchors": ["arcticpy/main.py:remove_cti", "arcticpy/main.py:add_cti"]}
{"id": "C122", "title": "Settings that differ a little give readouts that differ a little", "statement": "One image, read out with two settings of the traps, the dwell time and the well: in every column the two results differ in total by at most six times the number of rows, times the number of pixels passed, times the error of the settings.  The error of the settings adds the differences of the densities, of the shares of electrons that stay trapped during a transfer, and of the depths that clouds reach.", "quantifier": "all pairs of settings with the same number of trap species, all images whose pixels stay above the floor of the wells, all sizes, offsets, dwell times, densities, lifetimes and fill powers", "why_tests_cant": "The tests read out a few images with fixed settings; they do not compare nearby settings, and cannot compare all.", "anchors": ["arcticpy/main.py:add_cti", "arcticpy/main_utils.pyx:cy_clock_charge_in_one_direction", "arcticpy/trap_managers.py:TrapManagerInstantCapture.n_electrons_released_and_captured"]}
{"id": "C123", "title": "A correction with settings a little wrong is a little wrong, however many iterations", "statement": "For settings of the correction there are a factor K and a rate r below 1, such that for all true settings and all images with enough charge in every pixel: when the image is read out with the true settings and corrected with the others, after n iterations every column differs from the image by at most K times (r^n times the first difference plus the error of the settings).  The errors of the calibration do not add up with the iterations.  They do not vanish either: for settings that are wrong there are images that no number of iterations recovers.", "quantifier": "all true settings with the same number of trap species and the same offset, all images with enough charge, all numbers of iterations", "why_tests_cant": "The tests correct images with the settings that trailed them; an error in the calibration is never tried.", "anchors": ["arcticpy/main.py:remove_cti", "arcticpy/main.py:add_cti"]}
{"id": "C124", "title": "Charge injection is the history of the trap managers", "statement": "With one phase and every transfer computed, charge injection moves every packet through as many pixels of traps as asked for, for traps of any kind.  The result is that of the calls of the trap managers, one per packet, the managers start again for each transfer, any error is that of the first failing call, and the clock remembers the number of transfers.  For slow traps the history is that of the rate equation, for traps that record times that of the times.", "quantifier": "all images, trap kinds, densities, dwell times, numbers of transfers up to the number of pixels and offset, with traps emptied or kept between columns", "why_tests_cant": "The tests of charge injection use instant-capture traps and a few numbers.", "anchors": ["arcticpy/main.py:add_cti", "arcticpy/main_utils.pyx:cy_clock_charge_in_one_direction", "arcticpy/roe.py:ROEChargeInjection", "arcticpy/trap_managers.py"]}
{"id": "C125", "title": "Order, differences and bounds past traps of every kind, with charge injection in either direction", "statement": "When one or both directions are charge injection past slow traps or traps that record times, the call succeeds, more charge in gives more charge out, differences grow at most by a factor, no two images give the same result, and no pixel changes by more than the traps it passes.", "quantifier": "all images that are not negative, empty pixels included, all sizes and settings where an electron more reaches less than one trap more", "why_tests_cant": "These compare all pairs of images.", "anchors": ["arcticpy/main.py:add_cti", "arcticpy/main_utils.pyx:cy_clock_charge_in_one_direction", "arcticpy/roe.py:ROEChargeInjection", "arcticpy/trap_managers.py"]}
{"id": "C126", "title": "Correction recovers images after charge injection past traps of every kind", "statement": "remove_cti converges to the image that was read out, at a geometric rate, when one or both directions are charge injection past slow traps or traps that record times, and every pixel has enough charge.", "quantifier": "all images with enough charge and all numbers of iterations", "why_tests_cant": "The tests run a few iterations on a few images and never correct charge injection.", "anchors": ["arcticpy/main.py:add_cti", "arcticpy/main_utils.pyx:cy_clock_charge_in_one_direction", "arcticpy/roe.py:ROEChargeInjection", "arcticpy/trap_managers.py", "arcticpy/main.py:remove_cti"]}
{"id": "C127", "title": "Traps that take time create no charge, unless there are more of them than the well holds electrons", "statement": "In wells that fill evenly or ever more slowly, no corner of the image next to the readout register holds more electrons after readout or charge injection past slow traps or traps that record times than before; without serial readout this is so for each column.  Refuted for many traps: one transfer past 6000 slow traps per pixel of a well of 1000 turns a column of 500 electrons into one of 1231.", "quantifier": "all images that are not negative, all sizes, offsets, numbers of transfers, dwell times, densities and trap lifetimes, both directions", "why_tests_cant": "The tests do not check the balance of charge of slow traps; the failure needs more traps than electrons.", "anchors": ["arcticpy/main.py:add_cti", "arcticpy/main_utils.pyx:cy_clock_charge_in_one_direction", "arcticpy/roe.py:ROEChargeInjection", "arcticpy/trap_managers.py"]}
{"id": "C128", "title": "Traps of several kinds at once take and give charge each by their own law", "statement": "A readout or charge injection past several groups of traps, each of instant traps, slow traps or traps that record times, in any number of phases, moves each column as follows: in every pass and step, the groups of a phase all meet the same cloud, each changes by the law of its kind, and what they take or give together, times the transfers that the pass stands for, is taken from or given to the pixels of the clock sequence.  The call does not fail.", "quantifier": "all images that are not negative, sizes, phases, dwell times, groups, densities, express, offset, windows, time windows and columns; groups that are not instant need wells that hold more electrons than they have traps", "why_tests_cant": "The tests combine trap kinds only in a few images; this is about every readout.", "anchors": ["arcticpy/main.py:add_cti", "arcticpy/main_utils.pyx:cy_clock_charge_in_one_direction", "arcticpy/roe.py", "arcticpy/trap_managers.py"]}
{"id": "C129", "title": "Order, differences and bounds past traps of several kinds", "statement": "With traps of several kinds at once, in any number of phases, with any express, offset, window and time window, and charge injection in either direction, the call succeeds, more charge in gives more charge out, differences grow at most by a factor, no two images give the same result, and no pixel changes by more than the traps it passes.", "quantifier": "all images that are not negative, empty pixels included, all sizes and settings where an electron more in a cloud leads to less than one more being taken by all groups", "why_tests_cant": "These compare all pairs of images.", "anchors": ["arcticpy/main.py:add_cti", "arcticpy/main_utils.pyx:cy_clock_charge_in_one_direction", "arcticpy/roe.py", "arcticpy/trap_managers.py"]}
{"id": "C130", "title": "Correction recovers images past traps of several kinds", "statement": "remove_cti converges to the image that was read out, at a geometric rate, with traps of several kinds at once, in any number of phases, with any express, offset, windows and charge injection, when every pixel has enough charge.", "quantifier": "all images with enough charge and all numbers of iterations", "why_tests_cant": "The tests run a few iterations on a few images.", "anchors": ["arcticpy/main.py:add_cti", "arcticpy/main_utils.pyx:cy_clock_charge_in_one_direction", "arcticpy/roe.py", "arcticpy/trap_managers.py", "arcticpy/main.py:remove_cti"]}
{"id": "C131", "title": "Traps of several kinds create no charge", "statement": "When every transfer is computed or charge is injected, so that one pass moves all rows alike, no corner of the image next to the amplifier gains charge in a readout past traps of several kinds at once: its sum after the call is at most its sum before.  With express this is false: a refutation gives an image and settings.", "quantifier": "all images that are not negative, sizes, phases, dwell times, groups of any kinds, offsets, windows, time windows", "why_tests_cant": "The tests look at totals of a few images with one kind of trap.", "anchors": ["arcticpy/main.py:add_cti", "arcticpy/main_utils.pyx:cy_clock_charge_in_one_direction", "arcticpy/roe.py", "arcticpy/trap_managers.py"]}
{"id": "C132", "title": "Correction with the HST ACS model converges", "statement": "At every date since the launch, with the traps, CCD and ROE of model_for_HST_ACS, an image in which every pixel has an electron more than three times the traps on the way to the register is the readout of exactly one image with more than twice as many electrons, remove_cti converges to it at a geometric rate, and however many iterations, noise is amplified by a bounded factor.", "quantifier": "all dates since the launch, all sizes, offsets, express, bright images and numbers of iterations", "why_tests_cant": "The tests only check the numbers of the model at a date or two and never correct an image with it.", "anchors": ["arcticpy/main.py:model_for_HST_ACS", "arcticpy/main.py:remove_cti", "examples/correct_HST_ACS_image.py"]}
{"id": "C133", "title": "No pixel becomes brighter than the brightest one", "statement": "When the charge is clocked in a single step, past traps of any kinds that are few enough for the wells or past any number of instant-capture traps in one group, every pixel of the output of add_cti is between 0 and the brightest pixel of the input: CTI only redistributes and dims. It fails for dense traps in several groups (they are offered the same electrons), for dense slow traps, and for dense instant traps with an express that lets one computed transfer stand for several; each has a witness.", "quantifier": "for all images of any size, any brightness, any trap species, windows, offsets, express values and time windows of the stated kinds, readout or charge injection, both directions", "why_tests_cant": "The repository's tests look at a few images with few traps; whether a trail can ever add up to a pixel brighter than the source depends on all transfers past all traps, and the cases that do overshoot need particular densities or express values.", "anchors": ["arcticpy/main.py:add_cti", "arcticpy/main_utils.pyx:cy_clock_charge_in_one_direction", "arcticpy/trap_managers.py", "arcticpy/roe.py"]}
{"id": "C134", "title": "Packets kept between two numbers of electrons change by no more than the traps they reach, and are recovered", "statement": "A packet of limited size reaches only the traps at the bottom of the well. When every pixel has room for it, each transfer takes at most the traps that the largest packet reaches, and gives back at most what these release in one dwell time; brighter images stay brighter; every image with room for both is the readout of exactly one image, to which remove_cti converges at a geometric rate, with bounded amplification of noise.", "quantifier": "for all images of any size with pixels in the range, any instant-capture species in one group, any well of power below one, any offset and express of a readout in a single step", "why_tests_cant": "The bound is about every image in a range of brightness and about an unbounded number of iterations.", "anchors": ["arcticpy/main.py:add_cti", "arcticpy/main.py:remove_cti", "arcticpy/main_utils.pyx:cy_clock_charge_in_one_direction", "arcticpy/ccd.py:CCD.cloud_fractional_volume_from_n_electrons_and_phase"]}
{"id": "C135", "title": "The HST example's correction has one answer, and approaches it", "statement": "With the model of model_for_HST_ACS for any date from the launch to the start of 2018, anywhere on the detector, with any express other than 1: every image with 2300 to 2800 electrons in each pixel (the range of examples/correct_HST_ACS_image.py) is the readout of exactly one image with 1800 to 4500 electrons in each pixel; remove_cti converges to it at a geometric rate; noise is amplified by a bounded factor; and a transfer takes at most 0.78 electrons and gives at most 0.19.", "quantifier": "for all dates in the range, all patches of the detector (rows + offset up to 2048), all such images and all numbers of iterations", "why_tests_cant": "The example is one image with three iterations; whether the iteration approaches a true image is not something that it can show.", "anchors": ["examples/correct_HST_ACS_image.py", "arcticpy/main.py:model_for_HST_ACS", "arcticpy/main.py:remove_cti"]}
{"id": "C136", "title": "Giving the same traps in one group or in several makes no difference (violated)", "statement": "add_cti takes its traps as one list or as a list of lists, one trap manager for each; test_traps.py:206-228 sets out to check that two species in one list and in two lists give the same image (its assertion never calls .all, so it checks nothing). They do not: in one step every group is offered the electrons of the pixel and those it has itself released, but not those that the other groups release, so the same traps in two groups capture a different number.", "quantifier": "refuted for every trap density from above 0 to 1", "why_tests_cant": "The test that is meant to check this compares a bound method with nothing and passes whatever the images are.", "anchors": ["arcticpy/main_utils.pyx:cy_clock_charge_in_one_direction", "arcticpy/trap_managers.py:AllTrapManager", "test_arcticpy/test_traps.py:206-228"]}
{"id": "C137", "title": "A time window given by two times keeps the transfers between them (violated for windows that share an end and for windows that start before zero)", "statement": "test_main.py:804 and 819 give add_cti time windows whose ends are not whole numbers, [0, 0.25] and [0.25, 1]. For any times the express matrix keeps the part of the transfers between the first time and one past the last, and the call reads the image out with these parts. Windows that each start one past the last time of the one before add up to the whole readout. The windows of that test share an end, so one transfer is made twice for every pixel that is still on the chip; and a window that starts before zero adds transfers instead of removing them. The serial register reads out the rows that arrive between the two times, except that in the last transfer before the first row arrives it reads out the first row too, because int rounds towards zero.", "quantifier": "any list of times, window of pixels, express, offset and number of windows; any image in the default parallel setting; refuted for every pixel still on the chip, and for every start before zero", "why_tests_cant": "The test compares with a tolerance of two electrons, which hides the transfer that is made twice; no test has a window that starts before zero, and real ends are uncountably many.", "anchors": ["arcticpy/roe.py:restrict_time_span_of_express_matrix", "arcticpy/main.py:add_cti", "test_arcticpy/test_main.py:776-843", "arcticpy/main.py:169-175"]}
{"id": "C138", "title": "The image changes little with the settings, past traps of any class, in both directions", "statement": "Traps of any one class per direction are read out in one phase, in both directions, in wells of power at least one. Two settings may differ in densities, release timescales, capture timescales, dwell times, share of the traps, full well depth and power. The two images differ, in all pixels together, by at most the number of columns times the difference of the parallel settings plus the number of rows times that of the serial ones. The difference of settings is n (n + offset) times 6 times (instant traps) or 9 times (class Trap) the errors of the densities, of the shares kept, of the depths and, for the class Trap, of the occupancies reached inside the cloud. For traps that record times it is 8 n (n + offset) times the largest difference of the numbers of electrons held after any number of transfers plus the error of the depths.", "quantifier": "all image sizes, all non-negative images, empty pixels included, all pairs of settings with the same offset and the same number of species; for the class Trap those where the ratio of capture to emission is not larger for any species of one setting than for the same species of the other; instant traps may also be compared with traps that record times", "why_tests_cant": "The tests have a few fixed settings; how the image depends on them is a statement about all pairs of settings and all images.", "anchors": ["arcticpy/trap_managers.py:TrapManager", "arcticpy/trap_managers.py:TrapManagerInstantCapture", "arcticpy/trap_managers.py:TrapManagerTrackTime", "arcticpy/main.py:add_cti", "arcticpy/traps.py:Trap"]}
{"id": "C139", "title": "As the capture timescale tends to 0, the image tends to that of the default capture timescale 0", "statement": "Trap(density, release_timescale) has a capture timescale of 0, which the code treats apart as an infinite capture rate. It is the limit of short timescales: with a capture timescale tau instead, the image differs, in all pixels together, by at most tau times a constant that is given by the settings and the size of the image only.", "quantifier": "all capture timescales above 0, all image sizes, all non-negative images, any number of species per direction", "why_tests_cant": "The tests of test_traps.py have the capture timescales 0 and 0.1 in single calls; a rate of convergence for all images is not a finite test.", "anchors": ["arcticpy/traps.py:Trap", "arcticpy/trap_managers.py:TrapManager", "arcticpy/main.py:add_cti"]}
{"id": "C140", "title": "Noise and settings that are a little wrong do little harm to a correction, for traps of every class", "statement": "For settings of the correction there are a factor K and a rate r below 1 such that, for every image x and every image im to be corrected that is close enough to x, after n iterations the result differs from x by at most K times (r^n times the first difference plus the distance of im from what the settings would have made of x). The second part may be noise. It may also come from wrong settings: an image that was read out with other settings is recovered up to K times (r^n times the first difference plus the difference of the settings of C138).", "quantifier": "instant traps, traps that record times and traps of the class Trap, in both directions; all images with enough charge in every pixel, all noise within that margin, all numbers of iterations", "why_tests_cant": "The tests correct images with the settings that trailed them and without noise.", "anchors": ["arcticpy/main.py:remove_cti", "arcticpy/main.py:add_cti"]}
{"id": "C141", "title": "A narrow continuum of lifetimes acts like a single lifetime", "statement": "TrapLogNormalLifetimeContinuum with a small sigma is close to TrapInstantCapture with the median lifetime, although add_cti handles the two with different trap managers, which keep different records. The fraction of traps that are full differs by at most sigma, however long ago they were filled. The images read out differ, in all pixels together, by at most sigma times 8 n (n + offset) times the traps of a pixel, for each column and each row.", "quantifier": "all times, densities, medians and sigmas; all image sizes, all non-negative images, empty pixels included, all offsets and dwell times, any number of species in a group, readout in one phase with every transfer computed, in wells of power at least one that hold more electrons than there are traps", "why_tests_cant": "The repository's tests compare one narrow continuum with a single lifetime at a few times, with a chosen tolerance. The bound holds for every sigma, time and image, so it gives the limit.", "anchors": ["arcticpy/traps.py:TrapLogNormalLifetimeContinuum", "arcticpy/traps.py:TrapLifetimeContinuumAbstract.fill_fraction_from_time_elapsed", "arcticpy/trap_managers.py:TrapManagerTrackTime", "arcticpy/trap_managers.py:TrapManagerInstantCapture", "arcticpy/main.py:add_cti"]}
{"id": "C142", "title": "In wells that fill evenly, the output is proportional to the image", "statement": "When the well fill power is 1, there is no notch, and no pixel together with the traps fills the well, add_cti of x times an image is x times add_cti of the image: the traps that fainter clouds reach are fewer in proportion. So is the correction by remove_cti after any number of iterations, as long as the estimates stay non-negative and below full wells. Neither holds for other fill powers, nor once wells are full: then faint images lose a different fraction.", "quantifier": "all factors x, image sizes and non-negative images, empty pixels included; groups of instant traps, slow traps and traps that record times, of any densities that are few enough; express, offsets, windows, time windows and charge injection; clocking in one step", "why_tests_cant": "The tests read out images of one brightness. The claim relates the calls for all pairs of proportional images, for every trap manager.", "anchors": ["arcticpy/main.py:add_cti", "arcticpy/main.py:remove_cti", "arcticpy/ccd.py:CCD.cloud_fractional_volume_from_n_electrons_and_phase", "arcticpy/trap_managers.py:TrapManagerInstantCapture", "arcticpy/trap_managers.py:TrapManager", "arcticpy/trap_managers.py:TrapManagerTrackTime"]}
{"id": "C143", "title": "The share of the first packet that reaches the output", "statement": "With a single clocking step and instant capture, the first charge of a column is multiplied by 1 - n_traps / full_well in every pixel it passes when the well fill power is 1: a charge transfer efficiency. While it fills the wells it loses n_traps electrons in every pixel instead. However few the traps, next to nothing is left of it far enough from the output. At fill powers of at most 1 a brighter packet keeps a larger share of its electrons; at fill powers of at least 1, a fainter one does, up to the full well but not above it.", "quantifier": "all images, sizes, offsets, rows, dwell times, lifetimes, densities and numbers of species; all pairs of images with other pixels that differ behind the first packet", "why_tests_cant": "The claims hold at any distance from the output, and compare all pairs of images; the tests read out a few images at a few distances.", "anchors": ["arcticpy/main.py:add_cti", "arcticpy/main_utils.pyx:cy_clock_charge_in_one_direction", "arcticpy/trap_managers.py:TrapManagerInstantCapture", "arcticpy/ccd.py:CCD.cloud_fractional_volume_from_n_electrons_and_phase"]}
{"id": "C144", "title": "Clocking in both directions is clocking in one and then in the other", "statement": "A call of add_cti with parallel and serial arguments gives exactly the image, the errors and the ROEs of a call without the serial traps followed by a call without the parallel traps, whatever the windows, the time window, express, offsets and clocking modes. So the first charge seen from the output is read out in closed form, and in linear wells the charge transfer efficiencies of the two directions multiply. The order of the two calls matters, and a correction with remove_cti is not that of the two directions in turn (both refuted).", "quantifier": "all images of any size with at least one row, all arguments of both directions (two ROE objects), all time windows, any arithmetic; for the closed form single-step clocking and instant capture", "why_tests_cant": "The tests add CTI in both directions for one image; the claim compares the calls for all arguments, errors included.", "anchors": ["arcticpy/main.py:add_cti", "arcticpy/main.py:remove_cti", "arcticpy/main_utils.pyx:cy_clock_charge_in_one_direction"]}
{"id": "C145", "title": "How much of the first charge a correction brings back", "statement": "In linear wells, with single-step clocking and instant capture in both directions, let e be the share of the first charge seen from the output that is read out. A call of remove_cti with n iterations turns it into the value before the readout, up to exactly the share (1 - e)^(n + 1) that is still missing. Other pixels, the lifetimes and the dwell times do not matter.", "quantifier": "all numbers of iterations, images, sizes, positions, offsets, densities below the full well, lifetimes, dwell times and numbers of species", "why_tests_cant": "The tests correct a few images with a few iterations and compare within a tolerance; the claim is exact for any number of iterations.", "anchors": ["arcticpy/main.py:remove_cti", "arcticpy/main.py:add_cti", "arcticpy/trap_managers.py:TrapManagerInstantCapture"]}
{"id": "C146", "title": "A correction approaches the first charge from below", "statement": "With single-step clocking and instant capture in both directions, every further iteration of remove_cti brings back more, or as much, of the first charge seen from the output, and never more than there was: when the well fill power is at most 1 with any number of traps, and otherwise when the traps are few (n_traps * fill power < full well). If anything of it is read out at all, it comes back to any accuracy with enough iterations. In steep wells with many traps it cannot: different first charges give the same readout (refuted).", "quantifier": "all numbers of iterations, accuracies, images, sizes, positions, offsets, densities, lifetimes, dwell times, numbers of species and fill powers", "why_tests_cant": "Monotony and convergence of an unbounded number of iterations, for every image and every well.", "anchors": ["arcticpy/main.py:remove_cti", "arcticpy/main.py:add_cti", "arcticpy/ccd.py:CCD.cloud_fractional_volume_from_n_electrons_and_phase", "arcticpy/trap_managers.py:TrapManagerInstantCapture"]}
{"id": "C147", "title": "Assigning a parameter of a CCD changes that parameter and nothing else", "statement": "Assigning the full well depth, fill power, notch depth or blooming level of a CCD accepts a number or a list of one value per phase, raises ValueError for any other list, gives every phase its value and leaves the other attributes alone. A CCD whose fill power, notch depth or blooming level is assigned is the CCD built with that value, errors included; so is one whose full well depth is assigned, if its blooming level was given. With the default blooming level the old full well depth is kept as the blooming level (refuted), and assigning the fractions of traps leaves the wells with the old number of phases, so that a phase may have no well (refuted).", "quantifier": "all CCDs, numbers of phases and assigned values, over any kind of number", "why_tests_cant": "Any number of phases and any values; the constructor runs the setters in an order that hides a setter which also damages a later attribute.", "anchors": ["arcticpy/ccd.py:CCD.full_well_depth", "arcticpy/ccd.py:CCD.well_fill_power", "arcticpy/ccd.py:CCD.well_notch_depth", "arcticpy/ccd.py:CCD.well_bloom_level", "arcticpy/ccd.py:CCD.fraction_of_traps_per_phase", "arcticpy/ccd.py:CCD.__init__"]}
{"id": "C148", "title": "Charge in front shields the charge behind it", "statement": "With single-step clocking past instant traps, every pixel keeps at least what it would keep as the first of its column, and of its row, whatever is in front of it: in wells of fill power at most 1, and in others with few traps. In steep wells with many traps it may keep less (refuted). In wells that fill evenly it keeps at least (1 - n_traps / full well) to the number of transfers (in both directions, the product of the two), and its output is at least the trail that the charge in front leaves there plus what is left of its own charge alone; extra charge in a pixel adds at most itself to the output there. The two do not add up to the output (refuted), although outputs are proportional (C142).", "quantifier": "all images, sizes, pixels, offsets, densities, lifetimes, dwell times, numbers of species and fill powers", "why_tests_cant": "The charge in front is arbitrary, in any number of rows, and leaves the traps in any state.", "anchors": ["arcticpy/main.py:add_cti", "arcticpy/main_utils.pyx:cy_clock_charge_in_one_direction", "arcticpy/ccd.py:CCD.cloud_fractional_volume_from_n_electrons_and_phase", "arcticpy/trap_managers.py:TrapManagerInstantCapture"]}
