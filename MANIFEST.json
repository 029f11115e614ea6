{
 "claims": [
  {
   "property": "C01",
   "status": "proved",
   "theorems": [
    "C01_match_terminates_without_ub",
    "C01_match_sound",
    "C01_constructor_depth"
   ],
   "note": ""
  },
  {
   "property": "C02",
   "status": "partial",
   "theorems": [
    "C02_match_complete_refuted"
   ],
   "note": "refuted as stated (greedy search, e.g. *b against abab); proved when the text after the last wild-card does not re-occur before the end, and for patterns ending with the wild-card. What holds is C130"
  },
  {
   "property": "C03",
   "status": "proved",
   "theorems": [
    "C03_table_rectangular",
    "C03_iteration_visits_every_row"
   ],
   "note": ""
  },
  {
   "property": "C04",
   "status": "proved",
   "theorems": [
    "C04_table_refines_typed_map"
   ],
   "note": ""
  },
  {
   "property": "C05",
   "status": "proved",
   "theorems": [
    "C05_error_leaves_table_unchanged",
    "C05_no_undefined_access"
   ],
   "note": ""
  },
  {
   "property": "C06",
   "status": "partial",
   "theorems": [
    "C06_variadic_add_row_atomic_refuted"
   ],
   "note": "refuted as stated: a failing variadic AddRow leaves a partly filled row behind; proved for one value per column of the column's type. What holds is C131"
  },
  {
   "property": "C07",
   "status": "proved",
   "theorems": [
    "C07_tfs_round_trip"
   ],
   "note": "number formatting and parsing are parameters; the hypothesis `good` asks that stored numbers survive them"
  },
  {
   "property": "C08",
   "status": "partial",
   "theorems": [
    "C08_string_round_trip_refuted",
    "C08_empty_string_refuted",
    "C08_string_round_trip_partial"
   ],
   "note": "refuted as stated: a cell with a double quote is altered silently, an empty string loses its row or makes the file unreadable; proved for every non-empty string without double quote and newline"
  },
  {
   "property": "C09",
   "status": "proved",
   "theorems": [
    "C09_range_check",
    "C09_range_order_irrelevant",
    "C09_unbounded_and_fixed",
    "C09_equality"
   ],
   "note": ""
  },
  {
   "property": "C10",
   "status": "proved",
   "theorems": [
    "C10_straight_line_between_neighbours",
    "C10_tabulated_value",
    "C10_bad_range_outside",
    "C10_supply_order_irrelevant",
    "C10_single_point_undefined"
   ],
   "note": ""
  },
  {
   "property": "C11",
   "status": "partial",
   "theorems": [
    "C11_right_end_refuted"
   ],
   "note": "refuted as stated: at x = xmax every table is read out of bounds; proved on the half-open interval and beyond both ends. What holds is C132"
  },
  {
   "property": "C12",
   "status": "proved",
   "theorems": [
    "C12_ring_steps",
    "C12_ring_inverse",
    "C12_ring_postfix",
    "C12_one_turn"
   ],
   "note": ""
  },
  {
   "property": "C13",
   "status": "proved",
   "theorems": [
    "C13_priority_order",
    "C13_where_added",
    "C13_removal"
   ],
   "note": "priorities are taken as fixed while registered; each pointer registered at most once"
  },
  {
   "property": "C14",
   "status": "proved",
   "theorems": [
    "C14_tracking_terminates",
    "C14_steps_cover_component",
    "C14_active_process_sees_all",
    "C14_integrated_length",
    "C14_zero_step_never_ends"
   ],
   "note": "the steps sum to L up to the tolerance of the loop's exit test"
  },
  {
   "property": "C15",
   "status": "partial",
   "theorems": [
    "C15_reversed_pair_refuted",
    "C15_reversed_beamline_refuted"
   ],
   "note": "refuted as stated for n1 > n2 (accepted, iteration leaves the lattice); proved for n1 <= n2. What holds is C133"
  },
  {
   "property": "C16",
   "status": "partial",
   "theorems": [
    "C16_overlap_refuted",
    "C16_single_frame_refuted",
    "C16_order_refuted"
   ],
   "note": "refuted as stated: the frame completing the first pattern's count is not counted for the second, and order is not checked; exact selection proved. What holds is C134"
  },
  {
   "property": "C17",
   "status": "partial",
   "theorems": [
    "C17_appended_frame_index_refuted",
    "C17_unbalanced_refuted"
   ],
   "note": "order and queries proved; indices refuted for whole appended frames; a superfluous EndFrame is undefined rather than reported. What holds is C135"
  },
  {
   "property": "C18",
   "status": "partial",
   "theorems": [
    "C18_late_append_refuted",
    "C18_replace_refuted"
   ],
   "note": "Proved for every tree assembled bottom-up; refuted when a frame is appended to a sequence that already stands in another, or replaced: enclosing lengths are not updated. What holds is C136"
  },
  {
   "property": "C19",
   "status": "partial",
   "theorems": [
    "C19_iterator_refuted",
    "C19_negative_position_refuted"
   ],
   "note": "refuted as stated (dangling iterator on reallocation, negative positions accepted); exact result proved when storage suffices. What holds is C137"
  },
  {
   "property": "C20",
   "status": "partial",
   "theorems": [
    "C20_injection_refuted",
    "C20_stepping_refuted"
   ],
   "note": "refuted as stated for injection on axis (every continuation omits the first entrance again) and for component-wise stepping (patches omitted); the exact effects of runs, continuations, interrupted runs and stepping are proved. What holds is C138"
  },
  {
   "property": "C21",
   "status": "partial",
   "theorems": [
    "C21_step_answer_refuted",
    "C21_question_after_failure_refuted",
    "C21_marker_refuted"
   ],
   "note": "refuted as stated; the answer of a step is the number of the state, a question after a failed choice dereferences a null integrator and markers cast to the bunch integrator are undefined; every call sequence that avoids these follows the specified phases. What holds is C139"
  },
  {
   "property": "C22",
   "status": "partial",
   "theorems": [
    "C22_tiny_step_refuted"
   ],
   "note": "refuted as stated for a first step below the tolerance; proved for every division into steps above it. What holds is C140"
  },
  {
   "property": "C23",
   "status": "partial",
   "theorems": [
    "C23_minimum_refuted"
   ],
   "note": "refuted as stated: the step adjusted to the minimum is always below it, and counts of 0 or below are undefined; equal steps and number of triggers proved otherwise. What holds is C141"
  },
  {
   "property": "C24",
   "status": "partial",
   "theorems": [
    "C24_repeated_refuted",
    "C24_never_refuted"
   ],
   "note": "refuted as stated; the exact number of measurements is given for every division into steps, one is proved under a separation of the step ends from the measuring point. What holds is C142"
  },
  {
   "property": "C25",
   "status": "proved",
   "theorems": [
    "C25_centroid",
    "C25_moments",
    "C25_order",
    "C25_shift",
    "C25_scale",
    "C25_semidefinite",
    "C25_zero_variance",
    "C25_coordinate",
    "C25_projected_centroid",
    "C25_empty_refuted"
   ],
   "note": "Exact arithmetic. Finding outside the range of the property: an empty bunch leaves the covariance passed in (C25_empty_refuted)."
  },
  {
   "property": "C26",
   "status": "partial",
   "theorems": [
    "C26_accumulator_refuted",
    "C26_formula",
    "C26_projected_partial",
    "C26_repeated"
   ],
   "note": "refuted as stated; the covariance is added to the previous contents, so the answer is right exactly when they were zero."
  },
  {
   "property": "C27",
   "status": "partial",
   "theorems": [
    "C27_slices_refuted"
   ],
   "note": "Proved for bunches of particles; refuted for bunches of slices, whose momenta and arrival times change. What holds is C143"
  },
  {
   "property": "C28",
   "status": "partial",
   "theorems": [
    "C28_distribute_refuted",
    "C28_gather_refuted",
    "C28_distribute_partial"
   ],
   "note": "refuted as stated; seven doubles per particle make the unpacking fail its assertion. With six the partition and the gathering are proved; identities are lost."
  },
  {
   "property": "C29",
   "status": "proved",
   "theorems": [
    "C29_write_read",
    "C29_symmetric",
    "C29_packing",
    "C29_diagonal",
    "C29_beyond",
    "C29_negative_refuted",
    "C29_equality",
    "C29_zero",
    "C29_derived"
   ],
   "note": "Index arithmetic as written (truncating division), all dimensions. Finding: a negative index is not caught by the assertion (C29_negative_refuted)."
  },
  {
   "property": "C30",
   "status": "proved",
   "theorems": [
    "C30_rotations_are_matrices",
    "C30_type_tests"
   ],
   "note": "Every expression built from identity, axis rotations, product, inverse and the half-turn conjugations; exact reals; reference counting not modelled."
  },
  {
   "property": "C31",
   "status": "partial",
   "theorems": [
    "C31_identity_test_refuted"
   ],
   "note": "Group laws, rigidity and orientation proved in full. The identity test is refuted as stated: it accepts displacements below the tolerance; the exact guarantee is proved. What holds is C144"
  },
  {
   "property": "C32",
   "status": "partial",
   "theorems": [
    "C32_lift_refuted",
    "C32_lift_agrees_partial"
   ],
   "note": "refuted as stated: the lifted transformation turns the other way; proved: the actions agree exactly when there is no rotation, or a half turn about the origin."
  },
  {
   "property": "C33",
   "status": "proved",
   "theorems": [
    "C33_particles_move_as_rays",
    "C33_ray_determines",
    "C33_successive_is_composed"
   ],
   "note": "Single particles (PSvectorTransform3D), including arrays. The slice version SMPTransform3D is treated under another property."
  },
  {
   "property": "C34",
   "status": "partial",
   "theorems": [
    "C34_solenoid_refuted"
   ],
   "note": "refuted as stated: a solenoid whose rotation angle is nonzero but within the machine tolerance drops the off-diagonal drift terms and is not symplectic (C34_solenoid_refuted); proved for every other element and parameter, and for every solenoid outside that window (C145_solenoid). What holds is C145"
  },
  {
   "property": "C35",
   "status": "partial",
   "theorems": [
    "C35_solenoid_no_strength_refuted"
   ],
   "note": "refuted as stated: a solenoid of zero strength is the identity instead of a drift (C35_solenoid_no_strength_refuted); proved for drift, quadrupole, bend, and for solenoids whose pieces are outside the tolerance window. What holds is C146"
  },
  {
   "property": "C36",
   "status": "partial",
   "theorems": [
    "C36_transverse_map_refuted",
    "C36_moments_at_momentum_refuted",
    "C36_to_matrix_refuted",
    "C36_copy_refuted"
   ],
   "note": "refuted as stated: a 4x4 map applied to six-dimensional moments zeroes the longitudinal ones, and rescaling the moments to a reference momentum leaves the ct-dp covariance behind; proved for full-size maps, and for the transverse block otherwise; sparse maps act as the sum of their terms on particles and moments (proved), but a copied map refers to the original's storage and a map with a repeated term converts to another matrix than it acts as. What holds is C147 and C148"
  },
  {
   "property": "C37",
   "status": "proved",
   "theorems": [
    "C37_circle",
    "C37_rectangle",
    "C37_ellipse",
    "C37_rectellipse",
    "C37_symmetric",
    "C37_star",
    "C37_rows"
   ],
   "note": "exact reals"
  },
  {
   "property": "C38",
   "status": "partial",
   "theorems": [
    "C38_rectellipse_partial",
    "C38_rectellipse_refuted",
    "C38_ellipse_partial",
    "C38_ellipse_refuted",
    "C38_beyond_refuted",
    "C38_rectangle_refuted"
   ],
   "note": "refuted as stated: the quick test of the interpolated rect-ellipse omits the rear half width and accepts points far outside, the interpolated ellipse ignores the vertical half axis, behind the last entry the rect-ellipse reads indeterminate values and the octagon accepts everything, rectangles end the program; proved: the rect-ellipse if the half width is never the smallest dimension, and what the ellipse computes; see C80 for circles and octagons"
  },
  {
   "property": "C39",
   "status": "proved",
   "theorems": [
    "C39_bisect",
    "C39_turns",
    "C39_limit",
    "C39_four",
    "C39_rectangle"
   ],
   "note": "result within half the tolerance of the open distance (or of the limit 1 m), exactly twenty bisection turns"
  },
  {
   "property": "C40",
   "status": "proved",
   "theorems": [
    "C40_check",
    "C40_no_loss",
    "C40_plain",
    "C40_scattered",
    "C40_history"
   ],
   "note": "Aperture, scattering and transport of lost particles are arguments; indices and counters over every history of checks, transports and component changes."
  },
  {
   "property": "C41",
   "status": "partial",
   "theorems": [
    "C41_second_check_refuted",
    "C41_leftover_refuted"
   ],
   "note": "refuted as stated: after a check with losses the recorded entrance coordinates are gone, and a second check with losses reads outside them; particles that only leave the aperture at the exit are never reported. Proved: the first check in a component never fails and reports excessive loss exactly when the threshold is met. What holds is C149"
  },
  {
   "property": "C42",
   "status": "partial",
   "theorems": [
    "C42_first_twice_refuted",
    "C42_totals_refuted",
    "C42_twice_refuted"
   ],
   "note": "refuted as stated: in the nearest-element and precise modes the first record is counted twice, so the total is one too large; finalising twice gives counts that are neither the old ones nor doubled. The ten centimetre mode is C89."
  },
  {
   "property": "C43",
   "status": "proved",
   "theorems": [
    "C43_registration",
    "C43_constructors",
    "C43_name",
    "C43_short_name",
    "C43_beamline",
    "C43_writable",
    "C43_dotted_type_refuted"
   ],
   "note": "C43_dotted_type_refuted shows why type names must not contain dots; channels of one element come in unspecified order."
  },
  {
   "property": "C44",
   "status": "proved",
   "theorems": [
    "C44_write_read",
    "C44_increment",
    "C44_same",
    "C44_sizes",
    "C44_restore"
   ],
   "note": "Channels are read/write pairs on an arbitrary machine state."
  },
  {
   "property": "C45",
   "status": "proved",
   "theorems": [
    "C45_delay",
    "C45_frame",
    "C45_bad_delay",
    "C45_first_pulses_zero"
   ],
   "note": "over every interleaving of pulses, machine movements, gain and setpoint changes; finding: the delay queue starts with zeros, so the first pulses set all actuators to zero"
  },
  {
   "property": "C46",
   "status": "partial",
   "theorems": [
    "C46_vector_sum_refuted",
    "C46_cavities_stay_refuted",
    "C46_zero_refuted",
    "C46_scaling_partial"
   ],
   "note": "refuted as stated: in vector-sum mode the settings are stored before the ratio is taken, so no cavity ever changes and setting zero divides zero by zero; the scaling itself is proved right when the old sum is known; balanced mode is C94"
  },
  {
   "property": "C47",
   "status": "proved",
   "theorems": [
    "C47_component",
    "C47_coefficient",
    "C47_reading",
    "C47_series",
    "C47_lowest",
    "C47_tiny_scale",
    "C47_tiny_scale_refuted",
    "C47_bad_exclude",
    "C47_reading_grows_refuted",
    "C47_lowest_of_nothing_refuted",
    "C47_highest"
   ],
   "note": "findings: a scale within the tolerance of zero gives no field although the components read back; reading a component can raise the highest multipole; lowest multipole of a null expansion runs past the end; exclusions below -1 are undefined"
  },
  {
   "property": "C48",
   "status": "partial",
   "theorems": [
    "C48_positions_partial",
    "C48_unknown_refuted",
    "C48_lengths_refuted"
   ],
   "note": "refuted as stated: rows of unknown type are dropped without advancing the position, markers and wire scanners lose their length, cavities are rounded to half wavelengths; proved for tables whose rows keep their length (C48_positions_partial) and, for all tables, relative to the components made (C121)"
  },
  {
   "property": "C49",
   "status": "proved",
   "theorems": [
    "C49_hist",
    "C49_beyond",
    "C49_bad_width",
    "C49_slices",
    "C49_empty_range",
    "C49_no_bins"
   ],
   "note": "exact reals (accumulated slice boundaries do not round, so the 'bad slicing' abort is reached only with no bins); any sorting function; finding: Hist's last bin reaches beyond the upper end"
  },
  {
   "property": "C50",
   "status": "partial",
   "theorems": [
    "C50_accesses_refuted",
    "C50_default_refuted",
    "C50_range_partial",
    "C50_values_partial"
   ],
   "note": "refuted as stated: the access is in range exactly when the filter has at most four coefficients and there are at most three bins; the 29-coefficient filter installed by default always reads out of range"
  },
  {
   "property": "C51",
   "status": "partial",
   "theorems": [
    "C51_lumatrix_refuted",
    "C51_singular_refuted",
    "C114_solve",
    "C114_inverse"
   ],
   "note": "refuted as stated: LUMatrix hands LUfactor an empty vector of pivots, so every regular matrix is an access out of range (C51_lumatrix_refuted), and a singular matrix without a row of zeros is factorised without a report (C51_singular_refuted). With room for the pivots the solution is proved, see C114. InvertMatrix does not compile when used (a temporary bound to a reference) and is not modelled"
  },
  {
   "property": "C52",
   "status": "partial",
   "theorems": [
    "C52_minus_refuted",
    "C52_product_refuted",
    "C52_dot_lengths_refuted",
    "C52_print_refuted"
   ],
   "note": "refuted as stated: v-s adds s to every element; a product of conformable matrices whose result is not square is refused; the inner product accepts a longer second factor without report. The operators that work are C118, the products C117"
  },
  {
   "property": "C53",
   "status": "partial",
   "theorems": [
    "C53_round_beam_refuted",
    "C53_dispersion_refuted",
    "C53_reused_refuted"
   ],
   "note": "refuted as stated: equal emittances give NaN on the way back; without momentum spread the dispersion is lost; moments already in use keep their correlations because only the mean is cleared. What holds is C119"
  },
  {
   "property": "C54",
   "status": "partial",
   "theorems": [
    "C54_girder_partial",
    "C54_one_end_refuted",
    "C54_bent_girder_refuted"
   ],
   "note": "refuted as stated: a girder of which only one end is moved never moves (C54_one_end_refuted, for every history of moves of one end); equal moves of both ends are applied along the entrance axes (C54_bent_girder_refuted); proved when both ends were moved since the last query; simple mounts are C106"
  },
  {
   "property": "C55",
   "status": "partial",
   "theorems": [
    "C55_combined_refuted",
    "C55_no_way_out_refuted"
   ],
   "note": "refuted as stated: SetATLMode tests the mode it leaves, not the one it enters, so vibration followed by incremental mode is accepted (C55_combined_refuted), and that state can never be left (C55_no_way_out_refuted); refused calls change nothing (C150_calls, proved); the invariant holds for histories that enter incremental mode only without vibration. What holds is C150"
  },
  {
   "property": "C56",
   "status": "partial",
   "theorems": [
    "C56_find_or_count_refuted",
    "C56_intended_partial"
   ],
   "note": "refuted as stated: the negation flag of the search predicate is never set, so depending on its random value either Find or Count is wrong. Proved: what they do for the intended values."
  },
  {
   "property": "C57",
   "status": "partial",
   "theorems": [
    "C57_print_refuted"
   ],
   "note": "refuted as stated for alternations (a|b prints as a*b); proved for all other patterns. What holds is C151"
  },
  {
   "property": "C58",
   "status": "partial",
   "theorems": [
    "C58_read_any_text_refuted"
   ],
   "note": "refuted as stated: an empty text, a missing or blank type line access an empty vector; proved when a names line followed by a non-blank line exists; an accepted table is always well-formed. What holds is C152"
  },
  {
   "property": "C59",
   "status": "partial",
   "theorems": [
    "C59_end_point_refuted",
    "C59_order_reduced_refuted"
   ],
   "note": "refuted as stated: first and last tabulated values are not reproduced, and with order = points-1 every evaluation inside the range reads out of bounds; proved for inner points when there are at least order+2 points; history independence proved for all. What holds is C153"
  },
  {
   "property": "C60",
   "status": "partial",
   "theorems": [
    "C60_remove_answer_refuted",
    "C60_remove_answer_partial"
   ],
   "note": "refuted as stated: absent process is undefined behaviour, and false is returned when the removed process was last"
  },
  {
   "property": "C61",
   "status": "partial",
   "theorems": [
    "C61_patch_frame_refuted"
   ],
   "note": "refuted for lattices with a component-less frame; proved otherwise. What holds is C154"
  },
  {
   "property": "C62",
   "status": "partial",
   "theorems": [
    "C62_installed_refuted"
   ],
   "note": "refuted as stated"
  },
  {
   "property": "C63",
   "status": "partial",
   "theorems": [
    "C63_comparison_refuted",
    "C63_comparison_partial"
   ],
   "note": "refuted as stated: == is tolerant and != is exact, so both can be true; exact meaning of both proved."
  },
  {
   "property": "C64",
   "status": "partial",
   "theorems": [
    "C64_identity_test_refuted"
   ],
   "note": "Group laws proved; identity test refuted: half a turn passes it. What holds is C155"
  },
  {
   "property": "C65",
   "status": "partial",
   "theorems": [
    "C65_layout_refuted",
    "C65_layout_partial"
   ],
   "note": "Refuted as stated: an empty sequence with its origin at the centre (the default) trips an assertion. Proved for trees whose centred sequences are non-empty rows of components."
  },
  {
   "property": "C66",
   "status": "partial",
   "theorems": [
    "C66_back_refuted",
    "C66_total_refuted",
    "C66_plane_refuted"
   ],
   "note": "Refuted as stated in three ways. Proved: forwards for all trees not yet laid out, forwards and (between different components) backwards for laid-out centred rows of components. What holds is C156"
  },
  {
   "property": "C67",
   "status": "partial",
   "theorems": [
    "C67_tiny_shift_refuted"
   ],
   "note": "Refuted for displacements below the tolerance of the identity test, proved for all others. What holds is C157"
  },
  {
   "property": "C68",
   "status": "partial",
   "theorems": [
    "C68_run_again_refuted"
   ],
   "note": "refuted as stated when the exception leaves the transport inside a component; proved when it is raised after the component has been traversed. What holds is C158"
  },
  {
   "property": "C69",
   "status": "partial",
   "theorems": [
    "C69_asked_refuted"
   ],
   "note": "Proved for np > 0; refuted for np = 0 (one particle) and in that the first particle is not filtered. What holds is C159"
  },
  {
   "property": "C70",
   "status": "partial",
   "theorems": [
    "C70_centroid_refuted",
    "C70_formula",
    "C70_centroid_partial",
    "C70_repeated"
   ],
   "note": "refuted as stated; an n-th part of the distance remains."
  },
  {
   "property": "C71",
   "status": "partial",
   "theorems": [
    "C71_previous_contents_refuted"
   ],
   "note": "refuted as stated; previous contents of the covariance are added. Proved for a cleared result object. What holds is C160"
  },
  {
   "property": "C72",
   "status": "partial",
   "theorems": [
    "C72_longitudinal_refuted",
    "C72_solenoid_refuted"
   ],
   "note": "refuted as stated: sparse quadrupole, roll and solenoid reset time and momentum to zero, and the sparse solenoid writes one coefficient to the wrong place; proved for drift, bend, pole face in full and for the transverse block of quadrupole and roll. What holds is C161"
  },
  {
   "property": "C73",
   "status": "proved",
   "theorems": [
    "C73_quadrupole",
    "C73_particles"
   ],
   "note": "reals are exact; 4x4 matrices as used by the integrators; strength zero is C126"
  },
  {
   "property": "C74",
   "status": "partial",
   "theorems": [
    "C148_sparse_array",
    "C74_second_order_refuted",
    "C74_second_order_partial",
    "C74_plane_identity_refuted"
   ],
   "note": "refuted as stated: every access to a second-order coefficient appends a new term, and the plane map's identity test ignores off-diagonal elements; proved for linear coefficients, and second-order maps characterised as sums of all written terms"
  },
  {
   "property": "C75",
   "status": "partial",
   "theorems": [
    "C75_bend_refuted"
   ],
   "note": "refuted as stated: a bend whose focusing cancels exactly (K = -h^2) has no dispersion terms; proved for all other bends, all quadrupoles and drifts, and solenoids outside the tolerance window. What holds is C162"
  },
  {
   "property": "C76",
   "status": "partial",
   "theorems": [
    "C76_quadrupole_refuted"
   ],
   "note": "refuted as stated only for a quadrupole of zero gradient, where the code divides by zero; second-order part of the bend not modelled. What holds is C163"
  },
  {
   "property": "C77",
   "status": "partial",
   "theorems": [
    "C77_plane_split_refuted",
    "C77_sparse_damping_refuted",
    "C77_matrix_damping_refuted",
    "C77_standing_refuted"
   ],
   "note": "refuted as stated: the dense map with the end-field flag set has determinant E1/E0, the six-dimensional standing wave leaves the vertical plane alone, the sparse map off crest with only the exit field has another determinant, and the one-plane map does not compose because its logarithm is a quadratic approximation; proved: the remaining cases, composition of the dense map, the energy gain of each particle and the cavity that is off. What holds is C164 and C165"
  },
  {
   "property": "C78",
   "status": "partial",
   "theorems": [
    "C78_thin_refuted",
    "C78_rotation_refuted"
   ],
   "note": "refuted as stated: the thin quadrupole kick of a slice has the opposite sign of the thick lens, and the rotation sets time and momentum of the slice to zero; proved: the thick lens with and without dipole, the thin dipole, the edge kick, the transverse part of the rotation. What holds is C166"
  },
  {
   "property": "C79",
   "status": "partial",
   "theorems": [
    "C79_octagon_uncut_refuted",
    "C79_flat_ellipse_refuted"
   ],
   "note": "refuted as stated: with uncut corners (angles of the diagonal) everything outside the inner diamond is rejected, and an ellipse of zero height accepts any point of the axis because 0*inf is not a number; proved: every octagon with at least one side of the corner cut. What holds is C167"
  },
  {
   "property": "C80",
   "status": "proved",
   "theorems": [
    "C80_circle",
    "C80_octagon",
    "C80_in_front"
   ],
   "note": "exact reals; positive radii"
  },
  {
   "property": "C81",
   "status": "proved",
   "theorems": [
    "C81_unaligned",
    "C81_one_sided",
    "C81_two_sides",
    "C81_tapered",
    "C81_no_length"
   ],
   "note": "exact reals; narrowing collimators are C82"
  },
  {
   "property": "C82",
   "status": "partial",
   "theorems": [
    "C82_narrowing_refuted",
    "C82_entrance_refuted",
    "C82_error_refuted"
   ],
   "note": "refuted as stated: the quick test uses the entrance opening, so a closing collimator accepts at its closed end; SetEntranceWidth/Height and the jaw error have no effect on any test; proved: the collimator with errors, which has no quick test, follows the taper. What holds is C168"
  },
  {
   "property": "C83",
   "status": "proved",
   "theorems": [
    "C83_points",
    "C83_distance",
    "C83_absolute",
    "C83_refused",
    "C83_inconsistent"
   ],
   "note": "exact reals; loops with a bound that is proved sufficient"
  },
  {
   "property": "C84",
   "status": "proved",
   "theorems": [
    "C84_checks",
    "C84_alone"
   ],
   "note": ""
  },
  {
   "property": "C85",
   "status": "proved",
   "theorems": [
    "C85_turns"
   ],
   "note": ""
  },
  {
   "property": "C86",
   "status": "partial",
   "theorems": [
    "C86_short_steps_refuted"
   ],
   "note": "refuted as stated: the permitted step is always a whole bin, so shorter steps of another process pass over the next checkpoint and no check follows. Proved: with steps of one bin (the last one shorter) every bin end is checked. What holds is C169"
  },
  {
   "property": "C87",
   "status": "proved",
   "theorems": [
    "C87_bin",
    "C87_ends",
    "C87_temperature",
    "C87_record",
    "C87_negative_refuted"
   ],
   "note": "C87_negative_refuted shows why the distance has to be non-negative: the search for the bin does not end otherwise."
  },
  {
   "property": "C88",
   "status": "proved",
   "theorems": [
    "C88_detailed"
   ],
   "note": "Matching is the model of StringPattern."
  },
  {
   "property": "C89",
   "status": "proved",
   "theorems": [
    "C89_runs",
    "C89_totals",
    "C89_merged",
    "C89_sorting"
   ],
   "note": ""
  },
  {
   "property": "C90",
   "status": "partial",
   "theorems": [
    "C90_skips_refuted"
   ],
   "note": "refuted as stated: the search stops at the first element whose type has no such channel; C170_repository says exactly what is returned, given the elements found. What holds is C170"
  },
  {
   "property": "C91",
   "status": "partial",
   "theorems": [
    "C91_default_refuted"
   ],
   "note": "refuted as stated: a buffer that is both attached and the default records twice; proved otherwise. What holds is C171"
  },
  {
   "property": "C92",
   "status": "partial",
   "theorems": [
    "C92_other_plane_refuted"
   ],
   "note": "refuted as stated: the other plane's offset is set to zero. What holds is C172"
  },
  {
   "property": "C93",
   "status": "proved",
   "theorems": [
    "C93_convergence",
    "C93_dead_beat",
    "C93_hold"
   ],
   "note": "the pseudo-inverse is a parameter (SVD not modelled); exact reals"
  },
  {
   "property": "C94",
   "status": "proved",
   "theorems": [
    "C94_construction",
    "C94_balanced",
    "C94_setting",
    "C94_shares"
   ],
   "note": "exact reals, cavity lengths non-zero"
  },
  {
   "property": "C95",
   "status": "proved",
   "theorems": [
    "C95_store_restore",
    "C95_kept",
    "C95_unstored_refuted"
   ],
   "note": "restoring without a stored value is a failed assertion"
  },
  {
   "property": "C96",
   "status": "proved",
   "theorems": [
    "C96_maxwell",
    "C96_force"
   ],
   "note": "exact reals"
  },
  {
   "property": "C97",
   "status": "proved",
   "theorems": [
    "C97_kn",
    "C97_derivative",
    "C97_field",
    "C97_gradient",
    "C97_pole_field",
    "C97_pole_field_skew",
    "C97_nothing_refuted"
   ],
   "note": "constructing with both components zero divides zero by zero"
  },
  {
   "property": "C98",
   "status": "partial",
   "theorems": [
    "C98_twice",
    "C98_reversed_refuted",
    "C98_turned_refuted",
    "C98_dipole_refuted"
   ],
   "note": "refuted as stated: the parity starts wrong, the result is minus the turned field (a vertical dipole changes sign); twice is the identity"
  },
  {
   "property": "C99",
   "status": "partial",
   "theorems": [
    "C99_defined_refuted",
    "C99_upper_end_refuted"
   ],
   "note": "refuted as stated: values at or above the last whole bin but within the range fail an assertion, and removing the first particle steps before the beginning; exact condition proved, and the counts under it. What holds is C173"
  },
  {
   "property": "C100",
   "status": "partial",
   "theorems": [
    "C100_truncation_refuted"
   ],
   "note": "refuted as stated: when the first cut removes particles a second cut is made at the spread of the already shortened bunch, so more particles are lost (C100_truncation_refuted); charge, identity and positions are proved for every impulse, and that nothing is lost when all particles are within the range. What holds is C174"
  },
  {
   "property": "C101",
   "status": "partial",
   "theorems": [
    "C101_default_filter_refuted"
   ],
   "note": "proved for every impulse with no derivative filter or with a filter short enough to stay within its arrays; refuted for the filter the constructor installs: with its 29 coefficients the binning always reads outside its arrays (C101_default_filter_refuted). What holds is C175"
  },
  {
   "property": "C102",
   "status": "proved",
   "theorems": [
    "C102_causal",
    "C102_continuous",
    "C102_head"
   ],
   "note": "stated for the wake that C175_kick shows the impulse applies"
  },
  {
   "property": "C103",
   "status": "partial",
   "theorems": [
    "C103_formula",
    "C103_momentum_partial",
    "C103_momentum_refuted"
   ],
   "note": "refuted as stated: the slope is divided by 1 + ddp instead of the ratio of momenta, so the transverse momentum of particles off the reference momentum changes (C103_momentum_refuted); exact formula for all particles, and the property for particles with the reference momentum"
  },
  {
   "property": "C104",
   "status": "partial",
   "theorems": [
    "C104_csr_refuted"
   ],
   "note": "refuted: the slice distance j - i is computed in an unsigned type for j < i, so the potential is evaluated about 2^64 slice widths away; a potential that vanishes at such distances changes no momentum, for every bunch and filter"
  },
  {
   "property": "C105",
   "status": "proved",
   "theorems": [
    "C105_once",
    "C105_none"
   ],
   "note": ""
  },
  {
   "property": "C106",
   "status": "proved",
   "theorems": [
    "C106_follows"
   ],
   "note": "copies are C127, girders C54 and C128"
  },
  {
   "property": "C107",
   "status": "proved",
   "theorems": [
    "C107_mover"
   ],
   "note": ""
  },
  {
   "property": "C108",
   "status": "proved",
   "theorems": [
    "C108_increment",
    "C108_vibration",
    "C108_reset"
   ],
   "note": "the eigensystem routine itself is not modelled: the theorem takes any exact eigensystem"
  },
  {
   "property": "C109",
   "status": "partial",
   "theorems": [
    "C109_record_refuted",
    "C109_symmetric_partial"
   ],
   "note": "refuted as stated: only the upper triangle is written and the matrix is completed by symmetry, although eigenvector matrices are not symmetric (C109_record_refuted); it holds exactly for symmetric matrices"
  },
  {
   "property": "C110",
   "status": "proved",
   "theorems": [
    "C110_walk",
    "C110_reset",
    "C110_negative_refuted"
   ],
   "note": "a support before the origin makes the step fail (C110_negative_refuted), outside the property as stated"
  },
  {
   "property": "C111",
   "status": "proved",
   "theorems": [
    "C111_outcomes",
    "C111_inverse",
    "C111_shape",
    "C111_pivot"
   ],
   "note": "exact real arithmetic; the element type is R"
  },
  {
   "property": "C112",
   "status": "proved",
   "theorems": [
    "C112_symplectic",
    "C112_unchanged",
    "C112_half_turn_refuted"
   ],
   "note": "with the eigenvalue -1 (a map at a half-integer tune) the function fails although the matrix is symplectic (C112_half_turn_refuted), outside the property as stated"
  },
  {
   "property": "C113",
   "status": "proved",
   "theorems": [
    "C113_place",
    "C113_once",
    "C113_distinct"
   ],
   "note": "for the first check with losses in a component; later ones are the subject of C41"
  },
  {
   "property": "C114",
   "status": "proved",
   "theorems": [
    "C114_solve",
    "C114_inverse",
    "C114_errors",
    "C114_short"
   ],
   "note": "exact real arithmetic"
  },
  {
   "property": "C115",
   "status": "proved",
   "theorems": [
    "C115_determinant",
    "C115_never_zero_refuted"
   ],
   "note": "for singular matrices, outside the property as stated, the value is never zero because a zero pivot is replaced (C115_never_zero_refuted)"
  },
  {
   "property": "C116",
   "status": "proved",
   "theorems": [
    "C116_row",
    "C116_column",
    "C116_ranges",
    "C116_block",
    "C116_reported",
    "C116_row_write",
    "C116_column_write",
    "C116_read_whole",
    "C116_block_write",
    "C116_reversed_refuted"
   ],
   "note": "a reversed range, outside the property as stated, is accepted and leads out of the array (C116_reversed_refuted)"
  },
  {
   "property": "C117",
   "status": "proved",
   "theorems": [
    "C117_gemm",
    "C117_times",
    "C117_rectangular",
    "C117_gemv",
    "C117_apply",
    "C117_congruence",
    "C117_identity",
    "C117_gemv_scale_refuted"
   ],
   "note": "for a transposed matrix that is not square and beta not one, outside the property as stated, the scaling runs over the wrong length (C117_gemv_scale_refuted)"
  },
  {
   "property": "C118",
   "status": "proved",
   "theorems": [
    "C118_access",
    "C118_matrix_access",
    "C118_vector_ops",
    "C118_named",
    "C118_compare",
    "C118_matrix_ops",
    "C118_dot",
    "C118_print"
   ],
   "note": "elements are exact reals"
  },
  {
   "property": "C119",
   "status": "proved",
   "theorems": [
    "C119_moments",
    "C119_sizes",
    "C119_round_trip"
   ],
   "note": "reals are exact; starts from cleared moments (for moments in use see C53_reused_refuted)"
  },
  {
   "property": "C120",
   "status": "proved",
   "theorems": [
    "C120_coupling",
    "C120_normal",
    "C120_moments",
    "C120_decouple",
    "C120_singular_refuted",
    "C120_never_ends_refuted",
    "C120_read_back_refuted",
    "C120_read_angle_refuted"
   ],
   "note": "findings beside the property: parameters of determinant zero give the unit matrix, so the decoupling of some beams never ends; coupling parameters read back have wrong signs and, for rotations beyond a quarter turn, wrong values"
  },
  {
   "property": "C121",
   "status": "proved",
   "theorems": [
    "C121_positions"
   ],
   "note": "reals are exact"
  },
  {
   "property": "C122",
   "status": "proved",
   "theorems": [
    "C122_multipoles",
    "C122_bend",
    "C122_rbend",
    "C122_kickers",
    "C122_solenoid",
    "C122_cavity",
    "C122_plain",
    "C122_drift",
    "C122_momentum",
    "C122_thin_refuted",
    "C122_straight_refuted",
    "C122_one_face_refuted"
   ],
   "note": "findings beside the property: multipoles of length zero and straight bends with a gradient divide by zero; a bend row with exactly one of E1 and E2 zero is undefined behaviour"
  },
  {
   "property": "C123",
   "status": "proved",
   "theorems": [
    "C123_frames",
    "C123_unclosed",
    "C123_same_name_refuted"
   ],
   "note": "finding beside the property: the LINE row of a line directly inside a line of the same name ends the outer line"
  },
  {
   "property": "C124",
   "status": "partial",
   "theorems": [
    "C124_append_refuted",
    "C124_after_exception_refuted"
   ],
   "note": "refuted as stated: AppendModel deletes its constructor, so GetModel asserts and ConstructModel afterwards dereferences null; after an exception the next ConstructModel uses a deleted constructor. What holds: with ConstructModel each further table starts at the position where the one before ended. What holds is C176"
  },
  {
   "property": "C125",
   "status": "proved",
   "theorems": [
    "C125_focusing",
    "C125_defocusing",
    "C125_no_curvature",
    "C125_scales",
    "C125_small"
   ],
   "note": "left out, and wrong, are the elements (5,1), (5,2), (5,5) and (6,6) and the horizontal block of defocusing bends: C126"
  },
  {
   "property": "C126",
   "status": "partial",
   "theorems": [
    "C126_quadrupole_refuted",
    "C126_particles_refuted",
    "C126_defocusing_refuted",
    "C126_dipole_refuted",
    "C126_diagonal_refuted",
    "C126_path_length_refuted",
    "C126_scales_refuted"
   ],
   "note": "refuted as stated: zero strength gives the unit matrix instead of zero; bends without gradient have a unit vertical block; defocusing bends use cos and sin for cosh and sinh; T(5,1), T(5,2) are missing, T(5,5) and T(6,6) are 1; for K1 = -h^2 the path-length term is wrong by the factor h. What holds is C73 and C125"
  },
  {
   "property": "C127",
   "status": "partial",
   "theorems": [
    "C127_girder_copy_partial",
    "C127_copy_refuted"
   ],
   "note": "refuted as stated: the copy of a simple mount keeps an uninitialised pointer that every later use reads; proved for girders"
  },
  {
   "property": "C128",
   "status": "proved",
   "theorems": [
    "C128_girder_ends"
   ],
   "note": ""
  },
  {
   "property": "C129",
   "status": "partial",
   "theorems": [
    "C129_absolute_partial",
    "C129_absolute_refuted"
   ],
   "note": "refuted as stated: the variance is that of the time before the step, so the first step moves nothing; with that time the law is proved (C129_absolute_partial)"
  },
  {
   "property": "C130",
   "status": "proved",
   "theorems": [
    "C130_match_complete",
    "C130_literal_exact"
   ],
   "note": "what holds of C02"
  },
  {
   "property": "C131",
   "status": "proved",
   "theorems": [
    "C131_variadic_add_row_exact"
   ],
   "note": "what holds of C06"
  },
  {
   "property": "C132",
   "status": "proved",
   "theorems": [
    "C132_equally_spaced",
    "C132_extrapolation"
   ],
   "note": "what holds of C11"
  },
  {
   "property": "C133",
   "status": "proved",
   "theorems": [
    "C133_index_range",
    "C133_whole_beamline"
   ],
   "note": "what holds of C15"
  },
  {
   "property": "C134",
   "status": "proved",
   "theorems": [
    "C134_selection_exact",
    "C134_documented"
   ],
   "note": "what holds of C16"
  },
  {
   "property": "C135",
   "status": "proved",
   "theorems": [
    "C135_lattice_is_call_order",
    "C135_beamline_index",
    "C135_index_query",
    "C135_repository"
   ],
   "note": "what holds of C17"
  },
  {
   "property": "C136",
   "status": "proved",
   "theorems": [
    "C136_contiguous",
    "C136_position_sum"
   ],
   "note": "what holds of C18"
  },
  {
   "property": "C137",
   "status": "proved",
   "theorems": [
    "C137_install_exact",
    "C137_length_refused"
   ],
   "note": "what holds of C19"
  },
  {
   "property": "C138",
   "status": "proved",
   "theorems": [
    "C138_run",
    "C138_turns",
    "C138_run_and_turns",
    "C138_each_component_once",
    "C138_interrupted",
    "C138_track_bunch",
    "C138_stepping",
    "C138_refusals"
   ],
   "note": "what holds of C20"
  },
  {
   "property": "C139",
   "status": "proved",
   "theorems": [
    "C139_state_machine",
    "C139_refused_before_choice",
    "C139_unknown",
    "C139_replaced_set",
    "C139_register"
   ],
   "note": "what holds of C21"
  },
  {
   "property": "C140",
   "status": "proved",
   "theorems": [
    "C140_once"
   ],
   "note": "what holds of C22"
  },
  {
   "property": "C141",
   "status": "proved",
   "theorems": [
    "C141_equal_steps",
    "C141_triggers",
    "C141_bad_counts"
   ],
   "note": "what holds of C23"
  },
  {
   "property": "C142",
   "status": "proved",
   "theorems": [
    "C142_count",
    "C142_once",
    "C142_thin"
   ],
   "note": "what holds of C24"
  },
  {
   "property": "C143",
   "status": "proved",
   "theorems": [
    "C143_momentum",
    "C143_to_mean",
    "C143_refused",
    "C143_time"
   ],
   "note": "what holds of C27"
  },
  {
   "property": "C144",
   "status": "proved",
   "theorems": [
    "C144_group_of_motions",
    "C144_rigid",
    "C144_elementary",
    "C144_identity_test"
   ],
   "note": "what holds of C31"
  },
  {
   "property": "C145",
   "status": "proved",
   "theorems": [
    "C145_drift",
    "C145_sector_bend",
    "C145_quadrupole",
    "C145_too_small",
    "C145_roll",
    "C145_roll_angle",
    "C145_pole_face",
    "C145_solenoid"
   ],
   "note": "what holds of C34"
  },
  {
   "property": "C146",
   "status": "proved",
   "theorems": [
    "C146_drift",
    "C146_sector_bend",
    "C146_quadrupole",
    "C146_there_and_back",
    "C146_zero_length",
    "C146_no_strength",
    "C146_weak_limit",
    "C146_solenoid",
    "C146_solenoid_zero_length"
   ],
   "note": "what holds of C35"
  },
  {
   "property": "C147",
   "status": "proved",
   "theorems": [
    "C147_moments",
    "C147_moments_moved",
    "C147_product",
    "C147_product_sizes",
    "C147_momentum_dependence",
    "C147_at_reference",
    "C147_moments_at_momentum",
    "C147_chromatic",
    "C147_drift_particle",
    "C147_drift_moments6",
    "C147_drift_moments4",
    "C147_planes"
   ],
   "note": "what holds of C36"
  },
  {
   "property": "C148",
   "status": "proved",
   "theorems": [
    "C148_sparse_acts",
    "C148_sparse_outside",
    "C148_sparse_moments",
    "C148_sparse_bunch",
    "C148_sparse_array",
    "C148_sparse_of_matrix",
    "C148_too_many_terms"
   ],
   "note": "what holds of C36"
  },
  {
   "property": "C149",
   "status": "proved",
   "theorems": [
    "C149_first_check"
   ],
   "note": "what holds of C41"
  },
  {
   "property": "C150",
   "status": "proved",
   "theorems": [
    "C150_calls",
    "C150_careful"
   ],
   "note": "what holds of C55"
  },
  {
   "property": "C151",
   "status": "proved",
   "theorems": [
    "C151_print_equivalent"
   ],
   "note": "what holds of C57"
  },
  {
   "property": "C152",
   "status": "proved",
   "theorems": [
    "C152_read_text",
    "C152_accepted_table_wellformed"
   ],
   "note": "what holds of C58"
  },
  {
   "property": "C153",
   "status": "proved",
   "theorems": [
    "C153_mean_of_two_polynomials",
    "C153_inner_tabulated_value",
    "C153_history_irrelevant"
   ],
   "note": "what holds of C59"
  },
  {
   "property": "C154",
   "status": "proved",
   "theorems": [
    "C154_extract_components",
    "C154_extract_all"
   ],
   "note": "what holds of C61"
  },
  {
   "property": "C155",
   "status": "proved",
   "theorems": [
    "C155_plane_group"
   ],
   "note": "what holds of C64"
  },
  {
   "property": "C156",
   "status": "proved",
   "theorems": [
    "C156_forward",
    "C156_centred",
    "C156_physical",
    "C156_extent"
   ],
   "note": "what holds of C66"
  },
  {
   "property": "C157",
   "status": "proved",
   "theorems": [
    "C157_displacement_undone",
    "C157_aligned",
    "C157_displacement_at_plane",
    "C157_coinciding_planes"
   ],
   "note": "what holds of C67"
  },
  {
   "property": "C158",
   "status": "proved",
   "theorems": [
    "C158_run_again",
    "C158_unusable_afterwards"
   ],
   "note": "what holds of C68"
  },
  {
   "property": "C159",
   "status": "proved",
   "theorems": [
    "C159_constructed",
    "C159_terminates",
    "C159_charge",
    "C159_reference_refused"
   ],
   "note": "what holds of C69"
  },
  {
   "property": "C160",
   "status": "proved",
   "theorems": [
    "C160_formula",
    "C160_slices",
    "C160_projected",
    "C160_charge"
   ],
   "note": "what holds of C71"
  },
  {
   "property": "C161",
   "status": "proved",
   "theorems": [
    "C161_drift",
    "C161_sector_bend",
    "C161_pole_face",
    "C161_quadrupole",
    "C161_roll",
    "C161_solenoid"
   ],
   "note": "what holds of C72"
  },
  {
   "property": "C162",
   "status": "proved",
   "theorems": [
    "C162_bend",
    "C162_quadrupole",
    "C162_drift",
    "C162_solenoid"
   ],
   "note": "what holds of C75"
  },
  {
   "property": "C163",
   "status": "proved",
   "theorems": [
    "C163_drift",
    "C163_quadrupole",
    "C163_sextupole",
    "C163_sector_bend_linear"
   ],
   "note": "what holds of C76"
  },
  {
   "property": "C164",
   "status": "proved",
   "theorems": [
    "C164_energy_gain",
    "C164_off",
    "C164_no_frequency",
    "C164_no_length",
    "C164_transverse"
   ],
   "note": "what holds of C77"
  },
  {
   "property": "C165",
   "status": "proved",
   "theorems": [
    "C165_plane_damping",
    "C165_plane_edges",
    "C165_sparse_damping",
    "C165_sparse_on_crest",
    "C165_sparse_planes",
    "C165_matrix_damping",
    "C165_matrix_longitudinal",
    "C165_matrix_split",
    "C165_standing"
   ],
   "note": "what holds of C77"
  },
  {
   "property": "C166",
   "status": "proved",
   "theorems": [
    "C166_thick",
    "C166_thick_dipole",
    "C166_thin_dipole",
    "C166_thin",
    "C166_edge",
    "C166_rotation"
   ],
   "note": "what holds of C78"
  },
  {
   "property": "C167",
   "status": "proved",
   "theorems": [
    "C167_octagon"
   ],
   "note": "what holds of C79"
  },
  {
   "property": "C168",
   "status": "proved",
   "theorems": [
    "C168_errors"
   ],
   "note": "what holds of C82"
  },
  {
   "property": "C169",
   "status": "proved",
   "theorems": [
    "C169_collimator_bins"
   ],
   "note": "what holds of C86"
  },
  {
   "property": "C170",
   "status": "proved",
   "theorems": [
    "C170_repository",
    "C170_all_known"
   ],
   "note": "what holds of C90"
  },
  {
   "property": "C171",
   "status": "proved",
   "theorems": [
    "C171_inactive",
    "C171_measurement",
    "C171_noise",
    "C171_buffers"
   ],
   "note": "what holds of C91"
  },
  {
   "property": "C172",
   "status": "proved",
   "theorems": [
    "C172_reading",
    "C172_own_plane"
   ],
   "note": "what holds of C92"
  },
  {
   "property": "C173",
   "status": "proved",
   "theorems": [
    "C173_counts"
   ],
   "note": "what holds of C99"
  },
  {
   "property": "C174",
   "status": "proved",
   "theorems": [
    "C174_charge",
    "C174_kept"
   ],
   "note": "what holds of C100"
  },
  {
   "property": "C175",
   "status": "proved",
   "theorems": [
    "C175_kick",
    "C175_deceleration",
    "C175_defined",
    "C175_nothing_left"
   ],
   "note": "what holds of C101"
  },
  {
   "property": "C176",
   "status": "proved",
   "theorems": [
    "C176_successive"
   ],
   "note": "what holds of C124"
  },
  {
   "property": "C177",
   "status": "proved",
   "theorems": [
    "C177_drift",
    "C177_quadrupole",
    "C177_bend",
    "C177_combined",
    "C177_arc",
    "C177_domain"
   ],
   "note": "the exact bend: velocity at the start, which with C178_arc gives the motion along the whole bend"
  },
  {
   "property": "C178",
   "status": "proved",
   "theorems": [
    "C178_drift",
    "C178_quadrupole",
    "C178_bend",
    "C178_combined",
    "C178_arc",
    "C178_magnet"
   ],
   "note": ""
  },
  {
   "property": "C179",
   "status": "proved",
   "theorems": [
    "C179_drift",
    "C179_quadrupole",
    "C179_bend",
    "C179_combined",
    "C179_arc",
    "C179_pole_face",
    "C179_kick",
    "C179_bend_step",
    "C179_cavity"
   ],
   "note": ""
  },
  {
   "property": "C180",
   "status": "partial",
   "theorems": [
    "C180_gradient_refuted",
    "C180_no_dipole_refuted",
    "C180_tiny_tilt_refuted"
   ],
   "note": "refuted as stated: a gradient of minus the squared curvature gives NaN, a bend without dipole field fails an assertion, a tilt below the tolerance puts all particles at the origin; what holds is C186"
  },
  {
   "property": "C181",
   "status": "partial",
   "theorems": [
    "C181_steering_refuted"
   ],
   "note": "refuted as stated: with a gradient the kick and half the drift are applied a second time; for all small dipole and gradient fields the steering is more than 3/2 of the integrated field where the equation of motion gives at most 1; without gradient it holds (C187)"
  },
  {
   "property": "C182",
   "status": "partial",
   "theorems": [
    "C182_area_refuted"
   ],
   "note": "refuted as stated: the step uses matrices linear in the momentum deviation, and for every quadrupole and every nonzero deviation the area grows; on momentum it is kept (C187_area)"
  },
  {
   "property": "C183",
   "status": "proved",
   "theorems": [
    "C183_bend",
    "C183_multipole",
    "C183_next_bunch"
   ],
   "note": ""
  },
  {
   "property": "C184",
   "status": "proved",
   "theorems": [
    "C184_standing",
    "C184_cells",
    "C184_travelling",
    "C184_off"
   ],
   "note": ""
  },
  {
   "property": "C185",
   "status": "partial",
   "theorems": [
    "C185_determinant_refuted",
    "C185_determinant_partial",
    "C185_particles"
   ],
   "note": "refuted as stated: one sine stands for a cosine; C185_determinant_partial gives exactly when the determinant is right (no focusing, or sine and cosine of the phase equal)"
  },
  {
   "property": "C186",
   "status": "proved",
   "theorems": [
    "C186_bend",
    "C186_roll_back"
   ],
   "note": ""
  },
  {
   "property": "C187",
   "status": "proved",
   "theorems": [
    "C187_thin",
    "C187_kicked",
    "C187_kicked_symplectic",
    "C187_quadrupole",
    "C187_on_momentum",
    "C187_empty",
    "C187_area"
   ],
   "note": ""
  },
  {
   "property": "C188",
   "status": "partial",
   "theorems": [
    "C188_skew_refuted",
    "C188_tiny_skew_refuted"
   ],
   "note": "refuted as stated: the matrices are turned the wrong way, so a thick magnet moves every particle as the complex conjugate gradient would, i.e. with the opposite skew part; and a skew part too small for the angle comparison puts all particles on the axis; what a step does is C189"
  },
  {
   "property": "C189",
   "status": "proved",
   "theorems": [
    "C189_rotated",
    "C189_thin",
    "C189_split"
   ],
   "note": "the step as it is; that it is not what the field says is C181 and C188"
  },
  {
   "property": "C190",
   "status": "proved",
   "theorems": [
    "C190_matched",
    "C190_plain",
    "C190_kicked",
    "C190_tilted",
    "C190_face",
    "C190_hard_edge"
   ],
   "note": ""
  },
  {
   "property": "C191",
   "status": "proved",
   "theorems": [
    "C191_bend",
    "C191_high_energy",
    "C191_domain"
   ],
   "note": "that the energy-dependent terms spoil the map is C192"
  },
  {
   "property": "C192",
   "status": "partial",
   "theorems": [
    "C192_finite_energy_refuted"
   ],
   "note": "refuted as stated: for every gamma the coefficient of px*dp in x has 1/beta that its partners have not, so the map is not symplectic (unless sin or cos of the bend angle vanishes); the limit of high energy is C191"
  },
  {
   "property": "C193",
   "status": "partial",
   "theorems": [
    "C193_straight_refuted"
   ],
   "note": "refuted as stated: the bend works in canonical momenta and the drift in slopes, so for a particle off momentum the vertical positions stay apart by at least half of length*slope*dp however small the curvature; what the two maps are is C191 and C163"
  },
  {
   "property": "C194",
   "status": "proved",
   "theorems": [
    "C194_bend",
    "C194_domain"
   ],
   "note": "the missing term and the path length are C195"
  },
  {
   "property": "C195",
   "status": "partial",
   "theorems": [
    "C195_field_index_refuted",
    "C195_position_refuted",
    "C195_path_refuted"
   ],
   "note": "refuted as stated: a magnet of field index 1/5 has no map (division by zero); for every magnet the coefficient of x*x' in x misses a term; for every magnet the second-order path length starts with the wrong sign; what is right is C194"
  },
  {
   "property": "C196",
   "status": "proved",
   "theorems": [
    "C196_face",
    "C196_hard_edge",
    "C196_upright",
    "C196_domain"
   ],
   "note": ""
  },
  {
   "property": "C197",
   "status": "partial",
   "theorems": [
    "C197_gradient_refuted",
    "C197_fringe_refuted"
   ],
   "note": "refuted as stated: no tilted face of a magnet with gradient has a symplectic map, nor one with a fringe field; the exact condition is C196"
  },
  {
   "property": "C198",
   "status": "proved",
   "theorems": [
    "C198_drift",
    "C198_drift_steps",
    "C198_empty",
    "C198_kicked",
    "C198_thin",
    "C198_no_step",
    "C198_quadrupole",
    "C198_sextupole",
    "C198_with_others",
    "C198_sextupole_with_others",
    "C198_field_kept"
   ],
   "note": ""
  },
  {
   "property": "C199",
   "status": "proved",
   "theorems": [
    "C199_quadrupole",
    "C199_sextupole",
    "C199_kick"
   ],
   "note": "that this angle has the wrong sense is C200"
  },
  {
   "property": "C200",
   "status": "partial",
   "theorems": [
    "C200_quadrupole_refuted",
    "C200_sextupole_refuted",
    "C200_kick_refuted"
   ],
   "note": "refuted as stated: skew quadrupoles and sextupoles act as their mirror images (complex conjugate strength), and a dipole kick inside a magnet with skew gradient goes in a wrong direction; what the steps do is C199"
  },
  {
   "property": "C201",
   "status": "proved",
   "theorems": [
    "C201_maps",
    "C201_gradient_map",
    "C201_straight",
    "C201_plain",
    "C201_kicked",
    "C201_wrong_way",
    "C201_field_kept",
    "C201_same_momentum",
    "C201_charge_bend",
    "C201_charge_straight"
   ],
   "note": ""
  },
  {
   "property": "C202",
   "status": "partial",
   "theorems": [
    "C202_gradient_refuted",
    "C202_tolerance_refuted"
   ],
   "note": "refuted as stated: the gradient is normalised to the reference momentum while the momentum deviation is rescaled to the momentum of the bend, so for every focusing gradient two reference momenta give different positions; and momenta within 1e-6 GeV/c count as equal however small they are; pure bends are in C201"
  },
  {
   "property": "C203",
   "status": "proved",
   "theorems": [
    "C203_face",
    "C203_upright",
    "C203_missing",
    "C203_outcome",
    "C203_tilted",
    "C203_level",
    "C203_pair"
   ],
   "note": ""
  },
  {
   "property": "C204",
   "status": "partial",
   "theorems": [
    "C204_no_faces_refuted",
    "C204_charge_refuted",
    "C204_tiny_tilt_refuted"
   ],
   "note": "refuted as stated: both missing faces act as exits, so their x shifts add up to -h*y^2; the gradient at the faces lacks the sign of the charge; a non-zero tilt below the tolerance sets position and direction of every particle to zero; what faces do is C203"
  },
  {
   "property": "C205",
   "status": "partial",
   "theorems": [
    "C205_tilt_refuted"
   ],
   "note": "refuted as stated: the default set turns by minus the tilt first, the symplectic set by plus the tilt, so an off-momentum particle in a tilted bend is displaced to opposite sides vertically; each convention on its own is C203 and C190"
  },
  {
   "property": "C206",
   "status": "proved",
   "theorems": [
    "C206_step",
    "C206_run",
    "C206_start"
   ],
   "note": ""
  },
  {
   "property": "C207",
   "status": "partial",
   "theorems": [
    "C207_one_face_refuted",
    "C207_rotate_refuted",
    "C207_null_refuted",
    "C207_self_refuted",
    "C122_one_face_refuted"
   ],
   "note": "refuted as stated: one face for both ends makes the entrance an exit, turning around swaps the faces but not their types, a face at one end only (also from an optics table row with one of E1, E2 zero) writes through a null pointer, and setting a bend's own faces or assigning it to itself uses freed faces; what is safe is C206"
  },
  {
   "property": "C208",
   "status": "proved",
   "theorems": [
    "C208_drift",
    "C208_drift_steps",
    "C208_bend",
    "C208_straight",
    "C208_no_step",
    "C208_wrong_way",
    "C208_field_kept",
    "C208_charge",
    "C208_same_momentum",
    "C208_face",
    "C208_no_face",
    "C208_same_faces"
   ],
   "note": ""
  },
  {
   "property": "C209",
   "status": "proved",
   "theorems": [
    "C209_empty",
    "C209_kicked",
    "C209_quadrupole",
    "C209_field_kept",
    "C209_charge",
    "C209_like_symplectic"
   ],
   "note": "skew gradients are shown to act as in the symplectic set, where they are turned the wrong way (C188)"
  },
  {
   "property": "C210",
   "status": "partial",
   "theorems": [
    "C210_thin_refuted",
    "C210_off_refuted",
    "C210_neutral_refuted",
    "C210_gradient_refuted",
    "C210_balance_refuted"
   ],
   "note": "refuted as stated: a magnet of no length does nothing; a magnet switched off by its scale, or any for neutral particles, with a gradient and other multipoles puts all particles on the axis; gradients of bends are scaled with the reference momentum; a bend with gradient -h^2 does not disperse; what holds is C208 and C209"
  },
  {
   "property": "C211",
   "status": "proved",
   "theorems": [
    "C211_solenoid",
    "C211_off",
    "C211_angular",
    "C211_same_momentum",
    "C211_steps"
   ],
   "note": ""
  },
  {
   "property": "C212",
   "status": "partial",
   "theorems": [
    "C212_weak_refuted",
    "C212_neutral_refuted"
   ],
   "note": "refuted as stated: a rotation below the tolerance, or no charge, leaves a particle on the axis on the axis whatever its slope; above the tolerance C211 holds"
  },
  {
   "property": "C213",
   "status": "proved",
   "theorems": [
    "C213_track",
    "C213_whole",
    "C213_thin"
   ],
   "note": ""
  },
  {
   "property": "C214",
   "status": "partial",
   "theorems": [
    "C214_repeated_refuted",
    "C214_exit_refuted"
   ],
   "note": "refuted as stated: each step that ends beyond the point measures again, and a measurement point at the exit is never reached; the count is C213"
  },
  {
   "property": "C215",
   "status": "proved",
   "theorems": [
    "C215_turn",
    "C215_between",
    "C215_error",
    "C215_product",
    "C215_similar"
   ],
   "note": ""
  },
  {
   "property": "C216",
   "status": "proved",
   "theorems": [
    "C216_found",
    "C216_kept",
    "C216_carried",
    "C216_settings"
   ],
   "note": "the factorisation SVD(u, w, v) is a parameter that is assumed to be a singular value decomposition of the matrix it is given"
  },
  {
   "property": "C217",
   "status": "proved",
   "theorems": [
    "C217_dispersion"
   ],
   "note": "as for C216"
  },
  {
   "property": "C218",
   "status": "partial",
   "theorems": [
    "C218_refuted"
   ],
   "note": "refuted as stated: directions whose singular value is below a millionth of the largest are left out, so that near an integer resonance the search reports a figure of merit of zero without having moved; what holds is C216"
  },
  {
   "property": "C219",
   "status": "partial",
   "theorems": [
    "C219_refuted",
    "C219_count"
   ],
   "note": "refuted as stated: the count starts at one, so that one iteration less than the limit is made and with a limit of one none at all; the count reported is one too large; it ends within the limit and either within the tolerance or at the limit (C219_count)"
  },
  {
   "property": "C220",
   "status": "proved",
   "theorems": [
    "C220_rms",
    "C220_constant"
   ],
   "note": ""
  },
  {
   "property": "C221",
   "status": "partial",
   "theorems": [
    "C221_refuted"
   ],
   "note": "refuted as stated: the dispersion at the start is taken to be zero, and each row names the position before a component with the dispersion after it"
  },
  {
   "property": "C222",
   "status": "partial",
   "theorems": [
    "C222_refuted",
    "C222_linear"
   ],
   "note": "refuted as stated: the orbit at the start of the lattice is used at the first component; for linear machines it makes no difference (C222_linear)"
  },
  {
   "property": "C223",
   "status": "partial",
   "theorems": [
    "C223_refuted",
    "C223_set"
   ],
   "note": "refuted as stated: the settings of the radiation steps are read without having been set; once they are, orbit and matrix are found with the same settings (C223_set)"
  },
  {
   "property": "C224",
   "status": "proved",
   "theorems": [
    "C224_rows",
    "C224_total"
   ],
   "note": "EigenSystem is a parameter: the theorem says what the table is in terms of the flag and the vectors it returns"
  },
  {
   "property": "C225",
   "status": "proved",
   "theorems": [
    "C225_twiss"
   ],
   "note": "EigenSystem is a parameter: the theorem says what the table is in terms of the flag and the vectors it returns"
  },
  {
   "property": "C226",
   "status": "proved",
   "theorems": [
    "C226_phase",
    "C226_start"
   ],
   "note": "EigenSystem is a parameter: the theorem says what the table is in terms of the flag and the vectors it returns"
  },
  {
   "property": "C227",
   "status": "proved",
   "theorems": [
    "C227_periodic"
   ],
   "note": "EigenSystem is a parameter: the theorem says what the table is in terms of the flag and the vectors it returns"
  },
  {
   "property": "C228",
   "status": "proved",
   "theorems": [
    "C228_invariant"
   ],
   "note": "EigenSystem is a parameter: the theorem says what the table is in terms of the flag and the vectors it returns"
  },
  {
   "property": "C229",
   "status": "proved",
   "theorems": [
    "C229_columns",
    "C229_added",
    "C229_sets",
    "C229_settings"
   ],
   "note": ""
  },
  {
   "property": "C230",
   "status": "proved",
   "theorems": [
    "C230_rows",
    "C230_total"
   ],
   "note": ""
  },
  {
   "property": "C231",
   "status": "partial",
   "theorems": [
    "C231_refuted"
   ],
   "note": "refuted as stated: for every lattice the table of the orbit only lacks the row at the end, so that the first function of the motion adds a row to all columns"
  },
  {
   "property": "C232",
   "status": "partial",
   "theorems": [
    "C232_value",
    "C232_printed",
    "C232_size",
    "C232_refuted"
   ],
   "note": "refuted in the last part: for a function that is not in the table the end of the list is read (C232_refuted); the rest holds"
  },
  {
   "property": "C233",
   "status": "proved",
   "theorems": [
    "C233_position"
   ],
   "note": ""
  },
  {
   "property": "C234",
   "status": "proved",
   "theorems": [
    "C234_mean",
    "C234_between",
    "C234_path",
    "C234_rms"
   ],
   "note": ""
  },
  {
   "property": "C235",
   "status": "partial",
   "theorems": [
    "C235_refuted"
   ],
   "note": "refuted as stated: zero is divided by zero for every table, function and row"
  },
  {
   "property": "C236",
   "status": "partial",
   "theorems": [
    "C236_refuted"
   ],
   "note": "refuted as stated: with any function of the motion in the table the closed orbits are searched without their momentum, so that both tables belong to the same momentum and the difference is divided by zero, for every lattice and every table; for the orbit alone see C237"
  },
  {
   "property": "C237",
   "status": "proved",
   "theorems": [
    "C237_orbit",
    "C237_total"
   ],
   "note": ""
  },
  {
   "property": "C238",
   "status": "proved",
   "theorems": [
    "C238_unstable",
    "C238_forced"
   ],
   "note": "EigenSystem is a parameter: the theorem says what the table is in terms of the flag and the vectors it returns; the default table has longitudinal functions, so that it is refused for every machine without cavities unless stability is forced"
  },
  {
   "property": "C239",
   "status": "partial",
   "theorems": [
    "C239_refuted"
   ],
   "note": "refuted as stated: the matrices then have four rows and Symplectify reads six, for every lattice"
  },
  {
   "property": "C240",
   "status": "proved",
   "theorems": [
    "C240_twiss"
   ],
   "note": "EigenSystem is a parameter: the theorem says what the table is in terms of the flag and the vectors it returns"
  },
  {
   "property": "C241",
   "status": "partial",
   "theorems": [
    "C241_refuted"
   ],
   "note": "refuted as stated: the displaced particles are scaled in the bunch and the reference particle only in a copy, so that behind the second accelerating component the orbit itself is taken for a displacement; about the axis see C240"
  },
  {
   "property": "C242",
   "status": "proved",
   "theorems": [
    "C242_phase",
    "C242_additive"
   ],
   "note": ""
  },
  {
   "property": "C243",
   "status": "partial",
   "theorems": [
    "C243_refuted"
   ],
   "note": "refuted as stated: the rows are compared only up to the one before the element, so that a turn completed there is lost, for every table; otherwise C242"
  },
  {
   "property": "C244",
   "status": "proved",
   "theorems": [
    "C244_only_angles",
    "C244_inside",
    "C244_alone"
   ],
   "note": ""
  },
  {
   "property": "C245",
   "status": "proved",
   "theorems": [
    "C245_perfect_profile"
   ],
   "note": "exact arithmetic"
  },
  {
   "property": "C246",
   "status": "proved",
   "theorems": [
    "C246_measured_profile"
   ],
   "note": "exact arithmetic"
  },
  {
   "property": "C247",
   "status": "proved",
   "theorems": [
    "C247_no_torque",
    "C247_towards"
   ],
   "note": ""
  },
  {
   "property": "C248",
   "status": "partial",
   "theorems": [
    "C248_offset_lens_refuted",
    "C248_torque_refuted"
   ],
   "note": "refuted as stated; the size of the kick is found with the distance from the centre of the lens, its direction with the angle about the axis: an attracting lens pushes particles between the axis and itself away"
  },
  {
   "property": "C249",
   "status": "proved",
   "theorems": [
    "C249_total",
    "C249_turns"
   ],
   "note": "exact arithmetic; the turn counter does not overflow"
  },
  {
   "property": "C250",
   "status": "partial",
   "theorems": [
    "C250_invalid_mode_refuted",
    "C250_radii_refuted",
    "C250_modes"
   ],
   "note": "refuted as stated; an integer other than 0 to 3 leaves the mode unset and the first call reads it; the radii are read unset by the first particle"
  },
  {
   "property": "C251",
   "status": "partial",
   "theorems": [
    "C251_outer_radius_refuted",
    "C251_full_current_refuted"
   ],
   "note": "refuted as stated; the outer radius plays no part: the profile ends at 1.92 (or 2.27) times the inner radius"
  },
  {
   "property": "C252",
   "status": "partial",
   "theorems": [
    "C252_lhc_profile_refuted",
    "C252_both_calls"
   ],
   "note": "refuted as stated; the call alone leaves the perfect profile in use; proved: with SetRadialProfile as well, in any order, it works"
  },
  {
   "property": "C253",
   "status": "proved",
   "theorems": [
    "C253_turnskip"
   ],
   "note": ""
  },
  {
   "property": "C254",
   "status": "proved",
   "theorems": [
    "C254_ac_factor",
    "C254_not_set"
   ],
   "note": ""
  },
  {
   "property": "C255",
   "status": "proved",
   "theorems": [
    "C255_sweep",
    "C255_fixed"
   ],
   "note": ""
  },
  {
   "property": "C256",
   "status": "partial",
   "theorems": [
    "C256_range_left_refuted",
    "C256_zero_turns_refuted"
   ],
   "note": "refuted as stated; a range which is not a whole number of steps is left upwards; zero turns per step give no number"
  },
  {
   "property": "C257",
   "status": "proved",
   "theorems": [
    "C257_diffusive",
    "C257_others"
   ],
   "note": "the random generator is a given sequence"
  },
  {
   "property": "C258",
   "status": "partial",
   "theorems": [
    "C258_steps_refuted"
   ],
   "note": "refuted as stated; the length of the step is ignored: n steps kick n times and count as n turns"
  },
  {
   "property": "C259",
   "status": "partial",
   "theorems": [
    "C259_velocity_refuted",
    "C259_slow_proton_refuted",
    "C259_formula"
   ],
   "note": "refuted as stated; the momentum in GeV is divided by the mass in kilogram times the speed of light, so that the velocity is that of light within 1e-6 for all momenta above 1e-6 GeV; proved: the formula is right in consistent units"
  },
  {
   "property": "C260",
   "status": "proved",
   "theorems": [
    "C260_rows",
    "C260_exists"
   ],
   "note": "printing of numbers is left out"
  },
  {
   "property": "C261",
   "status": "partial",
   "theorems": [
    "C261_range_refuted",
    "C261_lower_end_refuted",
    "C261_sigma_refuted"
   ],
   "note": "refuted as stated; it starts at 0 whatever the lower end and covers max - min; without the beam size, which no function sets, it reads a member never set"
  },
  {
   "property": "C262",
   "status": "proved",
   "theorems": [
    "C262_length",
    "C262_step_keeps",
    "C262_transform_keeps"
   ],
   "note": "a step that yields a number for every spin; C265 says when"
  },
  {
   "property": "C263",
   "status": "proved",
   "theorems": [
    "C263_precession",
    "C263_solution"
   ],
   "note": "speed of light assumed for the particle, as in the code; the Lorentz factor comes from SetSpinMomentum when set"
  },
  {
   "property": "C264",
   "status": "proved",
   "theorems": [
    "C264_step",
    "C264_determined"
   ],
   "note": "the strengths of the ends are those of the code; C268 and C269 show they are not those of the fields"
  },
  {
   "property": "C265",
   "status": "proved",
   "theorems": [
    "C265_numbers",
    "C265_stopped"
   ],
   "note": "C265_stopped: a particle with dp = -1 does make a spin that is not a number in any field"
  },
  {
   "property": "C266",
   "status": "partial",
   "theorems": [
    "C266_refuted"
   ],
   "note": "refuted as stated; the frame is taken to turn with the curvature of the particle: off momentum the spin is wrong by the angle of the bend times dp/(1+dp), while straight components use the fixed frame; the true part is C267"
  },
  {
   "property": "C267",
   "status": "proved",
   "theorems": [
    "C267_design"
   ],
   "note": ""
  },
  {
   "property": "C268",
   "status": "partial",
   "theorems": [
    "C268_refuted",
    "C268_no_momentum"
   ],
   "note": "refuted as stated; the field is not divided by two and not scaled with the momentum: it acts as if the rigidity were 299792458 Tm"
  },
  {
   "property": "C269",
   "status": "partial",
   "theorems": [
    "C269_refuted"
   ],
   "note": "refuted as stated; half of the field is taken"
  },
  {
   "property": "C270",
   "status": "proved",
   "theorems": [
    "C270_thin"
   ],
   "note": ""
  },
  {
   "property": "C271",
   "status": "proved",
   "theorems": [
    "C271_steps"
   ],
   "note": "momenta positive"
  },
  {
   "property": "C272",
   "status": "partial",
   "theorems": [
    "C272_refuted",
    "C272_inside"
   ],
   "note": "refuted as stated; at the beginning of a component n steps of no length pass the entrance n times; proved elsewhere in the component"
  },
  {
   "property": "C273",
   "status": "partial",
   "theorems": [
    "C273_refuted"
   ],
   "note": "refuted as stated; the counter of steps is never advanced: after the first n-th no step is allowed any more and tracking never ends, whatever other processes there are"
  },
  {
   "property": "C274",
   "status": "proved",
   "theorems": [
    "C274_one",
    "C274_zero",
    "C274_enter",
    "C274_alone"
   ],
   "note": ""
  },
  {
   "property": "C275",
   "status": "proved",
   "theorems": [
    "C275_pairs",
    "C275_run",
    "C275_erase_end"
   ],
   "note": ""
  },
  {
   "property": "C276",
   "status": "partial",
   "theorems": [
    "C276_refuted",
    "C276_sorted"
   ],
   "note": "refuted as stated; only the particles are sorted (a comment in the code says so); proved: they are sorted and the spins stay in place"
  },
  {
   "property": "C277",
   "status": "partial",
   "theorems": [
    "C277_refuted",
    "C277_closes_up",
    "C277_undefined"
   ],
   "note": "refuted as stated; clear and swap are not virtual and leave the spins: those behind a lost particle get the spin of their predecessor, new particles get old spins, and with more particles than spins the process reads beyond the end"
  },
  {
   "property": "C278",
   "status": "proved",
   "theorems": [
    "C278_mean",
    "C278_bound"
   ],
   "note": ""
  },
  {
   "property": "C279",
   "status": "proved",
   "theorems": [
    "C279_averages",
    "C279_accepts",
    "C279_rejects"
   ],
   "note": "exact arithmetic; the code adds up in single precision"
  },
  {
   "property": "C280",
   "status": "proved",
   "theorems": [
    "C280_scale"
   ],
   "note": ""
  },
  {
   "property": "C281",
   "status": "proved",
   "theorems": [
    "C281_order"
   ],
   "note": ""
  },
  {
   "property": "C282",
   "status": "proved",
   "theorems": [
    "C282_single"
   ],
   "note": ""
  },
  {
   "property": "C283",
   "status": "proved",
   "theorems": [
    "C283_between"
   ],
   "note": ""
  },
  {
   "property": "C284",
   "status": "proved",
   "theorems": [
    "C284_by_weight"
   ],
   "note": ""
  },
  {
   "property": "C285",
   "status": "partial",
   "theorems": [
    "C285_refuted_few",
    "C285_refuted_many"
   ],
   "note": "refuted as stated; missing weights are read beyond the end of the vector, surplus ones are ignored"
  },
  {
   "property": "C286",
   "status": "partial",
   "theorems": [
    "C286_frame",
    "C286_frame_w",
    "C286_failed",
    "C286_refuted",
    "C286_arguments"
   ],
   "note": "refuted as stated; other entries do stay, but a failing call may leave a null pointer under the new name when the left side of the assignment is evaluated first, and the next use of the name is undefined; with the right side first the table stays"
  },
  {
   "property": "C287",
   "status": "proved",
   "theorems": [
    "C287_nucleus"
   ],
   "note": "the shares of the cross section are those without the composition, see C288"
  },
  {
   "property": "C288",
   "status": "partial",
   "theorems": [
    "C288_refuted",
    "C288_blind",
    "C288_equal"
   ],
   "note": "refuted as stated; the shares are not used at all: two mixtures of the same parts always choose the same nuclei; right when all shares are equal"
  },
  {
   "property": "C289",
   "status": "proved",
   "theorems": [
    "C289_names",
    "C289_back"
   ],
   "note": "two spaces in a row make an empty name"
  },
  {
   "property": "C290",
   "status": "proved",
   "theorems": [
    "C290_set",
    "C290_words",
    "C290_few",
    "C290_white",
    "C290_separated"
   ],
   "note": ""
  },
  {
   "property": "C291",
   "status": "partial",
   "theorems": [
    "C291_refuted",
    "C291_present",
    "C291_default"
   ],
   "note": "refuted as stated; a missing name is entered with 0 and HaveExtra is true from then on; a present one is left; with a default constructed material everything is undefined"
  },
  {
   "property": "C292",
   "status": "partial",
   "theorems": [
    "C292_refuted",
    "C292_refuted_assign",
    "C292_copied",
    "C292_assigned",
    "C292_updated"
   ],
   "note": "refuted as stated; the mean free path is not copied: it is indeterminate in a copy and that of the old material after an assignment; all else is, and Update repairs a copy"
  },
  {
   "property": "C293",
   "status": "proved",
   "theorems": [
    "C293_fits",
    "C293_update",
    "C293_given"
   ],
   "note": ""
  },
  {
   "property": "C294",
   "status": "partial",
   "theorems": [
    "C294_refuted"
   ],
   "note": "refuted as stated; the energy is not used, the extra values and the nuclei of a mixture are lost"
  },
  {
   "property": "C295",
   "status": "proved",
   "theorems": [
    "C295_table"
   ],
   "note": ""
  },
  {
   "property": "C296",
   "status": "partial",
   "theorems": [
    "C296_refuted",
    "C296_refuted_copy"
   ],
   "note": "refuted as stated; negative for O, Fe, Ni and Mo, indeterminate for AC150K"
  },
  {
   "property": "C297",
   "status": "partial",
   "theorems": [
    "C297_refuted"
   ],
   "note": "refuted as stated; nickel enters with -1 for the cross sections and the radiation length, and the shares add up to 1.45: the radiation length is 34 g/cm2 instead of 7"
  },
  {
   "property": "C298",
   "status": "partial",
   "theorems": [
    "C298_refuted",
    "C298_shifted"
   ],
   "note": "refuted as stated; for every table the array of five values is read beyond its end; before that Al gets the value of Cu, Fe that of W, Cu that of Pb, and the mean free paths stay as they were"
  },
  {
   "property": "C299",
   "status": "proved",
   "theorems": [
    "C299_by_number",
    "C299_unknown"
   ],
   "note": ""
  },
  {
   "property": "C300",
   "status": "proved",
   "theorems": [
    "C300_measured"
   ],
   "note": ""
  },
  {
   "property": "C301",
   "status": "partial",
   "theorems": [
    "C301_refuted",
    "C301_refuted_new"
   ],
   "note": "refuted as stated; the value is read from the extra values under SixtrackdEdx, which no code sets: nothing is lost, whatever dE/dx is; see C302 for the value given by the user"
  },
  {
   "property": "C302",
   "status": "proved",
   "theorems": [
    "C302_given",
    "C302_in_collimator"
   ],
   "note": ""
  },
  {
   "property": "C303",
   "status": "partial",
   "theorems": [
    "C303_refuted",
    "C303_later"
   ],
   "note": "refuted as stated; every model uses the full one until its first scattering; true after it"
  },
  {
   "property": "C304",
   "status": "proved",
   "theorems": [
    "C304_in_use"
   ],
   "note": "materials are told apart by their address"
  },
  {
   "property": "C305",
   "status": "partial",
   "theorems": [
    "C305_refuted"
   ],
   "note": "refuted as stated; those of the first energy stay, and for the SixTrack model any other energy would have given others"
  },
  {
   "property": "C306",
   "status": "proved",
   "theorems": [
    "C306_choice",
    "C306_acts",
    "C306_defined",
    "C306_in_collimator"
   ],
   "note": "mixtures may use their unset list of nuclei, see C287"
  },
  {
   "property": "C307",
   "status": "partial",
   "theorems": [
    "C307_refuted"
   ],
   "note": "refuted as stated; it is higher by the factor 1 + sR/sT, since the mean free path counts it and the choice uses the total without it"
  },
  {
   "property": "C308",
   "status": "proved",
   "theorems": [
    "C308_exchange",
    "C308_inelastic"
   ],
   "note": "tables of elastic and diffractive scattering are parameters"
  },
  {
   "property": "C309",
   "status": "partial",
   "theorems": [
    "C309_refuted",
    "C309_on_momentum"
   ],
   "note": "refuted as stated; the energy of the proton is passed where the reference energy is meant, so dE/(1+dp) is taken; true for dp = 0"
  },
  {
   "property": "C310",
   "status": "partial",
   "theorems": [
    "C310_refuted"
   ],
   "note": "refuted as stated; it is moved by the length left before the last step again, for every medium which only takes it through"
  },
  {
   "property": "C311",
   "status": "proved",
   "theorems": [
    "C311_through"
   ],
   "note": "in a medium without energy loss and multiple scattering"
  },
  {
   "property": "C312",
   "status": "partial",
   "theorems": [
    "C312_refuted",
    "C312_once"
   ],
   "note": "refuted as stated; one with less than a hundredth of the beam energy, but more than 1 GeV, is absorbed unreported; at most one report, and none for survivors, is proved"
  },
  {
   "property": "C313",
   "status": "partial",
   "theorems": [
    "C313_refuted",
    "C313_slow"
   ],
   "note": "refuted as stated; after a scattering the last step is counted twice, and the place may lie behind the collimator; true for a proton which is too slow"
  },
  {
   "property": "C314",
   "status": "proved",
   "theorems": [
    "C314_ends",
    "C314_inside"
   ],
   "note": ""
  },
  {
   "property": "C315",
   "status": "partial",
   "theorems": [
    "C315_refuted"
   ],
   "note": "refuted as stated; a negative mean free path (O, Fe, Ni, Mo) gives the logarithm of a negative number in the first step, for every proton and random number"
  },
  {
   "property": "C316",
   "status": "proved",
   "theorems": [
    "C316_spread",
    "C316_in_collimator"
   ],
   "note": "with the cache empty, see C317"
  },
  {
   "property": "C317",
   "status": "partial",
   "theorems": [
    "C317_refuted_straggle",
    "C317_refuted_loss",
    "C317_kept",
    "C317_in_collimator"
   ],
   "note": "refuted as stated; they are kept in static variables until another address comes, so a changed material or a new one at the address of an old one gets the old ones; true with another address before"
  },
  {
   "property": "C318",
   "status": "partial",
   "theorems": [
    "C318_refuted",
    "C318_values"
   ],
   "note": "refuted as stated; the energy in eV is divided by eV again, so those above 100 eV are always taken; the other constants are right"
  },
  {
   "property": "C319",
   "status": "partial",
   "theorems": [
    "C319_refuted"
   ],
   "note": "refuted as stated; the most probable loss is added to the energy instead of taken, and 21 ln 10 xi less of it, since the units in the logarithm do not fit"
  },
  {
   "property": "C320",
   "status": "proved",
   "theorems": [
    "C320_same"
   ],
   "note": ""
  },
  {
   "property": "C321",
   "status": "proved",
   "theorems": [
    "C321_cross_sections",
    "C321_rejects"
   ],
   "note": "tables of elastic and diffractive scattering are parameters"
  },
  {
   "property": "C322",
   "status": "proved",
   "theorems": [
    "C322_free_path",
    "C322_unset"
   ],
   "note": ""
  },
  {
   "property": "C323",
   "status": "proved",
   "theorems": [
    "C323_fresh"
   ],
   "note": ""
  },
  {
   "property": "C324",
   "status": "proved",
   "theorems": [
    "C324_with",
    "C324_without",
    "C324_ordered"
   ],
   "note": ""
  },
  {
   "property": "C325",
   "status": "proved",
   "theorems": [
    "C325_first",
    "C325_beyond"
   ],
   "note": ""
  },
  {
   "property": "C326",
   "status": "partial",
   "theorems": [
    "C326_refuted",
    "C326_gap"
   ],
   "note": "refuted as stated; when the element before ends where it begins it gets the aperture of that one; true with a gap before it"
  },
  {
   "property": "C327",
   "status": "proved",
   "theorems": [
    "C327_frame",
    "C327_succeeds"
   ],
   "note": ""
  },
  {
   "property": "C328",
   "status": "proved",
   "theorems": [
    "C328_again"
   ],
   "note": ""
  },
  {
   "property": "C329",
   "status": "partial",
   "theorems": [
    "C329_refuted"
   ],
   "note": "refuted as stated; an entry of an unknown type is counted, the element stays without an aperture"
  },
  {
   "property": "C330",
   "status": "proved",
   "theorems": [
    "C330_uniform"
   ],
   "note": "entries at the position of the drift or more than 5e-7 m away; the drift not at the beginning or end of the table, see C334, C335"
  },
  {
   "property": "C331",
   "status": "proved",
   "theorems": [
    "C331_entries"
   ],
   "note": "as in C330"
  },
  {
   "property": "C332",
   "status": "proved",
   "theorems": [
    "C332_circle"
   ],
   "note": "as in C330; APER_3 zero; see C333 for the beginning"
  },
  {
   "property": "C333",
   "status": "partial",
   "theorems": [
    "C333_refuted"
   ],
   "note": "refuted as stated; with two entries there only the diamond |x|+|y| < radius is inside"
  },
  {
   "property": "C334",
   "status": "partial",
   "theorems": [
    "C334_refuted"
   ],
   "note": "refuted as stated; the position of the last entry is not moved by the circumference, so the pipe is extrapolated: wider than both when the last is narrower"
  },
  {
   "property": "C335",
   "status": "partial",
   "theorems": [
    "C335_refuted"
   ],
   "note": "refuted as stated; the last entry is counted out together with the wrapped one; the drift gets the aperture of the first entry of the table alone"
  },
  {
   "property": "C336",
   "status": "partial",
   "theorems": [
    "C336_refuted"
   ],
   "note": "refuted as stated; the type of the first entry decides for all; behind a round one only APER_1 of the next counts"
  },
  {
   "property": "C337",
   "status": "proved",
   "theorems": [
    "C337_mix"
   ],
   "note": "as in C330"
  },
  {
   "property": "C338",
   "status": "partial",
   "theorems": [
    "C338_refuted"
   ],
   "note": "refuted as stated; with rectangles of different sizes every test ends the program"
  },
  {
   "property": "C339",
   "status": "proved",
   "theorems": [
    "C339_delete",
    "C339_shared"
   ],
   "note": "sharing is outside what the code supports"
  },
  {
   "property": "C340",
   "status": "proved",
   "theorems": [
    "C340_gaps",
    "C340_sigmas"
   ],
   "note": ""
  },
  {
   "property": "C341",
   "status": "partial",
   "theorems": [
    "C341_refuted"
   ],
   "note": "refuted as stated; the rest of the file is read as collimators without a name, made of the last material"
  },
  {
   "property": "C342",
   "status": "partial",
   "theorems": [
    "C342_refuted"
   ],
   "note": "refuted as stated; the collimator gets jaws and no material; see C358 for the other mode"
  },
  {
   "property": "C343",
   "status": "proved",
   "theorems": [
    "C343_gaps"
   ],
   "note": ""
  },
  {
   "property": "C344",
   "status": "partial",
   "theorems": [
    "C344_refuted"
   ],
   "note": "refuted as stated; only the first one of a name is"
  },
  {
   "property": "C345",
   "status": "partial",
   "theorems": [
    "C345_refuted"
   ],
   "note": "refuted as stated; they change nothing"
  },
  {
   "property": "C346",
   "status": "proved",
   "theorems": [
    "C346_matched"
   ],
   "note": "no random errors; positive length; openings growing along the collimator or the orbit not zero throughout, see C81"
  },
  {
   "property": "C347",
   "status": "partial",
   "theorems": [
    "C347_refuted"
   ],
   "note": "refuted as stated; without tilt it is the multiple of the horizontal size"
  },
  {
   "property": "C348",
   "status": "proved",
   "theorems": [
    "C348_flat",
    "C348_one_sided"
   ],
   "note": ""
  },
  {
   "property": "C349",
   "status": "partial",
   "theorems": [
    "C349_refuted"
   ],
   "note": "refuted as stated; turned by a quarter they stop the orbit itself when it moves by more than the height"
  },
  {
   "property": "C350",
   "status": "proved",
   "theorems": [
    "C350_errors"
   ],
   "note": "the horizontal opening at the exit is that at the entrance, while the vertical one follows the beam size: the two planes follow different rules"
  },
  {
   "property": "C351",
   "status": "partial",
   "theorems": [
    "C351_refuted"
   ],
   "note": "refuted as stated; they are still displaced by a random number of 50 micrometres rms"
  },
  {
   "property": "C352",
   "status": "partial",
   "theorems": [
    "C352_refuted"
   ],
   "note": "refuted as stated; the root of it is"
  },
  {
   "property": "C353",
   "status": "partial",
   "theorems": [
    "C353_refuted"
   ],
   "note": "refuted as stated; with matching, which is the default, the program ends at the first collimator"
  },
  {
   "property": "C354",
   "status": "proved",
   "theorems": [
    "C354_impact"
   ],
   "note": ""
  },
  {
   "property": "C355",
   "status": "partial",
   "theorems": [
    "C355_refuted",
    "C355_first"
   ],
   "note": "refuted as stated; it is the result of an earlier call; 1 in the first call"
  },
  {
   "property": "C356",
   "status": "partial",
   "theorems": [
    "C356_refuted",
    "C356_last",
    "C356_no_optics"
   ],
   "note": "refuted as stated; one whose position is in no row of the optical functions, or in a row with a beta of zero, stays as it is; one at the last row is an error"
  },
  {
   "property": "C357",
   "status": "proved",
   "theorems": [
    "C357_each",
    "C357_order",
    "C357_last_row"
   ],
   "note": "random numbers are used in the order of the file"
  },
  {
   "property": "C358",
   "status": "partial",
   "theorems": [
    "C358_refuted"
   ],
   "note": "refuted as stated; the null pointer is followed"
  },
  {
   "property": "C359",
   "status": "proved",
   "theorems": [
    "C359_ring"
   ],
   "note": "uncoupled beams; every particle other than the first, seen from the centroid and without dispersion"
  },
  {
   "property": "C360",
   "status": "proved",
   "theorems": [
    "C360_horizontal",
    "C360_vertical",
    "C360_horizontal_cut",
    "C360_vertical_cut"
   ],
   "note": "uncoupled beams; every particle other than the first, seen from the centroid and without dispersion"
  },
  {
   "property": "C361",
   "status": "proved",
   "theorems": [
    "C361_thin",
    "C361_thick"
   ],
   "note": "uncoupled beams; every particle other than the first, seen from the centroid and without dispersion"
  },
  {
   "property": "C362",
   "status": "partial",
   "theorems": [
    "C362_refuted"
   ],
   "note": "refuted as stated; the angle is -alpha/beta times the position"
  },
  {
   "property": "C363",
   "status": "proved",
   "theorems": [
    "C363_cutoffs",
    "C363_first"
   ],
   "note": "uncoupled beams; every particle other than the first, seen from the centroid and without dispersion; all cutoffs nonzero"
  },
  {
   "property": "C364",
   "status": "partial",
   "theorems": [
    "C364_refuted"
   ],
   "note": "refuted as stated; their roots: a spread of 1e-4 becomes 1e-2"
  },
  {
   "property": "C365",
   "status": "proved",
   "theorems": [
    "C365_uniform"
   ],
   "note": "uncoupled beams; every particle other than the first, seen from the centroid and without dispersion"
  },
  {
   "property": "C366",
   "status": "partial",
   "theorems": [
    "C366_horizontal",
    "C366_refuted",
    "C366_vertical"
   ],
   "note": "refuted as stated; the horizontal filter refuses particles with position or angle zero; true for all others"
  },
  {
   "property": "C367",
   "status": "partial",
   "theorems": [
    "C367_refuted"
   ],
   "note": "refuted as stated; at a symmetry point the halo for a hollow lens never passes the horizontal filter, construction goes on for ever"
  },
  {
   "property": "C368",
   "status": "partial",
   "theorems": [
    "C368_refuted"
   ],
   "note": "refuted as stated; a displaced beam passes as a whole"
  },
  {
   "property": "C369",
   "status": "proved",
   "theorems": [
    "C369_bunch",
    "C369_sequence",
    "C369_draws",
    "C369_filtered"
   ],
   "note": ""
  },
  {
   "property": "C370",
   "status": "partial",
   "theorems": [
    "C370_refuted",
    "C370_refused"
   ],
   "note": "refuted as stated; undefined; a momentum not positive is refused"
  },
  {
   "property": "C371",
   "status": "proved",
   "theorems": [
    "C371_fft"
   ],
   "note": "exact arithmetic"
  },
  {
   "property": "C372",
   "status": "partial",
   "theorems": [
    "C372_power_refuted",
    "C372_turns_refuted"
   ],
   "note": "refuted as stated; for every number of turns other than 4, 8, 16, ... data are read and written out of range"
  },
  {
   "property": "C373",
   "status": "partial",
   "theorems": [
    "C373_tune_refuted",
    "C373_between_refuted"
   ],
   "note": "refuted as stated; for tunes (p+x)/n with 1 <= p <= n-3 and 0 <= x < 1/2 the tune is always found exactly one bin, 1/n, too low, since the spectrum is stored without its first bin; x >= 1/2 is not treated"
  },
  {
   "property": "C374",
   "status": "partial",
   "theorems": [
    "C374_at_rest_refuted"
   ],
   "note": "refuted as stated; not a number"
  },
  {
   "property": "C375",
   "status": "partial",
   "theorems": [
    "C375_last_bins_refuted",
    "C375_rotating_refuted"
   ],
   "note": "refuted as stated; the spectrum is read beyond its end"
  },
  {
   "property": "C376",
   "status": "partial",
   "theorems": [
    "C376_no_diffusion_refuted"
   ],
   "note": "refuted as stated; it is minus the tune"
  },
  {
   "property": "C377",
   "status": "proved",
   "theorems": [
    "C377_lost"
   ],
   "note": ""
  },
  {
   "property": "C378",
   "status": "proved",
   "theorems": [
    "C378_tunes",
    "C378_once"
   ],
   "note": ""
  },
  {
   "property": "C379",
   "status": "proved",
   "theorems": [
    "C379_interpolation"
   ],
   "note": "C373_between_refuted shows that the sizes are those of the spectrum"
  },
  {
   "property": "C380",
   "status": "proved",
   "theorems": [
    "C380_acceleration"
   ],
   "note": "exact arithmetic"
  },
  {
   "property": "C381",
   "status": "proved",
   "theorems": [
    "C381_defined"
   ],
   "note": ""
  },
  {
   "property": "C382",
   "status": "partial",
   "theorems": [
    "C382_steps_refuted"
   ],
   "note": "refuted as stated; the displacement uses an expansion of the logarithm, so one step and two steps differ; the error of a step is bounded in C390"
  },
  {
   "property": "C383",
   "status": "proved",
   "theorems": [
    "C383_ends",
    "C383_undo"
   ],
   "note": ""
  },
  {
   "property": "C384",
   "status": "partial",
   "theorems": [
    "C384_not_full_refuted"
   ],
   "note": "refuted as stated; the angles stay and the energies change, so that each transverse momentum gains the energy gain times the angle"
  },
  {
   "property": "C385",
   "status": "partial",
   "theorems": [
    "C385_off_refuted"
   ],
   "note": "refuted as stated; the linac structure leaves out the path length; so do both when switched on (C380, C387)"
  },
  {
   "property": "C386",
   "status": "partial",
   "theorems": [
    "C386_displacement_refuted"
   ],
   "note": "refuted as stated; the change of angle counts three halves instead of one half"
  },
  {
   "property": "C387",
   "status": "proved",
   "theorems": [
    "C387_kick"
   ],
   "note": "exact arithmetic"
  },
  {
   "property": "C388",
   "status": "proved",
   "theorems": [
    "C388_turned"
   ],
   "note": ""
  },
  {
   "property": "C389",
   "status": "proved",
   "theorems": [
    "C389_phasor",
    "C389_settings"
   ],
   "note": "exact arithmetic"
  },
  {
   "property": "C390",
   "status": "proved",
   "theorems": [
    "C390_position",
    "C390_error"
   ],
   "note": "exact arithmetic"
  },
  {
   "property": "C391",
   "status": "proved",
   "theorems": [
    "C391_reported",
    "C391_once"
   ],
   "note": "identities below 2^53"
  },
  {
   "property": "C392",
   "status": "partial",
   "theorems": [
    "C392_index_refuted",
    "C392_index"
   ],
   "note": "refuted as stated; it is the number of earlier particles that were not reported before"
  },
  {
   "property": "C393",
   "status": "proved",
   "theorems": [
    "C393_cull"
   ],
   "note": ""
  },
  {
   "property": "C394",
   "status": "partial",
   "theorems": [
    "C394_late_refuted"
   ],
   "note": "refuted as stated; bad particles reported before stay in the bunch and do not halt the program"
  },
  {
   "property": "C395",
   "status": "proved",
   "theorems": [
    "C395_halt"
   ],
   "note": ""
  },
  {
   "property": "C396",
   "status": "partial",
   "theorems": [
    "C396_late_refuted",
    "C396_int_refuted",
    "C396_defined",
    "C396_lines"
   ],
   "note": "refuted as stated; with details switched on inside an element, or for an identity that is no int, an iterator at the end is read; defined when identities are ints and the particles were there at the start of the element"
  },
  {
   "property": "C397",
   "status": "proved",
   "theorems": [
    "C397_files"
   ],
   "note": "the counter does not wrap; names differ from those of other writers only by the prefix"
  },
  {
   "property": "C398",
   "status": "proved",
   "theorems": [
    "C398_elements"
   ],
   "note": ""
  },
  {
   "property": "C399",
   "status": "partial",
   "theorems": [
    "C399_no_bunch_refuted"
   ],
   "note": "refuted as stated; the next element named switches it on again and a null pointer is read"
  },
  {
   "property": "C400",
   "status": "proved",
   "theorems": [
    "C400_errors"
   ],
   "note": "the moves are kept as a list; their product is in Lattice.v"
  },
  {
   "property": "C401",
   "status": "partial",
   "theorems": [
    "C401_small_refuted"
   ],
   "note": "refuted as stated; the square of the rms is compared with the machine precision, so an rms up to 2^-26, about 15 nm, gives no error"
  },
  {
   "property": "C402",
   "status": "partial",
   "theorems": [
    "C402_both_refuted",
    "C402_added"
   ],
   "note": "refuted as stated; setting rotations takes the shifts away; adding keeps them"
  },
  {
   "property": "C403",
   "status": "partial",
   "theorems": [
    "C403_alternatives_refuted"
   ],
   "note": "refuted as stated; the type in front is left free only in the first alternative"
  },
  {
   "property": "C404",
   "status": "proved",
   "theorems": [
    "C404_energy"
   ],
   "note": "exact arithmetic; photons from an oracle"
  },
  {
   "property": "C405",
   "status": "proved",
   "theorems": [
    "C405_direction"
   ],
   "note": "exact arithmetic"
  },
  {
   "property": "C406",
   "status": "partial",
   "theorems": [
    "C406_adjust_refuted"
   ],
   "note": "refuted as stated; the transverse momenta, which are relative to the reference, are not rescaled and shrink by the ratio of the reference momenta"
  },
  {
   "property": "C407",
   "status": "partial",
   "theorems": [
    "C407_angles_refuted"
   ],
   "note": "refuted as stated; the angles are divided by one plus the loss over the reference momentum"
  },
  {
   "property": "C408",
   "status": "proved",
   "theorems": [
    "C408_points"
   ],
   "note": "steps end at the next point or more than the tolerance before it"
  },
  {
   "property": "C409",
   "status": "proved",
   "theorems": [
    "C409_spacing"
   ],
   "note": ""
  },
  {
   "property": "C410",
   "status": "partial",
   "theorems": [
    "C410_split_refuted"
   ],
   "note": "refuted as stated; when the first step is subdivided the process switches itself off and there is no radiation in the component"
  },
  {
   "property": "C411",
   "status": "partial",
   "theorems": [
    "C411_empty_refuted",
    "C411_null_refuted"
   ],
   "note": "refuted as stated; an empty bunch gives a mean that is no number; without bunch a null pointer is read before it is tested; zero steps or a largest step of zero give no int"
  },
  {
   "property": "C412",
   "status": "proved",
   "theorems": [
    "C412_components"
   ],
   "note": ""
  },
  {
   "property": "C413",
   "status": "proved",
   "theorems": [
    "C413_moments"
   ],
   "note": "exact arithmetic"
  },
  {
   "property": "C414",
   "status": "proved",
   "theorems": [
    "C414_gradient"
   ],
   "note": "exact arithmetic; up to the rescaling of angles by one plus the change of energy"
  },
  {
   "property": "C415",
   "status": "partial",
   "theorems": [
    "C415_energy_refuted",
    "C415_gain_refuted"
   ],
   "note": "refuted as stated; the part of the sine moments enters with the other sign; a particle above the axis gains energy from its own wake"
  },
  {
   "property": "C416",
   "status": "proved",
   "theorems": [
    "C416_causal"
   ],
   "note": ""
  },
  {
   "property": "C417",
   "status": "proved",
   "theorems": [
    "C417_mode",
    "C417_modes",
    "C417_same_places"
   ],
   "note": ""
  },
  {
   "property": "C418",
   "status": "partial",
   "theorems": [
    "C418_momentum_refuted"
   ],
   "note": "refuted as stated; kept exactly for particles of the reference momentum, on axis or without change of energy: angles are divided by one plus the change"
  },
  {
   "property": "C419",
   "status": "partial",
   "theorems": [
    "C419_slices_refuted"
   ],
   "note": "refuted as stated; tables have fixed room for a thousand slices and there is no check"
  },
  {
   "property": "C420",
   "status": "proved",
   "theorems": [
    "C420_turns",
    "C420_regions",
    "C420_single"
   ],
   "note": ""
  },
  {
   "property": "C421",
   "status": "partial",
   "theorems": [
    "C421_five_refuted"
   ],
   "note": "refuted as stated; a fifth writes outside the tables of four"
  },
  {
   "property": "C422",
   "status": "partial",
   "theorems": [
    "C422_second_refuted",
    "C422_counter_refuted"
   ],
   "note": "refuted as stated; those of the second point never change a particle; behind it the table is read at the counter of the other point, outside it when the run starts between the two points"
  },
  {
   "property": "C423",
   "status": "proved",
   "theorems": [
    "C423_before"
   ],
   "note": "exact arithmetic; optics arbitrary; while a failure lasts times its strength"
  },
  {
   "property": "C424",
   "status": "proved",
   "theorems": [
    "C424_behind"
   ],
   "note": "exact arithmetic; with the first point alone a failure turns the phase here instead of lowering the voltage before the point"
  },
  {
   "property": "C425",
   "status": "proved",
   "theorems": [
    "C425_strength"
   ],
   "note": ""
  },
  {
   "property": "C426",
   "status": "partial",
   "theorems": [
    "C426_after_refuted"
   ],
   "note": "refuted as stated; no cavity acts any more"
  },
  {
   "property": "C427",
   "status": "partial",
   "theorems": [
    "C427_phase_refuted",
    "C427_phase_kept",
    "C427_off"
   ],
   "note": "refuted as stated; with the first point alone the phase is set to zero after the first cavity; otherwise it is kept"
  },
  {
   "property": "C428",
   "status": "proved",
   "theorems": [
    "C428_slices"
   ],
   "note": "exact arithmetic"
  },
  {
   "property": "C429",
   "status": "partial",
   "theorems": [
    "C429_true_partial",
    "C429_twice_refuted"
   ],
   "note": "refuted as stated; true for all but the first slice; the first particle of the bunch counts twice"
  },
  {
   "property": "C430",
   "status": "proved",
   "theorems": [
    "C430_momenta"
   ],
   "note": "exact arithmetic; slices taken at the time of the kick"
  },
  {
   "property": "C431",
   "status": "partial",
   "theorems": [
    "C431_moments_refuted"
   ],
   "note": "refuted as stated; the moment of xp and y is left out; right exactly when it is zero or there is no change"
  },
  {
   "property": "C432",
   "status": "partial",
   "theorems": [
    "C432_balance_refuted"
   ],
   "note": "refuted as stated; off by the charge of the first particle, counted twice, times its loss over the mean"
  },
  {
   "property": "C433",
   "status": "partial",
   "theorems": [
    "C433_empty_refuted"
   ],
   "note": "refuted as stated; the first particle is read without check"
  },
  {
   "property": "C434",
   "status": "proved",
   "theorems": [
    "C434_frames"
   ],
   "note": "exact arithmetic; rotations not within the tolerance of identity, or exactly identity"
  },
  {
   "property": "C435",
   "status": "partial",
   "theorems": [
    "C435_roll_refuted",
    "C435_test_refuted",
    "C435_which_refuted"
   ],
   "note": "refuted as stated; rolls up to a milliradian are left out as the test of identity has a tolerance"
  },
  {
   "property": "C436",
   "status": "proved",
   "theorems": [
    "C436_grid"
   ],
   "note": "exact arithmetic; erfc arbitrary"
  },
  {
   "property": "C437",
   "status": "partial",
   "theorems": [
    "C437_charge_refuted"
   ],
   "note": "refuted as stated; it is the charge times the part of the distribution inside the limits"
  },
  {
   "property": "C438",
   "status": "proved",
   "theorems": [
    "C438_charge",
    "C438_cells",
    "C438_limits",
    "C438_bin"
   ],
   "note": "exact arithmetic; bins above the lower limit"
  },
  {
   "property": "C439",
   "status": "proved",
   "theorems": [
    "C439_all"
   ],
   "note": "exact arithmetic"
  },
  {
   "property": "C440",
   "status": "partial",
   "theorems": [
    "C440_last_refuted",
    "C440_below_refuted"
   ],
   "note": "refuted as stated; the last bin holds only particles at or above the upper limit; particles up to a bin below the lower limit count in the first"
  },
  {
   "property": "C441",
   "status": "partial",
   "theorems": [
    "C441_spread_refuted"
   ],
   "note": "refuted as stated; division by zero and conversion of the result to an integer"
  },
  {
   "property": "C442",
   "status": "proved",
   "theorems": [
    "C442_wakes"
   ],
   "note": "exact arithmetic; wake functions arbitrary"
  },
  {
   "property": "C443",
   "status": "proved",
   "theorems": [
    "C443_rf"
   ],
   "note": "charges other than zero; exact arithmetic"
  },
  {
   "property": "C444",
   "status": "partial",
   "theorems": [
    "C444_neutral_refuted",
    "C444_thin_refuted",
    "C444_bins_refuted",
    "C444_else_partial"
   ],
   "note": "refuted as stated; a bunch without charge and a cavity without length give no numbers, no bins read beyond a vector; all else has a result"
  },
  {
   "property": "C445",
   "status": "proved",
   "theorems": [
    "C445_slope"
   ],
   "note": "exact arithmetic"
  },
  {
   "property": "C446",
   "status": "proved",
   "theorems": [
    "C446_causal",
    "C446_zero",
    "C446_decay"
   ],
   "note": "exact arithmetic"
  },
  {
   "property": "C447",
   "status": "partial",
   "theorems": [
    "C447_modes_refuted"
   ],
   "note": "refuted as stated; modes above the number given at construction read beyond the table"
  },
  {
   "property": "C448",
   "status": "proved",
   "theorems": [
    "C448_set",
    "C448_get"
   ],
   "note": "magnets that are on and have a length; exact arithmetic"
  },
  {
   "property": "C449",
   "status": "partial",
   "theorems": [
    "C449_planes_refuted"
   ],
   "note": "refuted as stated; the other plane is set to zero"
  },
  {
   "property": "C450",
   "status": "partial",
   "theorems": [
    "C450_off_refuted",
    "C450_thin_refuted"
   ],
   "note": "refuted as stated; on a magnet of zero strength nothing is set, on one without length the field is no number"
  },
  {
   "property": "C451",
   "status": "partial",
   "theorems": [
    "C451_strength_refuted"
   ],
   "note": "refuted as stated; it changes in proportion"
  },
  {
   "property": "C452",
   "status": "proved",
   "theorems": [
    "C452_factor",
    "C452_dimension"
   ],
   "note": "exact arithmetic"
  },
  {
   "property": "C453",
   "status": "proved",
   "theorems": [
    "C453_moments"
   ],
   "note": "exact arithmetic; ensembles with finitely many members"
  },
  {
   "property": "C454",
   "status": "partial",
   "theorems": [
    "C454_flat_refuted"
   ],
   "note": "refuted as stated; the first coordinate without spread gives a division by zero and no exception"
  },
  {
   "property": "C455",
   "status": "proved",
   "theorems": [
    "C455_positive"
   ],
   "note": "exact arithmetic"
  },
  {
   "property": "C456",
   "status": "proved",
   "theorems": [
    "C456_taken"
   ],
   "note": "exact arithmetic"
  }
 ]
}
