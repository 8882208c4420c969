{
 "claims": [
  {
   "property": "C01",
   "status": "proved",
   "theorems": [
    "C01_uncondense_condense"
   ],
   "note": ""
  },
  {
   "property": "C02",
   "status": "proved",
   "theorems": [
    "C02_condense_uncondense"
   ],
   "note": ""
  },
  {
   "property": "C03",
   "status": "proved",
   "theorems": [
    "C03_packed_dot_is_power"
   ],
   "note": ""
  },
  {
   "property": "C04",
   "status": "proved",
   "theorems": [
    "C04_pack_unpack",
    "C04_short_vector_rejected"
   ],
   "note": ""
  },
  {
   "property": "C05",
   "status": "proved",
   "theorems": [
    "C05_blocks_inside",
    "C05_blocks_disjoint",
    "C05_blocks_cover",
    "C05_blocks_belong"
   ],
   "note": ""
  },
  {
   "property": "C06",
   "status": "proved",
   "theorems": [
    "C06_first_and_second_derivatives",
    "C06_rotlet_is_curl",
    "C06_rotlet_closed_form",
    "C06_K_is_strain",
    "C06_derivatives_of_R_and_K"
   ],
   "note": ""
  },
  {
   "property": "C07",
   "status": "proved",
   "theorems": [
    "C07_stokes_flow",
    "C07_strain_blocks_symmetric_traceless"
   ],
   "note": ""
  },
  {
   "property": "C08",
   "status": "proved",
   "theorems": [
    "C08_exchange",
    "C08_M12_radius_independent"
   ],
   "note": ""
  },
  {
   "property": "C09",
   "status": "proved",
   "theorems": [
    "C09_symmetric"
   ],
   "note": ""
  },
  {
   "property": "C10",
   "status": "proved",
   "theorems": [
    "C10_every_block",
    "C10_relabelling",
    "C10_dumbbell_sphere",
    "C10_dumbbell_dumbbell"
   ],
   "note": ""
  },
  {
   "property": "C11",
   "status": "proved",
   "theorems": [
    "C11_translation",
    "C11_viscosity",
    "C11_near_field_translation",
    "C11_near_field_translation_periodic",
    "C11_near_field_viscosity"
   ],
   "note": ""
  },
  {
   "property": "C12",
   "status": "proved",
   "theorems": [
    "C12_self_blocks",
    "C12_drag_is_inverse_up_to_6pi",
    "C12_drag_refuted"
   ],
   "note": "includes the finding that the drag-only matrix is too small by 6 pi (C12_drag_refuted)"
  },
  {
   "property": "C13",
   "status": "proved",
   "theorems": [
    "C13_repaired_separation",
    "C13_pair_geometry",
    "C13_closer_than_1e8_refuted"
   ],
   "note": "includes the finding that no repair takes place for separations up to 1e-8 (C13_closer_than_1e8_refuted)"
  },
  {
   "property": "C14",
   "status": "proved",
   "theorems": [
    "C14_mobility_transform",
    "C14_resistance_transform",
    "C14_power_preserved",
    "C14_transforms_inverse",
    "C14_generate_Minfinity_transforms"
   ],
   "note": ""
  },
  {
   "property": "C15",
   "status": "proved",
   "theorems": [
    "C15_symmetric",
    "C15_local",
    "C15_local_free",
    "C15_separated_particles_zero",
    "C15_no_contact_zero_periodic"
   ],
   "note": ""
  },
  {
   "property": "C16",
   "status": "proved",
   "theorems": [
    "C16_bead_interactions_off_refuted",
    "C16_every_block",
    "C16_every_block_pairs",
    "C16_relabelling",
    "C16_fails_iff_ratio_missing"
   ],
   "note": "includes the finding that switching bead-bead interactions off leaves the diagonal blocks (C16_bead_interactions_off_refuted)"
  },
  {
   "property": "C17",
   "status": "proved",
   "theorems": [
    "C17_axial_transverse_projections",
    "C17_L3_cross_product",
    "C17_L4_L5_L6",
    "C17_L7_L8_L9_symmetric_traceless",
    "C17_L7_L8_L9_orthogonal_projections"
   ],
   "note": ""
  },
  {
   "property": "C18",
   "status": "proved",
   "theorems": [
    "C18_tabulated_values",
    "C18_linear_in_between",
    "C18_between_neighbours",
    "C18_clamped"
   ],
   "note": ""
  },
  {
   "property": "C19",
   "status": "proved",
   "theorems": [
    "C19_exactly_the_close_pairs",
    "C19_each_pair_once",
    "C19_distance_is_length",
    "C19_periodic_pairs",
    "C19_periodic_each_pair_once",
    "C19_periodic_simple_shear",
    "C19_periodic_large_particles_refuted"
   ],
   "note": "includes the finding that the periodic search misses pairs of large particles"
  },
  {
   "property": "C20",
   "status": "proved",
   "theorems": [
    "C20_lattice_image",
    "C20_centred_cell",
    "C20_unique_image",
    "C20_lattice_shift_invariant",
    "C20_nearest_image_unsheared",
    "C20_nearest_image_sheared_refuted"
   ],
   "note": "includes the finding that the reported image is not always the nearest one in a sheared box"
  },
  {
   "property": "C21",
   "status": "proved",
   "theorems": [
    "C21_fts_to_fte",
    "C21_no_spheres_raises"
   ],
   "note": ""
  },
  {
   "property": "C22",
   "status": "proved",
   "theorems": [
    "C22_fte_to_ufte",
    "C22_fts_to_ufte"
   ],
   "note": ""
  },
  {
   "property": "C23",
   "status": "proved",
   "theorems": [
    "C23_ufte_to_ufteu",
    "C23_fts_to_ufteu"
   ],
   "note": ""
  },
  {
   "property": "C24",
   "status": "proved",
   "theorems": [
    "C24_fts_to_duf"
   ],
   "note": ""
  },
  {
   "property": "C25",
   "status": "proved",
   "theorems": [
    "C25_fts",
    "C25_fte",
    "C25_ufte",
    "C25_ufteu",
    "C25_duf",
    "C25_ufte_accepts_only_first",
    "C25_nothing_given_raises",
    "C25_extract_force_refuted",
    "C25_stokes_drag_form_refuted"
   ],
   "note": "np.linalg.inv and np.linalg.solve enter as hypotheses (they return an inverse / a solution for the matrices they are given); findings: C25_extract_force_refuted, C25_stokes_drag_form_refuted"
  },
  {
   "property": "C26",
   "status": "proved",
   "theorems": [
    "C26_latest_inverse",
    "C26_drag",
    "C26_unique"
   ],
   "note": ""
  },
  {
   "property": "C27",
   "status": "proved",
   "theorems": [
    "C27_increments",
    "C27_constant",
    "C27_rk4_cubic",
    "C27_ab2_linear",
    "C27_ab2_first",
    "C27_rk4_classical",
    "C27_rk4_background",
    "C27_rk4_background_refuted",
    "C27_ab2_dumbbells_refuted"
   ],
   "note": "background-flow velocities are covered by C31 and by the finding C27_rk4_background; C27_rk4_background_refuted and C27_ab2_dumbbells_refuted are findings"
  },
  {
   "property": "C28",
   "status": "proved",
   "theorems": [
    "C28_rotation",
    "C28_rotation_ab2",
    "C28_rigid",
    "C28_axis",
    "C28_no_spin",
    "C28_derivative",
    "C28_compose"
   ],
   "note": ""
  },
  {
   "property": "C29",
   "status": "proved",
   "theorems": [
    "C29_in_cell",
    "C29_lattice_image",
    "C29_unique",
    "C29_idempotent",
    "C29_lattice_invariant"
   ],
   "note": ""
  },
  {
   "property": "C30",
   "status": "proved",
   "theorems": [
    "C30_attached",
    "C30_rigid",
    "C30_periodic_refuted"
   ],
   "note": "positive for every scheme without a periodic box and for RK4 with one; C30_periodic_refuted is a finding"
  },
  {
   "property": "C31",
   "status": "proved",
   "theorems": [
    "C31_sphere",
    "C31_dumbbell",
    "C31_superposition",
    "C31_reversible"
   ],
   "note": ""
  },
  {
   "property": "C32",
   "status": "proved",
   "theorems": [
    "C32_constant_flow",
    "C32_oscillatory_flow",
    "C32_oscillatory_total",
    "C32_constant_rate",
    "C32_oscillatory_rate",
    "C32_constant_strain",
    "C32_oscillatory_strain"
   ],
   "note": "rounding not modelled; the flags' findings are part of the exact statements (osc_sign)"
  },
  {
   "property": "C33",
   "status": "proved",
   "theorems": [
    "C33_constant",
    "C33_oscillatory",
    "C33_euler_images",
    "C33_oscillatory_euler_refuted",
    "C33_wrapping_box",
    "C33_wrapping_box_refuted"
   ],
   "note": "C33_oscillatory_euler_refuted and C33_wrapping_box_refuted are findings"
  },
  {
   "property": "C34",
   "status": "proved",
   "theorems": [
    "C34_forces",
    "C34_total",
    "C34_pair",
    "C34_decreasing",
    "C34_balance"
   ],
   "note": ""
  },
  {
   "property": "C35",
   "status": "proved",
   "theorems": [
    "C35_positions",
    "C35_output",
    "C35_forces",
    "C35_backup",
    "C35_only_one_refuted",
    "C35_too_short_refuted",
    "C35_offset_refuted"
   ],
   "note": "Positive theorems for intervals dividing the offset; the _refuted theorems are findings: settings for which every run ends in an exception without writing output."
  },
  {
   "property": "C36",
   "status": "proved",
   "theorems": [
    "C36_freeze",
    "C36_flagged",
    "C36_unflagged",
    "C36_unprotected"
   ],
   "note": ""
  },
  {
   "property": "C37",
   "status": "proved",
   "theorems": [
    "C37_resumed_state",
    "C37_lost_timestep",
    "C37_saved_fewer",
    "C37_same_run_refuted"
   ],
   "note": "the property one would want (resumed run = uninterrupted run) is refuted; C37_lost_timestep and C37_saved_fewer give the exact discrepancy"
  },
  {
   "property": "C38",
   "status": "proved",
   "theorems": [
    "C38_settings",
    "C38_extract_refuted"
   ],
   "note": ""
  },
  {
   "property": "C39",
   "status": "proved",
   "theorems": [
    "C39_spheres",
    "C39_spheres_first_free",
    "C39_spheres_return",
    "C39_single_sphere_refuted",
    "C39_dumbbells",
    "C39_tries_in_vain"
   ],
   "note": "termination of the rejection loops depends on the random numbers; the loops are modelled with fuel, C39_spheres_first_free says exactly when and with what they end; findings C39_single_sphere_refuted, C39_tries_in_vain"
  },
  {
   "property": "C40",
   "status": "proved",
   "theorems": [
    "C40_succeeds",
    "C40_bounds",
    "C40_last",
    "C40_exact",
    "C40_flag",
    "C40_zero_interval"
   ],
   "note": ""
  },
  {
   "property": "C41",
   "status": "proved",
   "theorems": [
    "C41_reads",
    "C41_fields",
    "C41_seconds",
    "C41_sixty_refuted",
    "C41_left"
   ],
   "note": ""
  },
  {
   "property": "C42",
   "status": "proved",
   "theorems": [
    "C42_members",
    "C42_sorted",
    "C42_once",
    "C42_closed",
    "C42_same_as_generator",
    "C42_repeated_ratio_refuted"
   ],
   "note": "C42_repeated_ratio_refuted is a finding"
  },
  {
   "property": "C43",
   "status": "proved",
   "theorems": [
    "C43_resistance",
    "C43_scales",
    "C43_equivalent",
    "C43_alone",
    "C43_tables"
   ],
   "note": "np.linalg.inv enters as the hypothesis that it returns inverses of the three matrices"
  },
  {
   "property": "C44",
   "status": "proved",
   "theorems": [
    "C44_rows",
    "C44_bijection",
    "C44_full"
   ],
   "note": ""
  },
  {
   "property": "C45",
   "status": "proved",
   "theorems": [
    "C45_rotation",
    "C45_angle",
    "C45_argument",
    "C45_circle",
    "C45_downward_refuted",
    "C45_dumbbell"
   ],
   "note": "matplotlib itself is not modelled; C45_downward_refuted is a finding (normal() never produces such a vector for elevations within half a turn)"
  },
  {
   "property": "C46",
   "status": "proved",
   "theorems": [
    "C46_faxen"
   ],
   "note": ""
  },
  {
   "property": "C47",
   "status": "proved",
   "theorems": [
    "C47_direct",
    "C47_resistance",
    "C47_mobility",
    "C47_reciprocal_theorem"
   ],
   "note": ""
  },
  {
   "property": "C48",
   "status": "proved",
   "theorems": [
    "C48_forces",
    "C48_common_scale_refuted"
   ],
   "note": "the property one would want is refuted; C48_forces is the exact behaviour"
  },
  {
   "property": "C49",
   "status": "proved",
   "theorems": [
    "C49_erfc_derivatives",
    "C49_helpers_are_derivatives"
   ],
   "note": ""
  },
  {
   "property": "C50",
   "status": "proved",
   "theorems": [
    "C50_real_space_greens_tensor",
    "C50_derivatives",
    "C50_no_splitting_is_unbounded"
   ],
   "note": ""
  },
  {
   "property": "C51",
   "status": "proved",
   "theorems": [
    "C51_unbounded_pair_functions",
    "C51_real_space_pair_functions",
    "C51_wave_space_pair_functions"
   ],
   "note": ""
  },
  {
   "property": "C52",
   "status": "proved",
   "theorems": [
    "C52_symmetric",
    "C52_stale_erfcs_harmless",
    "C52_translation",
    "C52_viscosity"
   ],
   "note": ""
  },
  {
   "property": "C53",
   "status": "proved",
   "theorems": [
    "C53_every_block",
    "C53_relabelling",
    "C53_mixed_radii_refuted"
   ],
   "note": "C53_mixed_radii_refuted is a finding; beads of unequal size on top of one another are excluded (the branches for s<=1e-10 use the first radius only)"
  },
  {
   "property": "C54",
   "status": "proved",
   "theorems": [
    "C54_pair_sums",
    "C54_wave_part_omitted_refuted"
   ],
   "note": "C54_wave_part_omitted_refuted is a finding; convergence of the truncated sums to the infinite lattice sum is not claimed"
  },
  {
   "property": "C55",
   "status": "proved",
   "theorems": [
    "C55_self_terms",
    "C55_rotation_self_term_refuted"
   ],
   "note": "C55_rotation_self_term_refuted is a finding"
  },
  {
   "property": "C56",
   "status": "proved",
   "theorems": [
    "C56_images",
    "C56_wave_part_periodic"
   ],
   "note": ""
  },
  {
   "property": "C57",
   "status": "proved",
   "theorems": [
    "C57_forces",
    "C57_periodic_forces",
    "C57_stored",
    "C57_symmetric",
    "C57_translation",
    "C57_viscosity",
    "C57_relabelling",
    "C57_periodic_symmetric",
    "C57_periodic_translation",
    "C57_periodic_viscosity",
    "C57_periodic_drag_refuted",
    "C57_debug_output_refuted"
   ],
   "note": "np.linalg.inv enters as the hypothesis that it returns inverses; relabelling is proved for the non-periodic matrix; C57_periodic_drag_refuted and C57_debug_output_refuted are findings"
  },
  {
   "property": "C58",
   "status": "proved",
   "theorems": [
    "C58_convex_polygon",
    "C58_returns",
    "C58_quadrilateral_refuted",
    "C58_beads"
   ],
   "note": ""
  },
  {
   "property": "C59",
   "status": "proved",
   "theorems": [
    "C59_recognised",
    "C59_continued_name",
    "C59_search",
    "C59_latest_refuted",
    "C59_startup_refuted"
   ],
   "note": ""
  },
  {
   "property": "C60",
   "status": "proved",
   "theorems": [
    "C60_translation",
    "C60_no_background_flow",
    "C60_builtin_inputs",
    "C60_shear",
    "C60_form_fts_refuted"
   ],
   "note": "Whole-run translation for arbitrary inputs (C60_translation), for inputs at rest (C60_no_background_flow), for the built-in inputs and shears; C60_form_fts_refuted is the finding. np.linalg.inv/solve and the table of scalars are arbitrary functions."
  },
  {
   "property": "C61",
   "status": "proved",
   "theorems": [
    "C61_setups",
    "C61_random",
    "C61_walls",
    "C61_tests",
    "C61_unknown",
    "C61_cubic_lattice",
    "C61_orientation",
    "C61_replicate",
    "C61_replicate_frames",
    "C61_replicate_refuted"
   ],
   "note": "C61_setups (1-7, all random streams; examples give streams with which 5 and 6 return), C61_tests, C61_unknown, C61_cubic_lattice, C61_orientation, C61_replicate(_frames); C61_replicate_refuted is the finding. Termination of the random loops is not claimed (it depends on the random numbers)."
  },
  {
   "property": "C62",
   "status": "proved",
   "theorems": [
    "C62_complete",
    "C62_examples",
    "C62_readme",
    "C62_velocities_ignored_refuted"
   ],
   "note": "C62_complete (any inputs), C62_examples (iff, inputs 1-7), C62_readme (all README commands with the shipped settings, view_graphics off); C62_velocities_ignored_refuted is a finding. Numerical failure inside np.linalg (singular matrices) is not modelled; the routines are arbitrary functions."
  },
  {
   "property": "C63",
   "status": "proved",
   "theorems": [
    "C63_turned_parts",
    "C63_far_field",
    "C63_near_field",
    "C63_grand_resistance",
    "C63_invertible",
    "C63_planar_far_field",
    "C63_planar_grand_resistance"
   ],
   "note": "C63_turned_parts says what turning does to each part of a grand vector; far field, near field and grand matrices follow; C63_planar_* are consequences for plane configurations. Periodic boxes are not covered (a turned box is not a box of the program)."
  },
  {
   "property": "C64",
   "status": "proved",
   "theorems": [
    "C64_invertible",
    "C64_unique",
    "C64_fts",
    "C64_fte",
    "C64_ufte",
    "C64_ufteu",
    "C64_duf",
    "C64_drag",
    "C64_sum"
   ],
   "note": ""
  },
  {
   "property": "C65",
   "status": "proved",
   "theorems": [
    "C65_run",
    "C65_drag"
   ],
   "note": ""
  },
  {
   "property": "C66",
   "status": "proved",
   "theorems": [
    "C66_far_field",
    "C66_near_field",
    "C66_grand_resistance",
    "C66_motion",
    "C66_invertible",
    "C66_threshold_refuted"
   ],
   "note": ""
  },
  {
   "property": "C67",
   "status": "proved",
   "theorems": [
    "C67_pair_resistance",
    "C67_extract_round_trip",
    "C67_near_field",
    "C67_grand_resistance",
    "C67_isolated_pair",
    "C67_drag_near_field",
    "C67_drag_pair_refuted",
    "C67_table_choice",
    "C67_table_choice_refuted"
   ],
   "note": "C67_near_field and C67_grand_resistance are for the blocks between spheres (dumbbells may be present) and pairs at tabulated separations; between table points the scalars are interpolated and the subtraction is not exact. np.linalg.inv enters as the hypothesis that it inverts the matrices it is given. C67_drag_pair_refuted and C67_table_choice_refuted are findings."
  },
  {
   "property": "C68",
   "status": "proved",
   "theorems": [
    "C68_run",
    "C68_far_field",
    "C68_grand",
    "C68_solvable"
   ],
   "note": "The spacing 500 n A^3 a0 is sufficient, not necessary. C68_solvable combines it with C64; uniqueness is C64_unique."
  },
  {
   "property": "C69",
   "status": "proved",
   "theorems": [
    "C69_rows",
    "C69_overlap_refuted",
    "C69_readable_refuted"
   ],
   "note": "C69_overlap_refuted and C69_readable_refuted are findings."
  },
  {
   "property": "C70",
   "status": "proved",
   "theorems": [
    "C70_gravity",
    "C70_spring",
    "C70_repulsion",
    "C70_velocities",
    "C70_walls",
    "C70_shear",
    "C70_tests"
   ],
   "note": "A dumbbell of length 0 gives NaN in python and is excluded; forms as stated in each theorem."
  },
  {
   "property": "C71",
   "status": "proved",
   "theorems": [
    "C71_force_and_torque",
    "C71_stresslet",
    "C71_stresslet_regular",
    "C71_across",
    "C71_stresslet_refuted",
    "C71_correction"
   ],
   "note": "C71_stresslet_refuted is the finding. The generalised zeta functions of mpmath are arbitrary functions in the model."
  },
  {
   "property": "C72",
   "status": "proved",
   "theorems": [
    "C72_scalars",
    "C72_reciprocal_theorem"
   ],
   "note": "Recurrences modelled with fuel, shown sufficient."
  },
  {
   "property": "C73",
   "status": "proved",
   "theorems": [
    "C73_table",
    "C73_table_reciprocal",
    "C73_sums",
    "C73_coefficient"
   ],
   "note": "The m1 identity is proved for AX11, AY11 and AY12, the families with that correction in the sums of F directly."
  },
  {
   "property": "C74",
   "status": "proved",
   "theorems": [
    "C74_scalars",
    "C74_table",
    "C74_written",
    "C74_rows"
   ],
   "note": "The program itself enters as a hypothesis (C74_table: symmetric mutual scalars and correct 2x2 and 4x4 inverses, as in C43)."
  },
  {
   "property": "C75",
   "status": "proved",
   "theorems": [
    "C75_boundary",
    "C75_moments",
    "C75_alone",
    "C75_sign",
    "C75_program"
   ],
   "note": "Method of reflections. That the passes converge is not claimed (the program only stops when a pass changes little); that Translate_field is the translation of the field is C76. For 2 s > 10^8 (r1+r2) the program would use N = 1 and drop the strain; excluded. xg_sign = -1 is confirmed as the right sign, which NOTES.md leaves in doubt."
  },
  {
   "property": "C76",
   "status": "proved",
   "theorems": [
    "C76_pressure",
    "C76_velocity",
    "C76_rotation",
    "C76_lamb",
    "C76_fields"
   ],
   "note": "Pressure, x.u and x.vorticity at the leading power of the distance from the axis, for every order m and all degrees; that these determine a Stokes flow (standard theory of solid harmonics) is not formalised. The axis functions of the harmonics of degree n are taken as H (n+m)!/(2^m m! (n-m)!) x^(n-m)."
  },
  {
   "property": "C77",
   "status": "proved",
   "theorems": [
    "C77_x",
    "C77_y",
    "C77_z",
    "C77_exist",
    "C77_first",
    "C77_moments",
    "C77_orders"
   ],
   "note": "The re-expansion used in the definition of a reflection is the translation of reflect.f (C76); truncated at degree N like the Fortran program, which is exact for the powers p + q <= N. Convergence of the sum over all orders is not claimed."
  },
  {
   "property": "C78",
   "status": "proved",
   "theorems": [
    "C78_XA",
    "C78_YA",
    "C78_YB",
    "C78_YC",
    "C78_XG",
    "C78_YG",
    "C78_YH",
    "C78_XM",
    "C78_YM",
    "C78_ZM",
    "C78_order_0"
   ],
   "note": "All functions but X11C, X12C (Hurwitz zeta functions from scipy, a parameter of the model). That the coefficients f_m have this asymptotic form (lubrication theory) is not proved; C71 and C72 test the g's by independent physics."
  },
  {
   "property": "C79",
   "status": "proved",
   "theorems": [
    "C79_placed",
    "C79_apart",
    "C79_flat_box_refuted",
    "C79_returns",
    "C79_tries_in_vain"
   ],
   "note": "C79_flat_box_refuted and C79_tries_in_vain are findings; C79_returns includes the ValueError without dumbbells."
  },
  {
   "property": "C80",
   "status": "proved",
   "theorems": [
    "C80_between",
    "C80_never_feeds_refuted",
    "C80_reference_high_refuted",
    "C80_new_beads"
   ],
   "note": "C80_never_feeds_refuted and C80_reference_high_refuted are findings; the call in run_simulation.py is commented out."
  },
  {
   "property": "C81",
   "status": "proved",
   "theorems": [
    "C81_turned_runs",
    "C81_inputs",
    "C81_drag",
    "C81_rk4",
    "C81_rk4_drag"
   ],
   "note": "C81_turned_runs (Euler, Adams-Bashforth) and C81_rk4 (Runge-Kutta); with the drag matrix (C81_drag, C81_rk4_drag) nothing is assumed of the matrices."
  },
  {
   "property": "C82",
   "status": "proved",
   "theorems": [
    "C82_flat",
    "C82_shipped",
    "C82_rk4"
   ],
   "note": "C82_flat and C82_rk4 for any inputs symmetric about the plane, C82_shipped for inputs 1, 3, 4, 5, 6, 7."
  },
  {
   "property": "C83",
   "status": "proved",
   "theorems": [
    "C83_run",
    "C83_drag"
   ],
   "note": "The findings of the statement (background flow, strain, two dimensions) are in the definition of the stages in Spec_Run4 and in C27_rk4_background_refuted."
  },
  {
   "property": "C84",
   "status": "proved",
   "theorems": [
    "C84_name",
    "C84_name_refuted",
    "C84_pictures",
    "C84_flow",
    "C84_run",
    "C84_every",
    "C84_every_refuted",
    "C84_start_refuted",
    "C84_dumbbells_refuted",
    "C84_repulsion_refuted",
    "C84_box_refuted",
    "C84_plot",
    "C84_plot_refuted"
   ],
   "note": "C84_name_refuted, C84_every_refuted, C84_start_refuted, C84_dumbbells_refuted, C84_repulsion_refuted, C84_box_refuted and C84_plot_refuted are findings."
  },
  {
   "property": "C85",
   "status": "proved",
   "theorems": [
    "C85_coefficients",
    "C85_plot",
    "C85_chains_refuted",
    "C85_stokes",
    "C85_drag_refuted",
    "C85_paths",
    "C85_paths_flat",
    "C85_sedimentation_step",
    "C85_sedimentation"
   ],
   "note": "C85_chains_refuted and C85_drag_refuted are findings; of C85_sedimentation only the step (C85_sedimentation_step) has an instance, as positive definiteness of a periodic mobility is not shown for a concrete array."
  },
  {
   "property": "C86",
   "status": "proved",
   "theorems": [
    "C86_renumbered_runs",
    "C86_relisted",
    "C86_inputs",
    "C86_drag",
    "C86_symmetric",
    "C86_centred",
    "C86_numbering_refuted",
    "C86_rk4",
    "C86_rk4_relisted",
    "C86_rk4_drag",
    "C86_rk4_symmetric",
    "C86_rk4_centred"
   ],
   "note": "C86_renumbered_runs etc. (Euler, Adams-Bashforth) and C86_rk4 etc. (Runge-Kutta). C86_numbering_refuted is the finding. C86_wide_example has the mobility matrix and near field of the code for one frame; for more frames positive definiteness is a hypothesis, except with the drag matrix (C86_drag, C86_rk4_drag and their examples)."
  },
  {
   "property": "C87",
   "status": "proved",
   "theorems": [
    "C87_work",
    "C87_inputs",
    "C87_sinks"
   ],
   "note": "C87_example: any number of frames with the drag matrix; C87_wide_example: one frame with the mobility matrix and near field of the code."
  },
  {
   "property": "C88",
   "status": "proved",
   "theorems": [
    "C88_pair",
    "C88_falling",
    "C88_alone"
   ],
   "note": "C88_drag_example and C88_rk4_example: any number of frames with the drag matrix; C88_wide_example: one frame with the mobility matrix and near field of the code; C88_unequal_example: spheres of radii 1 and 2 with the drag matrix separate."
  },
  {
   "property": "C89",
   "status": "proved",
   "theorems": [
    "C89_units",
    "C89_units_rk4",
    "C89_inputs",
    "C89_inputs_fixed",
    "C89_drag",
    "C89_gravity",
    "C89_shear",
    "C89_moved",
    "C89_paths"
   ],
   "note": "C89_example: falling spheres with the drag matrix, Euler and Runge-Kutta, any number of frames; C89_wide_example: one frame with the mobility matrix and near field of the code; C89_shear_example: shear flow; C89_paths_example: other viscosity and forces."
  },
  {
   "property": "C90",
   "status": "proved",
   "theorems": [
    "C90_strengths",
    "C90_motions",
    "C90_axes",
    "C90_XA",
    "C90_YA",
    "C90_YB",
    "C90_YC",
    "C90_XG",
    "C90_YG",
    "C90_YH",
    "C90_XM",
    "C90_YM",
    "C90_ZM",
    "C90_exist"
   ],
   "note": "C90_strengths, C90_motions and C90_axes say what the strengths, first flows and directions are; C90_exist: such flows exist for every motion; C90_example: a turning pair of spheres; C90_coefficients: the first terms as published. Rotation about the line of centres (XC) is not given by a series in the code and is not included."
  },
  {
   "property": "C91",
   "status": "proved",
   "theorems": [
    "C91_checks",
    "C91_otherwise",
    "C91_forms",
    "C91_unknown_forms_refuted",
    "C91_then_found",
    "C91_then_completes",
    "C91_readme",
    "C91_unique",
    "C91_mirrored",
    "C91_missing_ratio",
    "C91_dumbbells_unchecked_refuted",
    "C91_tolerances_refuted",
    "C91_unneeded_refuted",
    "C91_element_check",
    "C91_element_names_refuted"
   ],
   "note": "includes the findings C91_dumbbells_unchecked_refuted, C91_tolerances_refuted, C91_unneeded_refuted, C91_unknown_forms_refuted, C91_element_names_refuted"
  },
  {
   "property": "C92",
   "status": "proved",
   "theorems": [
    "C92_far_field",
    "C92_power",
    "C92_driven",
    "C92_room",
    "C92_close_pair_refuted",
    "C92_run",
    "C92_fall",
    "C92_falling_pair",
    "C92_pair_speed"
   ],
   "note": "includes the finding C92_close_pair_refuted; C92_row_example, C92_two_example (radii 1 and 100), C92_pair_example and C92_run_example (two overlapping spheres, any number of frames, with the settings of the repository but without near field). Near fields, periodic boxes and crowded particles are not covered (C64, C68)."
  },
  {
   "property": "C93",
   "status": "proved",
   "theorems": [
    "C93_box",
    "C93_straight",
    "C93_memory_cell",
    "C93_straight_refuted",
    "C93_scheme",
    "C93_memory",
    "C93_column_refuted"
   ],
   "note": "includes the findings C93_straight_refuted and C93_column_refuted; C93_box_example (a box with marked cells) and C93_memory_example. Numbers of bytes below 1024^8; the value of the memory is the number given to sizeof_fmt."
  },
  {
   "property": "C94",
   "status": "proved",
   "theorems": [
    "C94_text",
    "C94_unambiguous",
    "C94_century_refuted"
   ],
   "note": "includes the finding C94_century_refuted; C94_example (same day, next days, later). The calendar of datetime is modelled as a library; daylight saving and locales are not modelled."
  },
  {
   "property": "C95",
   "status": "proved",
   "theorems": [
    "C95_pulled",
    "C95_falling",
    "C95_gains",
    "C95_speed"
   ],
   "note": "C95_inclined_example (pair inclined at 3:4, beyond the cutoff, settings of the repository) and C95_overlapping_example. Pairs within the cutoff with near field: C106; the formula is that of the code, which takes overlapping spheres for 2.001 radii apart."
  },
  {
   "property": "C96",
   "status": "proved",
   "theorems": [
    "C96_solution",
    "C96_run",
    "C96_gravity",
    "C96_origin_refuted"
   ],
   "note": "includes the finding C96_origin_refuted; C96_gravity_example and C96_torque_example (test input -6) run with the settings of the repository without near field. Runge-Kutta runs, near fields, dumbbells and given stresslets are not covered (C65, C83 cover them without the closed form)."
  },
  {
   "property": "C97",
   "status": "proved",
   "theorems": [
    "C97_alone",
    "C97_shear",
    "C97_strain",
    "C97_period",
    "C97_rk4",
    "C97_shear_rk4",
    "C97_simpson",
    "C97_order_refuted"
   ],
   "note": "includes the findings C97_order_refuted (Runge-Kutta is of first order in a straining flow) and the last part of C97_strain (Adams-Bashforth). Examples: C97_period_example, C97_order_example, C97_shear_rk4_example with the near field switched on or off. C97_rk4 takes inputs that depend on time only and a constant viscosity; C97_alone also those that depend on the configuration. Other forms: C60 (given stresslet), C65."
  },
  {
   "property": "C98",
   "status": "proved",
   "theorems": [
    "C98_solution",
    "C98_run",
    "C98_gravity",
    "C98_far_refuted",
    "C98_rk4"
   ],
   "note": "includes the finding C98_far_refuted; C98_far_example, C98_spring_example and C98_rk4_example (two spheres side by side, each stage with its own far field). Runs without spheres, near fields and given stresslets are not covered (C65, C83 cover them without the closed form)."
  },
  {
   "property": "C99",
   "status": "proved",
   "theorems": [
    "C99_slices",
    "C99_layout",
    "C99_elements",
    "C99_seconds",
    "C99_kinds"
   ],
   "note": "C99_slices_example, C99_layout_example and C99_seconds_example. The slices of a kind a particle does not have (beads for a sphere) are not claimed; no caller uses them."
  },
  {
   "property": "C100",
   "status": "proved",
   "theorems": [
    "C100_frames",
    "C100_euler",
    "C100_drag",
    "C100_oscillating_refuted"
   ],
   "note": "Whole runs without near field and box, steady inputs; equality with Euler's run also assumes the mobilities met to be positive definite (nothing assumed with the drag matrix). The note in settings.py is refuted for inputs that depend on time (C100_oscillating_refuted)."
  },
  {
   "property": "C101",
   "status": "proved",
   "theorems": [
    "C101_euler",
    "C101_rk4",
    "C101_shear",
    "C101_shear_rk4",
    "C101_crossing_refuted"
   ],
   "note": "Whole runs with the drag matrix, without near field and box, form fte. Runs with given forces and flows are assumed completed; those in shear are shown to complete. Adams-Bashforth with spheres only (with dumbbells it raises). Finding: C101_crossing_refuted."
  },
  {
   "property": "C102",
   "status": "proved",
   "theorems": [
    "C102_same",
    "C102_layer"
   ],
   "note": "Equality of results of the whole program; Euler and Adams-Bashforth, saving every frame, unbounded fluid. Runge-Kutta not covered (its stages are not saved)."
  },
  {
   "property": "C103",
   "status": "proved",
   "theorems": [
    "C103_tables",
    "C103_close",
    "C103_flag",
    "C103_labels_refuted",
    "C103_example"
   ],
   "note": "The tables printed and the flag returned; the text around them is not modelled. The function is called only if the user takes it out of its comment. Finding: C103_labels_refuted."
  },
  {
   "property": "C104",
   "status": "proved",
   "theorems": [
    "C104_superposition",
    "C104_reciprocal",
    "C104_forces",
    "C104_first_frame",
    "C104_reversed"
   ],
   "note": "Output level for every symmetric positive definite matrix; runs: first frame, unbounded, euler and ab2 (the Adams-Bashforth scheme starts with an Euler step)."
  },
  {
   "property": "C105",
   "status": "proved",
   "theorems": [
    "C105_pair",
    "C105_compare",
    "C105_verdict",
    "C105_suite",
    "C105_truncated_refuted"
   ],
   "note": "Exact real arithmetic; the scalars are any functions with the five properties of Spec_Exact (an instance is proved to have them); the file's numbers are given, parsing and printing are not modelled. Finding: C105_truncated_refuted."
  },
  {
   "property": "C106",
   "status": "proved",
   "theorems": [
    "C106_pulled",
    "C106_falling"
   ],
   "note": "C106_upright_example (two unit spheres one above the other at 2.1 radii, the scalars of the example of C105, settings of the repository). Exact real arithmetic: rounding would move the pair off the tabulated separation."
  },
  {
   "property": "C107",
   "status": "proved",
   "theorems": [
    "C107_spheres_same",
    "C107_dumbbells_same",
    "C107_spheres",
    "C107_spheres_equal",
    "C107_spheres_fraction",
    "C107_overfull_refuted",
    "C107_dumbbells",
    "C107_dumbbells_own_length_refuted",
    "C107_dumbbells_fraction",
    "C107_not_in_spheres",
    "C107_periodic_same",
    "C107_periodic",
    "C107_pitch_given",
    "C107_periodic_images_refuted"
   ],
   "note": "Printed numbers are modelled as real numbers (or inf/nan of numpy's division), not their formatting. Findings: C107_overfull_refuted, C107_dumbbells_own_length_refuted, C107_periodic_images_refuted."
  }
 ]
}