{
 "claims": [
  {
   "property": "C01",
   "status": "proved",
   "theorems": [
    "C01_energy_balance",
    "C01_totals"
   ],
   "note": ""
  },
  {
   "property": "C02",
   "status": "proved",
   "theorems": [
    "C02_scattering_nonneg"
   ],
   "note": ""
  },
  {
   "property": "C03",
   "status": "proved",
   "theorems": [
    "C03_optical_theorem"
   ],
   "note": ""
  },
  {
   "property": "C04",
   "status": "proved",
   "theorems": [
    "C04_forward_backward"
   ],
   "note": ""
  },
  {
   "property": "C05",
   "status": "proved",
   "theorems": [
    "C05_physical_intensities",
    "C05_even_periodic"
   ],
   "note": ""
  },
  {
   "property": "C06",
   "status": "proved",
   "theorems": [
    "C06_pi_tau_legendre",
    "C06_rejects_order_zero",
    "C06_symmetry"
   ],
   "note": ""
  },
  {
   "property": "C07",
   "status": "proved",
   "theorems": [
    "C07_integrated_intensity",
    "C07_integrable"
   ],
   "note": ""
  },
  {
   "property": "C08",
   "status": "proved",
   "theorems": [
    "C08_pi_bound",
    "C08_tau_bound",
    "C08_amplitude_bound"
   ],
   "note": ""
  },
  {
   "property": "C09",
   "status": "proved",
   "theorems": [
    "C09_consistency"
   ],
   "note": ""
  },
  {
   "property": "C10",
   "status": "proved",
   "theorems": [
    "C10_interface_ratio"
   ],
   "note": ""
  },
  {
   "property": "C11",
   "status": "proved",
   "theorems": [
    "C11_boundary_conditions",
    "C11_only_solution",
    "C11_real_size_ok"
   ],
   "note": ""
  },
  {
   "property": "C12",
   "status": "proved",
   "theorems": [
    "C12_homogeneous",
    "C12_textbook_quotient"
   ],
   "note": ""
  },
  {
   "property": "C13",
   "status": "proved",
   "theorems": [
    "C13_split_shell",
    "C13_split_core"
   ],
   "note": ""
  },
  {
   "property": "C14",
   "status": "proved",
   "theorems": [
    "C14_index_matched",
    "C14_zero_observables"
   ],
   "note": ""
  },
  {
   "property": "C15",
   "status": "proved",
   "theorems": [
    "C15_scale_invariance",
    "C15_scale_entries"
   ],
   "note": ""
  },
  {
   "property": "C16",
   "status": "proved",
   "theorems": [
    "C16_relative_indices"
   ],
   "note": ""
  },
  {
   "property": "C17",
   "status": "proved",
   "theorems": [
    "C17_limit",
    "C17_rate"
   ],
   "note": "Hypotheses exclude the points where a 1e-30/1e-10 safeguard is active in the limit."
  },
  {
   "property": "C18",
   "status": "proved",
   "theorems": [
    "C18_stack_limit",
    "C18_sphere_limit"
   ],
   "note": "Hypotheses exclude the points where a 1e-30/1e-10 safeguard is active in the limit."
  },
  {
   "property": "C19",
   "status": "proved",
   "theorems": [
    "C19_lossless_coefficients",
    "C19_lossless_cross_sections",
    "C19_nonsingular_small"
   ],
   "note": ""
  },
  {
   "property": "C20",
   "status": "proved",
   "theorems": [
    "C20_boundary_equations"
   ],
   "note": ""
  },
  {
   "property": "C21",
   "status": "proved",
   "theorems": [
    "C21_unique",
    "C21_backends_agree"
   ],
   "note": ""
  },
  {
   "property": "C22",
   "status": "proved",
   "theorems": [
    "C22_equal_materials",
    "C22_core_radius_irrelevant"
   ],
   "note": ""
  },
  {
   "property": "C23",
   "status": "proved",
   "theorems": [
    "C23_jn_recurrence",
    "C23_jn_seed",
    "C23_yn",
    "C23_wronskian"
   ],
   "note": ""
  },
  {
   "property": "C24",
   "status": "proved",
   "theorems": [
    "C24_yn",
    "C24_jn",
    "C24_yn_exact"
   ],
   "note": ""
  },
  {
   "property": "C25",
   "status": "proved",
   "theorems": [
    "C25_jn_algorithms"
   ],
   "note": ""
  },
  {
   "property": "C26",
   "status": "proved",
   "theorems": [
    "C26_small_argument",
    "C26_zero"
   ],
   "note": ""
  },
  {
   "property": "C27",
   "status": "proved",
   "theorems": [
    "C27_batch_is_elementwise"
   ],
   "note": ""
  },
  {
   "property": "C28",
   "status": "proved",
   "theorems": [
    "C28_torch_batch_independent_refuted",
    "C28_torch_batch_value",
    "C28_torch_batch_small"
   ],
   "note": "Refuted: with the torch backend the recurrence depth is chosen from the largest argument of the batch, so a particle's result depends on its neighbours (witness). The depth-parametrised independence that does hold is proved too."
  },
  {
   "property": "C29",
   "status": "proved",
   "theorems": [
    "C29_layouts_accepted",
    "C29_layouts_rejected"
   ],
   "note": ""
  },
  {
   "property": "C30",
   "status": "proved",
   "theorems": [
    "C30_spectral_layout_refuted",
    "C30_spectral_layout_otherwise",
    "C30_square_layout"
   ],
   "note": "Refuted when N_part = L = N_k0: a spectral (L, N_k0) table is then read as per-particle constants (witness). All other cases are proved."
  },
  {
   "property": "C31",
   "status": "proved",
   "theorems": [
    "C31_invalid_rejected"
   ],
   "note": ""
  },
  {
   "property": "C32",
   "status": "proved",
   "theorems": [
    "C32_legacy_core_shell",
    "C32_legacy_sphere"
   ],
   "note": ""
  },
  {
   "property": "C33",
   "status": "proved",
   "theorems": [
    "C33_legacy_constants_refuted",
    "C33_legacy_constants_one",
    "C33_legacy_constants_many"
   ],
   "note": "Refuted for one particle (witness); proved for two or more."
  },
  {
   "property": "C34",
   "status": "proved",
   "theorems": [
    "C34_mixed_batch_refuted",
    "C34_mixed_batch_always"
   ],
   "note": "Refuted: a batch mixing homogeneous and core-shell particles is always rejected (witness and general theorem)."
  },
  {
   "property": "C35",
   "status": "proved",
   "theorems": [
    "C35_truncation_covers",
    "C35_truncation_monotone",
    "C35_pena_returns"
   ],
   "note": ""
  },
  {
   "property": "C36",
   "status": "proved",
   "theorems": [
    "C36_wiscombe_monotone"
   ],
   "note": ""
  },
  {
   "property": "C37",
   "status": "proved",
   "theorems": [
    "C37_constructor_accepts",
    "C37_constructor_rejects",
    "C37_constructor_bad_material",
    "C37_wrong_dimension_value_error_refuted"
   ],
   "note": "Refuted only in the error type: one wrong-dimension call raises RuntimeError instead of ValueError (witness). All other constructor claims are proved."
  },
  {
   "property": "C38",
   "status": "proved",
   "theorems": [
    "C38_device_moves_coherent"
   ],
   "note": ""
  },
  {
   "property": "C39",
   "status": "proved",
   "theorems": [
    "C39_shared_material_refuted",
    "C39_sharing_across_devices_fails",
    "C39_sharing_on_one_device",
    "C39_disjoint_materials",
    "C39_other_particle_calls",
    "C39_other_particle_moves"
   ],
   "note": "Refuted: constructing a second particle on another device moves the material objects it shares with the first, which then fails (witness and general theorem)."
  },
  {
   "property": "C40",
   "status": "proved",
   "theorems": [
    "C40_mie_dictionary",
    "C40_cross_section_dictionary",
    "C40_angular_dictionary",
    "C40_methods_complete"
   ],
   "note": ""
  },
  {
   "property": "C41",
   "status": "proved",
   "theorems": [
    "C41_amplitudes_continuous",
    "C41_amplitude_count",
    "C41_step_unique"
   ],
   "note": ""
  },
  {
   "property": "C42",
   "status": "proved",
   "theorems": [
    "C42_zeroing_harmless",
    "C42_dropped_amplitude",
    "C42_order_one_defect",
    "C42_core_amplitudes"
   ],
   "note": ""
  },
  {
   "property": "C43",
   "status": "proved",
   "theorems": [
    "C43_exactly_one_region",
    "C43_region_is",
    "C43_interface_inner",
    "C43_fields_of_region",
    "C43_total_field"
   ],
   "note": ""
  },
  {
   "property": "C44",
   "status": "proved",
   "theorems": [
    "C44_linear"
   ],
   "note": ""
  },
  {
   "property": "C45",
   "status": "proved",
   "theorems": [
    "C45_plane_wave",
    "C45_in_the_cone",
    "C45_unit_modulus"
   ],
   "note": ""
  },
  {
   "property": "C46",
   "status": "proved",
   "theorems": [
    "C46_wavelength_count_refuted",
    "C46_any_particles_fail",
    "C46_three_wavelengths_refuted",
    "C46_one_wavelength"
   ],
   "note": "Refuted: every number of wavelengths other than 1 and 3 fails, and 3 gives wrong fields in a dispersive environment; one wavelength is proved right."
  },
  {
   "property": "C47",
   "status": "proved",
   "theorems": [
    "C47_interp_defined",
    "C47_interp_linear",
    "C47_interp_samples",
    "C47_interp_ends",
    "C47_interp_range",
    "C47_interp_no_division_by_zero",
    "C47_interp_row_order"
   ],
   "note": ""
  },
  {
   "property": "C48",
   "status": "proved",
   "theorems": [
    "C48_memo_equals_fresh",
    "C48_fresh_exists"
   ],
   "note": ""
  },
  {
   "property": "C49",
   "status": "proved",
   "theorems": [
    "C49_memo_differentiable_refuted",
    "C49_memo_keeps_first_graph",
    "C49_first_evaluation_connected"
   ],
   "note": "Refuted: a repeated wavelength returns the cached value with the old provenance (witness)."
  },
  {
   "property": "C50",
   "status": "proved",
   "theorems": [
    "C50_tabulated",
    "C50_absorption_sign",
    "C50_one_column"
   ],
   "note": ""
  },
  {
   "property": "C51",
   "status": "proved",
   "theorems": [
    "C51_sellmeier",
    "C51_sellmeier_get_epsilon",
    "C51_reachable",
    "C51_even_length"
   ],
   "note": ""
  },
  {
   "property": "C52",
   "status": "proved",
   "theorems": [
    "C52_unsupported_formula_refuted",
    "C52_unsupported_formula_late",
    "C52_unknown_type_rejected"
   ],
   "note": "Refuted: an unknown formula is accepted at construction (witness); the error appears at evaluation."
  },
  {
   "property": "C53",
   "status": "proved",
   "theorems": [
    "C53_round_trip",
    "C53_norm_and_ranges",
    "C53_inverse",
    "C53_plane_x0",
    "C53_axis"
   ],
   "note": ""
  },
  {
   "property": "C54",
   "status": "proved",
   "theorems": [
    "C54_products",
    "C54_basis",
    "C54_rotation"
   ],
   "note": ""
  },
  {
   "property": "C55",
   "status": "proved",
   "theorems": [
    "C55_rotations",
    "C55_additive",
    "C55_axes",
    "C55_sense"
   ],
   "note": ""
  },
  {
   "property": "C56",
   "status": "proved",
   "theorems": [
    "C56_frame",
    "C56_transverse",
    "C56_evaluation",
    "C56_products_kept",
    "C56_incident_wave",
    "C56_turn",
    "C56_unsupported"
   ],
   "note": ""
  },
  {
   "property": "C57",
   "status": "proved",
   "theorems": [
    "C57_count",
    "C57_angles",
    "C57_negative"
   ],
   "note": ""
  },
  {
   "property": "C58",
   "status": "proved",
   "theorems": [
    "C58_automatic_supported",
    "C58_explicit_respected",
    "C58_others_refuse",
    "C58_settings_exist"
   ],
   "note": ""
  },
  {
   "property": "C59",
   "status": "proved",
   "theorems": [
    "C59_number_accepted_refuted",
    "C59_every_number_refused",
    "C59_scalar_tensor_refused",
    "C59_one_entry_accepted",
    "C59_preparation",
    "C59_preparation_fails"
   ],
   "note": "Refuted: every plain number and every 0-d tensor is refused, also a consistent one; one-entry tensors are proved to be accepted."
  },
  {
   "property": "C60",
   "status": "proved",
   "theorems": [
    "C60_polarizability",
    "C60_electric_extinction",
    "C60_magnetic_extinction",
    "C60_electric_radiation_reaction",
    "C60_magnetic_radiation_reaction"
   ],
   "note": ""
  },
  {
   "property": "C61",
   "status": "proved",
   "theorems": [
    "C61_layout",
    "C61_single_order",
    "C61_any_order_refuted"
   ],
   "note": "Refuted for n_max = 1: the order axis is squeezed away (witness); n_max >= 2 is proved."
  },
  {
   "property": "C62",
   "status": "proved",
   "theorems": [
    "C62_order_kept",
    "C62_rejections"
   ],
   "note": ""
  },
  {
   "property": "C63",
   "status": "proved",
   "theorems": [
    "C63_zero_fill",
    "C63_read_back",
    "C63_too_few_values"
   ],
   "note": ""
  },
  {
   "property": "C64",
   "status": "proved",
   "theorems": [
    "C64_integer_n_add_refuted",
    "C64_auto_n_add"
   ],
   "note": "Refuted: integers are rejected by n_add.lower(); 'auto' is proved to work."
  },
  {
   "property": "C65",
   "status": "proved",
   "theorems": [
    "C65_small_any_rank_refuted",
    "C65_small_vectors"
   ],
   "note": "Refuted for rank >= 2; vectors of any content and tensors without small entries are proved."
  },
  {
   "property": "C66",
   "status": "proved",
   "theorems": [
    "C66_expansion",
    "C66_period",
    "C66_negative",
    "C66_same_factor"
   ],
   "note": ""
  },
  {
   "property": "C67",
   "status": "proved",
   "theorems": [
    "C67_dead_size_parameters",
    "C67_correct_everywhere_refuted"
   ],
   "note": "Refuted at x = k*pi, where psi_0 = sin x = 0 (witness); everywhere else convergence is C17/C18."
  },
  {
   "property": "C68",
   "status": "proved",
   "theorems": [
    "C68_jn_limit",
    "C68_torch_limit",
    "C68_exact_nonsingular"
   ],
   "note": ""
  },
  {
   "property": "C69",
   "status": "proved",
   "theorems": [
    "C69_batched_cross_sections"
   ],
   "note": ""
  },
  {
   "property": "C70",
   "status": "proved",
   "theorems": [
    "C70_batched_amplitudes"
   ],
   "note": ""
  },
  {
   "property": "C71",
   "status": "proved",
   "theorems": [
    "C71_scalar_angle_refuted",
    "C71_scalar_angle_value"
   ],
   "note": "Refuted: a 0-d angle mixes the multipole orders (witness with values 7/3 and 7 instead of 4)."
  },
  {
   "property": "C72",
   "status": "proved",
   "theorems": [
    "C72_particle_coefficients"
   ],
   "note": ""
  },
  {
   "property": "C74",
   "status": "proved",
   "theorems": [
    "C74_interface_conditions"
   ],
   "note": "Order 1 only up to the seed of the recurrence; orders >= 2 exactly."
  },
  {
   "property": "C75",
   "status": "proved",
   "theorems": [
    "C75_common_factor",
    "C75_empty"
   ],
   "note": ""
  },
  {
   "property": "C76",
   "status": "proved",
   "theorems": [
    "C76_blocks",
    "C76_blocks_cover"
   ],
   "note": ""
  },
  {
   "property": "C77",
   "status": "proved",
   "theorems": [
    "C77_maxwell_equations"
   ],
   "note": ""
  },
  {
   "property": "C78",
   "status": "proved",
   "theorems": [
    "C78_amplitudes_converge",
    "C78_fields_converge",
    "C78_exact_interfaces",
    "C78_exterior_split"
   ],
   "note": "Limit in the recurrence depth; the fields are taken at the code's shifted argument k r + 1e-8 (vsh_pena)."
  },
  {
   "property": "C79",
   "status": "proved",
   "theorems": [
    "C79_vector_expansion",
    "C79_code_incident"
   ],
   "note": ""
  },
  {
   "property": "C80",
   "status": "proved",
   "theorems": [
    "C80_far_zone"
   ],
   "note": ""
  },
  {
   "property": "C81",
   "status": "proved",
   "theorems": [
    "C81_scattered_power",
    "C81_absorbed_power"
   ],
   "note": ""
  },
  {
   "property": "C82",
   "status": "proved",
   "theorems": [
    "C82_well_posed",
    "C82_no_emission",
    "C82_code_coefficients",
    "C82_code_absorption"
   ],
   "note": "Statement about the limit of the recurrence depth; at finite depth C14/C19 give the lossless identities."
  },
  {
   "property": "C83",
   "status": "proved",
   "theorems": [
    "C83_coefficients",
    "C83_efficiencies",
    "C83_intensities"
   ],
   "note": "Automatic differentiation is modelled as forward-mode dual numbers run through the same polymorphic model code."
  },
  {
   "property": "C84",
   "status": "proved",
   "theorems": [
    "C84_jn",
    "C84_yn",
    "C84_jn_der",
    "C84_yn_der",
    "C84_h1n",
    "C84_h1n_der",
    "C84_second_derivative",
    "C84_no_write",
    "C84_argument_kept_refuted",
    "C84_written_value"
   ],
   "note": "Gradients proved for exact j_n, y_n and non-zero arguments; the no-modification half is refuted at zero entries (overwritten by 1e-10 through shared memory) and proved elsewhere."
  },
  {
   "property": "C85",
   "status": "proved",
   "theorems": [
    "C85_jn",
    "C85_yn",
    "C85_jn_der",
    "C85_yn_der",
    "C85_checker_order_zero",
    "C85_checker_comparable_refuted"
   ],
   "note": "Limit proved (summed over the orders, as the engine does); the shape claim is refuted for every order >= 1 and proved for order 0."
  },
  {
   "property": "C86",
   "status": "proved",
   "theorems": [
    "C86_decay_magnetic",
    "C86_decay_electric",
    "C86_cross_sections",
    "C86_amplitudes",
    "C86_code_far_field",
    "C86_fields",
    "C86_scattered_field",
    "C86_total_field",
    "C86_interfaces",
    "C86_code_fields"
   ],
   "note": "The electric coefficients need the hypothesis no_lossless_metal (a layer with real negative permittivity carries surface modes of every order); the magnetic ones do not. The code-level statement is conditional on no safeguard being active up to n_max; the near-field one also on the point being farther than 1e-8/(k0 |m|) from every interface (the code adds 1e-8 to the radial argument), and the limit fields are those at the shifted argument."
  },
  {
   "property": "C73",
   "status": "proved",
   "theorems": [
    "C73_entrywise",
    "C73_batch_is_single"
   ],
   "note": "The hypothesis that mie_coefficients succeeds is met by every valid call with a given n_max >= 1 (second theorem). Probe positions are an (N_pos, 3) tensor. Contrast with C46, which refutes the same for the torch and scipy backends."
  },
  {
   "property": "C87",
   "status": "proved",
   "theorems": [
    "C87_near_fields",
    "C87_positions",
    "C87_positions_refuted"
   ],
   "note": "Forward-mode dual numbers as in C83. Only the region that contains the point has to be smooth. C87_positions_refuted: at x = 0 the azimuth used by the code jumps by the 10 eps shift of helper.py:255, so positions crossing that plane have no derivative."
  },
  {
   "property": "C88",
   "status": "proved",
   "theorems": [
    "C88_near_dictionary",
    "C88_particle_fields",
    "C88_torch_wavelengths_refuted",
    "C88_device_moves",
    "C88_bad_probe"
   ],
   "note": "Pena backend: proved for every coherent particle made of materials. C88_torch_wavelengths_refuted: the other backends fail for every number of wavelengths except one and three (C46). Probe tensors with more than two axes are not modelled."
  },
  {
   "property": "C89",
   "status": "proved",
   "theorems": [
    "C89_training_fields",
    "C89_incident_rows",
    "C89_number_refused",
    "C89_negative_angles"
   ],
   "note": "Pena backend, n_max given. The torch backend is left out because its Bessel depth depends on the whole probe set. The effective-polarisability fit that uses the data (a pseudo-inverse) is not modelled. Empty probe tensors are not covered."
  },
  {
   "property": "C90",
   "status": "proved",
   "theorems": [
    "C90_limit_maxwell",
    "C90_scattered_maxwell",
    "C90_scattering_problem",
    "C90_code_maxwell"
   ],
   "note": "Needs no_lossless_metal as in C86. The polar axis is left out because Maxwell's equations are stated in spherical coordinates. The comparison with the code is for regions of real index (always the outside): there the 1e-8 offset of the radial argument is a displacement of the point by 1e-8/(k0 m)."
  },
  {
   "property": "C91",
   "status": "proved",
   "theorems": [
    "C91_D1_limit",
    "C91_D1_rate",
    "C91_D3"
   ],
   "note": "Exact arithmetic. The value at |z| < 1e-10 is that at 1e-10. On tensors the code picks one depth between 10 and 35 for all entries (C64)."
  },
  {
   "property": "C92",
   "status": "proved",
   "theorems": [
    "C92_psi_refuted",
    "C92_psi_cases",
    "C92_xi_refuted",
    "C92_xi_error",
    "C92_Ql_refuted",
    "C92_Ql_denominator"
   ],
   "note": "Refuted: psi_torch_logdir has no return statement (None, or IndexError below order 8); xi_torch_logdir and Ql_torch index the tuple returned by D3n_torch and raise at n_iter = 4 for every argument; the order-0 denominator of Ql_torch is identically zero."
  },
  {
   "property": "C93",
   "status": "proved",
   "theorems": [
    "C93_lookup",
    "C93_listed",
    "C93_keys",
    "C93_named",
    "C93_physical",
    "C93_extrapolation_refuted",
    "C93_verbose_refuted",
    "C93_no_name_refuted"
   ],
   "note": "Tables are checked row by row on the integers of the decimal strings and the check is proved sound. Reading YAML is not modelled: the records are what BaseLoader returns. Exact decimals instead of float32. Refuted parts: silent extrapolation of formulas (SiO2 at 9 um), verbose listing, MatDatabase() without a name."
  },
  {
   "property": "C94",
   "status": "proved",
   "theorems": [
    "C94_stack",
    "C94_particle"
   ],
   "note": "The convergence is that of the exact solution; how the code approaches it as the recurrences start deeper is C82/C86. The environment is assumed real and positive. n_max given."
  },
  {
   "property": "C95",
   "status": "proved",
   "theorems": [
    "C95_interp",
    "C95_node",
    "C95_first_node",
    "C95_kink_refuted",
    "C95_material",
    "C95_vector",
    "C95_memo",
    "C95_memo_refuted",
    "C95_duplicate_refuted",
    "C95_spectrum"
   ],
   "note": "The general claims hold off the samples of a table, off the poles of a formula and for wavelengths not cached. C95_kink_refuted, C95_memo_refuted and C95_duplicate_refuted are the exceptions, with C95_node, C95_first_node and C95_memo saying what is returned instead. Forward-mode dual numbers stand for autograd; radii fixed in C95_spectrum (C83 lets them vary)."
  },
  {
   "property": "C96",
   "status": "proved",
   "theorems": [
    "C96_statics_well_posed",
    "C96_solvable",
    "C96_amplitudes",
    "C96_coefficients",
    "C96_code",
    "C96_sphere",
    "C96_coated",
    "C96_cross_sections",
    "C96_absorption",
    "C96_polarizability"
   ],
   "note": "The limit concerns the exact problem (near_solution); C96_code ties it to pena_ab in the limit of deep recurrences under regular_stack, which excludes sizes below the 1e-30 safeguards, so the literal limit k -> 0 of the code is not claimed. Constants K, d are existential. Real environment index."
  },
  {
   "property": "C97",
   "status": "proved",
   "theorems": [
    "C97_coefficients",
    "C97_efficiencies",
    "C97_intensities",
    "C97_binary",
    "C97_finite_bits",
    "C97_enough_bits"
   ],
   "note": "Qualitative: no rate (the constants depend on the particle through the recurrences). No overflow, underflow or NaN; textbook kernels for complex multiplication, division and abs; sums from the left; comparisons and negation exact. Order-by-order at the code's recurrence depth n_max + 15."
  },
  {
   "property": "C98",
   "status": "proved",
   "theorems": [
    "C98_nearest",
    "C98_psi_collapse",
    "C98_high_orders",
    "C98_ghost_dipole",
    "C98_transparent",
    "C98_relative_accuracy_refuted"
   ],
   "note": "Refuted for real size parameters stored without imaginary part, between 4e-30 and about sqrt(v)/2. Same arithmetic model as C97 (textbook complex kernels, no overflow/underflow); the thresholds are sufficient, not sharp."
  },
  {
   "property": "C99",
   "status": "proved",
   "theorems": [
    "C99_self_consistent",
    "C99_unique",
    "C99_superposition",
    "C99_answers",
    "C99_rejections"
   ],
   "note": "LU factorisation and solve are one exact solver given as an argument; torchgdm's get_interact is taken to be the identity minus the patched _get_full_Gdotalpha. Incident fields and mask come from torchgdm and are arguments; the mask has six equal entries per position and repeats per illumination."
  },
  {
   "property": "C100",
   "status": "proved",
   "theorems": [
    "C100_azimuth",
    "C100_mirror_y",
    "C100_mirror_x",
    "C100_plane"
   ],
   "note": "The recurrence depth and the order count are those of the code; no limit is taken. Positions with x = 0 are excluded from the mirror in x because transform_xyz_to_spherical moves them to x = 1e-10."
  },
  {
   "property": "C101",
   "status": "proved",
   "theorems": [
    "C101_rate",
    "C101_default",
    "C101_automatic",
    "C101_arguments",
    "C101_shipped_limit",
    "C101_one_order",
    "C101_requested_refuted"
   ],
   "note": "Exact arithmetic. The error bounds concern orders from |z| on; below |z| psi_n may vanish and no bound on the log-derivative holds (C17 gives the limit there). C101_requested_refuted refutes the last part of the statement; user-given n_max only, the automatic one is proved deep enough in the sense of C101_automatic."
  },
  {
   "property": "C102",
   "status": "proved",
   "theorems": [
    "C102_point",
    "C102_call",
    "C102_axis_refuted"
   ],
   "note": "C102_axis_refuted shows why x = 0 is excluded. The other absolute constant, 1e-8 added to k n r, is dimensionless and scales along."
  },
  {
   "property": "C103",
   "status": "proved",
   "theorems": [
    "C103_point",
    "C103_call"
   ],
   "note": "The batched theorem is for a given n_max; the two calls are related through what they denote, so any mixture of argument styles is covered."
  },
  {
   "property": "C104",
   "status": "proved",
   "theorems": [
    "C104_shell",
    "C104_core"
   ],
   "note": "Hypotheses as in C13: no safeguard fires for either description, nor at the fictitious interface. In the outer part of a split core the code keeps the order-1 irregular amplitude it would zero in a core; its size is given by C42_dropped_amplitude."
  },
  {
   "property": "C105",
   "status": "proved",
   "theorems": [
    "C105_points",
    "C105_sequence",
    "C105_rejected",
    "C105_extraction",
    "C105_extraction_rejected"
   ],
   "note": "scipy's unscrambled Halton sampler is modelled as the van der Corput numbers of 0..n-1 in bases 2, 3, 5; the bound is proved for every n (discrepancy argument from 24 points on, exact integers below)."
  },
  {
   "property": "C106",
   "status": "proved",
   "theorems": [
    "C106_coefficients",
    "C106_efficiencies",
    "C106_intensities",
    "C106_depth",
    "C106_core"
   ],
   "note": "A sphere is the case shell = core. Depths are functions of the parameter that are constant near the point; C106_depth gives this for the automatic choice. C106_core needs only correct tangents of the radial functions, so with C84 it also covers the SciPy backend."
  },
  {
   "property": "C107",
   "status": "proved",
   "theorems": [
    "C107_coefficients",
    "C107_efficiencies",
    "C107_intensities",
    "C107_depth",
    "C107_enough_bits"
   ],
   "note": "Same arithmetic model as C97 (relative error per operation, no overflow or underflow). A limit statement: no bound on the error at a given precision."
  },
  {
   "property": "C108",
   "status": "proved",
   "theorems": [
    "C108_near_fields",
    "C108_positions",
    "C108_cartesian",
    "C108_enough_bits",
    "C108_region",
    "C108_interface_refuted"
   ],
   "note": "Same arithmetic model as C97. A limit statement, not an error bound. C108_interface_refuted: on an interface the region found depends on the rounding of the radius."
  }
 ]
}