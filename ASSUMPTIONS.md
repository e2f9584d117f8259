# What `Print Assumptions` lists

Generated by tools/mkassumptions.py; 542 theorems.

## Closed under the global context

* BitsProps: C17_bits, C17_negative_refuted
* CohProps: C33_active, C33_inputs, C33_outputs, C33_links, C33_all, C33_perturb, C33_order_independent, C33_terminates
* DagProps: C03_reduce_lu, C03_reduce_lu_only, C04_pivot, C05_householder, C06_scattering, C06_plain, C08_LUQ_order_independent, C09_sparse_scattering, C09_sparse_plain, C09_fast_LUQ_agree, C09_fast_sparse_agree, C09_LUQ_sparse_plain_agree
* ElecProps: C38_impedance, C38_admittance, C38_limits, C38_rlc, C38_mechanical, C39_impedance, C39_admittance, C40_kirchhoff, C40_involution, C40_orthogonal, C41_voltage, C41_current, C41_voltage_balanced, C41_current_balanced, C41_current_balanced_refuted, C42_admittance, C42_impedance_refuted, C42_nonreciprocal_refuted, C42_uncoupled_refuted, C43_opamp, C43_vamp, C43_vamp_output_refuted, C44_terminators, C44_series, C44_connection, C44_cable, C44_reactance, C44_z2x2_refuted, C60_meters, C60_voltage_fluctuation, C60_current_fluctuation, C60_meter_on_fluctuation_refuted
* FillProps: C77_modulator_wants, C77_driven_refuted, C78_order, C78_order_refuted
* GraftProps: C57_resolve, C57_names, C57_unique, C57_siblings, C57_dots, C57_insert, C57_missing, C73_regenerate, C73_bonds, C73_bond_kept, C73_bonds_refuted, C73_override_refuted, C73_rejected_refuted, C73_fetched_refuted, C73_repeated_refuted, C73_building
* GraphProps: C01_response, C01_outputs_map, C01_response_unpurged, C02_failures, C08_order_independent, C10_purge_reqless, C10_purge_seqless, C10_purge_seqless_keyless_refuted, C11_pre_purge
* GsProps: C92_sound, C92_complete, C92_dependent
* HeapProps: C15_history, C15_drain, C16_threadsafe_partial, C16_threadsafe_refuted
* InjProps: C34_value, C34_fixed_point, C34_derivative, C34_pruned, C34_square_refuted, C35_norm_defect, C35_norm_refuted, C35_norm_derivative_refuted
* KeysProps: C19_equality, C19_union, C19_union_laws, C19_intersection, C19_difference, C19_difference_union, C19_without, C19_purge, C19_replace, C19_copy_update, C19_contains, C19_lookup, C20_hash, C20_hash_tuple, C21_order_refuted, C22_arithmetic, C22_group, C22_frequency, C23_canonical, C23_observations, C23_zero_scale_refuted, C37_classical, C37_optical, C37_optical_symmetry_refuted
* KmatProps: C28_keys, C28_frozen, C28_inverse_same, C28_copy, C29_sub, C29_add_partial, C29_add_refuted, C29_add_by, C30_vector, C30_matrix_partial, C30_matrix_transposes, C30_matrix_refuted, C30_fresh, C30_eye
* LblProps: C99_defined, C99_value, C99_relative, C99_size, C99_sign, C99_centi, C99_centi_refuted, C99_pico_refuted, C99_sign_refuted
* LevProps: C79_lever, C79_lever_lossless, C79_moment_driver_refuted, C80_line, C80_dc
* LoopProps: C81_sensitivity, C81_ratio, C81_open_loop, C81_loop_gain, C81_mixed_refuted, C81_plant, C81_noise_limited, C81_solver
* MetProps: C98_valid, C98_edges, C98_weight, C98_last, C98_max_refuted, C98_order_refuted
* NanProps: C101_found, C101_short, C101_none, C101_late, C101_late_refuted
* NoiProps: C51_registered
* OdeProps: C83_product, C83_collect, C83_collected, C84_step, C84_key_error
* OptProps: C45_oblique, C45_normal, C45_oblique_side, C45_normal_side, C45_oblique_rows, C45_normal_rows, C45_conjugate, C48_routes, C48_permutation, C48_order, C48_power
* PbsProps: C93_splits, C93_power, C93_ideal, C93_names
* PortProps: C31_least, C31_terminates, C31_order_independent, C31_complete, C31_virtual_refuted, C32_pairs, C32_same_port, C32_subsets, C32_second_list, C32_first_list_refuted, C32_history, C32_incremental
* PztProps: C82_exchanged, C82_free, C82_waves, C82_lossless, C82_power, C82_swing
* SecProps: C59_sections, C59_exact, C59_exact_refuted, C59_join, C59_anti, C59_anti_sections, C59_anti_refuted, C70_sort, C70_limit
* SelProps: C90_by_entry, C90_requests, C90_pol_requests, C90_build, C90_bonds, C90_check_refuted
* SigProps: C50_equations, C50_transfer, C50_runs, C50_direct, C50_direct_refuted, C65_distribution, C65_summing
* SolProps: C36_order, C36_last, C36_driven, C36_coupling, C36_driven_last, C36_coupling_last, C36_once, C36_kept, C36_count, C36_count_default, C36_again, C36_defined, C36_exactly_refuted, C36_exact_order_refuted, C36_driven_0_refuted, C36_before_first_refuted, C36_stale_coupling_refuted
* SrcProps: C88_polarization
* SreProps: C12_product, C12_product_keyerror, C13_adjoint_entry, C13_adjoint_involutive, C13_adjoint_product, C14_stackrange, C14_empty_refuted
* TopoProps: C18_acyclic, C18_cyclic_partial, C18_cycles_refuted
* UnitProps: C58_add, C58_add_defined, C58_add_raises, C58_add_number, C58_mul, C58_scale, C58_neg, C71_read, C71_two_units, C71_raises, C71_inject, C71_initial, C71_setup_unit, C71_setup_group, C71_setup_count, C58_mul_refuted

## Axioms: `ClassicalDedekindReals.sig_forall_dec`

* AlmProps: C53_built
* CplxProps: C25_zero_power_refuted, C25_even_power_refuted, C25_negative_power_refuted
* SrcProps: C88_sided

## Axioms: `ClassicalDedekindReals.sig_forall_dec`, `FunctionalExtensionality.functional_extensionality_dep`

* AlmProps: C52_defined, C52_compose, C52_inverse, C52_here, C52_whole, C52_determinant, C52_empty_refuted, C53_inverse, C53_reversal, C53_generic_refuted, C56_rayleigh, C66_lensmaker, C66_plano, C66_mirror, C66_plate_partial, C66_plate_refuted, C68_telescope, C68_focus, C69_from_left, C69_from_target, C69_agree, C69_lens_refuted, C69_place
* AomProps: C86_setup, C86_rate, C86_first, C86_dropped, C86_passes_refuted
* CplxProps: C24_ring, C24_operands, C24_division, C24_conjugate, C24_eq, C25_odd_power_partial
* CutProps: C95_defined, C95_meaning, C95_positions, C95_width, C95_glue, C95_reversal, C95_end_refuted, C95_thin_refuted, C95_gap_refuted
* FillProps: C77_modulator, C77_modulator_light, C77_ampm, C77_photodiode, C77_magic
* HomProps: C89_total, C89_through, C89_power, C89_photons_twice, C89_photons_refuted
* LevProps: C80_string_refuted
* NlcProps: C85_setup, C85_blocked, C85_composite
* NoiProps: C51_value, C51_by_source, C51_total, C51_selection, C51_entries, C72_conditional
* OdeProps: C84_history, C84_zero_refuted
* PdProps: C74_total, C75_pm_mode, C75_total
* SelProps: C90_accepts, C90_splits, C90_merges, C90_complete, C90_nowhere, C90_unchecked, C90_entries_refuted, C90_closed, C90_pol_accepts, C90_pol_splits, C90_pol_returns, C90_pol_closed, C90_return_refuted, C90_stack, C90_stack_one
* SigProps: C49_zeros, C49_cascade, C49_order, C49_coupling, C64_width
* ZpkProps: C91_product, C91_product_defined, C91_quotient, C91_sorted, C91_sign_refuted

## Axioms: `ClassicalDedekindReals.sig_forall_dec`, `ClassicalDedekindReals.sig_not_dec`, `FunctionalExtensionality.functional_extensionality_dep`

* AlmProps: C54_compose, C54_physical, C54_distance, C54_reverse, C55_fixed, C55_unique, C56_waist, C56_radius, C56_divergence, C56_read_back, C56_size, C67_self, C67_conjugate, C67_bound, C67_formula, C67_invariant, C67_wavelength_refuted, C68_root
* AomProps: C86_energy, C86_conjugate
* CplxProps: C24_abs, C26_sqrt, C27_exp
* DagProps: C06_isolated_node_refuted
* ElecProps: C44_delay
* FillProps: C77_photodiode_power
* GsProps: C92_small_refuted, C92_norm_refuted
* HomProps: C89_phase, C89_quadratures, C89_quanta, C89_relative, C89_vacuum, C89_Q_refuted, C89_peak_refuted, C89_common
* LevProps: C79_rod, C79_rod_lossless, C79_inertia
* MeaProps: C96_defined, C96_gouy_chain, C96_gouy_back, C96_gouy_phase, C96_target_q, C96_here, C96_overlap, C96_overlap_self, C96_source
* NlcProps: C85_energy, C85_balanced, C85_energy_refuted, C85_conjugate, C85_flow_refuted
* NoiProps: C51_sources_symmetric, C51_hermitian, C51_source_hermitian, C51_positive, C72_rotations, C72_invariants, C72_optimal, C72_sensitivity
* OptProps: C45_phase_refuted, C45_backscatter_normal_refuted, C46_delay, C46_power, C46_compose, C46_inverse, C47_rotation, C47_compose, C47_return, C47_power, C61_half, C61_quarter
* PbsProps: C93_loss_refuted, C93_forward, C93_backward, C93_isolates, C93_isolator_refuted
* PdProps: C74_power, C74_mean, C74_spectrum, C74_response, C74_magic, C75_pm, C75_am, C75_ampm, C75_conj, C75_back_action, C75_constant_refuted, C76_motion, C76_motion_twice, C76_force, C76_force_same_way, C76_force_refuted
* PhaProps: C100_delay, C100_pure_delay, C100_signed, C100_opposite, C100_smooth, C100_raises, C100_turning_refuted
* PztProps: C82_piezo_refuted
* SigProps: C49_real, C49_dc, C49_magnitude, C49_delay, C62_product, C62_quadrature, C62_dc_refuted, C63_mean_square, C64_resonance, C64_integrator, C64_integrator_refuted
* SqzProps: C87_variance, C87_swapped_refuted, C87_unit_refuted, C87_loss_refuted, C87_others_refuted, C87_conflict, C87_squeezed, C87_amplitude_refuted, C87_oneway_refuted, C87_commutators, C87_unitary_refuted, C87_blocked_refuted, C87_keys
* SrcProps: C88_generator, C88_harmonics, C88_dc_refuted, C88_real, C88_real_refuted, C88_gain_refuted, C88_requested, C88_laser, C88_power, C88_laser_requested, C88_shot, C88_shot_mean
* WaistProps: C97_waists, C97_one, C97_matching, C97_seen, C97_nearest, C97_nearest_refuted
* ZpkProps: C91_real, C91_real_product, C91_real_quotient, C91_convert, C91_convert_sign, C91_origin_refuted, C91_unity, C91_shape, C91_designs, C91_controllers, C91_boost7_refuted, C91_shift, C91_shift_real, C91_shift_good

## Axioms: `ClassicalDedekindReals.sig_forall_dec`, `ClassicalDedekindReals.sig_not_dec`, `Classical_Prop.classic`, `FunctionalExtensionality.functional_extensionality_dep`

* CplxProps: C25_general_power_refuted, C27_angle
* LegProps: C94_papoulis_odd, C94_papoulis_even, C94_edge, C94_monotone, C94_shape, C94_response, C94_poles
* NoiProps: C72_ellipse, C72_angle, C72_angle_refuted
