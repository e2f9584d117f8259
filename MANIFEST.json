{
 "claims": [
  {
   "property": "C01",
   "status": "proved",
   "theorems": [
    "C01_response",
    "C01_outputs_map",
    "C01_response_unpurged"
   ],
   "note": "Arbitrary field, graph, request sets, flags, set orders, queue order."
  },
  {
   "property": "C02",
   "status": "proved",
   "theorems": [
    "C02_failures"
   ],
   "note": "Totality of the model gives termination; OutOfFuel, KeyError and IndexError are excluded by the theorem."
  },
  {
   "property": "C03",
   "status": "proved",
   "theorems": [
    "C03_reduce_lu",
    "C03_reduce_lu_only"
   ],
   "note": ""
  },
  {
   "property": "C04",
   "status": "proved",
   "theorems": [
    "C04_pivot"
   ],
   "note": ""
  },
  {
   "property": "C05",
   "status": "proved",
   "theorems": [
    "C05_householder"
   ],
   "note": "Arbitrary field with conjugation and square roots of its non-negative elements; instance: the complex numbers over R."
  },
  {
   "property": "C06",
   "status": "partial",
   "theorems": [
    "C06_scattering",
    "C06_plain",
    "C06_isolated_node_refuted"
   ],
   "note": "Exact when every node occurs as a key of seq or req (all_keyed); a requested isolated node without a key gets 0 instead of 1 (refuted witness). METIS orders are not modelled."
  },
  {
   "property": "C07",
   "status": "proved",
   "theorems": [
    "C06_scattering",
    "C06_plain"
   ],
   "note": "Existence part of both theorems, default (unsorted) mode; the fuel bound of the model is shown to suffice."
  },
  {
   "property": "C08",
   "status": "proved",
   "theorems": [
    "C08_order_independent",
    "C08_LUQ_order_independent"
   ],
   "note": "Both loop solvers."
  },
  {
   "property": "C09",
   "status": "partial",
   "theorems": [
    "C09_fast_LUQ_agree",
    "C09_fast_sparse_agree",
    "C09_LUQ_sparse_plain_agree",
    "C09_sparse_scattering",
    "C09_sparse_plain"
   ],
   "note": "Proved when every node occurs as a key (LUQ) or in the request (sparse); an isolated requested node makes loop_LUQ differ (C06_isolated_node_refuted). scipy's spsolve is an oracle assumed exact on uniquely solvable systems."
  },
  {
   "property": "C10",
   "status": "partial",
   "theorems": [
    "C10_purge_reqless",
    "C10_purge_seqless",
    "C10_purge_seqless_keyless_refuted",
    "C08_order_independent"
   ],
   "note": "Exactness of the backward purge needs an entry in the forward map for every node; a dead end without one survives (refuted witness). Harmlessness is C08_order_independent, whose two runs may use different purge flags."
  },
  {
   "property": "C11",
   "status": "proved",
   "theorems": [
    "C11_pre_purge"
   ],
   "note": ""
  },
  {
   "property": "C12",
   "status": "partial",
   "theorems": [
    "C12_product",
    "C12_product_keyerror"
   ],
   "note": "Exact product whenever the code returns; with plain dicts a middle node unknown to the first factor raises KeyError instead (C12_product_keyerror characterises exactly when)."
  },
  {
   "property": "C13",
   "status": "proved",
   "theorems": [
    "C13_adjoint_entry",
    "C13_adjoint_involutive",
    "C13_adjoint_product"
   ],
   "note": ""
  },
  {
   "property": "C14",
   "status": "partial",
   "theorems": [
    "C14_stackrange",
    "C14_empty_refuted"
   ],
   "note": "Holds for every non-empty list of bounds; the empty list raises IndexError."
  },
  {
   "property": "C15",
   "status": "proved",
   "theorems": [
    "C15_history",
    "C15_drain"
   ],
   "note": "heapq's list algorithms are modelled too; any strict weak order on the items."
  },
  {
   "property": "C16",
   "status": "partial",
   "theorems": [
    "C16_threadsafe_partial",
    "C16_threadsafe_refuted"
   ],
   "note": "pushpop always raises AttributeError, an empty queue is truthy, len() raises. Thread interleaving inside the lock-free peek/is_empty is not modelled."
  },
  {
   "property": "C17",
   "status": "partial",
   "theorems": [
    "C17_bits",
    "C17_negative_refuted"
   ],
   "note": "Complete for n >= 0; on negative integers the generator never ends."
  },
  {
   "property": "C18",
   "status": "partial",
   "theorems": [
    "C18_acyclic",
    "C18_cyclic_partial",
    "C18_cycles_refuted"
   ],
   "note": "Complete on acyclic graphs; cycles are reported incompletely or not at all (refuted witnesses), with the strongest true statement for single mode."
  },
  {
   "property": "C19",
   "status": "proved",
   "theorems": [
    "C19_equality",
    "C19_union",
    "C19_union_laws",
    "C19_intersection",
    "C19_difference",
    "C19_difference_union",
    "C19_without",
    "C19_purge",
    "C19_replace",
    "C19_copy_update",
    "C19_contains",
    "C19_lookup"
   ],
   "note": "Dicts are modelled in insertion order; values any type with decidable equality."
  },
  {
   "property": "C20",
   "status": "proved",
   "theorems": [
    "C20_hash",
    "C20_hash_tuple"
   ],
   "note": "Includes the prev_hash cache."
  },
  {
   "property": "C21",
   "status": "partial",
   "theorems": [
    "C21_order_refuted"
   ],
   "note": "False: both tuples are computed from self, so '<' is constantly False."
  },
  {
   "property": "C22",
   "status": "proved",
   "theorems": [
    "C22_arithmetic",
    "C22_group",
    "C22_frequency"
   ],
   "note": ""
  },
  {
   "property": "C23",
   "status": "partial",
   "theorems": [
    "C23_canonical",
    "C23_observations",
    "C23_zero_scale_refuted"
   ],
   "note": "Complete for addition, subtraction, negation and non-zero scaling; scaling by zero is not canonical (refuted)."
  },
  {
   "property": "C37",
   "status": "partial",
   "theorems": [
    "C37_classical",
    "C37_optical",
    "C37_optical_symmetry_refuted"
   ],
   "note": "Limits are per base frequency (the group limits are commented out in the code). Optical rejection is not symmetric under negation."
  },
  {
   "property": "C24",
   "status": "proved",
   "theorems": [
    "C24_ring",
    "C24_operands",
    "C24_division",
    "C24_conjugate",
    "C24_abs",
    "C24_eq"
   ],
   "note": "Over the real numbers; rounding not modelled."
  },
  {
   "property": "C25",
   "status": "partial",
   "theorems": [
    "C25_odd_power_partial",
    "C25_zero_power_refuted",
    "C25_even_power_refuted",
    "C25_negative_power_refuted",
    "C25_general_power_refuted"
   ],
   "note": "Only odd positive powers are right; the other cases are refuted one by one."
  },
  {
   "property": "C26",
   "status": "proved",
   "theorems": [
    "C26_sqrt"
   ],
   "note": ""
  },
  {
   "property": "C27",
   "status": "proved",
   "theorems": [
    "C27_exp",
    "C27_angle"
   ],
   "note": ""
  },
  {
   "property": "C28",
   "status": "proved",
   "theorems": [
    "C28_keys",
    "C28_frozen",
    "C28_inverse_same",
    "C28_copy"
   ],
   "note": "The sorted listing of the key set is a parameter; agreement between a space and its inverse needs '<' to be a strict total order on the keys."
  },
  {
   "property": "C29",
   "status": "partial",
   "theorems": [
    "C29_sub",
    "C29_add_partial",
    "C29_add_refuted",
    "C29_add_by"
   ],
   "note": "Subtraction and add_by hold; addition is right exactly when the right operand has no key the left one lacks (refuted otherwise)."
  },
  {
   "property": "C30",
   "status": "partial",
   "theorems": [
    "C30_vector",
    "C30_matrix_partial",
    "C30_matrix_transposes",
    "C30_matrix_refuted",
    "C30_fresh",
    "C30_eye"
   ],
   "note": "Vectors round-trip; a matrix round-trips through array_T, while backmap_array of its array is the transpose (refuted). Entries are scalars."
  },
  {
   "property": "C31",
   "status": "partial",
   "theorems": [
    "C31_least",
    "C31_terminates",
    "C31_order_independent",
    "C31_complete",
    "C31_virtual_refuted"
   ],
   "note": "Proved for every schedule; element methods are monotone demands implemented from update sets or from full sets. A method working from update sets that asks for a port it owns virtually loses the key (refuted); the sets are read before the requests are made."
  },
  {
   "property": "C32",
   "status": "partial",
   "theorems": [
    "C32_pairs",
    "C32_same_port",
    "C32_subsets",
    "C32_second_list",
    "C32_first_list_refuted",
    "C32_history",
    "C32_incremental"
   ],
   "note": "For one port taken twice each pair comes in at least one order; a list as first port raises TypeError (refuted)."
  },
  {
   "property": "C33",
   "status": "proved",
   "theorems": [
    "C33_active",
    "C33_inputs",
    "C33_outputs",
    "C33_links",
    "C33_all",
    "C33_perturb",
    "C33_order_independent",
    "C33_terminates"
   ],
   "note": "Nodes are (port, key) pairs of any countable type. The set reported as active also holds the virtual float nodes (its real nodes are characterised); values of couplings are not part of this analysis."
  },
  {
   "property": "C34",
   "status": "partial",
   "theorems": [
    "C34_value",
    "C34_fixed_point",
    "C34_derivative",
    "C34_pruned",
    "C34_square_refuted"
   ],
   "note": "Value and exact derivative for systems of constant, multiplicative (value only) and triplet couplings with bonds, as assembled by the solver. A triplet that squares one field keeps its value but gets half its derivative (refuted). Symbolic values and floating submatrices are not modelled."
  },
  {
   "property": "C35",
   "status": "partial",
   "theorems": [
    "C34_value",
    "C34_fixed_point",
    "C34_derivative",
    "C35_norm_defect",
    "C35_norm_refuted",
    "C35_norm_derivative_refuted"
   ],
   "note": "Exact for the several-norms coupling and, with norms held fixed, for the derivative; the single-norm coupling adds 1e-30 in its source only, so its value is off by the stated amount (refuted), and no coupling differentiates the norm (refuted)."
  },
  {
   "property": "C36",
   "status": "partial",
   "theorems": [
    "C36_order",
    "C36_last",
    "C36_driven",
    "C36_coupling",
    "C36_driven_last",
    "C36_coupling_last",
    "C36_once",
    "C36_kept",
    "C36_count",
    "C36_count_default",
    "C36_again",
    "C36_defined",
    "C36_exactly_refuted",
    "C36_exact_order_refuted",
    "C36_driven_0_refuted",
    "C36_before_first_refuted",
    "C36_stale_coupling_refuted"
   ],
   "note": "For every history: the order-N answer, no recomputation, nothing dropped, max(previous, N+1) solutions. Refuted: exactly N+1 after an earlier larger solve; exact_order appends an entry per call; order-0 readouts and orders before the first depend on history. The numerical iteration itself is a parameter here."
  },
  {
   "property": "C38",
   "status": "proved",
   "theorems": [
    "C38_impedance",
    "C38_admittance",
    "C38_limits",
    "C38_rlc",
    "C38_mechanical"
   ],
   "note": "Electrical and mechanical terminators, both directions."
  },
  {
   "property": "C39",
   "status": "proved",
   "theorems": [
    "C39_impedance",
    "C39_admittance"
   ],
   "note": "Both directions."
  },
  {
   "property": "C40",
   "status": "proved",
   "theorems": [
    "C40_kirchhoff",
    "C40_involution",
    "C40_orthogonal"
   ],
   "note": "Any number of ports, over any field where N is invertible."
  },
  {
   "property": "C41",
   "status": "partial",
   "theorems": [
    "C41_voltage",
    "C41_current",
    "C41_voltage_balanced",
    "C41_current_balanced",
    "C41_current_balanced_refuted"
   ],
   "note": "The balanced current source emits equal, not opposite, currents (refuted)."
  },
  {
   "property": "C42",
   "status": "partial",
   "theorems": [
    "C42_admittance",
    "C42_impedance_refuted",
    "C42_nonreciprocal_refuted",
    "C42_uncoupled_refuted"
   ],
   "note": "For Z12 = Z21 (refuted otherwise) the element realises the admittances 1/Zij rather than the impedances Zij (refuted); with no coupling it is a pair of wires."
  },
  {
   "property": "C43",
   "status": "proved",
   "theorems": [
    "C43_opamp",
    "C43_vamp",
    "C43_vamp_output_refuted"
   ],
   "note": "The claim is about OpAmp; the VAmp is right only without output impedance."
  },
  {
   "property": "C44",
   "status": "partial",
   "theorems": [
    "C44_terminators",
    "C44_series",
    "C44_connection",
    "C44_cable",
    "C44_reactance",
    "C44_delay",
    "C44_z2x2_refuted"
   ],
   "note": "All listed elements; the two-by-two element with a positive definite impedance can be active (refuted)."
  },
  {
   "property": "C60",
   "status": "partial",
   "theorems": [
    "C60_meters",
    "C60_voltage_fluctuation",
    "C60_current_fluctuation",
    "C60_meter_on_fluctuation_refuted"
   ],
   "note": "A current meter on the very port where a voltage fluctuation is attached is off by x/(2 Z0); the current fluctuation injects x/Z0."
  },
  {
   "property": "C45",
   "status": "partial",
   "theorems": [
    "C45_oblique",
    "C45_normal",
    "C45_oblique_side",
    "C45_normal_side",
    "C45_oblique_rows",
    "C45_normal_rows",
    "C45_conjugate",
    "C45_phase_refuted",
    "C45_backscatter_normal_refuted"
   ],
   "note": "Proved without reflection phase (and with phase for light from one side). Refuted: a reflection phase is applied alike from both sides, and at normal incidence backscatter interferes with the reflection. The motion of the mirror is not part of this claim."
  },
  {
   "property": "C46",
   "status": "proved",
   "theorems": [
    "C46_delay",
    "C46_power",
    "C46_compose",
    "C46_inverse"
   ],
   "note": "Chains of any length."
  },
  {
   "property": "C47",
   "status": "proved",
   "theorems": [
    "C47_rotation",
    "C47_compose",
    "C47_return",
    "C47_power"
   ],
   "note": "All rational angles in degrees."
  },
  {
   "property": "C48",
   "status": "proved",
   "theorems": [
    "C48_routes",
    "C48_permutation",
    "C48_order",
    "C48_power"
   ],
   "note": "Any number of ports."
  },
  {
   "property": "C61",
   "status": "proved",
   "theorems": [
    "C61_half",
    "C61_quarter"
   ],
   "note": ""
  },
  {
   "property": "C49",
   "status": "proved",
   "theorems": [
    "C49_real",
    "C49_dc",
    "C49_magnitude",
    "C49_zeros",
    "C49_cascade",
    "C49_order",
    "C49_delay",
    "C49_coupling"
   ],
   "note": "Any number of roots; also zeros, cascades, delays and the band limits of the coupling."
  },
  {
   "property": "C50",
   "status": "partial",
   "theorems": [
    "C50_equations",
    "C50_transfer",
    "C50_runs",
    "C50_direct",
    "C50_direct_refuted"
   ],
   "note": "Holds with D = 0, including the transfer function through any left inverse of s - A. The direct term D is added to the states, not the outputs (refuted; exact law in C50_direct), and needs No <= Ns."
  },
  {
   "property": "C62",
   "status": "partial",
   "theorems": [
    "C62_product",
    "C62_quadrature",
    "C62_dc_refuted"
   ],
   "note": "For AC inputs with closed key sets; products with a DC input are off by the factors of the DC convention (refuted)."
  },
  {
   "property": "C63",
   "status": "proved",
   "theorems": [
    "C63_mean_square"
   ],
   "note": "Needs the conjugate key of every key and no rejected key."
  },
  {
   "property": "C64",
   "status": "partial",
   "theorems": [
    "C64_resonance",
    "C64_width",
    "C64_integrator",
    "C64_integrator_refuted"
   ],
   "note": "The integrator is -2 pi / s: its sign is opposite to that of the other elements (refuted)."
  },
  {
   "property": "C65",
   "status": "proved",
   "theorems": [
    "C65_distribution",
    "C65_summing"
   ],
   "note": ""
  },
  {
   "property": "C52",
   "status": "partial",
   "theorems": [
    "C52_defined",
    "C52_compose",
    "C52_inverse",
    "C52_here",
    "C52_whole",
    "C52_determinant",
    "C52_empty_refuted"
   ],
   "note": "All nested systems in which no system is empty; from the right end to the left end of an empty system the code inverts a zero matrix (refuted)."
  },
  {
   "property": "C53",
   "status": "partial",
   "theorems": [
    "C53_inverse",
    "C53_built",
    "C53_reversal",
    "C53_generic_refuted"
   ],
   "note": "Reversal holds for everything built of lenses, interfaces, mirrors, spaces, stacks and placed systems; a generic matrix part is reversed wrongly when A and D differ (refuted)."
  },
  {
   "property": "C54",
   "status": "proved",
   "theorems": [
    "C54_compose",
    "C54_physical",
    "C54_distance",
    "C54_reverse"
   ],
   "note": "Also the accumulated Gouy phase and the reversed beam."
  },
  {
   "property": "C55",
   "status": "proved",
   "theorems": [
    "C55_fixed",
    "C55_unique"
   ],
   "note": ""
  },
  {
   "property": "C56",
   "status": "proved",
   "theorems": [
    "C56_waist",
    "C56_rayleigh",
    "C56_radius",
    "C56_divergence",
    "C56_read_back",
    "C56_size"
   ],
   "note": "A radius of curvature 0 stands for a flat wavefront, as in the code; reading the radius of a flat wavefront is a division by zero and not claimed."
  },
  {
   "property": "C66",
   "status": "partial",
   "theorems": [
    "C66_lensmaker",
    "C66_plano",
    "C66_mirror",
    "C66_plate_partial",
    "C66_plate_refuted"
   ],
   "note": "The formula holds at zero thickness. The thickness is divided by the index twice, so a plate acts as L n_out/n^2 (refuted)."
  },
  {
   "property": "C67",
   "status": "partial",
   "theorems": [
    "C67_self",
    "C67_conjugate",
    "C67_bound",
    "C67_formula",
    "C67_invariant",
    "C67_wavelength_refuted"
   ],
   "note": "For beams of one wavelength; with two wavelengths the overlap depends on the order (refuted)."
  },
  {
   "property": "C68",
   "status": "proved",
   "theorems": [
    "C68_root",
    "C68_telescope",
    "C68_focus"
   ],
   "note": "The telescope at its nominal length."
  },
  {
   "property": "C69",
   "status": "partial",
   "theorems": [
    "C69_from_left",
    "C69_from_target",
    "C69_agree",
    "C69_lens_refuted",
    "C69_place"
   ],
   "note": "At a part without length the plane reached depends on the target (refuted there). Offsets and truncated systems are not modelled."
  },
  {
   "property": "C59",
   "status": "partial",
   "theorems": [
    "C59_sections",
    "C59_exact",
    "C59_exact_refuted",
    "C59_join",
    "C59_anti",
    "C59_anti_sections",
    "C59_anti_refuted"
   ],
   "note": "As half-open intervals the sections are exact up to the last sample: a true last sample is not covered (refuted), because the last section ends at len-1. The complement is exact for any increasing sections."
  },
  {
   "property": "C70",
   "status": "proved",
   "theorems": [
    "C70_sort",
    "C70_limit"
   ],
   "note": "Integer samples; arrays of length 1 and missing arrays are passed through by the code and not modelled."
  },
  {
   "property": "C58",
   "status": "partial",
   "theorems": [
    "C58_add",
    "C58_add_defined",
    "C58_add_raises",
    "C58_add_number",
    "C58_mul",
    "C58_scale",
    "C58_neg",
    "C58_mul_refuted"
   ],
   "note": "Products of two unitful values carry the right amount and dimension only as a group nested in a group: the unit of the product is that of its left factor, so it does not add to an equal quantity (refuted)."
  },
  {
   "property": "C71",
   "status": "proved",
   "theorems": [
    "C71_read",
    "C71_two_units",
    "C71_raises",
    "C71_inject",
    "C71_initial",
    "C71_setup_unit",
    "C71_setup_group",
    "C71_setup_count"
   ],
   "note": "Units are sizes with dimensions; pint itself and writing units as strings are not modelled, nor is the prototype branch."
  },
  {
   "property": "C51",
   "status": "proved",
   "theorems": [
    "C51_value",
    "C51_by_source",
    "C51_total",
    "C51_selection",
    "C51_entries",
    "C51_registered",
    "C51_sources_symmetric",
    "C51_hermitian",
    "C51_source_hermitian",
    "C51_positive"
   ],
   "note": "The table is for one frequency; Hermitian for real systems (conjugate couplings at opposite frequencies), which the electrical and signal elements satisfy."
  },
  {
   "property": "C72",
   "status": "partial",
   "theorems": [
    "C72_rotations",
    "C72_invariants",
    "C72_ellipse",
    "C72_angle",
    "C72_angle_refuted",
    "C72_conditional",
    "C72_optimal",
    "C72_sensitivity"
   ],
   "note": "The reported angle has the wrong sign for the phase of largest noise (refuted as stated; true with the sign changed). Equal axes divide by zero in the angle and are not modelled. One noise matrix at a time."
  },
  {
   "property": "C57",
   "status": "proved",
   "theorems": [
    "C57_resolve",
    "C57_names",
    "C57_unique",
    "C57_siblings",
    "C57_dots",
    "C57_insert",
    "C57_missing"
   ],
   "note": "for every state reached from a root by any calls, raising or not, also while building and after regeneration"
  },
  {
   "property": "C73",
   "status": "partial",
   "theorems": [
    "C73_regenerate",
    "C73_bonds",
    "C73_bond_kept",
    "C73_bonds_refuted",
    "C73_override_refuted",
    "C73_rejected_refuted",
    "C73_fetched_refuted",
    "C73_repeated_refuted",
    "C73_building"
   ],
   "note": "true for histories that only add good classes under new names outside building: classes and electrical bonds for any number of regenerations, optical bonds for the next one. False of the code: optical bonds are lost by the second regeneration, an element inserted over a part of a class is replaced by the part, a rejected dotted name makes every regeneration raise, an element first fetched while building is lost later, a second completion repeats electrical bonds"
  },
  {
   "property": "C74",
   "status": "proved",
   "theorems": [
    "C74_power",
    "C74_spectrum",
    "C74_mean",
    "C74_response",
    "C74_total",
    "C74_magic"
   ],
   "note": "the raising field is the conjugate of the lowering one; the light of rejected orders is absent; the response is to small fields at keys where there is no light, at DC the linearised coupling is half of the derivative"
  },
  {
   "property": "C75",
   "status": "partial",
   "theorems": [
    "C75_pm",
    "C75_pm_mode",
    "C75_am",
    "C75_ampm",
    "C75_conj",
    "C75_total",
    "C75_back_action",
    "C75_constant_refuted"
   ],
   "note": "for drives without a constant part: a constant drive is ignored (refuted). First order in the drive, as the code is. One direction of travel."
  },
  {
   "property": "C76",
   "status": "partial",
   "theorems": [
    "C76_motion",
    "C76_motion_twice",
    "C76_force",
    "C76_force_same_way",
    "C76_force_refuted"
   ],
   "note": "the first-order response to motion is right; read as waveforms with peak amplitudes, as the modulators do, the phase is twice what it should be. The force is proportional to the amplitude reflectivity with its sign and the cosine of the reflection phase instead of R (refuted), so both faces are pushed the same way."
  },
  {
   "property": "C77",
   "status": "partial",
   "theorems": [
    "C77_modulator_wants",
    "C77_modulator",
    "C77_modulator_light",
    "C77_ampm",
    "C77_photodiode",
    "C77_photodiode_power",
    "C77_magic",
    "C77_driven_refuted"
   ],
   "note": "for ports no one else owns and light with a carrier of both kinds at one of its inputs; a photodiode only when no key is requested at its back-action port: otherwise its setup raises (refuted, with the exact condition)"
  },
  {
   "property": "C78",
   "status": "partial",
   "theorems": [
    "C78_order",
    "C78_order_refuted"
   ],
   "note": "true for light of one polarization and carrier, false with two: the drive keys then depend on the order"
  },
  {
   "property": "C79",
   "status": "partial",
   "theorems": [
    "C79_lever",
    "C79_rod",
    "C79_lever_lossless",
    "C79_rod_lossless",
    "C79_inertia",
    "C79_moment_driver_refuted"
   ],
   "note": "MomentDriver raises IndexError while its couplings are set up (arrays of the wrong shape); Moment1D and XYZMomentDriver are proved for all displacements (XYZMomentDriver divides by zero for displacement 0)"
  },
  {
   "property": "C80",
   "status": "partial",
   "theorems": [
    "C80_line",
    "C80_string_refuted",
    "C80_dc"
   ],
   "note": "the code's string has characteristic admittance mobility instead of s * mobility, and is a rigid link at frequency 0; the line law it does obey is proved"
  },
  {
   "property": "C81",
   "status": "partial",
   "theorems": [
    "C81_sensitivity",
    "C81_ratio",
    "C81_open_loop",
    "C81_loop_gain",
    "C81_mixed_refuted",
    "C81_plant",
    "C81_noise_limited",
    "C81_solver"
   ],
   "note": "the loop gains need +F and -F not to be coupled (C81_mixed_refuted shows why): CLG adds the response to the negative frequency; everything else for all networks"
  },
  {
   "property": "C82",
   "status": "partial",
   "theorems": [
    "C82_exchanged",
    "C82_free",
    "C82_waves",
    "C82_lossless",
    "C82_power",
    "C82_piezo_refuted",
    "C82_swing"
   ],
   "note": "the element obeys the piezo equations with force and displacement exchanged (C82_exchanged, an equivalence): a free piezo moves by -k d V and it creates energy (C82_piezo_refuted)"
  },
  {
   "property": "C83",
   "status": "proved",
   "theorems": [
    "C83_product",
    "C83_collect",
    "C83_collected"
   ],
   "note": "for all expressions over any field"
  },
  {
   "property": "C84",
   "status": "partial",
   "theorems": [
    "C84_step",
    "C84_history",
    "C84_zero_refuted",
    "C84_key_error"
   ],
   "note": "true about the last fields that were not all within 1e-8 of the previous ones; about fields 0 the couplings stay the identity although the derivative may differ (C84_zero_refuted); a key missing from out_map raises"
  },
  {
   "property": "C85",
   "status": "partial",
   "theorems": [
    "C85_setup",
    "C85_energy",
    "C85_balanced",
    "C85_energy_refuted",
    "C85_conjugate",
    "C85_flow_refuted",
    "C85_blocked",
    "C85_composite"
   ],
   "note": "the equations are proved in closed form and well formed for the ODE coupling; energy is kept exactly when no two different modes have their sum among the modes (C85_balanced): sum generation from two different modes is counted twice (C85_energy_refuted); light in no process is blocked instead of passed (C85_blocked); fields that enter as conjugate pairs need not leave so (C85_flow_refuted)"
  },
  {
   "property": "C86",
   "status": "partial",
   "theorems": [
    "C86_setup",
    "C86_rate",
    "C86_energy",
    "C86_conjugate",
    "C86_first",
    "C86_dropped",
    "C86_passes_refuted"
   ],
   "note": "energy and conjugates are proved for the equations on key sets closed under the drive; light of a key that no process involves goes through until the first update with light and is then blocked (C86_dropped, C86_passes_refuted); which keys the ports request is not modelled"
  },
  {
   "property": "C87",
   "status": "partial",
   "theorems": [
    "C87_variance",
    "C87_squeezed",
    "C87_commutators",
    "C87_keys",
    "C87_conflict",
    "C87_swapped_refuted",
    "C87_unit_refuted",
    "C87_loss_refuted",
    "C87_others_refuted",
    "C87_amplitude_refuted",
    "C87_oneway_refuted",
    "C87_unitary_refuted",
    "C87_blocked_refuted"
   ],
   "note": "the first variance is the one of the quadrature difference, at angle 0 the phase and not the amplitude (C87_amplitude_refuted), and swapping the variances changes nothing; needs the keys at both ports (C87_oneway_refuted); a variance of 1 raises; a loss given with one variance is not used; gains and decibels are never accepted; loss ports do not keep the commutators; other optical frequencies are blocked"
  },
  {
   "property": "C88",
   "status": "partial",
   "theorems": [
    "C88_generator",
    "C88_harmonics",
    "C88_real",
    "C88_requested",
    "C88_laser",
    "C88_power",
    "C88_polarization",
    "C88_laser_requested",
    "C88_shot",
    "C88_shot_mean",
    "C88_sided",
    "C88_dc_refuted",
    "C88_real_refuted",
    "C88_gain_refuted"
   ],
   "note": "at frequency 0 a generator puts out twice the value set (C88_dc_refuted); a conjugate amplitude that is given is not checked; the gains of harmonics do not scale with the amplitude; another polarization than S or P, or another number of sides than 1 or 2, raises UnboundLocalError"
  },
  {
   "property": "C89",
   "status": "partial",
   "theorems": [
    "C89_phase",
    "C89_quadratures",
    "C89_quanta",
    "C89_relative",
    "C89_total",
    "C89_vacuum",
    "C89_common",
    "C89_through",
    "C89_power",
    "C89_photons_twice",
    "C89_photons_refuted",
    "C89_Q_refuted",
    "C89_peak_refuted"
   ],
   "note": "without a port for the local oscillator (the default) Q reads nothing at phase 0 (C89_Q_refuted); an oscillating part reads half of what the photodiode of C74 reads (C89_peak_refuted); the output in quanta is twice the number of photons (C89_photons_refuted)"
  },
  {
   "property": "C90",
   "status": "partial",
   "theorems": [
    "C90_accepts",
    "C90_splits",
    "C90_merges",
    "C90_complete",
    "C90_nowhere",
    "C90_unchecked",
    "C90_by_entry",
    "C90_entries_refuted",
    "C90_requests",
    "C90_closed",
    "C90_pol_accepts",
    "C90_pol_splits",
    "C90_pol_returns",
    "C90_pol_requests",
    "C90_pol_closed",
    "C90_return_refuted",
    "C90_stack",
    "C90_stack_one",
    "C90_build",
    "C90_bonds",
    "C90_check_refuted"
   ],
   "note": "PolSelector loses the light entering at its S port and may double that of its P port (C90_pol_returns, C90_return_refuted); selections by several entries refuse light that shares only some of them with another (C90_entries_refuted); the check for equal ports never fails, other errors are raised later (C90_check_refuted, C90_build)"
  },
  {
   "property": "C91",
   "status": "partial",
   "theorems": [
    "C91_product",
    "C91_product_defined",
    "C91_quotient",
    "C91_real",
    "C91_real_product",
    "C91_real_quotient",
    "C91_sorted",
    "C91_convert",
    "C91_convert_sign",
    "C91_sign_refuted",
    "C91_origin_refuted",
    "C91_unity",
    "C91_shape",
    "C91_designs",
    "C91_controllers",
    "C91_boost7_refuted",
    "C91_shift",
    "C91_shift_real",
    "C91_shift_good"
   ],
   "note": "the conversion loses the sign of the gain and roots at 0 (C91_sign_refuted, C91_origin_refuted); cheby_boost_7 has roots without their conjugates (C91_boost7_refuted)"
  },
  {
   "property": "C92",
   "status": "partial",
   "theorems": [
    "C92_sound",
    "C92_complete",
    "C92_dependent",
    "C92_small_refuted",
    "C92_norm_refuted"
   ],
   "note": "with the threshold of the code the statement holds only if no entry lies between 0 and the threshold: small matrices are refused and dropped entries leave columns shorter than 1 (C92_small_refuted, C92_norm_refuted)"
  },
  {
   "property": "C93",
   "status": "partial",
   "theorems": [
    "C93_splits",
    "C93_power",
    "C93_ideal",
    "C93_loss_refuted",
    "C93_names",
    "C93_forward",
    "C93_backward",
    "C93_isolates",
    "C93_isolator_refuted"
   ],
   "note": "losses larger than the defects make amplitudes the roots of negative numbers (C93_loss_refuted); the isolator uses a Faraday rotator left at 0 degrees, so half the light passes in both directions (C93_isolator_refuted)"
  },
  {
   "property": "C94",
   "status": "proved",
   "theorems": [
    "C94_papoulis_odd",
    "C94_papoulis_even",
    "C94_edge",
    "C94_monotone",
    "C94_shape",
    "C94_response",
    "C94_poles"
   ],
   "note": "for the filter _roots is assumed to find all the roots, in exact numbers"
  },
  {
   "property": "C95",
   "status": "partial",
   "theorems": [
    "C95_defined",
    "C95_meaning",
    "C95_positions",
    "C95_width",
    "C95_glue",
    "C95_reversal",
    "C95_end_refuted",
    "C95_thin_refuted",
    "C95_gap_refuted"
   ],
   "note": "C95_defined says when the code answers at all: a boundary where a component ends, or a right boundary at a part without length, is refused though nothing is cut, and a stretch without components raises TypeError (the refuted theorems); for all other boundaries the property is proved in full"
  },
  {
   "property": "C96",
   "status": "partial",
   "theorems": [
    "C96_defined",
    "C96_gouy_chain",
    "C96_gouy_back",
    "C96_gouy_phase",
    "C96_target_q",
    "C96_here",
    "C96_overlap",
    "C96_overlap_self",
    "C96_source"
   ],
   "note": "proved in full at names and indices, and at distances where no part without length stands; at a lens the matrix depends on the side it comes from (C69_lens_refuted), and the overlap is stated for equal wavelengths in the medium"
  },
  {
   "property": "C97",
   "status": "partial",
   "theorems": [
    "C97_waists",
    "C97_one",
    "C97_matching",
    "C97_seen",
    "C97_nearest",
    "C97_nearest_refuted"
   ],
   "note": "waist_descriptions proved in full for layouts without the compound lenses of alm/composites.py, whose inner space is never asked; z_nearest_waist forgets the index of refraction: it finds the waist of a beam not at its waist exactly if the index is one (C97_nearest, C97_nearest_refuted)"
  },
  {
   "property": "C98",
   "status": "partial",
   "theorems": [
    "C98_valid",
    "C98_edges",
    "C98_weight",
    "C98_last",
    "C98_max_refuted",
    "C98_order_refuted"
   ],
   "note": "the graph is valid and has the right edges; the weight is that of the last edge and not the maximum the code intends, since the lookup uses a pair as key of a dictionary keyed by numbers (C98_max_refuted); METIS_reorder throws away the order it computes and returns the sorted list (C98_order_refuted)"
  },
  {
   "property": "C99",
   "status": "partial",
   "theorems": [
    "C99_defined",
    "C99_value",
    "C99_relative",
    "C99_size",
    "C99_sign",
    "C99_centi",
    "C99_centi_refuted",
    "C99_pico_refuted",
    "C99_sign_refuted"
   ],
   "note": "exact fractions instead of floats; values other than zero up to 1e-21 raise UnboundLocalError (C99_defined); with use_c the centi prefix divides by 100 instead of multiplying, so that labels are ten thousand times too small (C99_centi, C99_centi_refuted); there is no pico, so the number reaches a million before femto (C99_size, C99_pico_refuted); a negative value whose number exceeds ten keeps more decimals than its positive (C99_sign, C99_sign_refuted)"
  },
  {
   "property": "C100",
   "status": "partial",
   "theorems": [
    "C100_delay",
    "C100_pure_delay",
    "C100_signed",
    "C100_opposite",
    "C100_smooth",
    "C100_raises",
    "C100_turning_refuted"
   ],
   "note": "group_delay and mag_phase_signed proved in full; continuous_phase works only if no step of the angles passes sep: otherwise it looks up the median at len / 2, which is a float, and raises (C100_raises, C100_turning_refuted); the result of group_delay for a delay tau is -2 pi mult tau"
  },
  {
   "property": "C101",
   "status": "partial",
   "theorems": [
    "C101_found",
    "C101_short",
    "C101_none",
    "C101_late",
    "C101_late_refuted"
   ],
   "note": "right if the first number is at place 0 or 1 or there is none; a later number is either missed, if no place that is a power of two holds one, or raises IndexError, since the halved step is a float (C101_late, C101_late_refuted)"
  }
 ]
}