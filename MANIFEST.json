{
 "claims": [
  {
   "property": "C01",
   "status": "proved",
   "theorems": [
    "C01_single_qubit_gates",
    "C01_single_qubit_rejects"
   ],
   "note": ""
  },
  {
   "property": "C02",
   "status": "proved",
   "theorems": [
    "C02_controlled_gates",
    "C02_controlled_rejects"
   ],
   "note": ""
  },
  {
   "property": "C03",
   "status": "proved",
   "theorems": [
    "C03_two_qubit_rotations",
    "C03_rejects"
   ],
   "note": ""
  },
  {
   "property": "C04",
   "status": "proved",
   "theorems": [
    "C04_swap",
    "C04_negative_wires",
    "C04_rejects"
   ],
   "note": ""
  },
  {
   "property": "C05",
   "status": "proved",
   "theorems": [
    "C05_toffoli",
    "C05_multi_control",
    "C05_toffoli_rejects",
    "C05_multi_control_rejects"
   ],
   "note": ""
  },
  {
   "property": "C06",
   "status": "proved",
   "theorems": [
    "C06_bad_wires",
    "C06_swap_wires",
    "C06_swap_refuted"
   ],
   "note": "Holds for every class except SWAP (C06_bad_wires); for SWAP it is characterised (C06_swap_wires) and refuted for equal wires (C06_swap_refuted)."
  },
  {
   "property": "C07",
   "status": "proved",
   "theorems": [
    "C07_gates_unitary",
    "C07_layer_is_its_gates",
    "C07_layers_unitary"
   ],
   "note": ""
  },
  {
   "property": "C08",
   "status": "proved",
   "theorems": [
    "C08_gates_dagger",
    "C08_gates_dagger_object",
    "C08_layers_dagger",
    "C08_no_dagger"
   ],
   "note": "ring_of_cnot2 and BasicEntangleLayer have a method with an empty body: C08_no_dagger."
  },
  {
   "property": "C09",
   "status": "proved",
   "theorems": [
    "C09_gates_contract",
    "C09_layers_contract",
    "C09_ring_wires_refuted"
   ],
   "note": "The rings only for wires 0..N-1: on other wires they announce supportTN and raise (C09_ring_wires_refuted)."
  },
  {
   "property": "C10",
   "status": "proved",
   "theorems": [
    "C10_circuit_batch",
    "C10_gates_batch",
    "C10_sample_is_select",
    "C10_layers_batch"
   ],
   "note": ""
  },
  {
   "property": "C11",
   "status": "proved",
   "theorems": [
    "C11_layer_on_mps",
    "C11_gate_on_mps",
    "C11_gates_on_mps",
    "C11_gates_on_mps_where_exact"
   ],
   "note": ""
  },
  {
   "property": "C12",
   "status": "proved",
   "theorems": [
    "C12_round_trip",
    "C12_amplitudes",
    "C12_wrong_shapes_rejected"
   ],
   "note": ""
  },
  {
   "property": "C13",
   "status": "proved",
   "theorems": [
    "C13_circuit_keeps_shape",
    "C13_layer_shape",
    "C13_initial_shape",
    "C13_shape_preserved"
   ],
   "note": ""
  },
  {
   "property": "C14",
   "status": "proved",
   "theorems": [
    "C14_ordered_product",
    "C14_empty_circuit",
    "C14_add_left",
    "C14_add_right",
    "C14_two_parts"
   ],
   "note": ""
  },
  {
   "property": "C15",
   "status": "proved",
   "theorems": [
    "C15_back_ends_agree",
    "C15_contraction_is_the_product",
    "C15_mps_is_the_product"
   ],
   "note": "For the operations of ci_TN (see C33)."
  },
  {
   "property": "C16",
   "status": "proved",
   "theorems": [
    "C16_unitary",
    "C16_contraction_keeps_inner_products",
    "C16_mps_keeps_inner_products"
   ],
   "note": ""
  },
  {
   "property": "C17",
   "status": "proved",
   "theorems": [
    "C17_ring",
    "C17_ring_dagger",
    "C17_ring2",
    "C17_ring_rejects"
   ],
   "note": ""
  },
  {
   "property": "C18",
   "status": "proved",
   "theorems": [
    "C18_matrix",
    "C18_contract",
    "C18_mps"
   ],
   "note": ""
  },
  {
   "property": "C19",
   "status": "proved",
   "theorems": [
    "C19_basic_is_repeated",
    "C19_basic_rejects",
    "C19_basic_params_update"
   ],
   "note": ""
  },
  {
   "property": "C20",
   "status": "proved",
   "theorems": [
    "C20_three_rotations",
    "C20_two_rotations",
    "C20_hadamard",
    "C20_count_rejected",
    "C20_too_many_wires_rejected"
   ],
   "note": ""
  },
  {
   "property": "C21",
   "status": "proved",
   "theorems": [
    "C21_partial_trace",
    "C21_trace_refused",
    "C21_size_refused"
   ],
   "note": ""
  },
  {
   "property": "C22",
   "status": "proved",
   "theorems": [
    "C22_old_agrees",
    "C22_ptrace",
    "C22_ptrace_agrees"
   ],
   "note": ""
  },
  {
   "property": "C23",
   "status": "proved",
   "theorems": [
    "C23_trace_hermitian",
    "C23_positive",
    "C23_two_steps"
   ],
   "note": ""
  },
  {
   "property": "C24",
   "status": "proved",
   "theorems": [
    "C24_vector",
    "C24_density",
    "C24_density_trace",
    "C24_agree",
    "C24_range",
    "C24_range_density",
    "C24_basis",
    "C24_expval_vector",
    "C24_expval_density",
    "C24_size_refused"
   ],
   "note": ""
  },
  {
   "property": "C25",
   "status": "proved",
   "theorems": [
    "C25_one",
    "C25_list",
    "C25_density",
    "C25_zero_refuted",
    "C25_bad_qubit"
   ],
   "note": "Holds for every q > 0 and every non-empty list; ith=0 and ith=[] measure all qubits (C25_zero_refuted)."
  },
  {
   "property": "C26",
   "status": "proved",
   "theorems": [
    "C26_bookkeeping",
    "C26_values"
   ],
   "note": ""
  },
  {
   "property": "C27",
   "status": "proved",
   "theorems": [
    "C27_cleared_circuit_simulates_as_new",
    "C27_cleared_matrix",
    "C27_bookkeeping_refuted",
    "C27_gradient_refuted"
   ],
   "note": "Simulation as new; bookkeeping and gradient parts are refuted (C27_bookkeeping_refuted, C27_gradient_refuted)."
  },
  {
   "property": "C28",
   "status": "proved",
   "theorems": [
    "C28_gradient",
    "C28_two_point_value",
    "C28_rotations_refuted"
   ],
   "note": "Derivative for all parametrised operations but cu3; rxx, ryy, rzz need an operation that forces the matrix back end, else AttributeError (C28_rotations_refuted)."
  },
  {
   "property": "C29",
   "status": "proved",
   "theorems": [
    "C29_cu3_refuted"
   ],
   "note": "False: the two-point rule gives sqrt 2 times the derivative on a cu3 (C29_cu3_refuted)."
  },
  {
   "property": "C30",
   "status": "proved",
   "theorems": [
    "C30_shift_unchanged",
    "C30_adjoint_unchanged",
    "C30_updated_refuted",
    "C30_update_one_refuted"
   ],
   "note": "Holds for a circuit as built; refuted once angles were changed by params_update: the record of the add call is written back (C30_updated_refuted)."
  },
  {
   "property": "C31",
   "status": "proved",
   "theorems": [
    "C31_adjoint_gradient",
    "C31_u1_refuted",
    "C31_cphase_refuted",
    "C31_cu3_refuted",
    "C31_empty_circuit"
   ],
   "note": "Holds for rx, ry, rz, u3 and the single-qubit layers with a self-adjoint observable gate; refuted for u1, cphase, cu3; IndexError on an empty circuit."
  },
  {
   "property": "C32",
   "status": "proved",
   "theorems": [
    "C32_gates_params_update",
    "C32_layers_params_update",
    "C32_rotation_layers_params_update"
   ],
   "note": ""
  },
  {
   "property": "C33",
   "status": "proved",
   "theorems": [
    "C33_check_value",
    "C33_TN_capable_circuits_pass",
    "C33_false_means_failure",
    "C33_unsupported_value_error",
    "C33_rotations_refuted",
    "C33_ring_refuted"
   ],
   "note": "True guarantees success for the operations of ci_TN; refuted for rxx, ryy, rzz and for rings on part of the register. False: never a result; ValueError when the operations before it succeed."
  },
  {
   "property": "C34",
   "status": "proved",
   "theorems": [
    "C34_state",
    "C34_too_long",
    "C34_zero",
    "C34_empty",
    "C34_scale",
    "C34_start"
   ],
   "note": "The zero vector is accepted and encoded as NaN (C34_zero); the empty input raises TypeError (C34_empty)."
  },
  {
   "property": "C35",
   "status": "proved",
   "theorems": [
    "C35_matrix",
    "C35_contract",
    "C35_batch",
    "C35_mps",
    "C35_too_many",
    "C35_bad_pauli",
    "C35_no_inputs",
    "C35_wire_range",
    "C35_repeated_wire_refuted"
   ],
   "note": "An unknown pauli is only rejected when the encoding is used (C35_bad_pauli); with repeated wires the matrix and the other forms disagree (C35_repeated_wire_refuted)."
  },
  {
   "property": "C36",
   "status": "proved",
   "theorems": [
    "C36_inner_product",
    "C36_bond_one_fails",
    "C36_one_qubit_fails"
   ],
   "note": "Holds when every inner bond is at least 2; otherwise an exception (C36_bond_one_fails, C36_one_qubit_fails)."
  },
  {
   "property": "C37",
   "status": "proved",
   "theorems": [
    "C37_expectation",
    "C37_argument_unchanged_refuted"
   ],
   "note": "The value is right; the claim that the caller's list is left alone is refuted (C37_argument_unchanged_refuted)."
  },
  {
   "property": "C38",
   "status": "proved",
   "theorems": [
    "C38_round_trip",
    "C38_normalises",
    "C38_traceless",
    "C38_sites",
    "C38_mpdo_to_rho",
    "C38_imaginary_factor_refuted",
    "C38_wrong_shapes_rejected",
    "C38_empty_list"
   ],
   "note": "Holds when torch.svd of a single column has a real singular value and a real right factor (LAPACK applies no right reflection to a column); C38_imaginary_factor_refuted shows that exactness alone is not enough, because MPS2Rho only divides by the real part of the trace."
  },
  {
   "property": "C39",
   "status": "proved",
   "theorems": [
    "C39_unitary",
    "C39_normalized",
    "C39_hermitian",
    "C39_exact",
    "C39_gates",
    "C39_shapes_refused"
   ],
   "note": "C39_unitary/normalized/hermitian characterise the answers exactly; a tensor of rank < 2 raises IndexError, not ValueError, in IsUnitary/IsHermitian (C39_shapes_refused)."
  },
  {
   "property": "C40",
   "status": "proved",
   "theorems": [
    "C40_agrees",
    "C40_second_zero_refuted",
    "C40_second_zero_differs_refuted",
    "C40_second_zero_last",
    "C40_bad_single",
    "C40_bad_control",
    "C40_failed_call_recorded_refuted",
    "C40_negative_control",
    "C40_negative_same_refuted",
    "C40_measure",
    "C40_measure_agrees"
   ],
   "note": "Agrees with the newer Circuit for all listed calls when the second qubit of rxx/ryy/rzz is not 0; that exception is proved (C40_second_zero_refuted, C40_second_zero_differs_refuted). Failed calls stay in gate_list and negative controls are accepted."
  },
  {
   "property": "C41",
   "status": "proved",
   "theorems": [
    "C41_grid",
    "C41_fits",
    "C41_border_refuted",
    "C41_overlap_refuted",
    "C41_kernel_one_refuted",
    "C41_first_channel",
    "C41_qubits",
    "C41_range"
   ],
   "note": "Exact output whenever all squares fit (C41_grid, C41_fits); the unconditional claim is refuted: IndexError at the border (C41_border_refuted), for any stride below the kernel size (C41_overlap_refuted), ValueError for kernel size 1 (C41_kernel_one_refuted)."
  },
  {
   "property": "C42",
   "status": "proved",
   "theorems": [
    "C42_matrix_product_state",
    "C42_density_operator",
    "C42_wrong_shapes_rejected"
   ],
   "note": ""
  },
  {
   "property": "C43",
   "status": "proved",
   "theorems": [
    "C43_value",
    "C43_fallback",
    "C43_bad_state_rejected",
    "C43_bad_observable_rejected",
    "C43_wrong_size_fails",
    "C43_rotations_refuted"
   ],
   "note": "Value for either back end; non-square M and misshapen psi give ValueError, square M of the wrong size another exception (C43_wrong_size_fails); TN=True refuted for rxx, ryy, rzz."
  },
  {
   "property": "C44",
   "status": "proved",
   "theorems": [
    "C44_forms_agree",
    "C44_repeated_wires_refuted"
   ],
   "note": "For distinct wires; refuted for repeated wires (C44_repeated_wires_refuted)."
  },
  {
   "property": "C45",
   "status": "proved",
   "theorems": [
    "C45_state_init"
   ],
   "note": ""
  },
  {
   "property": "C46",
   "status": "proved",
   "theorems": [
    "C46_multi_kron",
    "C46_multi_kron_mul",
    "C46_dag",
    "C46_dag_product",
    "C46_dag_rejects"
   ],
   "note": ""
  },
  {
   "property": "C47",
   "status": "proved",
   "theorems": [
    "C47_matrices_commute",
    "C47_contractions_commute",
    "C47_batch_contractions_commute",
    "C47_mps_commute"
   ],
   "note": ""
  },
  {
   "property": "C48",
   "status": "proved",
   "theorems": [
    "C48_error_bound",
    "C48_true_svd_exists",
    "C48_count",
    "C48_error_bound_where_true",
    "C48_tiny_state_rejected"
   ],
   "note": "squared distance at most 1e-16 per singular value, norm loss equal to the distance, count bounded by 4*2^(N/2), states of norm <= 1e-8 rejected; torch.svd assumed to be a true SVD in exact arithmetic on the matrices that occur; C48_true_svd_exists shows that assumption can be met for every matrix"
  },
  {
   "property": "C49",
   "status": "proved",
   "theorems": [
    "C49_equal_wires_accepted_refuted"
   ],
   "note": "Characterised: see the theorems."
  },
  {
   "property": "C50",
   "status": "proved",
   "theorems": [
    "C50_out_of_range",
    "C50_negative",
    "C50_too_many",
    "C50_any_list",
    "C50_repeated_refuted",
    "C50_repeated_zero",
    "C50_argument_sorted_refuted"
   ],
   "note": "Out of range, negative and too long lists raise; repeated qubits are accepted (C50_repeated_refuted) and the caller's list is sorted in place (C50_argument_sorted_refuted)."
  },
  {
   "property": "C51",
   "status": "proved",
   "theorems": [
    "C51_entries",
    "C51_density",
    "C51_unit",
    "C51_signs_lost_refuted"
   ],
   "note": "Signs and phases of the input are lost (C51_signs_lost_refuted)."
  },
  {
   "property": "C52",
   "status": "proved",
   "theorems": [
    "C52_state",
    "C52_entries",
    "C52_pure_iff_real",
    "C52_complex_refuted"
   ],
   "note": "A pure state exactly for real amplitudes (C52_pure_iff_real, C52_complex_refuted)."
  },
  {
   "property": "C53",
   "status": "proved",
   "theorems": [
    "C53_no_call_returns_refuted",
    "C53_valid_call_raises"
   ],
   "note": "refutation of the documented behaviour: no call returns; the exceptions raised by valid calls are determined"
  },
  {
   "property": "C54",
   "status": "proved",
   "theorems": [
    "C54_gates_error_bound",
    "C54_circuit_error_bound",
    "C54_any_gauge_refuted"
   ],
   "note": "distance at most 1e-8*(sqrt of the first singular value count + 8 per two- or three-site step), for gate lists and for circuits of gates and layers; total steps at most 2e6; torch.svd assumed to be a true SVD in exact arithmetic (C48_true_svd_exists); refuted for matrix product states in an arbitrary gauge"
  },
  {
   "property": "C55",
   "status": "proved",
   "theorems": [
    "C55_expectation_error_bound",
    "C55_measure_error_bound"
   ],
   "note": "error at most B e (2+e) with e the bound of C54; B any bound on the observable; torch.svd assumed to be a true SVD in exact arithmetic"
  },
  {
   "property": "C56",
   "status": "proved",
   "theorems": [
    "C56_layer_function_matrix",
    "C56_layer_function_rejects",
    "C56_class_gates"
   ],
   "note": "The bodies of the functions are modelled with the gate functions as an argument; the theorems hold for every argument that returns the documented matrices, and the gate classes are shown to be one. With the gate functions the code actually reaches, C53 applies."
  },
  {
   "property": "C57",
   "status": "proved",
   "theorems": [
    "C57_closed_form",
    "C57_circuit"
   ],
   "note": "for the grids that C41 accepts"
  },
  {
   "property": "C58",
   "status": "proved",
   "theorems": [
    "C58_scores",
    "C58_accepts"
   ],
   "note": "nn.Linear, torch.flatten and F.relu are modelled as functions on arrays of reals; the random initial weights are arguments"
  },
  {
   "property": "C59",
   "status": "proved",
   "theorems": [
    "C59_equal_wires",
    "C59_rank",
    "C59_range",
    "C59_batch_of_two",
    "C59_mixed_batch_refuted",
    "C59_negative_wire",
    "C59_negative_site",
    "C59_no_wires"
   ],
   "note": "the part that wires outside 0..N-1 are refused fails with batch_mod and for one-qubit gates; what happens instead is proved"
  },
  {
   "property": "C60",
   "status": "proved",
   "theorems": [
    "C60_gates",
    "C60_layers",
    "C60_circuit",
    "C60_same_description",
    "C60_after_update",
    "C60_after_layer_update",
    "C60_gate_dagger",
    "C60_layer_dagger",
    "C60_unplaced"
   ],
   "note": "info() of gates and layers, read by InfoSpec.v"
  },
  {
   "property": "C61",
   "status": "proved",
   "theorems": [
    "C61_too_few",
    "C61_too_few_raises",
    "C61_number_for_list",
    "C61_number_raises",
    "C61_list_for_number",
    "C61_list_raises",
    "C61_toffoli",
    "C61_toffoli_number",
    "C61_multi_control",
    "C61_surplus_ignored",
    "C61_mps_two_wires",
    "C61_cnot_mps",
    "C61_three_wires_refuted",
    "C61_one_wire_refuted"
   ],
   "note": "that all forms refuse or agree fails for cnot: C61_three_wires_refuted, C61_one_wire_refuted"
  },
  {
   "property": "C62",
   "status": "proved",
   "theorems": [
    "C62_matrix",
    "C62_count",
    "C62_contract",
    "C62_batch",
    "C62_mps",
    "C62_no_inverse_refuted"
   ],
   "note": "that every circuit can be undone fails for layers without an inverse: C62_no_inverse_refuted"
  },
  {
   "property": "C63",
   "status": "proved",
   "theorems": [
    "C63_encoding_acts",
    "C63_bookkeeping",
    "C63_contract",
    "C63_mps",
    "C63_check",
    "C63_none"
   ],
   "note": "the state after the exception is modelled explicitly (x_add returns state and exception)"
  },
  {
   "property": "C64",
   "status": "proved",
   "theorems": [
    "C64_matrix",
    "C64_renaming",
    "C64_contract",
    "C64_mps"
   ],
   "note": "the evolutions need tensor network forms of the moved operations (a ring must cover the register in order)"
  },
  {
   "property": "C65",
   "status": "proved",
   "theorems": [
    "C65_matrix",
    "C65_replace",
    "C65_contract",
    "C65_mps",
    "C65_expectation",
    "C65_controls",
    "C65_cu3_period_refuted"
   ],
   "note": "that cu3 has the period of u3 fails: C65_cu3_period_refuted"
  },
  {
   "property": "C66",
   "status": "proved",
   "theorems": [
    "C66_traced_out",
    "C66_kept",
    "C66_measure",
    "C66_expectation",
    "C66_gradient",
    "C66_mps"
   ],
   "note": "the tensor network forms need tensor network operations, as in C43; exact svd"
  },
  {
   "property": "C67",
   "status": "proved",
   "theorems": [
    "C67_measure",
    "C67_expectation",
    "C67_gradient",
    "C67_mps"
   ],
   "note": "equality of results, for measure with every form of argument including those that raise"
  },
  {
   "property": "C68",
   "status": "proved",
   "theorems": [
    "C68_initial",
    "C68_evolved",
    "C68_pipeline",
    "C68_untouched"
   ],
   "note": "with truncation included; assumes only svd_shapes"
  },
  {
   "property": "C69",
   "status": "proved",
   "theorems": [
    "C69_three_points",
    "C69_period",
    "C69_four_values",
    "C69_gradient"
   ],
   "note": "assumes an exact SVD for the tensor network back end, as C43 and C28 do"
  },
  {
   "property": "C70",
   "status": "proved",
   "theorems": [
    "C70_linear",
    "C70_linear_gradient",
    "C70_adjoint",
    "C70_range",
    "C70_gradient_range",
    "C70_unitary_range",
    "C70_identity",
    "C70_scaled",
    "C70_scaled_gradient"
   ],
   "note": "assumes an exact SVD for the tensor network back end, as C43 and C28 do"
  },
  {
   "property": "C71",
   "status": "proved",
   "theorems": [
    "C71_gradient_error_bound",
    "C71_two_point_error_bound",
    "C71_matrix_expectation",
    "C71_matrix_gradient",
    "C71_adjoint_error_bound",
    "C71_adjoint_overlap_bound"
   ],
   "note": "sizes limited as in C54"
  },
  {
   "property": "C72",
   "status": "proved",
   "theorems": [
    "C72_any_wires",
    "C72_undo",
    "C72_batch",
    "C72_batch_of_two",
    "C72_batch_fails",
    "C72_negative_batch_refuted",
    "C72_mixed_batch_refuted",
    "C72_out_of_range"
   ],
   "note": "What a user would expect of negative wires with a batch fails: C72_negative_batch_refuted, C72_mixed_batch_refuted."
  },
  {
   "property": "C73",
   "status": "proved",
   "theorems": [
    "C73_ring",
    "C73_undo",
    "C73_tensor_forms_refused",
    "C73_entangle"
   ],
   "note": ""
  },
  {
   "property": "C74",
   "status": "proved",
   "theorems": [
    "C74_any_wires",
    "C74_batch",
    "C74_batch_of_two",
    "C74_batch_fails"
   ],
   "note": "Any list of wires inside the register: what the matrix, contraction, matrix product form and batched contraction compute. Wires outside the register are in C35."
  },
  {
   "property": "C75",
   "status": "proved",
   "theorems": [
    "C75_counted_from_the_end",
    "C75_outside_refused",
    "C75_beyond_raises",
    "C75_wraps_round_refuted"
   ],
   "note": "the unguarded claim that wires outside the register are refused fails for a pair of wires of different sign: C75_wraps_round_refuted"
  },
  {
   "property": "C76",
   "status": "proved",
   "theorems": [
    "C76_unshared",
    "C76_shared_value",
    "C76_shared_refuted",
    "C76_adjoint_shared",
    "C76_update"
   ],
   "note": "false for cal_params_grad on repeated objects (C76_shared_refuted); exact value, the unshared case, the adjoint method and params_update proved; TN runs assume exact_svd"
  },
  {
   "property": "C77",
   "status": "proved",
   "theorems": [
    "C77_gradient_is_gradient",
    "C77_gradient_raises",
    "C77_gradient_returns",
    "C77_bad_arguments",
    "C77_next_call_repairs",
    "C77_gate_update_is_update",
    "C77_layer_update_is_update",
    "C77_u3_update_raises",
    "C77_layer_update_raises",
    "C77_layer_update_extra"
   ],
   "note": "QFailed.v models the object left by the raising call; repair by the next call assumes exact_svd"
  },
  {
   "property": "C78",
   "status": "proved",
   "theorems": [
    "C78_params_update",
    "C78_shift_value",
    "C78_shift_refuted",
    "C78_adjoint_value",
    "C78_adjoint_saved_as_built",
    "C78_adjoint_refuted",
    "C78_one_operation",
    "C78_descent_refuted"
   ],
   "note": "the wish that the gradient be taken at the current (or the recorded) angles is refuted for both methods; adjoint entries assume an exact svd"
  },
  {
   "property": "C79",
   "status": "proved",
   "theorems": [
    "C79_is_cal_params_grad2",
    "C79_raises",
    "C79_bad_state",
    "C79_returns",
    "C79_missing",
    "C79_next_call_repairs",
    "C79_retry_refuted"
   ],
   "note": "QFailed2.v models the object left by the raising call; the wish that save_mid_MPS followed by cal_params_grad2 recovers after a failed call is refuted"
  },
  {
   "property": "C80",
   "status": "proved",
   "theorems": [
    "C80_view_reads_row_major",
    "C80_view_refuses",
    "C80_single_any_layout",
    "C80_swap_any_layout",
    "C80_cnot_any_layout",
    "C80_ctrl_any_layout",
    "C80_toffoli_any_layout",
    "C80_merge_order",
    "C80_contract_any_layout",
    "C80_contract_view_refuted",
    "C80_state_any_layout",
    "C80_vector_any_layout",
    "C80_operator_any_layout",
    "C80_mps2rho_any_layout",
    "C80_rho_row_major",
    "C80_rho_transposed_refuted",
    "C80_layouts_case",
    "C80_sites_case",
    "C80_vector_case"
   ],
   "note": "View rule transcribed from torch's computeStride; proved sound (C80_view_reads_row_major). The two exceptions are C80_rho_transposed_refuted and C80_contract_view_refuted."
  },
  {
   "property": "C81",
   "status": "proved",
   "theorems": [
    "C81_evolution_any_layout",
    "C81_contract_any_layout",
    "C81_matrix_any_layout",
    "C81_expectation_any_layout",
    "C81_evolution",
    "C81_contract",
    "C81_expectation",
    "C81_columns_case"
   ],
   "note": "The layout of a gate matrix is a function of the matrix (any function); layouts of all other tensors are arbitrary."
  },
  {
   "property": "C82",
   "status": "proved",
   "theorems": [
    "C82_measure_any_layout",
    "C82_expval_any_layout",
    "C82_expval_tensor_refuted"
   ],
   "note": "The exception for states of rank N is C82_expval_tensor_refuted."
  },
  {
   "property": "C83",
   "status": "proved",
   "theorems": [
    "C83_shift_any_layout",
    "C83_shift_gradient"
   ],
   "note": ""
  },
  {
   "property": "C84",
   "status": "proved",
   "theorems": [
    "C84_save_any_layout",
    "C84_gradient_any_layout",
    "C84_adjoint_gradient"
   ],
   "note": ""
  },
  {
   "property": "C85",
   "status": "proved",
   "theorems": [
    "C85_expectation_error_bound",
    "C85_shift_error_bound",
    "C85_adjoint_error_bound",
    "C85_measure_error_bound",
    "C85_true_svd_case"
   ],
   "note": ""
  },
  {
   "property": "C86",
   "status": "proved",
   "theorems": [
    "C86_same_lists",
    "C86_expectations"
   ],
   "note": ""
  },
  {
   "property": "C87",
   "status": "proved",
   "theorems": [
    "C87_value_change",
    "C87_gradient_change",
    "C87_sharp"
   ],
   "note": ""
  },
  {
   "property": "C88",
   "status": "proved",
   "theorems": [
    "C88_prediction",
    "C88_descent",
    "C88_decrease",
    "C88_many_steps"
   ],
   "note": "Circuits without cu3, built anew from the angles at each step; both evaluation methods. For circuits updated in place see C78."
  }
 ]
}
