{
 "claims": [
  {
   "property": "C01",
   "status": "proved",
   "theorems": [
    "C01_index_state_round_trip",
    "C01_n_states_defined"
   ],
   "note": "All sane spaces (Spin, Fock, Qubit, CustomHilbert, TensorHilbert, DoubledHilbert, nested arbitrarily), including unsorted custom local states."
  },
  {
   "property": "C02",
   "status": "proved",
   "theorems": [
    "C02_all_states_lexicographic",
    "C02_index_order"
   ],
   "note": "Strictly lexicographically sorted, complete enumeration; index order = lexicographic order."
  },
  {
   "property": "C03",
   "status": "proved",
   "theorems": [
    "C03_constrained_subsequence"
   ],
   "note": "Constrained enumeration is the filtered unconstrained one; the round trip for constrained spaces is C01_index_state_round_trip."
  },
  {
   "property": "C04",
   "status": "partial",
   "theorems": [
    "C04_violating_state_accepted_refuted",
    "C04_rank_or_error_partial",
    "C04_foreign_value_accepted_refuted"
   ],
   "note": "False of the code: refuted with witnesses (constraint-violating state silently numbered; foreign value numbered). The exact behaviour (rank or error) is proved as _partial."
  },
  {
   "property": "C05",
   "status": "proved",
   "theorems": [
    "C05_tensor_mixed_radix",
    "C05_overflow_refuted"
   ],
   "note": "Under the int64 bound stated in `sane`; the overflow beyond it is shown by C05_overflow_refuted."
  },
  {
   "property": "C06",
   "status": "proved",
   "theorems": [
    "C06_doubled_row_col"
   ],
   "note": "Row-major indexing of DoubledHilbert over any sane physical space."
  },
  {
   "property": "C07",
   "status": "partial",
   "theorems": [
    "C07_too_large_rejected",
    "C07_wrong_shape_rejected",
    "C07_negative_accepted_refuted",
    "C07_result_is_configuration_partial"
   ],
   "note": "Upper bound and shape checks proved; negative numbers are accepted (refuted); every returned value is a valid configuration (partial)."
  },
  {
   "property": "C08",
   "status": "partial",
   "theorems": [
    "C08_pow_configurations_partial",
    "C08_pow_available_unconstrained_partial",
    "C08_pow_available_refuted",
    "C08_product_configurations",
    "C08_equal_arguments_equal_spaces_refuted"
   ],
   "note": "Configurations of powers and products proved; availability of ** refuted for constrained and unlimited spaces (UnboundLocalError / ValueError)."
  },
  {
   "property": "C09",
   "status": "proved",
   "theorems": [
    "C09_ptrace_removes_sites",
    "C09_ptrace_available",
    "C09_duplicate_sites_refuted",
    "C09_tensor_available_refuted"
   ],
   "note": "For distinct sites, every buildable finite space including nested tensor products; duplicates and identical constrained survivors are shown to go wrong (refuted theorems)."
  },
  {
   "property": "C10",
   "status": "proved",
   "theorems": [
    "C10_flip_one_site",
    "C10_draw_uniform",
    "C10_unsorted_custom_refuted",
    "C10_doubled_tensor_refuted"
   ],
   "note": "Homogeneous spaces, tensor products of them and doubled homogeneous spaces; CustomHilbert needs increasing local states (refuted otherwise), DoubledHilbert of a TensorHilbert flips the wrong site (refuted)."
  },
  {
   "property": "C11",
   "status": "partial",
   "theorems": [
    "C11_fock_random_constrained",
    "C11_spin_random_constrained_partial",
    "C11_spin_half_random_partial",
    "C11_spin_half_random_refuted",
    "C11_random_unconstrained"
   ],
   "note": "Soundness and full support for Fock(n_particles) and for Spin with total_sz a multiple of 1/2; refuted for other total_sz the constructor accepts."
  },
  {
   "property": "C12",
   "status": "partial",
   "theorems": [
    "C12_get_conn_row",
    "C12_cutoff_partial",
    "C12_small_diagonal_refuted"
   ],
   "note": "C12_get_conn_row: any terms, supports, constants and spaces when numbers failing the cut-off test are zero. C12_cutoff_partial: real cut-off, different increasing supports and a diagonal not entirely between 0 and the cut-off; refuted otherwise (C12_small_diagonal_refuted). The only failure is the overrun of C20, on zero rows."
  },
  {
   "property": "C13",
   "status": "partial",
   "theorems": [
    "C13_site_order_partial",
    "C13_inhomogeneous_refuted"
   ],
   "note": "Any site order with equal local dimensions, or increasing order; refuted for different local dimensions."
  },
  {
   "property": "C14",
   "status": "proved",
   "theorems": [
    "C14_linear_expressions"
   ],
   "note": "All expressions with constructors, +, -, scalar multiples, transposes, conjugates, including merged supports; exact arithmetic, numbers failing the cut-off test are zero."
  },
  {
   "property": "C15",
   "status": "proved",
   "theorems": [
    "C15_product_expressions"
   ],
   "note": "All expressions including products on spaces with uniform local dimension."
  },
  {
   "property": "C16",
   "status": "partial",
   "theorems": [
    "C16_self_product_partial",
    "C16_constant_refuted"
   ],
   "note": "Constant zero proved; refuted with a constant."
  },
  {
   "property": "C17",
   "status": "partial",
   "theorems": [
    "C17_is_hermitian_partial",
    "C17_adjoint_partial",
    "C17_scaled_refuted",
    "C17_constant_refuted"
   ],
   "note": "Real constants and scalars proved; refuted for complex scalar factors and complex constants."
  },
  {
   "property": "C18",
   "status": "partial",
   "theorems": [
    "C18_expressions_partial",
    "C18_same_array_refuted",
    "C18_sum_refuted",
    "C18_shared_bond_refuted"
   ],
   "note": "Out-of-place expressions over shared arrays whose constructor calls list different site sets; three refutations (same array twice, A+B then in place, shared bond matrix)."
  },
  {
   "property": "C19",
   "status": "partial",
   "theorems": [
    "C19_flattened",
    "C19_padded",
    "C19_max_conn_partial",
    "C19_constant_refuted",
    "C19_rescaled_refuted"
   ],
   "note": "Flattened, padded and n_conn proved; max_conn_size bound proved without rescaling, refuted for constant-only and rescaled operators."
  },
  {
   "property": "C20",
   "status": "partial",
   "theorems": [
    "C20_in_bounds_partial",
    "C20_no_diagonal_refuted"
   ],
   "note": "Proved when the operator has a nonzero diagonal element or the last sample has a nonzero row; refuted for sigma^+ on an annihilated state."
  },
  {
   "property": "C21",
   "status": "proved",
   "theorems": [
    "C21_rows",
    "C21_to_local_operator",
    "C21_qubit_refuted"
   ],
   "note": "Rows, flattened form and to_local_operator on spin-1/2 spaces with at least one edge; Qubit spaces refuted separately."
  },
  {
   "property": "C22",
   "status": "partial",
   "theorems": [
    "C22_get_conn",
    "C22_flattened",
    "C22_padded",
    "C22_symmetric",
    "C22_to_local_operator_partial",
    "C22_to_local_operator_refuted",
    "C22_no_hopping_refuted"
   ],
   "note": "Rows, conservation, symmetry, flattened and padded forms proved; the to_local_operator clause is refuted (U instead of U/2, V dropped without hopping) and proved for the operator it does build."
  },
  {
   "property": "C23",
   "status": "proved",
   "theorems": [
    "C23_rows",
    "C23_constructor",
    "C23_is_hermitian",
    "C23_listed_once_refuted"
   ],
   "note": "Flattened and padded forms, constructor, is_hermitian; exact arithmetic. The stricter reading \"each x' listed once\" is refuted separately."
  },
  {
   "property": "C24",
   "status": "partial",
   "theorems": [
    "C24_moves_partial",
    "C24_products_partial",
    "C24_concrete_conjugate_refuted",
    "C24_squared_refuted"
   ],
   "note": "All sequences of .T/.H/.conj() and products of two such objects, for real constants and factors; conjugate(concrete=True) of a transpose and the operations on lazy squares are refuted."
  },
  {
   "property": "C25",
   "status": "partial",
   "theorems": [
    "C25_flattened",
    "C25_hnh",
    "C25_get_conn_partial",
    "C25_padded_partial",
    "C25_trace",
    "C25_get_conn_refuted",
    "C25_padded_refuted"
   ],
   "note": "Batched interface, H_nh and trace preservation proved; single-sample interface proved when row and column have equally many elements and refuted otherwise (ValueError); pad=True proved when the first sample is not the longest and refuted otherwise."
  },
  {
   "property": "C26",
   "status": "proved",
   "theorems": [
    "C26_to_sparse_entries",
    "C26_local_operator_matrix"
   ],
   "note": "to_sparse for any operator whose flattened connections are well-formed, on every indexable space; with the matrix denoted by expressions for local operators."
  },
  {
   "property": "C27",
   "status": "proved",
   "theorems": [
    "C27_product_acts",
    "C27_product_defined",
    "C27_action",
    "C27_inverse",
    "C27_product_table",
    "C27_composite_identity_refuted"
   ],
   "note": "Products, actions, inverse and product tables for groups of any kind of element; products of a composite element with the identity are ambiguous and raise (refuted separately)."
  },
  {
   "property": "C28",
   "status": "partial",
   "theorems": [
    "C28_first_appearances",
    "C28_inverse_partial",
    "C28_inverse_refuted"
   ],
   "note": "Elements returned: proved. Index array: proved when distinct elements first appear in lexicographic order, refuted otherwise."
  },
  {
   "property": "C29",
   "status": "proved",
   "theorems": [
    "C29_classes",
    "C29_partition",
    "C29_duplicates_refuted"
   ],
   "note": "For groups without repeated elements; with repetitions refuted separately."
  },
  {
   "property": "C30",
   "status": "partial",
   "theorems": [
    "C30_same_shape_partial",
    "C30_broadcast_refuted",
    "C30_dtype_refuted"
   ],
   "note": "Proved among arrays of equal shape and item type; refuted for broadcasting shapes and for different item types."
  },
  {
   "property": "C31",
   "status": "proved",
   "theorems": [
    "C31_chain",
    "C31_grid",
    "C31_translations",
    "C31_single_open_site_refuted"
   ],
   "note": "Grids of any dimension, extent and boundary conditions, and every translation group; exact positions (float rounding of positions not modelled). The open grid with all extents 1 raises (refuted separately)."
  },
  {
   "property": "C32",
   "status": "proved",
   "theorems": [
    "C32_configurations",
    "C32_samples",
    "C32_cached_log_prob",
    "C32_accepted_le_steps",
    "C32_sample_next_without_state_refuted"
   ],
   "note": "All runs of init/reset/sample_next/sample on every rank, provided the chains are initialised at creation or by a first reset; sample_next without a state and reset_chains=True is refuted separately."
  },
  {
   "property": "C33",
   "status": "proved",
   "theorems": [
    "C33_acceptance_probability",
    "C33_numpy_same_test",
    "C33_detailed_balance",
    "C33_kernel",
    "C33_target_invariant",
    "C33_local_rule_invariant",
    "C33_exchange_rule_invariant",
    "C33_hamiltonian_rule_invariant"
   ],
   "note": "Real-number acceptance test with exp; detailed balance, kernel, invariance for any number of sweeps; instances for the local, exchange and Hamiltonian rules."
  },
  {
   "property": "C34",
   "status": "proved",
   "theorems": [
    "C34_local_symmetric",
    "C34_local_stays",
    "C34_local_numpy_symmetric",
    "C34_exchange_symmetric",
    "C34_hamiltonian_batch",
    "C34_hamiltonian_uniform",
    "C34_hamiltonian_correction",
    "C34_local_unsorted_refuted",
    "C34_local_constrained_refuted"
   ],
   "note": "LocalRule (increasing local states), LocalRuleNumpy, ExchangeRule and HamiltonianRule (symmetric multiplicities); unsorted custom local states and constrained spaces refuted separately."
  },
  {
   "property": "C35",
   "status": "proved",
   "theorems": [
    "C35_exchange",
    "C35_run",
    "C35_samples",
    "C35_clusters",
    "C35_out_of_range_refuted"
   ],
   "note": "Clusters on existing sites, every run and sample; out-of-range clusters refuted separately."
  },
  {
   "property": "C36",
   "status": "partial",
   "theorems": [
    "C36_counters",
    "C36_numpy_partial",
    "C36_numpy_reset_ready",
    "C36_numpy_reset_refuted",
    "C36_numpy_ranks_refuted",
    "C36_numpy_ranks_sample_refuted"
   ],
   "note": "MetropolisSampler: proved for any number of ranks. MetropolisSamplerNumpy: increments on one rank proved; reset does not clear the counters, several ranks over-count, and sampling on several ranks raises (refuted)."
  },
  {
   "property": "C37",
   "status": "partial",
   "theorems": [
    "C37_exchange",
    "C37_run",
    "C37_sampled_replica_partial",
    "C37_sampled_replica_refuted",
    "C37_odd_replicas_refuted",
    "C37_position_statistics_refuted"
   ],
   "note": "Permutation, run invariant: proved for even numbers of replicas and outcomes as drawn. The returned sample is the replica the index points to (partial); that this is the one of inverse temperature 1 is refuted, as are odd numbers of replicas and the position statistics."
  },
  {
   "property": "C38",
   "status": "partial",
   "theorems": [
    "C38_choice",
    "C38_interval_length",
    "C38_configuration",
    "C38_samples_valid",
    "C38_buffer_irrelevant",
    "C38_zero_probability_partial",
    "C38_zero_probability_refuted"
   ],
   "note": "Valid indices, interval lengths and distribution proved; zero-probability outcomes excluded for draws > 0 (partial) and refuted for the draw 0."
  },
  {
   "property": "C39",
   "status": "partial",
   "theorems": [
    "C39_chains",
    "C39_chains_keywords",
    "C39_n_samples",
    "C39_samples_drawn",
    "C39_chain_length_partial",
    "C39_chain_length_refuted",
    "C39_n_samples_per_rank_refuted",
    "C39_sampler_change_refuted",
    "C39_discard_override_refuted"
   ],
   "note": "Constructor arithmetic and lower bounds on the samples drawn proved; getters and setters that disagree are refuted."
  },
  {
   "property": "C40",
   "status": "proved",
   "theorems": [
    "C40_mean",
    "C40_var",
    "C40_var_nonneg",
    "C40_subtract_mean",
    "C40_unequal_split_refuted"
   ],
   "note": "Arrays of equal length on every rank, as the samplers produce; unequal splits refuted separately."
  },
  {
   "property": "C41",
   "status": "proved",
   "theorems": [
    "C41_dense",
    "C41_conv1d",
    "C41_conv2d",
    "C41_network",
    "C41_dilation_refuted"
   ],
   "note": "For every kernel, bias, mask exponent and number of layers, output site i of the masked dense, 1D and 2D convolution layers depends only on inputs before i (exclusive) or up to i. C41_dilation_refuted: with a dilation larger than the chain the exclusive 1D layer returns more sites than it was given, so the theorems assume the dilation fits."
  },
  {
   "property": "C42",
   "status": "partial",
   "theorems": [
    "C42_normalised",
    "C42_normalised_dense",
    "C42_conditionals",
    "C42_chain_rule",
    "C42_other_spaces_refuted"
   ],
   "note": "Proved for Spin and Fock spaces and for all network weights. Missing: the constructor also accepts Qubit and Custom spaces, whose evaluation raises NotImplementedError (C42_other_spaces_refuted). Uses the classical real-number axioms of the standard library."
  },
  {
   "property": "C43",
   "status": "proved",
   "theorems": [
    "C43_formula",
    "C43_equivariant",
    "C43_translation_exists",
    "C43_pooled_invariant",
    "C43_duplicates_refuted"
   ],
   "note": "For every permutation group without repetitions, all weights, masks and inputs. C43_duplicates_refuted: a symmetry listed twice breaks the invariance. Matrix implementation only; the FFT implementation is not modelled."
  },
  {
   "property": "C44",
   "status": "proved",
   "theorems": [
    "C44_group_convolution",
    "C44_equivariant",
    "C44_network_invariant"
   ],
   "note": "Matrix implementation, product table as computed by the modelled PermutationGroup.product_table. C44_network_invariant covers whole networks with any pointwise activation."
  },
  {
   "property": "C45",
   "status": "proved",
   "theorems": [
    "C45_amplitude",
    "C45_translation",
    "C45_period",
    "C45_diagonal",
    "C45_diagonal_permutation"
   ],
   "note": "All tensors over any commutative ring, full and diagonal; the final logarithm is a function of the modelled amplitude."
  },
  {
   "property": "C46",
   "status": "partial",
   "theorems": [
    "C46_order",
    "C46_normalised_partial",
    "C46_normalised_iff",
    "C46_error",
    "C46_normalised_refuted",
    "C46_density_matrix"
   ],
   "note": "Amplitudes in basis order proved; norm one proved exactly when every rank but the last holds its full share of the padded states (C46_normalised_iff); 5 states on 4 ranks give a vector whose norm is not one (C46_normalised_refuted); more than twice as many ranks as states raises ValueError."
  },
  {
   "property": "C47",
   "status": "proved",
   "theorems": [
    "C47_samples_current",
    "C47_variables"
   ],
   "note": "All histories of setter, sampling and reset calls through the API."
  },
  {
   "property": "C48",
   "status": "proved",
   "theorems": [
    "C48_random",
    "C48_error",
    "C48_eigenstate",
    "C48_expectation",
    "C48_squared",
    "C48_samples"
   ],
   "note": "Under full sampling the estimate is the exact expectation value, for the operator and its square; any samples weigh configurations with their fractions. Random samples: unbiased, mean squared error, no fluctuations for eigenstates (C48_random, C48_error, C48_eigenstate)."
  },
  {
   "property": "C49",
   "status": "partial",
   "theorems": [
    "C49_random_real",
    "C49_random_complex",
    "C49_complex",
    "C49_complex_real_output",
    "C49_real_partial",
    "C49_real_output_partial",
    "C49_real_refuted"
   ],
   "note": "Complex parameters: the force is the derivative with respect to the conjugate. Real parameters: the force is exactly half of the derivative (C49_real_partial), so the full statement is refuted (C49_real_refuted). Means over random samples: C49_random_real, C49_random_complex."
  },
  {
   "property": "C50",
   "status": "partial",
   "theorems": [
    "C50_onthefly",
    "C50_pytree",
    "C50_dense_partial",
    "C50_dense_mixed_refuted",
    "C50_holomorphic",
    "C50_symmetric",
    "C50_positive",
    "C50_definite",
    "C50_hermitian",
    "C50_holomorphic_positive",
    "C50_to_dense_jacobian",
    "C50_to_dense_onthefly_real",
    "C50_to_dense_onthefly_holomorphic",
    "C50_rescaled",
    "C50_rescaled_to_dense"
   ],
   "note": "The three implementations multiply with the same symmetric, positive matrix for any spread over ranks; QGTJacobianDense raises TypeError when real and complex parameters are mixed (C50_dense_mixed_refuted), so agreement of the dense one needs homogeneous parameters. rescale_shift: shift times the diagonal of S."
  },
  {
   "property": "C51",
   "status": "partial",
   "theorems": [
    "C51_sparse_partial",
    "C51_default",
    "C51_matrix_free",
    "C51_iterative",
    "C51_method",
    "C51_dense_refuted"
   ],
   "note": "Sparse (the default): the diagonalised matrix has exactly the kernel of L and the returned state is a steady state of trace one; the iterative system has exactly the steady states of trace one as solutions. Refuted for sparse=False, where * is elementwise: for a qubit with decay and pumping the zero eigenvector is not a steady state. Eigensolver and bicgstab are oracles."
  },
  {
   "property": "C52",
   "status": "partial",
   "theorems": [
    "C52_run",
    "C52_data",
    "C52_zero",
    "C52_negative",
    "C52_steps_partial",
    "C52_steps_refuted",
    "C52_ranks",
    "C52_raised",
    "C52_advance",
    "C52_advance_add"
   ],
   "note": "run calls step/log/callbacks in order, stops on a callback, and all ranks stop together (C52_run, C52_ranks); the number of steps is n_iter when step_size divides it; refuted otherwise: run(3, step_size=2) takes 4 optimisation steps. An exception in a callback leaves the loggers unflushed (C52_raised)."
  },
  {
   "property": "C53",
   "status": "partial",
   "theorems": [
    "C53_continues_partial",
    "C53_exact",
    "C53_stops_refuted",
    "C53_nan_refuted"
   ],
   "note": "EarlyStopping never stops a run that improved within patience steps (C53_continues_partial); exact characterisation in C53_exact: min_delta is never used and ties count as improvement; hence stopping on a plateau is refuted, as is stopping once the loss is NaN."
  },
  {
   "property": "C54",
   "status": "partial",
   "theorems": [
    "C54_schedule",
    "C54_variables",
    "C54_flush",
    "C54_crash_partial",
    "C54_durable_refuted",
    "C54_serialise_refuted",
    "C54_clock_refuted",
    "C54_mode"
   ],
   "note": "Between operations, and after any crash outside the flush window, the record on disk lacks at most write_every-1 items (C54_schedule, C54_crash_partial), same for the variables; flush() makes everything durable. Durability itself is refuted: the file is truncated before it is rewritten, so a crash or a serialisation error in a flush loses all earlier data; a call when the clock has not moved since the last flush divides by zero."
  },
  {
   "property": "C55",
   "status": "partial",
   "theorems": [
    "C55_folder_partial",
    "C55_append_keeps",
    "C55_tar_partial",
    "C55_append_new_refuted",
    "C55_tar_fail_refuted",
    "C55_tar_append_new_refuted",
    "C55_closed"
   ],
   "note": "Numbering, schedule, preservation of earlier files at every crash point and the tar archive in write/append mode are proved. Refuted: append mode raises IndexError on a folder without checkpoints; a tar archive in fail mode always raises; a new tar archive in append mode raises at the first call."
  },
  {
   "property": "C56",
   "status": "partial",
   "theorems": [
    "C56_append_partial",
    "C56_run",
    "C56_new_partial",
    "C56_concatenate",
    "C56_slice",
    "C56_missing_key_refuted",
    "C56_failed_append_refuted",
    "C56_no_iteration_refuted",
    "C56_empty_refuted",
    "C56_list_refuted",
    "C56_dtype_refuted"
   ],
   "note": "Appends with a value for every key, the constructor for numbers and arrays, concatenation, slices and whole runs (C56_run) keep series aligned. Refuted: an append with a missing key succeeds misaligned; a failing append leaves partial changes; it=None raises although documented; History() and lists of values are misaligned; the dtype of the first value truncates later ones."
  },
  {
   "property": "C57",
   "status": "proved",
   "theorems": [
    "C57_never_stale",
    "C57_returns",
    "C57_frozen"
   ],
   "note": "Methods may access other cached properties and may raise; also shown: accesses terminate when the methods do, and fields never change."
  },
  {
   "property": "C58",
   "status": "partial",
   "theorems": [
    "C58_ising_sum_partial",
    "C58_bose_sum_partial",
    "C58_different_edges_refuted",
    "C58_isolated_site_refuted"
   ],
   "note": "Proved for equal edges and a last site with an edge; both restrictions refuted otherwise."
  },
  {
   "property": "C59",
   "status": "partial",
   "theorems": [
    "C59_symmetric_rule",
    "C59_beta_one",
    "C59_corrected_rule_refuted"
   ],
   "note": "Proved for symmetric rules at every beta, and for every rule at beta = 1; with a rule correction and beta <> 1 refuted (the correction is multiplied by beta)."
  },
  {
   "property": "C60",
   "status": "partial",
   "theorems": [
    "C60_roundtrip",
    "C60_other_chains_refuted"
   ],
   "note": "Proved when both states have samplers with the same number of chains; refuted when the numbers of chains differ."
  },
  {
   "property": "C61",
   "status": "partial",
   "theorems": [
    "C61_discard_partial",
    "C61_discard_refuted"
   ],
   "note": "Proved for the default and for a positive argument on a state with positive n_discard_per_chain; refuted when the state has n_discard_per_chain = 0: the argument is ignored."
  },
  {
   "property": "C62",
   "status": "proved",
   "theorems": [
    "C62_timeout",
    "C62_positive"
   ],
   "note": "The clock is an input of every call."
  },
  {
   "property": "C63",
   "status": "partial",
   "theorems": [
    "C63_tree_map_partial",
    "C63_tree_map_refuted",
    "C63_structure_refuted"
   ],
   "note": "Proved when no property has been accessed yet; refuted otherwise: the cached value is carried over to the new object, and equal objects have different tree structures."
  },
  {
   "property": "C64",
   "status": "partial",
   "theorems": [
    "C64_onthefly",
    "C64_pytree_partial",
    "C64_dense_partial",
    "C64_pytree_rescaled",
    "C64_dense_rescaled",
    "C64_holomorphic",
    "C64_unique",
    "C64_direct_pytree",
    "C64_direct_dense",
    "C64_direct_onthefly_real",
    "C64_direct_onthefly_holomorphic",
    "C64_direct_onthefly_refuted"
   ],
   "note": "Proved for all three implementations; missing: a guess x0 with complex parameters and a Jacobian QGT (raises, C65_restart_refuted), mixed parameters with QGTJacobianDense (C50_dense_mixed_refuted), direct solvers with QGTOnTheFly and non-holomorphic complex parameters (C64_direct_onthefly_refuted). Assumes that the solver is exact on the system it gets."
  },
  {
   "property": "C65",
   "status": "partial",
   "theorems": [
    "C65_inverted",
    "C65_documented_refuted",
    "C65_sequence",
    "C65_onthefly",
    "C65_restart_refuted"
   ],
   "note": "Every call returns a solution; but the guess is the opposite of the documented one (C65_inverted, C65_documented_refuted) and with solver_restart=True, a Jacobian QGT and a complex parameter every call after the first raises (C65_restart_refuted)."
  },
  {
   "property": "C66",
   "status": "proved",
   "theorems": [
    "C66_hermitian",
    "C66_positive",
    "C66_diagonal"
   ],
   "note": "C66_hermitian, C66_positive, C66_diagonal for the default activation and exact real arithmetic. The class documents that it assumes real parameters."
  },
  {
   "property": "C67",
   "status": "partial",
   "theorems": [
    "C67_log_cosh",
    "C67_log_cosh_real",
    "C67_rbm",
    "C67_modphase",
    "C67_symm",
    "C67_jastrow_partial",
    "C67_jastrow_refuted",
    "C67_multival_separates",
    "C67_multival_refuted"
   ],
   "note": "Proved: log_cosh, RBM, RBMModPhase, RBMSymm (any activation), RBMMultiVal on values 0..n_classes-1. Findings: the Jastrow exponent is twice the documented one (C67_jastrow_refuted, C67_jastrow_partial gives the true formula) because W + W^T is used without a factor 1/2; RBMMultiVal maps the negative values of a spin to zero vectors, so that it cannot tell -3 from -1 on a spin 3/2 (C67_multival_refuted). The formula documented for RBMModPhase contains a visible bias the class does not have."
  },
  {
   "property": "C68",
   "status": "proved",
   "theorems": [
    "C68_convolution",
    "C68_symm_fft",
    "C68_equivariant_fft",
    "C68_equivariant_irrep",
    "C68_order_refuted"
   ],
   "note": "Order of elements: C68_order_refuted. Completeness of the list of irreps is a hypothesis (numerically computed by the group code)."
  },
  {
   "property": "C69",
   "status": "partial",
   "theorems": [
    "C69_irrep",
    "C69_fft",
    "C69_irrep_defined",
    "C69_fft_defined",
    "C69_sign_refuted",
    "C69_equal_amplitudes",
    "C69_parity_refuted",
    "C69_parity_even",
    "C69_parity_odd_refuted",
    "C69_make_lattice",
    "C69_make_irreps",
    "C69_make_refuted"
   ],
   "note": "Transformation law proved for GCNN_FFT and GCNN_Irrep. The parity clause is false: C69_parity_refuted (every call raises for >= 2 symmetries), C69_parity_odd_refuted; proved for one symmetry and parity +1 (C69_parity_even). Values: C69_sign_refuted (NaN). Constructor: C69_make_refuted."
  },
  {
   "property": "C70",
   "status": "partial",
   "theorems": [
    "C70_keywords",
    "C70_positional1",
    "C70_positional2",
    "C70_usable",
    "C70_usable_given",
    "C70_auto_choice",
    "C70_tensor_options",
    "C70_method",
    "C70_solver_options",
    "C70_solver_options_refuted",
    "C70_unknown_option",
    "C70_rescale_refuted",
    "C70_solver_replaced_refuted",
    "C70_lazy_refuted",
    "C70_auto_cached"
   ],
   "note": "New convention proved. False: solver options of the old convention (C70_solver_options_refuted, for all objects and states), C70_lazy_refuted, C70_solver_replaced_refuted, C70_rescale_refuted. C70_auto_cached: the choice is made once per state."
  },
  {
   "property": "C71",
   "status": "partial",
   "theorems": [
    "C71_algebra",
    "C71_casimir",
    "C71_ladder",
    "C71_hermitian",
    "C71_documented_ladder_refuted",
    "C71_sigmaz_row",
    "C71_sigmap_row",
    "C71_sigmam_row",
    "C71_sigmax_row",
    "C71_sigmay_row",
    "C71_operator_commutator",
    "C71_sites_commute",
    "C71_total_magnetisation",
    "C71_sigmaz_value_refuted",
    "C71_total_sz_refuted"
   ],
   "note": "Algebra, ladder elements and sums are proved for all dimensions, sites and configurations. Refuted: sigmaz on a spin whose stored value is +1 gives -1, so the sum of all sigmaz is minus the constraint total_sz; sigmap is half of the documented sx + i sy. Commutators of operators are proved with the cutoff idealised to 0 and within the size limit of C15; dtype not modelled."
  },
  {
   "property": "C72",
   "status": "partial",
   "theorems": [
    "C72_algebra",
    "C72_destroy_row",
    "C72_create_row",
    "C72_number_row",
    "C72_proj_row",
    "C72_proj_negative_refuted"
   ],
   "note": "All relations and rows are proved; refuted: proj with a negative n projects on occupation N+n instead of being refused (below -N it is an IndexError). dtype not modelled."
  },
  {
   "property": "C73",
   "status": "partial",
   "theorems": [
    "C73_row",
    "C73_errors",
    "C73_self_loop",
    "C73_site_only_refuted",
    "C73_all_bonds_refuted",
    "C73_promotion_refuted"
   ],
   "note": "proved under exact arithmetic (no_small: numbers failing the cut-off are zero) and for uniform dtype kinds; three documented uses are refuted (site operators only, several bond operators without colours, dtype promotion)"
  },
  {
   "property": "C74",
   "status": "proved",
   "theorems": [
    "C74_row",
    "C74_conserves",
    "C74_symmetric",
    "C74_sign_rule",
    "C74_not_bipartite",
    "C74_wrong_local_size",
    "C74_pauli"
   ],
   "note": "the answer of is_bipartite (igraph) is an input; J real; exact arithmetic"
  },
  {
   "property": "C75",
   "status": "partial",
   "theorems": [
    "C75_edges",
    "C75_nodes",
    "C75_accepts",
    "C75_filter",
    "C75_doubled",
    "C75_doubled_colors_refuted"
   ],
   "note": "igraph modelled by its documented behaviour; the colours of DoubledGraph are refuted"
  },
  {
   "property": "C76",
   "status": "partial",
   "theorems": [
    "C76_honest_error",
    "C76_distributed",
    "C76_redistribution",
    "C76_defined",
    "C76_error_tau",
    "C76_affine",
    "C76_rhat_bounded",
    "C76_gelman_rubin_refuted",
    "C76_constant"
   ],
   "note": "C76_distributed, C76_redistribution, C76_defined, C76_error_tau, C76_affine and C76_honest_error settle the first part for all data. False: R_hat is always below sqrt 2 (C76_rhat_bounded), even for chains stuck at different values where Gelman and Rubin's number is infinite (C76_gelman_rubin_refuted), because the code divides by the total and not by the within-chain variance; constant data - exact eigenstates - gives NaN for error, tau and R_hat (C76_constant). Rational complex data, square roots not taken, data with more than two axes not modelled."
  },
  {
   "property": "C77",
   "status": "partial",
   "theorems": [
    "C77_ranks",
    "C77_rules",
    "C77_root_only",
    "C77_take",
    "C77_next_refuted",
    "C77_mixed",
    "C77_state_partial",
    "C77_state_refuted",
    "C77_assign_refuted"
   ],
   "note": "Uniqueness proved for all samplers, ranks and call histories, take, mixed states and two seeds; refuted for PRNGSeq.next, a single seed shared by parameters and sampler, and assigning a sampler to a seeded state. Splitting is idealised as collision-free."
  },
  {
   "property": "C78",
   "status": "partial",
   "theorems": [
    "C78_samples",
    "C78_probability",
    "C78_scale",
    "C78_zero_amplitude",
    "C78_support",
    "C78_history",
    "C78_unreset_refuted"
   ],
   "note": "Distribution, shape, support and history proved in full; the documented reset of sample_next(state=None) is refuted for all wave functions and draws."
  },
  {
   "property": "C79",
   "status": "partial",
   "theorems": [
    "C79_expectation",
    "C79_in_sync",
    "C79_power",
    "C79_assigned_power_refuted",
    "C79_keywords_refuted",
    "C79_roundtrip",
    "C79_load_refuted",
    "C79_dispatch",
    "C79_reset",
    "C79_settings"
   ],
   "note": "Expectation, synchronisation, machine_pow and round trip proved for all inputs and histories; refuted: assignment of sampler_diag, keywords n_samples_per_rank and apply_fun, purity of loading."
  },
  {
   "property": "C80",
   "status": "partial",
   "theorems": [
    "C80_value",
    "C80_gradient",
    "C80_operator_partial",
    "C80_ranks_refuted",
    "C80_is_hermitian_refuted"
   ],
   "note": "Value and gradient of expect proved for all real inputs; the operator gradient equals the derivative divided by the number of ranks (refuted on two ranks), and differs by a factor 2 from the Hermitian path. Complex-valued functions not covered."
  },
  {
   "property": "C81",
   "status": "partial",
   "theorems": [
    "C81_ehrenfest",
    "C81_real_time",
    "C81_imaginary_norm",
    "C81_imaginary_energy",
    "C81_estimate",
    "C81_unnormalised_refuted",
    "C81_real_array_frozen",
    "C81_real_array_refuted",
    "C81_create",
    "C81_advance",
    "C81_iter",
    "C81_retry_refuted",
    "C81_set_state_refuted",
    "C81_step_count_refuted",
    "C81_run_refuted",
    "C81_reset"
   ],
   "note": "Conservation laws, energy decrease, estimates and advance/iter proved for all inputs. Refuted: unnormalised states give unnormalised estimates and negative variances, real arrays never move in real time, retry after failure, assignment of state, step_count, run(). Discretisation errors of the integrator are not modelled."
  },
  {
   "property": "C82",
   "status": "partial",
   "theorems": [
    "C82_equivalence",
    "C82_hash",
    "C82_same",
    "C82_jit_partial",
    "C82_states",
    "C82_log_pdf_refuted",
    "C82_stale_refuted",
    "C82_numbers_refuted",
    "C82_no_code"
   ],
   "note": "Equivalence, hash consistency and interchangeability proved for functions capturing the same values; refuted for Sampler.log_pdf (captures machine_pow) and for arguments equal but of different type."
  },
  {
   "property": "C83",
   "status": "partial",
   "theorems": [
    "C83_vjp_real",
    "C83_vjp_holomorphic",
    "C83_vjp_mixed",
    "C83_vjp_mixed_refuted",
    "C83_vjp_complex_to_real_refuted",
    "C83_grad_partial",
    "C83_grad_same",
    "C83_aux_refuted",
    "C83_ravel",
    "C83_unravel_partial",
    "C83_unravel_refuted",
    "C83_to_real",
    "C83_dot",
    "C83_dot_empty_refuted",
    "C83_axpy",
    "C83_axpy_types",
    "C83_cast",
    "C83_cast_values",
    "C83_conj",
    "C83_dtype",
    "C83_promote"
   ],
   "note": "Proved for real inputs, holomorphic functions and uniform trees; refuted for mixed trees (real inputs lose imaginary parts), C -> R cotangents, has_aux with complex output of real inputs (always ValueError) and tree_dot of empty trees."
  },
  {
   "property": "C84",
   "status": "partial",
   "theorems": [
    "C84_bin",
    "C84_same_bin",
    "C84_order",
    "C84_mesh",
    "C84_close_refuted",
    "C84_periodic",
    "C84_density_refuted",
    "C84_periodic_same",
    "C84_approx_int",
    "C84_prune",
    "C84_atol_refuted",
    "C84_parts_refuted",
    "C84_argument_refuted",
    "C84_argument"
   ],
   "note": "Bins, order, stability on the mesh, periodicity, is_approx_int and prune_zeros with the default tolerance proved for all inputs. Refuted: closeness implies equal bins, periodicity for odd densities, the tolerance argument of prune_zeros, and leaving the argument unchanged."
  },
  {
   "property": "C85",
   "status": "partial",
   "theorems": [
    "C85_lattice",
    "C85_no_neighbours",
    "C85_translation",
    "C85_every_site_refuted",
    "C85_outside_refuted",
    "C85_outside_warning_refuted",
    "C85_offsets",
    "C85_offset_order_refuted",
    "C85_lookup",
    "C85_lookup_sound",
    "C85_lookup_found",
    "C85_lookup_refuted",
    "C85_basis_coords",
    "C85_basis_coords_invalid",
    "C85_wave",
    "C85_wave_total"
   ],
   "note": "Construction, translation invariance, cleaning of offsets, look-ups and wave vectors proved. Refuted: every offset becomes a site, offsets outside the cell are handled or warned about, order after dropping duplicates, look-up without separation of sites."
  },
  {
   "property": "C86",
   "status": "partial",
   "theorems": [
    "C86_construct",
    "C86_product",
    "C86_product_assoc",
    "C86_preimage",
    "C86_momentum",
    "C86_change_origin",
    "C86_change_origin_product",
    "C86_eq_equivalence",
    "C86_eq_sound",
    "C86_eq_complete",
    "C86_inverse",
    "C86_inverse_missing",
    "C86_table",
    "C86_table_missing",
    "C86_group_law",
    "C86_remove_duplicates",
    "C86_rotation_group",
    "C86_group_change_origin",
    "C86_group_product",
    "C86_group_eq_partial",
    "C86_group_eq_no_cell_refuted",
    "C86_group_eq_refuted",
    "C86_orthogonal_refuted",
    "C86_identity_refuted"
   ],
   "note": "Isometries, tables, group law, duplicates, rotations, origins and products proved for all inputs. Refuted: comparing two groups without unit cell always raises TypeError, equality of groups is not symmetric and can raise IndexError, nearly orthogonal matrices are accepted though products and preimages fail, Identity() differs from the identity matrix."
  },
  {
   "property": "C87",
   "status": "partial",
   "theorems": [
    "C87_point_group",
    "C87_point_group_refuted",
    "C87_permutation_refuted",
    "C87_translations",
    "C87_displacements",
    "C87_no_axes",
    "C87_translations_complete",
    "C87_space_group",
    "C87_distinct_refuted",
    "C87_edges",
    "C87_basis"
   ],
   "note": "Proved for every lattice, list of symmetries and tuple of axes, with exact rational arithmetic. Refuted: a non-symmorphic point_group is not a group (its product_table raises), symmetries not fitting the box give non-permutations silently, space_group may repeat elements. Names and displacement vectors stored in Translation are not modelled."
  },
  {
   "property": "C88",
   "status": "partial",
   "theorems": [
    "C88_little_group",
    "C88_little_group_refuted",
    "C88_subgroup",
    "C88_invalid",
    "C88_irreps",
    "C88_order",
    "C88_complex_refuted",
    "C88_dimension",
    "C88_orthogonal",
    "C88_symmorphic",
    "C88_stars",
    "C88_nonsymmorphic_refuted",
    "C88_basis"
   ],
   "note": "Little group, subgroup, rejection, entries of the table for real characters, order, dimension, orthogonality (all groups whose phases fit, in particular symmorphic) and orthogonality of different stars are proved. Refuted clauses: identity not first, complex characters, norms for non-symmorphic groups. The character table of the little group itself (numerical eigensolver) is an argument."
  },
  {
   "property": "C89",
   "status": "partial",
   "theorems": [
    "C89_operations",
    "C89_product",
    "C89_C",
    "C89_Ch",
    "C89_Cv",
    "C89_S",
    "C89_D",
    "C89_Dh",
    "C89_Dd",
    "C89_not_perpendicular",
    "C89_short_axes_refuted",
    "C89_screw",
    "C89_glide",
    "C89_planar_operations",
    "C89_planar_C",
    "C89_planar_D",
    "C89_planar_glide",
    "C89_cubic_groups",
    "C89_cubic_symmetries",
    "C89_Fd3m"
   ],
   "note": "Full for perpendicular axes; refuted clause: axes that 'need not be normalised' but are short pass the perpendicularity check without being perpendicular, and D is then not a group."
  },
  {
   "property": "C90",
   "status": "partial",
   "theorems": [
    "C90_lattice",
    "C90_single_site",
    "C90_elements",
    "C90_group",
    "C90_space_group",
    "C90_distinct_refuted"
   ],
   "note": "All clauses proved; the expectation that every element of the space group is listed once on every grid is refuted (C90_distinct_refuted: periodic side of length two), and proved for sides longer than one and periodic sides longer than two. The space group is stated for sides below 3326400 because look-ups of positions have a relative tolerance. Hypercube, Cube, Square and Chain only fill in the extent; matrices have exact entries."
  },
  {
   "property": "C91",
   "status": "partial",
   "theorems": [
    "C91_transition",
    "C91_symmetric",
    "C91_checked",
    "C91_constant_refuted",
    "C91_cutoff_refuted",
    "C91_cutoff_fault_refuted",
    "C91_merged_refuted",
    "C91_weights_refuted"
   ],
   "note": "Proved: construction, one step of all chains, symmetry, soundness of the checks. Refuted (C91_constant_refuted, C91_cutoff_refuted, C91_cutoff_fault_refuted, C91_merged_refuted, C91_weights_refuted): the constant of the operator is never checked and can make a step read past the end; matrix elements up to 1e-6 are dropped so a chain can propose a configuration of the next chain; two moves on the same sites are merged and refused; all-zero weights are accepted and always take the first move."
  },
  {
   "property": "C92",
   "status": "partial",
   "theorems": [
    "C92_value",
    "C92_complex",
    "C92_real_partial",
    "C92_real_output_partial",
    "C92_ranks_partial",
    "C92_ranks_refuted",
    "C92_real_output_refuted",
    "C92_nonholomorphic_refuted",
    "C92_kinds"
   ],
   "note": "Proved for one rank: value, holomorphic complex parameters, real parameters (update is half the derivative). Refuted: more than one rank (mean logarithmic derivative summed over ranks twice), real log-amplitude with complex matrix elements, non-holomorphic complex parameters. Mixed real/complex parameter trees raise."
  },
  {
   "property": "C93",
   "status": "partial",
   "theorems": [
    "C93_estimates",
    "C93_available",
    "C93_grad",
    "C93_override_refuted",
    "C93_grad_override_refuted",
    "C93_other_space_partial"
   ],
   "note": "Proved when is_hermitian is not given. Refuted: is_hermitian=False on a Squared operator estimates the operator itself; grad drops is_hermitian. Operators on another space return the object NotImplemented."
  },
  {
   "property": "C94",
   "status": "partial",
   "theorems": [
    "C94_environment",
    "C94_last_value",
    "C94_typed",
    "C94_define",
    "C94_update",
    "C94_bool_update",
    "C94_text_refuted",
    "C94_runtime_refuted"
   ],
   "note": "Proved for all histories: reading returns the last value written, of the declared type; words accepted from the environment are exactly the documented ones in any case. Refuted on the faithful model: update(name, '0') makes a boolean flag true although '0' in the environment means false; a flag defined with runtime=False can be updated."
  },
  {
   "property": "C95",
   "status": "partial",
   "theorems": [
    "C95_logged",
    "C95_order",
    "C95_once",
    "C95_slash_refuted",
    "C95_array_refuted"
   ],
   "note": "Proved for all histories and trees: exactly the python numbers at their positions are sent, in order, under pairwise distinct names if keys contain no slash. Refuted: keys containing slashes can collide; leaves that are not python numbers (arrays with one entry) are silently dropped. External: the writer of tensorboardX is a list of calls."
  },
  {
   "property": "C96",
   "status": "proved",
   "theorems": [
    "C96_folder",
    "C96_absent",
    "C96_tar"
   ],
   "note": "For runs that do not raise (C55 lists those that do). External: flax serialization as a pair of functions assumed, per theorem, to read back what was written; a tar archive is what it is once closed."
  },
  {
   "property": "C97",
   "status": "partial",
   "theorems": [
    "C97_local_values",
    "C97_liouvillian",
    "C97_density",
    "C97_density_empty",
    "C97_shapes",
    "C97_der_shapes",
    "C97_out",
    "C97_derivative",
    "C97_not_centered",
    "C97_batch_size",
    "C97_batch_zero",
    "C97_negative_batch_refuted",
    "C97_truthy_refuted"
   ],
   "note": "Proved: local values for wave functions, Liouvillians and density matrices, shapes, out, derivatives centred and not, independence of the batch size, batch_size=0 refused. Refuted of the code: a negative batch_size is accepted and returns uninitialised memory; center_derivative given as a true value other than True (1, numpy bool) is treated as False. Machines which are jax functions take another path (C92)."
  },
  {
   "property": "C98",
   "status": "partial",
   "theorems": [
    "C98_n_chains",
    "C98_default",
    "C98_n_chains_per_rank",
    "C98_n_chains_per_device",
    "C98_exclusive",
    "C98_exclusive_2",
    "C98_experimental",
    "C98_nearest_refuted",
    "C98_warning_refuted",
    "C98_never_warned",
    "C98_dtype_refuted",
    "C98_dtype_default",
    "C98_zero_refuted",
    "C98_samples",
    "C98_sample_next",
    "C98_configurations",
    "C98_n_steps",
    "C98_n_accepted",
    "C98_acceptance"
   ],
   "note": "Proved: independence of the devices and the order of chains in every batch, configurations, counters, acceptance, number of chains (rounded up), exclusive arguments, experimental flag. Refuted of the code: the number is rounded up, not to the nearest multiple; the warning about a changed number is never issued (compared after assignment); dtype is not passed to the devices' samplers; n_chains_per_device=0 is accepted."
  },
  {
   "property": "C99",
   "status": "partial",
   "theorems": [
    "C99_amplitude_partial",
    "C99_amplitude_refuted",
    "C99_amplitude_real",
    "C99_two_axes",
    "C99_out_partial",
    "C99_out_refuted",
    "C99_gradient",
    "C99_symmetric",
    "C99_set_get",
    "C99_set_wrong_length",
    "C99_restore",
    "C99_write_through_partial",
    "C99_write_through_refuted",
    "C99_density",
    "C99_density_symmetric",
    "C99_density_refuted",
    "C99_hidden_units",
    "C99_both_given",
    "C99_none_given",
    "C99_false_symmetries",
    "C99_one_hot",
    "C99_multi_symmetric",
    "C99_phase_value",
    "C99_phase_gradient",
    "C99_phase_set_get",
    "C99_phase_wrong_length",
    "C99_phase_atomic_refuted"
   ],
   "note": "Refuted: purely imaginary input of a hidden unit (sign 0 makes its factor 1), out with visible bias, writing through state_dict of a symmetric machine, alpha * size with symmetries, atomic assignment of RbmSpinPhase. The rest is proved for all inputs; numba compilation and graphs as automorphisms are not modelled."
  },
  {
   "property": "C100",
   "status": "partial",
   "theorems": [
    "C100_sgd",
    "C100_momentum",
    "C100_adagrad",
    "C100_rmsprop",
    "C100_adadelta",
    "C100_amsgrad",
    "C100_adamax_partial",
    "C100_adamax_refuted",
    "C100_settings",
    "C100_decay_refuted",
    "C100_in_place",
    "C100_failed_update_refuted",
    "C100_poisoned_refuted",
    "C100_reset_partial",
    "C100_reset_refuted",
    "C100_reset_size_refuted",
    "C100_adadelta_l2_refuted",
    "C100_rmsprop_doc_refuted",
    "C100_amsgrad_doc_refuted",
    "C100_momentum_doc_refuted",
    "C100_make_partial",
    "C100_make_amsgrad_refuted",
    "C100_make_jax_refuted",
    "C100_wrap",
    "C100_wrap_refuted"
   ],
   "note": "The seven rules are proved for all histories. Refuted by the code: decay factors below 1 are refused although documented; AdaMax accepts beta1 = 1 and then never updates; a failing update changes the state of the optimizer (Sgd's rate, the type of Momentum's average, which even a reset does not repair); AdaGrad and AdaDelta cannot be reset; a reset optimizer keeps its number of parameters; AdaDelta ignores l2reg; AmsGrad() ignores all its settings; for jax machines regularization and decay are dropped and parameters changed by the user are forgotten; the documented formulas of RmsProp, AmsGrad and Momentum differ from the code."
  },
  {
   "property": "C101",
   "status": "partial",
   "theorems": [
    "C101_amplitude_plain",
    "C101_amplitude_symmetric",
    "C101_documented_sum_refuted",
    "C101_gradient",
    "C101_invariance_partial",
    "C101_invariance_refuted",
    "C101_out_partial",
    "C101_out_refuted",
    "C101_fresh_partial",
    "C101_fresh_refuted",
    "C101_parameters",
    "C101_parameter_count",
    "C101_constructor",
    "C101_too_many_sites",
    "C101_too_few_sites_refuted",
    "C101_jacobian_product",
    "C101_jacobian_product_shapes",
    "C101_jacobian_product_chains_partial",
    "C101_jacobian_product_chains_refuted",
    "C101_to_array",
    "C101_to_array_plain",
    "C101_log_norm",
    "C101_not_indexable",
    "C101_save_load",
    "C101_load_other",
    "C101_save_stopped_refuted"
   ],
   "note": "Refuted: documented sum over all pairs, invariance with visible bias, initial visible bias, out with bias, too few sites, chains in vector_jacobian_prod, crash during save."
  },
  {
   "property": "C102",
   "status": "proved",
   "theorems": [
    "C102_converges_iff",
    "C102_local_rule",
    "C102_local_rule_numpy",
    "C102_parity_locked",
    "C102_local_rule_always_refuted",
    "C102_exchange_rule",
    "C102_exchange_rule_always_refuted",
    "C102_hamiltonian_rule",
    "C102_averages",
    "C102_local_rule_averages"
   ],
   "note": "Rounding, and wave functions with zeros, are outside (as in C33). 'Converges for every wave function' is refuted for LocalRule on two-valued sites with constant |psi| and for ExchangeRule with all values different; the iff statements name exactly these cases."
  },
  {
   "property": "C103",
   "status": "partial",
   "theorems": [
    "C103_step",
    "C103_unbiased",
    "C103_nll",
    "C103_nll_normalised",
    "C103_probabilities",
    "C103_nll_nonnegative",
    "C103_impossible_data",
    "C103_nll_infinite",
    "C103_any_machine_refuted",
    "C103_sizes",
    "C103_sizes_errors_partial",
    "C103_sizes_errors_refuted"
   ],
   "note": "Everything is proved for machines that write into the array they are given (all numpy machines). Two clauses are refuted: with a machine whose vector_jacobian_prod ignores `out` (legacy jax machines) the update is uninitialised memory (C103_any_machine_refuted), and n_samples_data <= 0 raises NameError instead of ValueError (C103_sizes_errors_refuted). Exact arithmetic, amplitudes nowhere zero."
  },
  {
   "property": "C104",
   "status": "partial",
   "theorems": [
    "C104_vmc_step",
    "C104_vmc_exact",
    "C104_vmc_mean",
    "C104_steady_step",
    "C104_steady_exact",
    "C104_steady_mean",
    "C104_estimate_partial",
    "C104_estimate_refuted",
    "C104_discard_partial",
    "C104_discard_refuted",
    "C104_sizes",
    "C104_sizes_errors",
    "C104_observables_partial",
    "C104_observables_refuted"
   ],
   "note": "Full for the drivers' directions: C104_vmc_step/exact/mean, C104_steady_step/exact/mean. Partial because three clauses are false of the code: estimate_expectations' gradient is too large by the number of chains and not summed over ranks (C104_estimate_refuted), n_discard=0 discards a tenth (C104_discard_refuted), and the defaults for the observables' sampler of SteadyState raise TypeError / AttributeError and its n_discard_obs is ignored (C104_observables_refuted)."
  },
  {
   "property": "C105",
   "status": "partial",
   "theorems": [
    "C105_run",
    "C105_returns",
    "C105_lag",
    "C105_modes",
    "C105_append",
    "C105_overshoot_refuted",
    "C105_ranks_refuted",
    "C105_crash_refuted",
    "C105_unserialisable_refuted",
    "C105_list_refuted",
    "C105_reset_refuted"
   ],
   "note": "C105_run (updates, looks, veto, final files, all intermediate disks), C105_returns, C105_lag, C105_modes and C105_append are proved. Refuted: a run makes n updates (C105_overshoot_refuted), all ranks stop together (C105_ranks_refuted), the log survives a crash (C105_crash_refuted) or an entry json cannot serialise (C105_unserialisable_refuted), observables may be a list (C105_list_refuted), reset works (C105_reset_refuted)."
  },
  {
   "property": "C106",
   "status": "partial",
   "theorems": [
    "C106_reduce",
    "C106_mean",
    "C106_refuses",
    "C106_lost",
    "C106_transposed_refuted",
    "C106_one",
    "C106_bcast",
    "C106_bcast_refuses",
    "C106_gather",
    "C106_one_root_refuted",
    "C106_one_gather_refuted",
    "C106_version"
   ],
   "note": "C106_reduce, C106_mean, C106_one, C106_bcast, C106_bcast_refuses, C106_gather and C106_version are proved; C106_refuses and C106_lost say what happens to every other layout. Refuted: an array that is neither contiguous nor equally spaced, such as a transposed matrix, is returned unreduced on every rank without a message (C106_lost, C106_transposed_refuted); on one rank mpi_bcast accepts any root while mpi_bcast_jax asserts (C106_one_root_refuted) and mpi_allgather returns the value instead of a list (C106_one_gather_refuted)."
  },
  {
   "property": "C107",
   "status": "partial",
   "theorems": [
    "C107_update_partial",
    "C107_exists",
    "C107_unique",
    "C107_descent",
    "C107_uninitialised",
    "C107_not_converged",
    "C107_options_default",
    "C107_options_named",
    "C107_options_sound",
    "C107_options_unknown",
    "C107_real_dense_ranks_refuted",
    "C107_cholesky_refuted",
    "C107_scaled_refuted"
   ],
   "note": "Proved for complex parameters (all solvers), real parameters with iterative solvers on any number of ranks, and real parameters with lstsq on one rank. Refuted: real parameters with dense solvers on several ranks (own samples only, ranks diverge), Cholesky with real parameters and a complex matrix, scale-invariant regularisation."
  },
  {
   "property": "C108",
   "status": "partial",
   "theorems": [
    "C108_matrix",
    "C108_matrix_exists",
    "C108_density_matrix",
    "C108_array_trace",
    "C108_array_length",
    "C108_array_norm_partial",
    "C108_array_bare_partial",
    "C108_array_true_refuted",
    "C108_array_false_refuted",
    "C108_matrix_false_refuted",
    "C108_not_indexable",
    "C108_log_trace_partial",
    "C108_log_trace_refuted",
    "C108_diagonal",
    "C108_spin_defined",
    "C108_spin_hermitian",
    "C108_spin_diagonal",
    "C108_spin_positive_partial",
    "C108_spin_positive_refuted",
    "C108_phase_defined",
    "C108_phase_hermitian",
    "C108_phase_diagonal",
    "C108_phase_positive_partial",
    "C108_phase_positive_refuted",
    "C108_phase_no_bias_refuted",
    "C108_rbm_joined",
    "C108_rbm_automorphisms_refuted"
   ],
   "note": "Refuted: log_trace (exp of the sum instead of the sum of exps: always too small for two or more states), trace one of to_array(normalize=True) (Euclidean norm one instead), bare values with normalize=False (to_array is off by exp(-greatest quantum number), to_matrix ignores the argument), positivity of NdmSpin and NdmSpinPhase if the input of a mixing unit is purely imaginary (the code gives cosh = 1 there), NdmSpinPhase without hidden biases (TypeError), RbmSpin with automorphisms (NameError). Floating point is exact; flax wrappers, batches, initialisation and derivatives are not modelled."
  },
  {
   "property": "C109",
   "status": "partial",
   "theorems": [
    "C109_natural",
    "C109_plain",
    "C109_stationary",
    "C109_real",
    "C109_steps",
    "C109_vmc_init",
    "C109_refused",
    "C109_steady_init",
    "C109_steady_space_refuted",
    "C109_shared_refuted",
    "C109_info_refuted"
   ],
   "note": "Refuted: SteadyState does not compare the spaces; sr_restart is written into the caller's preconditioner, so it changes drivers built before; info() raises AttributeError (it reads an attribute that does not exist). Optimizers other than plain gradient descent, random samples in the forces and floating point are outside."
  },
  {
   "property": "C110",
   "status": "partial",
   "theorems": [
    "C110_local",
    "C110_local_move",
    "C110_local_random",
    "C110_exchange",
    "C110_exchange_move",
    "C110_clusters",
    "C110_hamiltonian_batch",
    "C110_hamiltonian_partial",
    "C110_hamiltonian_refuted",
    "C110_init",
    "C110_sweep",
    "C110_values",
    "C110_values_refuted",
    "C110_acceptance_partial",
    "C110_sweep_size_refuted",
    "C110_generate",
    "C110_samples_refuted",
    "C110_chains_refuted",
    "C110_chains_state",
    "C110_replicas",
    "C110_replica_moves",
    "C110_replica_exchange_partial",
    "C110_replica_exchange_refuted",
    "C110_replica_stats",
    "C110_set_replicas_refuted",
    "C110_fresh_numbers",
    "C110_exact",
    "C110_exact_refuted"
   ],
   "note": "The local and the exchange kernel leave |psi|^p unchanged for all real p, moves and clusters are as documented; every sweep decides by the documented test as long as the sampler was reset since parameters or number of chains changed (proved over all histories); construction, acceptance within [0,1], generate_samples; parallel tempering: temperatures permuted, cold replica tracked, tests at fixed temperature, exchanges of an even number of replicas by the joint weight, statistics; exact sampler after a reset. Refuted: the Hamiltonian kernel leaves |psi|^p N^(1-p) unchanged and not |psi|^2 at the default power; log-values are stale after the parameters change without a reset; list(samples(n)) repeats the last configurations; generate_samples raises ValueError after n_chains was changed; a refused negative sweep_size is used; exchanges of three replicas use another test; after setting n_replicas the wrong replica is returned or IndexError is raised; ExactSampler keeps old probabilities."
  },
  {
   "property": "C111",
   "status": "partial",
   "theorems": [
    "C111_support",
    "C111_uniform_partial",
    "C111_uniform_refuted",
    "C111_uniform_spin_refuted",
    "C111_multinomial",
    "C111_not_uniform_refuted",
    "C111_legacy_support",
    "C111_legacy_uniform_partial",
    "C111_legacy_fock",
    "C111_legacy_fock_refuted",
    "C111_legacy_fock_zero",
    "C111_legacy_tensor",
    "C111_constrained_custom",
    "C111_dispatch"
   ],
   "note": "Exactly the configurations of the space have positive probability, for all spaces (C111_support). The uniform distribution is proved when constrained factors have two local values (spin 1/2, hard-core bosons) and false otherwise: Fock spaces with a particle number follow the multinomial law (C111_multinomial), so one configuration is p times as likely as another (C111_not_uniform_refuted); the same for spin 1 with fixed magnetisation. The deprecated random_state() of a Fock space without particle number never fills a site to n_max and raises ValueError for n_max = 0; tensor products have none."
  },
  {
   "property": "C112",
   "status": "partial",
   "theorems": [
    "C112_dense",
    "C112_general_partial",
    "C112_last_axes",
    "C112_first_axis",
    "C112_axis_refuted",
    "C112_axis_raises_refuted",
    "C112_batch_dims",
    "C112_init_refuted",
    "C112_dtype_refuted"
   ],
   "note": "Dense is proved in full, DenseGeneral for trailing axes and any leading batch dimensions. Refuted: with other axes the bias is broadcast along the wrong dimension (C112_axis_refuted) or the call raises TypeError (C112_axis_raises_refuted), because dimensions are inserted at the positions of the input, while the features come last; all batch members start from the same weights (C112_init_refuted); parameters of DenseGeneral are float64 whatever dtype (C112_dtype_refuted)."
  },
  {
   "property": "C113",
   "status": "partial",
   "theorems": [
    "C113_vjp",
    "C113_vjp_mixed",
    "C113_vjp_c_to_r",
    "C113_grad",
    "C113_stored",
    "C113_product_iff",
    "C113_onthefly_complex",
    "C113_onthefly_real_partial",
    "C113_onthefly_refuted",
    "C113_positive_refuted",
    "C113_mixed_refuted",
    "C113_no_machine",
    "C113_modes_exclude",
    "C113_setup_refuted",
    "C113_options",
    "C113_options_refuted"
   ],
   "note": "Proved: vjp/grad, the stored-derivative updates for every run, on-the-fly updates for complex parameters, and exactly when the on-the-fly product is right (C113_product_iff). Refuted: for real parameters with complex log psi the on-the-fly mean derivative loses its imaginary part, so S gets the square of the mean phase gradient added and the update differs from the stored one (C113_onthefly_refuted); with real and complex parameters the on-the-fly operator is not positive and the stored one gives a real parameter a complex update; set up for another machine it keeps the old start and fails; gmres/minres raise the Warning instead of defaulting to cg, jaxcg is listed and rejected."
  },
  {
   "property": "C114",
   "status": "partial",
   "theorems": [
    "C114_init",
    "C114_generate",
    "C114_next",
    "C114_reset",
    "C114_local_all_proposals",
    "C114_exchange_all_proposals",
    "C114_local_all_states",
    "C114_local_confined",
    "C114_exchange_confined",
    "C114_local_keys",
    "C114_exchange_keys",
    "C114_local_reproducible",
    "C114_exchange_reproducible",
    "C114_local_start",
    "C114_exchange_start_refuted",
    "C114_chains_refuted",
    "C114_chains_later_refuted",
    "C114_sweep_size_refuted",
    "C114_no_samples_refuted"
   ],
   "note": "Proved: construction, generate_samples/next as Metropolis chains at the current parameters, confinement for both kernels over all histories, unrelated keys and dependence on these keys only. Refuted: exchange chains start from one common configuration; n_chains cannot be changed (AssertionError with the sampler modified); sweep_size <= 0 takes effect; generate_samples(0) neither returns an array nor resets."
  },
  {
   "property": "C115",
   "status": "partial",
   "theorems": [
    "C115_deprecated",
    "C115_renamed",
    "C115_warning_errors",
    "C115_dispatch_partial",
    "C115_dispatch_refuted",
    "C115_optim",
    "C115_optim_other",
    "C115_optim_own",
    "C115_graph",
    "C115_graph_refuted",
    "C115_acceptance",
    "C115_acceptance_refuted",
    "C115_lattice",
    "C115_lattice_negative",
    "C115_lattice_outside",
    "C115_lattice_refuted",
    "C115_hide",
    "C115_export"
   ],
   "note": "Proved for the wrappers, netket.optim, the graph argument, acceptance_ratio, old lattice methods and module hiding. Refuted: dispatch on a machine given by keyword (IndexError), graph beside an explicit N=1, acceptance_ratio before any step, vector_to_site(site_to_vector(i)) = i."
  },
  {
   "property": "C116",
   "status": "partial",
   "theorems": [
    "C116_terms_partial",
    "C116_rows_partial",
    "C116_one_matrix",
    "C116_one_number",
    "C116_one_type",
    "C116_floating_type",
    "C116_flat_list",
    "C116_nested_matrix",
    "C116_number_among_lists",
    "C116_first_type",
    "C116_real_then_complex",
    "C116_order_refuted",
    "C116_precision_refuted",
    "C116_constant_refuted",
    "C116_checked",
    "C116_negative_site_refuted",
    "C116_sizes_partial",
    "C116_unsorted_size_refuted",
    "C116_merged_size_refuted",
    "C116_excess_matrices",
    "C116_excess_sites",
    "C116_all_used_refuted",
    "C116_conjugate_type_partial",
    "C116_conjugate_type_refuted"
   ],
   "note": "Proved: well-formed lists give the sum of the terms in the given type or the type of the first matrix; forms that do not belong together are errors; accepted non-negligible matrices have sites in range; sizes are checked for increasing sites that are new. Refuted: the promotion with the further matrices is thrown away (line 252), so a real matrix followed by a complex one is a ValueError though the other order works, double precision is stored in single precision, a complex constant in a real operator; oversized matrices are cut down for sites not in increasing order, any size is accepted on sites that already have a matrix; matrices in excess or without sites are dropped silently; a vanishing matrix may have negative sites; conjugate() of a complex constant is of real type."
  },
  {
   "property": "C117",
   "status": "partial",
   "theorems": [
    "C117_plus",
    "C117_minus",
    "C117_plus_accepted",
    "C117_minus_accepted_partial",
    "C117_minus_special_refuted",
    "C117_times_partial",
    "C117_matmul_partial",
    "C117_times_exchanged",
    "C117_matmul_exchanged",
    "C117_product_refuted",
    "C117_special_products",
    "C117_special_square",
    "C117_special_product_refuted",
    "C117_spaces_refuted",
    "C117_divide",
    "C117_divide_zero",
    "C117_special_divide_refuted",
    "C117_in_place_sums",
    "C117_in_place_products"
   ],
   "note": "Proved: sums and differences are right whenever accepted and accepted exactly for the supported pairs (Local - Special excepted); products by * and @ are right except Local * Special; in-place forms agree with plain ones; division. Refuted: LocalOperator @ Ising and LocalOperator * Ising give the factors in the other order (proved for all operands); LocalOperator - Ising is a TypeError although the sum works; Ising * Ising is a TypeError although Ising @ Ising works; operators on different spaces can be multiplied; Ising / 2 is a TypeError."
  },
  {
   "property": "C118",
   "status": "partial",
   "theorems": [
    "C118_coloured_edges",
    "C118_plain_edges",
    "C118_default_nodes",
    "C118_no_edges",
    "C118_bad_edges",
    "C118_bad_node",
    "C118_no_sequence",
    "C118_well_formed",
    "C118_round_trip",
    "C118_edges",
    "C118_filter",
    "C118_old_color",
    "C118_doubled",
    "C118_doubled_separate",
    "C118_doubled_refuted",
    "C118_union",
    "C118_automorphisms",
    "C118_group",
    "C118_distances",
    "C118_distances_refuted"
   ],
   "note": "Construction, rejection, round trip, reading, copies, union and automorphisms are proved. Two parts are refuted: DoubledGraph loses edge colours, and distances gives infinity where -1 is documented."
  },
  {
   "property": "C119",
   "status": "partial",
   "theorems": [
    "C119_flax",
    "C119_stax",
    "C119_stax_runs",
    "C119_stax_fails",
    "C119_haiku",
    "C119_haiku_runs",
    "C119_without_rng_refuted",
    "C119_transformed_refuted",
    "C119_mutable",
    "C119_no_parameters",
    "C119_params_partial",
    "C119_params_refuted",
    "C119_other_partial",
    "C119_other_refuted"
   ],
   "note": "Recognition and evaluation of flax, stax and haiku models are proved. Four parts are refuted: other models without haiku, haiku without_apply_rng, a Transformed that looks like a stax pair, and the parameters of the fallback."
  },
  {
   "property": "C120",
   "status": "partial",
   "theorems": [
    "C120_run_partial",
    "C120_item",
    "C120_item_present",
    "C120_mixed",
    "C120_shorter_refuted",
    "C120_longer_refuted"
   ],
   "note": "Proved for all runs in which no place changes its kind and sequences keep their length, with keys coming and going. Refuted for sequences that become shorter or longer."
  },
  {
   "property": "C121",
   "status": "partial",
   "theorems": [
    "C121_number",
    "C121_set_get",
    "C121_get_set",
    "C121_set_wrong",
    "C121_load",
    "C121_load_missing",
    "C121_der_log",
    "C121_backpack",
    "C121_product",
    "C121_product_conj",
    "C121_product_direct",
    "C121_gradients_cleared",
    "C121_log_cosh_value",
    "C121_log_cosh_refuted"
   ],
   "note": "Exact real arithmetic. Derivatives computed by torch autograd and BackPACK are arguments with their documented meaning. log_val, batch shapes, buffers in the state dictionary, p.grad being None, the out= arguments, TorchView and the state of the module after a failed load are not modelled. TorchLogCosh equals log(cosh) + log 2, not the documented log(cosh) (C121_log_cosh_refuted)."
  },
  {
   "property": "C122",
   "status": "partial",
   "theorems": [
    "C122_reproducible",
    "C122_more_nodes",
    "C122_different_refuted",
    "C122_propagated_refuted",
    "C122_randint_range",
    "C122_randint_uniform",
    "C122_randint_empty"
   ],
   "note": "The generator is an argument, so nothing is said about its quality; exact real arithmetic for randint; which generator numba's compiled code uses, size= of randint, uniform and choice (plain calls of numpy) are not modelled. Findings: sub-seeds may coincide (C122_different_refuted, needs more processes than values to hold for every generator), seed(None) is not propagated from node 0 (C122_propagated_refuted), an empty range is not refused (C122_randint_empty)."
  }
 ]
}