{"id": "C01", "title": "Index/state round trip of homogeneous spaces", "statement": "For an unconstrained homogeneous Hilbert space (Spin, Fock with finite n_max, Qubit, CustomHilbert) with strictly increasing local states and any number of sites, numbers_to_states and states_to_numbers are mutually inverse bijections between 0..n_states-1 and the configurations whose entries are all local states.", "quantifier": "every strictly increasing list of local states, every number of sites, every index below n_states, every configuration", "why_tests_cant": "the number of configurations is exponential in the number of sites and both parameters are unbounded; tests only enumerate a few small spaces", "anchors": ["netket/hilbert/hilbert_index.py:HilbertIndex.number_to_state", "netket/hilbert/hilbert_index.py:HilbertIndex.state_to_number", "netket/hilbert/hilbert_index.py:HilbertIndex.n_states"]}
{"id": "C02", "title": "all_states enumerates the space once, in order", "statement": "all_states of an unconstrained homogeneous space lists every configuration exactly once, in lexicographic order of the site values (site 0 most significant), and n_states is its length local_size**size.", "quantifier": "every strictly increasing local-state list and every size", "why_tests_cant": "completeness and uniqueness of an enumeration for all sizes is an inductive statement", "anchors": ["netket/hilbert/hilbert_index.py:HilbertIndex.all_states", "netket/hilbert/discrete_hilbert.py:DiscreteHilbert.all_states"]}
{"id": "C03", "title": "Constrained spaces index exactly the configurations that satisfy the constraint", "statement": "For a constrained homogeneous space, all_states is the sub-sequence of the unconstrained enumeration that satisfies the constraint, n_states is its length, and numbers_to_states/states_to_numbers are mutually inverse between 0..n_states-1 and the configurations satisfying the constraint.", "quantifier": "every constraint predicate, every local-state list, every size", "why_tests_cant": "quantifies over arbitrary user-supplied constraint functions", "anchors": ["netket/hilbert/homogeneous.py:_to_constrained_numbers_kernel", "netket/hilbert/homogeneous.py:HomogeneousHilbert._bare_numbers", "netket/hilbert/homogeneous.py:HomogeneousHilbert._to_bare_numbers"]}
{"id": "C04", "title": "states_to_numbers never assigns a number to a configuration outside the space", "statement": "states_to_numbers either raises or returns the index of the given configuration; in particular a configuration violating the constraint is rejected, never silently mapped to the index of some other configuration.", "quantifier": "every constrained space and every configuration made of local states but violating the constraint", "why_tests_cant": "the failing inputs are those the test-suite does not think of; absence of silent misindexing is a universal statement", "anchors": ["netket/hilbert/homogeneous.py:_to_constrained_numbers_kernel", "netket/hilbert/discrete_hilbert.py:DiscreteHilbert.states_to_numbers"]}
{"id": "C05", "title": "Tensor-product spaces: mixed-radix round trip", "statement": "For a TensorHilbert built from any list of indexable factors, n_states is the product of the factors' n_states, and numbers_to_states/states_to_numbers are mutually inverse and agree with the per-factor indices read as mixed-radix digits (first factor most significant).", "quantifier": "every list of factor spaces, every index, every configuration", "why_tests_cant": "arbitrary nesting and arbitrary factor dimensions", "anchors": ["netket/hilbert/tensor_hilbert.py:TensorHilbert._numbers_to_states", "netket/hilbert/tensor_hilbert.py:TensorHilbert._states_to_numbers", "netket/hilbert/tensor_hilbert.py:TensorHilbert.n_states"]}
{"id": "C06", "title": "Doubled (density-matrix) spaces: row/column indexing", "statement": "For a DoubledHilbert over any indexable physical space H, n_states = n_states(H)^2, the number of (row, col) is row_number*n_states(H)+col_number, and the two conversions are mutually inverse; hence reshaping a dense vector to (N,N) puts rho(row,col) at entry [row,col].", "quantifier": "every physical space, every pair of configurations, every index", "why_tests_cant": "arbitrary physical space", "anchors": ["netket/hilbert/doubled_hilbert.py:DoubledHilbert.numbers_to_states", "netket/hilbert/doubled_hilbert.py:DoubledHilbert.states_to_numbers", "netket/nn/utils.py:to_matrix"]}
{"id": "C07", "title": "Invalid indices are rejected", "statement": "numbers_to_states raises for every number outside 0..n_states-1.", "quantifier": "every space and every integer", "why_tests_cant": "all integers, including negative ones", "anchors": ["netket/hilbert/discrete_hilbert.py:DiscreteHilbert.numbers_to_states", "netket/hilbert/hilbert_index.py:HilbertIndex.number_to_state"]}
{"id": "C08", "title": "Tensor powers and products of spaces have the right size and local states", "statement": "H**n has n*size(H) sites and, for unconstrained H, is the space whose configurations are the n-fold concatenations of configurations of H; H**n is available for every homogeneous H.", "quantifier": "every homogeneous space H (constrained or not) and every n >= 1", "why_tests_cant": "parametrised over all spaces and all powers", "anchors": ["netket/hilbert/fock.py:Fock.__pow__", "netket/hilbert/spin.py:Spin.__pow__", "netket/hilbert/qubit.py:Qubit.__pow__", "netket/hilbert/custom_hilbert.py:CustomHilbert.__pow__"]}
{"id": "C09", "title": "Partial trace removes exactly the requested sites", "statement": "ptrace(sites) on Fock/Spin/Qubit/TensorHilbert returns the space of the sites not listed, in their original order, for any list of distinct valid sites.", "quantifier": "every space, every list of sites", "why_tests_cant": "all subsets of sites in any order", "anchors": ["netket/hilbert/fock.py:Fock.ptrace", "netket/hilbert/spin.py:Spin.ptrace", "netket/hilbert/tensor_hilbert.py:TensorHilbert.ptrace"]}
{"id": "C10", "title": "flip_state changes exactly the chosen site to a different local state", "statement": "For every configuration of the space, every site and every value of the random draw, flip_state returns a configuration that differs only at that site, the new value is a local state different from the old one, and every other local state is reached by exactly one value of the draw (so the proposal is uniform).", "quantifier": "every space (Spin, Fock, Qubit, CustomHilbert), every configuration, site and random draw", "why_tests_cant": "quantifies over all random outcomes; uniformity is a counting statement", "anchors": ["netket/hilbert/random/fock.py:flip_state_scalar", "netket/hilbert/random/spin.py:flip_state_scalar", "netket/hilbert/random/custom.py:flip_state_scalar", "netket/hilbert/random/qubit.py:flip_state_scalar"]}
{"id": "C11", "title": "Random constrained states satisfy the constraint", "statement": "random_state of Fock with n_particles and of Spin with total_sz returns, for every outcome of the random generator, configurations of the space that satisfy the constraint (particle number / magnetisation, and the occupation cut-off).", "quantifier": "every size, cut-off, particle number / magnetisation and every random stream", "why_tests_cant": "all outcomes of the random generator", "anchors": ["netket/hilbert/random/fock.py:_random_states_with_constraint_fock", "netket/hilbert/random/spin.py:_random_states_with_constraint"]}
{"id": "C12", "title": "LocalOperator connected elements give the matrix row", "statement": "For any LocalOperator given as a list of (sites, matrix) terms plus a constant, and any configuration x, the elements returned by get_conn sum, for every configuration x', to the matrix element <x|O|x'> of the sum of the embedded local matrices (entries not larger than the cut-off dropped); in particular no off-diagonal element is lost or duplicated.", "quantifier": "every list of terms (any supports, any matrices), every Hilbert space, every pair x, x'", "why_tests_cant": "functional correctness of a kernel over all operators and configurations", "anchors": ["netket/operator/_local_operator.py:LocalOperator._get_conn_flattened_kernel", "netket/operator/_local_operator.py:LocalOperator._append_matrix"]}
{"id": "C13", "title": "The order in which sites are listed does not matter", "statement": "LocalOperator(hi, M, acting_on) with acting_on in any order represents the matrix M acting on those sites in that order: permuting acting_on is accounted for by the corresponding permutation of the tensor legs of M.", "quantifier": "every matrix, every list of distinct sites in any order, homogeneous and inhomogeneous local dimensions", "why_tests_cant": "all permutations and all local dimensions", "anchors": ["netket/operator/_local_operator.py:_reorder_kronecker_product", "netket/operator/_local_operator.py:LocalOperator.__add_new_operator__"]}
{"id": "C14", "title": "LocalOperator addition and scalar multiplication are linear", "statement": "The dense matrix of A+B is the sum of the matrices of A and B, of c*A is c times the matrix of A, of A+c is matrix plus c times identity, including when supports coincide and terms are merged.", "quantifier": "every pair of operators on the same space, every scalar", "why_tests_cant": "algebraic law over all operators", "anchors": ["netket/operator/_local_operator.py:LocalOperator._add_operator", "netket/operator/_local_operator.py:LocalOperator.__imul__", "netket/operator/_local_operator.py:LocalOperator.__iadd__"]}
{"id": "C15", "title": "LocalOperator products represent matrix products", "statement": "The dense matrix of A@B is the matrix product, for terms with disjoint, equal or partially overlapping supports and with constants.", "quantifier": "every pair of operators on the same (homogeneous) space", "why_tests_cant": "algebraic law over all operators and support patterns", "anchors": ["netket/operator/_local_operator.py:LocalOperator._concrete_imatmul_", "netket/operator/_local_operator.py:_multiply_operator"]}
{"id": "C16", "title": "In-place multiplication of an operator with itself equals the out-of-place product", "statement": "A @= A leaves A equal to A @ A.", "quantifier": "every LocalOperator with any constant", "why_tests_cant": "depends on object identity of the two operands, which value-based tests do not exercise", "anchors": ["netket/operator/_local_operator.py:LocalOperator._concrete_imatmul_"]}
{"id": "C17", "title": "is_hermitian and .H are truthful", "statement": "If is_hermitian is True the dense matrix equals its conjugate transpose, and O.H always represents the conjugate transpose, after any sequence of constructions, additions and scalar multiplications.", "quantifier": "every operator built by any history of operations", "why_tests_cant": "histories of operations are unbounded", "anchors": ["netket/operator/_local_operator.py:LocalOperator.is_hermitian", "netket/operator/_local_operator.py:LocalOperator.__imul__", "netket/operator/_abstract_operator.py:AbstractOperator.H"]}
{"id": "C18", "title": "Operators do not share matrices with each other or with the caller", "statement": "Building or modifying an operator never changes the matrices passed by the caller nor any other operator; in particular LocalOperator(hi,[m,m,m],[[0],[0],[0]]) is 3*m on site 0.", "quantifier": "every history of constructor calls and in-place updates over shared arrays", "why_tests_cant": "aliasing histories", "anchors": ["netket/operator/_local_operator.py:LocalOperator.__add_new_operator__", "netket/operator/_graph_operator.py:GraphOperator.__init__"]}
{"id": "C19", "title": "get_conn_flattened, get_conn_padded, n_conn and max_conn_size agree", "statement": "The flattened sections are non-decreasing and delimit each sample's elements; the padded version contains the same elements per sample followed by zero-weight entries; n_conn returns the number of elements; max_conn_size bounds it.", "quantifier": "every operator and every batch of configurations", "why_tests_cant": "all batches, including empty rows", "anchors": ["netket/operator/_abstract_operator.py:AbstractOperator.get_conn_padded", "netket/operator/_abstract_operator.py:AbstractOperator.n_conn", "netket/operator/_local_operator.py:LocalOperator.max_conn_size"]}
{"id": "C20", "title": "get_conn never writes outside its buffers", "statement": "The LocalOperator connection kernel writes only inside the arrays it allocated, for every operator and batch.", "quantifier": "every operator (with or without diagonal part) and every batch", "why_tests_cant": "numba does not bounds-check; memory errors are silent in tests", "anchors": ["netket/operator/_local_operator.py:LocalOperator._get_conn_flattened_kernel"]}
{"id": "C21", "title": "Ising connected elements", "statement": "On a spin-1/2 space the elements returned by Ising.get_conn for x are exactly those of -h sum_i sx_i + J sum_(i,j) sz_i sz_j: one diagonal element and one element -h per site with that site flipped.", "quantifier": "every graph, h, J and configuration", "why_tests_cant": "all graphs and configurations", "anchors": ["netket/operator/_hamiltonian.py:Ising._flattened_kernel", "netket/operator/_hamiltonian.py:Ising.n_conn"]}
{"id": "C22", "title": "Bose-Hubbard elements conserve particle number and match the documented Hamiltonian", "statement": "Every configuration connected by BoseHubbard has the same particle number and occupations in 0..n_max; the connection relation and amplitudes are symmetric; to_local_operator represents the same operator as get_conn.", "quantifier": "every graph, U, V, J, mu, n_max and configuration", "why_tests_cant": "all graphs and occupation configurations", "anchors": ["netket/operator/_hamiltonian.py:BoseHubbard._flattened_kernel", "netket/operator/_hamiltonian.py:BoseHubbard.to_local_operator"]}
{"id": "C23", "title": "PauliStrings connected elements", "statement": "The elements PauliStrings lists for x add up, for every configuration x', to the matrix element <x|O|x'> of the weighted sum of the given tensor products of Pauli matrices, also when several strings act with X/Y on the same sites or strings are repeated; every listed element is non-zero and no row is longer than max_conn_size; the constructor accepts exactly the well-formed lists and is_hermitian is only true of Hermitian sums.", "quantifier": "every list of strings and weights, every qubit configuration", "why_tests_cant": "all lists of strings of all lengths", "anchors": ["netket/operator/_pauli_strings.py:PauliStrings._flattened_kernel", "netket/operator/_pauli_strings.py:PauliStrings.__init__"]}
{"id": "C24", "title": "Lazy transpose/adjoint wrappers obey the algebra of transposition", "statement": "A.T.T, A.H.H and A.conj().conj() are A; A.H = A.T.conj() = A.conj().T; collect() of a lazy wrapper has the matrix its name says.", "quantifier": "every operator and every nesting of wrappers", "why_tests_cant": "arbitrary nesting", "anchors": ["netket/operator/_lazy.py:Transpose", "netket/operator/_lazy.py:Adjoint", "netket/operator/_lazy.py:Squared"]}
{"id": "C25", "title": "Lindbladian connected elements implement the master equation", "statement": "The elements of LocalLiouvillian for (row, col) sum to -i(H_nh rho) + i(rho H_nh^dagger) + sum_k L_k rho L_k^dagger with H_nh = H - i/2 sum_k L_k^dagger L_k; batched and single-sample interfaces agree.", "quantifier": "every Hamiltonian, jump operators and batch of configurations", "why_tests_cant": "all operators and batches", "anchors": ["netket/operator/_local_liouvillian.py:LocalLiouvillian.get_conn", "netket/operator/_local_liouvillian.py:LocalLiouvillian.get_conn_flattened", "netket/operator/_local_liouvillian.py:LocalLiouvillian._compute_hnh"]}
{"id": "C26", "title": "to_sparse/to_dense has entry [i,j] equal to the connected element from state i to state j", "statement": "The matrix built by to_sparse from the flattened connections has at [i,j] the total weight that get_conn of configuration i assigns to configuration j.", "quantifier": "every operator and every indexable space", "why_tests_cant": "all operators", "anchors": ["netket/operator/_abstract_operator.py:AbstractOperator.to_sparse"]}
{"id": "C27", "title": "Permutation groups act as groups", "statement": "For permutations p, q of the same sites, (p@q) applied to any array equals p applied to (q applied to it); the inverse table of a group points to the inverse element; product_table[i,j] is the index of g_i^-1 g_j; a set of permutations that is not a group is reported by an error, never by wrong indices.", "quantifier": "every list of permutations of every degree and every array", "why_tests_cant": "algebra over all groups", "anchors": ["netket/utils/group/_permutation_group.py:product", "netket/utils/group/_permutation_group.py:PermutationGroup.inverse", "netket/utils/group/_permutation_group.py:PermutationGroup.product_table"]}
{"id": "C28", "title": "remove_duplicates keeps one representative of each element", "statement": "remove_duplicates returns the distinct elements in order of first appearance, and with return_inverse=True the returned index array maps each original element to its representative in the returned group.", "quantifier": "every list of group elements", "why_tests_cant": "all lists with all duplication patterns", "anchors": ["netket/utils/group/_group.py:FiniteGroup.remove_duplicates", "netket/utils/group/_permutation_group.py:PermutationGroup.remove_duplicates"]}
{"id": "C29", "title": "Conjugacy classes partition the group", "statement": "conjugacy_classes returns indicator rows that partition the group, each row being exactly one class under g ~ h^-1 g h.", "quantifier": "every finite permutation group", "why_tests_cant": "all groups", "anchors": ["netket/utils/group/_group.py:FiniteGroup.conjugacy_table", "netket/utils/group/_group.py:FiniteGroup.conjugacy_classes"]}
{"id": "C30", "title": "HashableArray: equality is consistent with hashing and is an equivalence", "statement": "Two HashableArrays that compare equal have equal hashes, and equality means same shape and same entries.", "quantifier": "every pair of arrays", "why_tests_cant": "all shapes and contents", "anchors": ["netket/utils/array.py:HashableArray.__eq__", "netket/utils/array.py:HashableArray.__hash__"]}
{"id": "C31", "title": "Periodic hypercubic lattices have the expected edges", "statement": "The edges of a periodic chain of n sites are exactly {i, i+1 mod n} once each, and translations map edges to edges.", "quantifier": "every extent", "why_tests_cant": "all extents", "anchors": ["netket/graph/lattice.py:get_true_edges", "netket/graph/common_lattices.py:Chain", "netket/graph/space_group.py:SpaceGroupBuilder._translations_along_axis"]}
{"id": "C32", "title": "Metropolis chains stay in the Hilbert space and cache the right log-probability", "statement": "At every point of every run of MetropolisSampler the chain configurations belong to the Hilbert space, the cached log-probability is that of the cached configuration under the current parameters, and 0 <= n_accepted <= n_steps.", "quantifier": "every rule that proposes valid configurations, every model, every random stream, every number of sweeps and resets", "why_tests_cant": "runs are unbounded and random", "anchors": ["netket/sampler/metropolis.py:MetropolisSampler._sample_next", "netket/sampler/metropolis.py:MetropolisSampler._reset"]}
{"id": "C33", "title": "The Metropolis transition satisfies detailed balance", "statement": "With target probability |psi|^machine_pow and any proposal rule whose correction is the log-ratio of reverse to forward proposal probabilities, the transition probabilities of one accept/reject step satisfy detailed balance, hence leave the target distribution invariant.", "quantifier": "every finite space, every positive target, every proposal matrix", "why_tests_cant": "statement about exact probabilities, not samples", "anchors": ["netket/sampler/metropolis.py:MetropolisSampler._sample_next"]}
{"id": "C34", "title": "Proposal rules report the correct probability correction", "statement": "LocalRule and ExchangeRule propose symmetrically; HamiltonianRule's correction log N(s) - log N(s') equals log T(s'->s) - log T(s->s') for operators with symmetric connectivity and each connected configuration listed once.", "quantifier": "every space, cluster list, operator with symmetric connectivity, configuration", "why_tests_cant": "counting over all random draws", "anchors": ["netket/sampler/rules/local.py:LocalRule", "netket/sampler/rules/exchange.py:ExchangeRule_", "netket/sampler/rules/hamiltonian.py:HamiltonianRule"]}
{"id": "C35", "title": "ExchangeRule permutes site values", "statement": "Every proposal of ExchangeRule is a permutation of the current configuration (so total magnetisation / particle number is conserved along the whole run) and exchanging twice restores the configuration.", "quantifier": "every cluster list, every configuration, every random draw, every run", "why_tests_cant": "all runs", "anchors": ["netket/sampler/rules/exchange.py:ExchangeRule_.transition", "netket/sampler/rules/exchange.py:compute_clusters"]}
{"id": "C36", "title": "Acceptance counters describe the moves since the last reset", "statement": "After reset, n_accepted and n_steps count exactly the accepted and attempted moves performed since that reset (MetropolisSampler and MetropolisSamplerNumpy).", "quantifier": "every interleaving of reset and sample calls, every random stream, any number of MPI ranks", "why_tests_cant": "histories of calls", "anchors": ["netket/sampler/metropolis.py:MetropolisSampler._reset", "netket/sampler/metropolis_numpy.py:MetropolisSamplerNumpy._reset", "netket/sampler/metropolis_numpy.py:MetropolisSamplerNumpy._sample_next"]}
{"id": "C37", "title": "Parallel tempering exchanges replicas by a permutation", "statement": "Each inverse-temperature exchange of the parallel tempering sampler permutes the inverse temperatures among the replicas of a chain, and the sample returned for a chain is the configuration of its replica of inverse temperature 1.", "quantifier": "every even number of replicas and every outcome of the swap decisions", "why_tests_cant": "all random outcomes", "anchors": ["netket/sampler/metropolis_pt.py:MetropolisPtSampler._sample_next"]}
{"id": "C38", "title": "Direct autoregressive sampling only produces configurations of positive probability, with the model's distribution", "statement": "For every uniform draw in [0,1) the categorical choice returns a valid local-state index; the set of draws selecting index i is an interval of length p_i; an index of probability zero is never selected.", "quantifier": "every probability vector and every draw", "why_tests_cant": "all probability vectors including those with zeros", "anchors": ["netket/sampler/autoreg.py:batch_choice", "netket/sampler/autoreg.py:ARDirectSampler._sample_chain"]}
{"id": "C39", "title": "Requested numbers of chains and samples are met", "statement": "For any number of MPI ranks, the sampler runs at least the requested number of chains and fewer than requested + ranks; MCState draws at least the requested number of samples, a multiple of the number of chains and fewer than requested + chains; reading back n_samples_per_rank and chain_length gives what was set.", "quantifier": "every requested number, every number of ranks and chains", "why_tests_cant": "all rank counts; tests run on one rank", "anchors": ["netket/sampler/base.py:Sampler.__pre_init__", "netket/vqs/mc_state.py:compute_chain_length", "netket/vqs/mc_state.py:MCState.n_samples", "netket/vqs/mc_state.py:MCState.n_samples_per_rank", "netket/vqs/mc_state.py:MCState.chain_length"]}
{"id": "C40", "title": "Distributed mean and variance equal the global ones", "statement": "The MPI mean/variance/subtract_mean of data split across ranks equal the mean/variance of the concatenated data, for any data and any equal split; variance is non-negative and subtract_mean yields zero mean.", "quantifier": "every number of ranks, every data set", "why_tests_cant": "all splits over ranks", "anchors": ["netket/stats/mpi_stats.py:mean", "netket/stats/mpi_stats.py:var", "netket/stats/mpi_stats.py:subtract_mean"]}
{"id": "C41", "title": "Masked layers are autoregressive", "statement": "Output i of MaskedDense1D/MaskedConv1D (exclusive) does not depend on inputs j >= i, of the non-exclusive version not on j > i; same for MaskedConv2D in raster order. Hence ARNN conditionals at site i depend only on sites before i, for any number of layers and any activation.", "quantifier": "all weights, biases, activations, sizes, kernel sizes, dilations and depth", "why_tests_cant": "non-dependence on a coordinate for all weights cannot be sampled", "anchors": ["netket/nn/masked_linear.py:MaskedDense1D", "netket/nn/masked_linear.py:MaskedConv1D", "netket/nn/masked_linear.py:MaskedConv2D", "netket/models/autoreg.py:_conditional_log_psi"]}
{"id": "C42", "title": "Autoregressive wave functions are normalised", "statement": "The squared moduli of an ARNN over all configurations of the Hilbert space sum to one.", "quantifier": "all weights, depths and space sizes", "why_tests_cant": "a sum over exponentially many configurations, for all parameters", "anchors": ["netket/models/autoreg.py:_call", "netket/models/autoreg.py:l2_normalize", "netket/models/autoreg.py:_local_states_to_numbers"]}
{"id": "C43", "title": "DenseSymm is equivariant and its pooled output is invariant", "statement": "Permuting the input of a DenseSymm (matrix) layer by an element of the symmetry group permutes its output over group elements; any symmetric pooling over group elements is invariant.", "quantifier": "every permutation group, all weights, all inputs", "why_tests_cant": "all groups and weights", "anchors": ["netket/nn/symmetric_linear.py:_symmetrizer_col", "netket/nn/symmetric_linear.py:DenseSymmMatrix"]}
{"id": "C44", "title": "DenseEquivariant is a group convolution", "statement": "DenseEquivariantMatrix computes y_g = sum_h x_h W_{h^-1 g} + b and commutes with left translation by group elements.", "quantifier": "every finite group, all weights and inputs", "why_tests_cant": "all groups and weights", "anchors": ["netket/nn/symmetric_linear.py:DenseEquivariantMatrix"]}
{"id": "C45", "title": "Periodic MPS is translation invariant", "statement": "An MPSPeriodic with period symperiod assigns the same amplitude to a configuration and to its translation by any multiple of symperiod.", "quantifier": "all tensors, bond dimensions, chain lengths and configurations", "why_tests_cant": "all tensors and lengths", "anchors": ["netket/models/mps.py:MPSPeriodic"]}
{"id": "C46", "title": "to_array returns the normalised state vector on any number of ranks", "statement": "to_array returns psi in index order and, with normalize=True, has norm one, on any number of MPI ranks.", "quantifier": "every model, every Hilbert-space dimension, every number of ranks", "why_tests_cant": "tests run on one or two ranks", "anchors": ["netket/nn/utils.py:to_array", "netket/nn/utils.py:_to_array_rank"]}
{"id": "C47", "title": "Cached samples are always those of the current variables", "statement": "MCState.samples never returns configurations sampled with other parameters, model state or sampler than the current ones.", "quantifier": "every history of parameter/model_state/variables/sampler/n_samples assignments, sampling and reset calls", "why_tests_cant": "histories of calls", "anchors": ["netket/vqs/mc_state.py:MCState.samples", "netket/vqs/mc_state.py:MCState.reset", "netket/vqs/base.py:VariationalState.parameters", "netket/vqs/base.py:VariationalState.model_state"]}
{"id": "C48", "title": "Local estimators are exact under full sampling", "statement": "Averaging the local estimator of an operator over the Born distribution gives <psi|O|psi>/<psi|psi>; the squared kernel gives <psi|O^dagger O|psi>/<psi|psi>. For random samples that each follow the Born distribution the estimate is unbiased, however the samples depend on each other; if any two are independent its mean squared error is (<O^dagger O> - |<O>|^2) / n_samples. For an eigenstate every set of samples gives the eigenvalue exactly and a vanishing force.", "quantifier": "every operator, every non-vanishing wave function on every finite space", "why_tests_cant": "identity over all operators and states", "anchors": ["netket/vqs/mc_state.py:local_value_kernel", "netket/vqs/mc_state.py:local_value_squared_kernel", "netket/operator/_local_cost_functions.py:local_value_cost"]}
{"id": "C49", "title": "expect_and_grad returns the gradient of the expectation value", "statement": "Under full sampling the force computed for a hermitian operator is the derivative of <psi|O|psi>/<psi|psi> with respect to each real parameter, and with respect to the conjugate of each complex parameter. For random samples, Born distributed and pairwise independent, the mean of the force is (n_samples - 1) / n_samples times the one under full sampling.", "quantifier": "every hermitian operator and differentiable wave function", "why_tests_cant": "gradient identity over all states", "anchors": ["netket/vqs/mc_state.py:grad_expect_hermitian"]}
{"id": "C50", "title": "All quantum-geometric-tensor implementations agree", "statement": "QGTOnTheFly, QGTJacobianDense and QGTJacobianPyTree apply the same matrix <dO^dagger dO> + shift; it is hermitian and positive semidefinite (positive definite for positive shift).", "quantifier": "every Jacobian, vector, shift, number of ranks", "why_tests_cant": "linear-algebra identity over all Jacobians", "anchors": ["netket/optimizer/qgt/qgt_onthefly_logic.py:mat_vec", "netket/optimizer/qgt/qgt_jacobian_dense.py:_matmul", "netket/optimizer/qgt/qgt_jacobian_dense.py:_to_dense", "netket/optimizer/qgt/qgt_jacobian_pytree_logic.py:_mat_vec"]}
{"id": "C51", "title": "Dense and sparse steady-state solvers diagonalise the same matrix", "statement": "steady_state(method='ed') diagonalises L^dagger L whichever value of `sparse` is chosen.", "quantifier": "every Lindbladian matrix", "why_tests_cant": "type-dependent meaning of the * operator", "anchors": ["netket/exact.py:steady_state"]}
{"id": "C52", "title": "Driver runs perform the requested number of steps", "statement": "driver.run(n_iter) / iter(n_steps, step) performs exactly the requested number of optimisation steps, logs at steps that increase by step_size, and stops at the first callback veto without applying the pending update.", "quantifier": "every n_steps, step size and callback behaviour", "why_tests_cant": "all step sizes and callback histories", "anchors": ["netket/driver/abstract_variational_driver.py:AbstractVariationalDriver.iter", "netket/driver/abstract_variational_driver.py:AbstractVariationalDriver.run"]}
{"id": "C53", "title": "EarlyStopping stops exactly after `patience` steps without improvement", "statement": "EarlyStopping lets the run continue as long as the monitored loss improves by more than min_delta within every window of `patience` steps and stops otherwise (or when the baseline is reached).", "quantifier": "every sequence of losses and every setting", "why_tests_cant": "all loss sequences", "anchors": ["netket/callbacks/earlystopping.py:EarlyStopping.__call__"]}
{"id": "C54", "title": "JsonLog keeps flushed data and flushes on schedule", "statement": "At any crash point the log file on disk contains a complete record of all but at most write_every-1 of the logged items; a record that has been flushed is never lost.", "quantifier": "every sequence of logged items, every write/save schedule and every crash point", "why_tests_cant": "crash points", "anchors": ["netket/logging/json_log.py:JsonLog.__call__", "netket/logging/json_log.py:JsonLog._flush_log", "netket/logging/json_log.py:JsonLog._flush_params"]}
{"id": "C55", "title": "StateLog never overwrites earlier checkpoints and honours its modes", "statement": "StateLog saves every save_every-th step under consecutive numbers; in append mode existing files are never overwritten and a new directory is accepted; tar and directory modes behave alike.", "quantifier": "every directory content, every mode and every schedule", "why_tests_cant": "all pre-existing directory contents", "anchors": ["netket/logging/state_log.py:StateLog._check_output_folder", "netket/logging/state_log.py:StateLog.__call__", "netket/logging/state_log.py:StateLog._save_variables"]}
{"id": "C56", "title": "History series stay aligned", "statement": "After every successful append all series of a History have the same length as the iteration axis, earlier entries are unchanged, and a failed append changes nothing.", "quantifier": "every history of appends, including failing ones", "why_tests_cant": "histories including exceptions", "anchors": ["netket/utils/history.py:History", "netket/utils/history.py:append", "netket/utils/history.py:accum_histories_in_tree"]}
{"id": "C57", "title": "Cached properties are never stale", "statement": "Accessing a property_cached attribute of a netket dataclass returns the value recomputed from the current fields, through any sequence of accesses and replace() calls.", "quantifier": "every history of accesses and replace calls", "why_tests_cant": "histories", "anchors": ["netket/utils/struct/dataclass.py:property_cached", "netket/utils/struct/dataclass.py:dataclass"]}
{"id": "C58", "title": "Sums and copies of Ising and Bose-Hubbard Hamiltonians", "statement": "For two Ising (or two BoseHubbard) operators a and b on the same Hilbert space, a + b represents the sum of their matrices, and copy() represents the same operator.", "quantifier": "every pair of operators: any number of sites, edges and parameters", "why_tests_cant": "graphs and parameters are unbounded; tests only add operators built on the same connected graph", "anchors": ["netket/operator/_hamiltonian.py:SpecialHamiltonian.__add__", "netket/operator/_hamiltonian.py:Ising._iadd_same_hamiltonian", "netket/operator/_hamiltonian.py:Ising.copy", "netket/operator/_hamiltonian.py:BoseHubbard.copy"]}
{"id": "C59", "title": "Tempered replicas satisfy detailed balance", "statement": "In the parallel tempering sampler the acceptance test of a replica of inverse temperature beta satisfies detailed balance with respect to the target distribution raised to the power beta.", "quantifier": "every model, every proposal rule (with its correction), every inverse temperature and every pair of configurations", "why_tests_cant": "a probability identity over all models and temperatures", "anchors": ["netket/sampler/metropolis_pt.py:MetropolisPtSampler._sample_next"]}
{"id": "C60", "title": "Serialising a variational state loses nothing", "statement": "Restoring a serialised MCState into any state built for the same model gives back its variables, sampler state, number of samples and discarded samples.", "quantifier": "every pair of variational states and every history before serialisation", "why_tests_cant": "all pairs of source and target states", "anchors": ["netket/vqs/mc_state.py:serialize_MCState", "netket/vqs/mc_state.py:deserialize_MCState"]}
{"id": "C61", "title": "sample() discards the requested number of samples", "statement": "MCState.sample(n_discard_per_chain=d) throws away the first d samples of every chain after the reset of the sampler, and without argument the number set on the state.", "quantifier": "every state, sampler and number", "why_tests_cant": "unit tests do not look at the sampler state between discarding and sampling", "anchors": ["netket/vqs/mc_state.py:MCState.sample"]}
{"id": "C62", "title": "Timeout stops a run by its time budget", "statement": "The Timeout callback lets the run go on while the elapsed time since its first call has not exceeded the limit and stops it at the first call after that; its limit must be positive.", "quantifier": "every sequence of clock readings and every limit", "why_tests_cant": "all sequences of clock readings", "anchors": ["netket/callbacks/timeout.py:Timeout"]}
{"id": "C63", "title": "Cached properties survive jax tree operations correctly", "statement": "After jax.tree_map (flatten and unflatten) of a dataclass with cached properties, accessing a property of the new object returns the value computed from its own fields, and objects with equal fields have equal tree structure.", "quantifier": "every object, every map over its pytree fields, every earlier access", "why_tests_cant": "depends on which properties were accessed before", "anchors": ["netket/utils/struct/dataclass.py:dataclass", "netket/utils/struct/dataclass.py:process_cached_properties"]}
{"id": "C64", "title": "Solving with the quantum geometric tensor gives the natural gradient", "statement": "For every implementation of the quantum geometric tensor, if the solver solves the linear system it is handed, then S.solve(solver, y) returns a vector x, of the structure of the parameters, with (S + diag_shift) x = y (with rescale_shift: S plus diag_shift times its diagonal), where S is the real part of the covariance of the log-derivatives over all samples of all MPI ranks. For a positive shift this vector is unique, so implementations and solvers agree.", "quantifier": "every structure of real and complex parameters, every set of samples spread over any number of ranks, every right hand side, every shift, every solver that solves the systems it is given, with or without an initial guess", "why_tests_cant": "each implementation hands the solver a differently laid out (and, with rescaling, different) system; agreement is a statement about all of them", "anchors": ["netket/optimizer/linear_operator.py:LinearOperator.solve", "netket/optimizer/qgt/qgt_onthefly.py:QGTOnTheFlyT._solve", "netket/optimizer/qgt/qgt_jacobian_pytree.py:QGTJacobianPyTreeT._solve", "netket/optimizer/qgt/qgt_jacobian_dense.py:QGTJacobianDenseT._solve", "netket/optimizer/solver/solvers.py:_prepare"]}
{"id": "C65", "title": "The preconditioner uses the previous solution as documented", "statement": "SR / LinearPreconditioner returns, at every step of an optimisation, a solution of the system of that step; the initial guess of the solver is the last solution if solver_restart is False, and none if it is True, as documented.", "quantifier": "every sequence of states and gradients, every solver, both values of solver_restart, every QGT implementation", "why_tests_cant": "depends on the whole sequence of calls", "anchors": ["netket/optimizer/preconditioner.py:LinearPreconditioner"]}
{"id": "C66", "title": "The neural density matrix is a density matrix for all real parameters", "statement": "For every choice of real parameters (weights and the optional biases) and feature densities, the matrix whose entries are the exponentials of the outputs of NDM with its default activation is Hermitian, positive semidefinite (the quadratic form is real and non-negative on every finite combination of basis states), and has strictly positive diagonal entries.", "quantifier": "all numbers of sites and features, all real parameters, with or without each bias, all finite linear combinations of real-valued configurations", "why_tests_cant": "positivity is a statement about every vector of an exponentially large space and every parameter value reached during training; tests diagonalise a few small random instances", "anchors": ["netket/models/ndm.py: PureRBM, MixedRBM, NDM", "netket/nn/activation.py: log_cosh"]}
{"id": "C67", "title": "Amplitudes of the Boltzmann machines and the Jastrow state are the documented ones", "statement": "exp(log_cosh(z)) = cosh(z) for every complex z, and for real x the result is finite, real and between |x| - ln 2 and |x|. The amplitude of RBM is exp(sum a_i s_i) prod_j cosh(sum_i W_ij s_i + b_j) for all complex parameters; RBMModPhase has modulus and phase given by its two layers; RBMSymm does not change under the symmetries it was built with; Jastrow is exp(sum_ij s_i W_ij s_j); RBMMultiVal can tell any two different configurations apart.", "quantifier": "all numbers of sites and hidden units, all complex (or real, where said) parameters and local quantum numbers, all permutation groups", "why_tests_cant": "identities over all complex arguments including zeros of cosh, and over all parameters; tests compare single random points", "anchors": ["netket/nn/activation.py: log_cosh", "netket/models/rbm.py: RBM, RBMModPhase, RBMMultiVal, RBMSymm", "netket/models/jastrow.py: Jastrow"]}
{"id": "C68", "title": "Fourier layers compute the same as matrix layers", "statement": "For a lattice space group listed as translation times point-group element, DenseSymm in mode 'fft' and DenseEquivariant in mode 'fft' give, for all kernels, biases and inputs, the same feature maps as the modes that build the full kernel matrix (with the kernel laid out in the other order), in any number of dimensions and any number of sites per cell; so does DenseEquivariant in mode 'irreps' for any group and any complete set of irreducible representations. Underneath, the inverse transform of a product of multi-dimensional transforms is the circular convolution. A group whose elements are listed in another order is accepted, and the result is then not invariant under the group.", "quantifier": "all lattice shapes, cells, groups, representations, feature counts, kernels, biases and inputs", "why_tests_cant": "Tests compare on a few small lattices with random kernels up to a tolerance; the agreement is an identity between two families of algorithms over all groups.", "anchors": ["netket/nn/symmetric_linear.py: DenseSymmFFT, DenseEquivariantFFT, DenseEquivariantIrrep, DenseSymmMatrix, DenseEquivariantMatrix"]}
{"id": "C69", "title": "Group-convolutional networks transform with their characters", "statement": "A GCNN in mode 'irreps' or 'fft' with characters chi of a one-dimensional representation satisfies psi(g sigma) = chi(g) psi(sigma) for all parameters, activations, configurations and group elements, in particular it is invariant for trivial characters; it has a value on every configuration if some dtype is complex or no character is negative; with equal_amplitudes every configuration has modulus one. GCNN chooses the class by the kind of symmetry argument and mode as documented; with parity the state has that parity under flipping all spins.", "quantifier": "all groups, characters, parameters, numbers of layers, activations, configurations, constructor arguments", "why_tests_cant": "Tests check invariance on random parameters for a few lattices with trivial characters; no test uses parity, a plain Graph, or a sign representation.", "anchors": ["netket/models/equivariant.py: GCNN, GCNN_FFT, GCNN_Irrep, GCNN_Parity_FFT, GCNN_Parity_Irrep"]}
{"id": "C70", "title": "Options given to the natural-gradient preconditioner take effect", "statement": "nk.optimizer.SR, given any combination of tensor, solver, diagonal shift, restart flag and options of the tensor, by keyword or by position, returns a preconditioner with exactly these, and conjugate gradients, an automatically chosen tensor, shift 0.01 and no restart otherwise; using it builds the given tensor, or the one chosen by the kind of solver and the size of the state. The old convention (shift, method) chooses between cg and gmres and refuses other methods; an option given to the solver reaches the solver and the object can be used.", "quantifier": "all argument lists and keyword dictionaries, all states, all call histories", "why_tests_cant": "The space of combinations of two calling conventions with thirteen keywords is unbounded; tests build a few objects and never use those with solver options.", "anchors": ["netket/optimizer/sr/api.py: build_SR, _SR", "netket/optimizer/sr/deprecations.py: SRLazyCG, SRLazyGMRES", "netket/optimizer/qgt/default.py: QGTAuto, default_qgt_matrix"]}
{"id": "C71", "title": "Spin operators obey the angular momentum algebra and act with the documented values", "statement": "For every local dimension N the operators sigmax, sigmay, sigmaz, sigmap, sigmam satisfy the angular-momentum algebra ([sx,sy]=2i sz and cyclic, the Casimir N^2-1, the ladder relations, hermiticity), also when the commutators are formed with the LocalOperators themselves; operators on different sites commute; and their connected elements on a Spin space are the standard ladder elements between stored configurations. Expected further: sigmaz has the stored value as its diagonal element, and the sum of all sigmaz on Spin(s, N, total_sz=M) is 2M; sigmap is sx + i sy as its documentation says.", "quantifier": "Every local dimension, every space whose sites are sorted lists of local states (spin sites for the rows), every site, every configuration, every cutoff below 1, every content of uninitialised buffers.", "why_tests_cant": "The unit tests check a few commutators for a few dimensions numerically; they cannot cover every dimension, site and configuration, and no test relates sigmaz to the stored value or to total_sz.", "anchors": ["netket/operator/spin.py:sigmax", "netket/operator/spin.py:sigmay", "netket/operator/spin.py:sigmaz", "netket/operator/spin.py:sigmam", "netket/operator/spin.py:sigmap", "netket/hilbert/spin.py:Spin.__init__"]}
{"id": "C72", "title": "Boson operators obey the truncated boson algebra", "statement": "For every cutoff, create is the adjoint of destroy, create @ destroy is number, [destroy, create] is 1 on every state below the highest occupation (and 1-N on the highest), number counts the stored occupation, destroy and create connect neighbouring occupations with the square-root factors, and proj(n) is the projector on occupation n, or is refused if there is no such occupation.", "quantifier": "Every local dimension, space, site and configuration, every integer n.", "why_tests_cant": "Tests try single cutoffs; the behaviour at the cutoff and for negative n is only visible for particular inputs.", "anchors": ["netket/operator/boson.py:destroy", "netket/operator/boson.py:create", "netket/operator/boson.py:number", "netket/operator/boson.py:proj"]}
{"id": "C73", "title": "GraphOperator is the sum of its site and bond operators", "statement": "Building a GraphOperator from a graph without self-loops, with site operators, bond operators and (optionally) one colour per bond operator succeeds, and every row of the operator is the sum over all sites of the site operators plus the sum over all edges of the bond operators whose colour is that of the edge, the first factor acting on the smaller node. Wrong numbers of nodes, of colours, or no operators at all are rejected.", "quantifier": "every graph, Hilbert space, list of site and bond operators, colours and configuration", "why_tests_cant": "tests build a few operators on small chains; sites, colours and edge orders combine without bound", "anchors": ["netket/operator/_graph_operator.py: GraphOperator.__init__", "netket/operator/_local_operator.py: LocalOperator.__init__, _add_operator"]}
{"id": "C74", "title": "The Heisenberg Hamiltonian is sigma.sigma on the edges, with or without the sign rule", "statement": "On sites with two local states, Heisenberg(hilbert, graph, J, sign_rule) has the matrix J times the sum over the edges of sz sz plus or minus (sx sx + sy sy); it is symmetric, connects only configurations with the same number of spins of each kind, and on a bipartite graph the sign rule only changes the basis by signs on one sublattice. The sign rule on a graph that is not bipartite, and sites with another number of states, are rejected.", "quantifier": "every graph without self-loops, coupling, sign rule and configuration", "why_tests_cant": "tests compare a handful of small lattices; the equivalence is a statement about all graphs", "anchors": ["netket/operator/_hamiltonian.py: Heisenberg.__init__"]}
{"id": "C75", "title": "Graph keeps the edges and colours it is given", "statement": "Graph(edges, n_nodes) accepts exactly the lists of pairs or of coloured pairs whose nodes exist; edges() returns the given edges in order, smaller node first, edges(return_color=True) their colours (0 if none), edges(filter_color=c) those of colour c; without n_nodes the number of nodes is one more than the largest node. DoubledGraph is two separate copies.", "quantifier": "every list of edges and number of nodes", "why_tests_cant": "tests use a few named lattices", "anchors": ["netket/graph/graph.py: Graph.__init__, _clean_edges, edges, DoubledGraph"]}
{"id": "C76", "title": "Statistics of Monte Carlo data", "statement": "The statistics of a set of Markov chains (mean, variance, error of the mean, autocorrelation time, split R_hat) computed on any rank equal those of all chains of all ranks together; they depend neither on the order of the chains nor on their distribution over the ranks. An error is reported exactly when the data vary and at least batch_size samples exist; it satisfies error^2 = variance (1 + 2 tau) / n_samples. Mapping the data x to a x + c maps the mean in the same way, scales the variance and the squared error by |a|^2 and leaves tau and R_hat alone. If the means of different chains fluctuate independently around the true value, the mean of the squared error reported for at least batch_size chains is (1 - 1/n_chains) times the mean squared deviation of the reported mean, whatever the correlations within the chains. R_hat tells chains that are stuck from chains that are mixed, and constant data has error 0.", "quantifier": "all numbers of ranks, chains and samples per chain, all complex data, all batch sizes", "why_tests_cant": "Tests sample some data on one rank; the thresholds in the code, the clipping and the fall-back from chains to blocks depend on the data.", "anchors": ["netket/stats/mc_stats.py: statistics, _statistics, _get_blocks, _block_variance, _batch_variance", "netket/stats/mpi_stats.py: mean, var, total_size"]}
{"id": "C77", "title": "Random keys are used once", "statement": "Whatever sequence of sampler calls every MPI rank makes, no random key is consumed twice by any rank and none is derived from another consumed one; the seed of rank 0 alone decides all of them. PRNGSeq.take keeps this for any history; PRNGSeq.next does not (the key handed out is the state). The samplers of a density matrix and of its diagonal never share a key. Parameters and sampler given different seeds use unrelated keys; with a single seed the sampler's keys all descend from the key of the parameters; assigning a new sampler to a state with a stored seed replays the keys of the former one.", "quantifier": "all samplers (Metropolis with any rule, parallel tempering, exact, autoregressive), all numbers of ranks, all seeds and all sequences of reset/sample calls on every rank", "why_tests_cant": "Key reuse shows up only as correlated random numbers; a test sees numbers that look random, for a few calls on few ranks.", "anchors": ["netket/jax/utils.py: PRNGKey, mpi_split, PRNGSeq", "netket/sampler/base.py: Sampler.init_state", "netket/sampler/metropolis.py: MetropolisSampler", "netket/sampler/metropolis_pt.py: MetropolisPtSampler", "netket/sampler/exact.py: ExactSampler", "netket/sampler/autoreg.py: ARDirectSampler", "netket/vqs/mc_state.py: MCState.sampler", "netket/vqs/mc_mixed_state.py: MCMixedState"]}
{"id": "C78", "title": "ExactSampler draws from the Born distribution", "statement": "For every Hilbert space, amplitudes not all zero, chain length and number of chains, sample returns valid configurations of shape chain_length x n_chains, and for each entry the set of uniform draws giving configuration s is an interval in [0,1) of length |psi(s)|^machine_pow / sum; configurations of amplitude zero are never returned, all others can be; scaling the wave function changes nothing; after any history of calls the wave function of the last reset is the one sampled. sample_next called without a state does not reset as documented and returns the first configuration for every wave function and every draw.", "quantifier": "all sane Hilbert spaces, rational amplitudes, machine powers, shapes, draws, and all histories of reset/sample_next/sample", "why_tests_cant": "A statistical test accepts small deviations and checks a few wave functions; whether a zero-amplitude configuration can ever appear needs all draws.", "anchors": ["netket/sampler/exact.py: ExactSampler._reset, _sample_next, _sample_chain", "netket/sampler/base.py: Sampler.sample_next, sample"]}
{"id": "C79", "title": "Monte Carlo density matrices estimate Tr(rho O)/Tr(rho) and keep their diagonal in step", "statement": "For a density matrix with positive diagonal, expect of an operator on the physical space is Tr(rho O)/Tr(rho) under full sampling of the diagonal; after any history of assignments and samplings the state and its diagonal state have the same variables and both return samples drawn with them; the diagonal is sampled with machine_pow 1 whatever sampler is given; saving and loading restores both. It fails where: sampler_diag is assigned (the sampler's own machine_pow, 2 by default, is kept and the estimate is biased), n_samples_per_rank or apply_fun are passed to the constructor (TypeError), and loading (the diagonal of the state loaded into loses its samples). Operators on other spaces and gradients of physical operators give the value NotImplemented.", "quantifier": "all density matrices, operators and connected elements; all histories of assignments, all samplers (oracles), all numbers of ranks", "why_tests_cant": "Tests compare a few Monte Carlo averages within error bars and construct states with the default sampler; synchronisation must hold after every interleaving of assignments.", "anchors": ["netket/vqs/mc_mixed_state.py: MCMixedState, serialize_MCMixedState, deserialize_MCMixedState", "netket/vqs/base.py: VariationalMixedState", "netket/operator/_local_cost_functions.py: local_value_op_op_cost"]}
{"id": "C80", "title": "nkjax.expect is differentiable with the right gradient", "statement": "For every parametrised distribution (normalised or not) and every parametrised function, the value of nkjax.expect under full sampling is the mean and its reverse-mode derivative, added up over the MPI ranks, is the derivative of the mean, however the samples are spread over the ranks. The gradient of a non-Hermitian operator built on it should be the derivative of the expectation value; it is that derivative divided by the number of ranks. For a Hermitian operator, real parameters and one rank it is twice the gradient returned by the Hermitian code path.", "quantifier": "all real-valued distributions and functions of a real parameter with derivatives, all numbers of ranks and distributions of samples, all operators and real wave functions", "why_tests_cant": "A Monte Carlo gradient agrees with the true one only up to noise, and tests run on a single rank.", "anchors": ["netket/jax/_expect.py: expect, _expect_fwd, _expect_bwd", "netket/vqs/mc_state.py: grad_expect_operator_kernel", "netket/stats/mpi_stats.py: mean", "netket/utils/mpi/primitives.py: mpi_mean_jax"]}
{"id": "C81", "title": "Exact time propagation obeys the Schroedinger equation", "statement": "For every Hermitian Hamiltonian, every solution of the equation that PyExactTimePropagation hands to its solver obeys the Ehrenfest theorem, so that real-time evolution conserves norm, energy and variance; in imaginary time a normalised state stays normalised and the energy falls at twice the variance. estimate() returns the expectation value and the variance in a normalised state. Any sequence of advance()/iter() calls moves time by dt per step and the state by the flow of the equation; failed steps, assignment of the state, unnormalised and real-valued initial states, step_count and run() should work as documented, but do not.", "quantifier": "all dimensions, Hermitian matrices, observables, time intervals and solutions; all sequences of advance calls, all solvers whose steps follow the flow", "why_tests_cant": "Tests compare a few runs with a tolerance; conservation laws are statements about all solutions.", "anchors": ["netket/_exact_dynamics.py: PyExactTimePropagation, _make_rhs, _make_op"]}
{"id": "C82", "title": "Equal hashable partials are interchangeable", "statement": "HashablePartial's == is an equivalence relation consistent with its hash, and equal partials compute the same, so that functions compiled for one may be reused for the other in any sequence of calls. This holds for the init, apply and diagonal functions of variational states. It fails for functions that captured different values: log_pdf of samplers with different machine_pow are equal, and under jit the second gets the values of the first.", "quantifier": "all functions, captured values, positional and keyword arguments, hash functions obeying Python's rules, all sequences of compiled calls", "why_tests_cant": "Tests compare a handful of partials; the staleness needs two samplers in one process.", "anchors": ["netket/jax/utils.py: HashablePartial", "netket/sampler/base.py: Sampler.log_pdf", "netket/vqs/mc_state.py: MCState.__init__", "netket/vqs/mc_mixed_state.py"]}
{"id": "C83", "title": "nkjax gradients and tree utilities are linear algebra", "statement": "nkjax.vjp maps a cotangent y to y^T J (conjugated on request) for functions of real inputs and for holomorphic functions; nkjax.grad and value_and_grad return the complex derivative of complex functions of real inputs, also with auxiliary output; tree_ravel, tree_to_real, tree_cast, tree_conj, tree_dot and tree_axpy agree with the flattened vectors, and the inverse functions undo them; dtype_real and dtype_complex are mutually inverse. Mixed real and complex trees, C -> R functions and has_aux with complex output break these rules.", "quantifier": "all Jacobians, cotangents, trees, vectors, scalars and element types", "why_tests_cant": "Tests try a few functions with random parameters; identities for all inputs and all mixtures of types are not covered.", "anchors": ["netket/jax/_vjp.py: vjp, vjp_cc, vjp_rr, vjp_rc", "netket/jax/_grad.py: grad, value_and_grad", "netket/jax/utils.py: tree_ravel, tree_to_real, tree_cast, tree_conj, tree_dot, tree_axpy, dtype_real, dtype_complex, maybe_promote_to_complex"]}
{"id": "C84", "title": "Binned floating point numbers compare safely", "statement": "Numbers that get the same bin (`comparable`) differ by at most the bin width, bins preserve order, and every number within 4e-8 of a multiple of 1/3326400 gets the bin of that multiple; periodic bins are unchanged by adding integers and equal bins mean equal up to an integer and a bin width; `is_approx_int` holds exactly for numbers within the tolerance of an integer; `prune_zeros` zeroes exactly the real and imaginary parts within the tolerance and does not change its argument.", "quantifier": "every rational number, every integer shift, every tolerance and every array", "why_tests_cant": "all numbers, in particular those next to bin boundaries", "anchors": ["netket/utils/float.py: comparable, comparable_periodic, is_approx_int, prune_zeros"]}
{"id": "C85", "title": "Lattices with any basis and unit cell", "statement": "For every lattice given by basis vectors, extents, boundary conditions and site offsets, Lattice contains exactly the sites that have a nearest neighbour, in lexicographic order of cell and label, and exactly the nearest-neighbour pairs as edges, each once; on periodic lattices the neighbour relation is the same in every cell. Offsets that coincide modulo lattice vectors are dropped with a warning and no others are. id_from_position finds the site at a position, also displaced by whole periods, whatever it returns is a site in that place, and otherwise it raises; id_from_basis_coords and position_from_basis_coords invert the listing of sites; to_reciprocal_lattice returns the integer coordinates of a wave vector and raises unless they are integers that vanish on open axes. Expected clauses which fail: that every offset of every cell becomes a site, that offsets outside the unit cell are handled or warned about, that removing duplicates keeps the order, and that look-ups distinguish all sites.", "quantifier": "all dimensions, extents, boundary conditions, rational scalar products of the basis vectors and rational offsets; all positions, coordinates and wave vectors", "why_tests_cant": "Tests construct a handful of named lattices; the rule that joins cells across the boundary, the silent loss of sites and the bins of the look-up depend on geometry and size, of which there are infinitely many.", "anchors": ["netket/graph/lattice.py: Lattice.__init__, _clean_site_offsets, create_sites, get_edges, deduplicate, id_from_position, id_from_basis_coords, position_from_basis_coords, to_reciprocal_lattice"]}
{"id": "C86", "title": "Point groups behave as groups of isometries", "statement": "Point-group symmetries compose, invert, act on positions and on wave vectors, and move to another origin as the isometries they describe; equality of symmetries is an equivalence relation that identifies the same map. For a set of symmetries closed under products and inverses up to lattice vectors, inverse and product_table exist and are exact (g * inverse(g) = 1, g * table(g,h) = h modulo the lattice), and for a set that is not closed they raise RuntimeError instead of returning wrong indices. remove_duplicates keeps the first of every class in order, rotation_group returns the elements of determinant one and is closed, change_origin and products of groups act element by element, and two groups are equal exactly if they have the same elements in the same order.", "quantifier": "every dimension (at most three for determinants), every matrix and translation with rational entries, every unit cell, every list of elements and every origin", "why_tests_cant": "The tests check a handful of named crystallographic groups around the origin; which of infinitely many matrices, translations and unit cells give wrong tables cannot be settled by examples.", "anchors": ["netket/utils/group/_point_group.py: PGSymmetry, PointGroup, product, trivial_point_group", "netket/utils/group/_group.py: FiniteGroup.remove_duplicates, _canonical_lookup", "netket/utils/group/_semigroup.py: Identity", "netket/utils/float.py: comparable, comparable_periodic"]}
{"id": "C87", "title": "Space groups of lattices act as permutations of the sites", "statement": "For a lattice whose sites are told apart by look-ups, Lattice.point_group lists one permutation per symmetry of the box, each sending a site to the site at its preimage, and is a group if the symmetries form a group of maps of the box; translation_group along any axes lists exactly the displacements by whole cells (last axis fastest), is a group, and repeats nothing; space_group lists translation-major all combinations and is a group even if the symmetries only close up to translations (glides, screws); symmetries that keep distances keep the edges. Not true: that point_group is then a group too, that a symmetry of the infinite lattice which does not fit the box is rejected, that space_group has no repeated elements.", "quantifier": "every lattice with any basis, extent, boundary conditions and site offsets; every list of affine symmetries with rational coefficients; every tuple of axes; every pair of sites", "why_tests_cant": "Tests build a handful of lattices and compare group orders; that the listed permutations compose like the geometric maps on every lattice is an algebraic fact about maps of a torus.", "anchors": ["netket/graph/space_group.py: SpaceGroupBuilder (point_group, _translations_along_axis, translation_group, space_group)", "netket/graph/lattice.py: id_from_position, Lattice.point_group, translation_group, space_group", "netket/utils/group/_point_group.py: PGSymmetry.preimage", "netket/utils/group/_semigroup.py: Permutation"]}
{"id": "C88", "title": "Little groups and characters of space groups", "statement": "For every periodic or partly open box, every group of symmetries whose first element is the identity and every wave vector of the box, little_group(k) consists of exactly the symmetries that keep k up to reciprocal lattice vectors (a subgroup); a vector that is not a wave vector of the box is rejected. space_group_irreps(k) has one row per irrep of the little group; entry (t, g), in the order of the elements of the space group, is the induced character (1/|L|) sum_p X(p^-1 g p) exp(-i p(k).(w_g + t)). These rows have the dimension (star size times little dimension), are orthogonal for different irreps of the same star and for different stars, and have norm |T| |P| as irreducible characters must. (Refuted: if the identity is not first the result is not the little group; imaginary parts of complex characters of the little group are dropped; for non-symmorphic groups the rows need not have the norm of irreducible characters.)", "quantifier": "all boxes, boundary conditions, symmetry groups, wave vectors, character tables, translations and group elements", "why_tests_cant": "tests compare a few tables of a few lattices; the claim is about all groups, wave vectors and lattice sizes", "anchors": ["netket/graph/space_group.py: SpaceGroupBuilder._little_group_index, little_group, _little_group_irreps, space_group_irreps", "netket/graph/lattice.py: Lattice.to_reciprocal_lattice"]}
{"id": "C89", "title": "Predefined point groups are groups of the right order", "statement": "The point groups offered by netket.utils.group.axial, planar and cubic are groups of pairwise different isometries, for every order n >= 1 and every choice of nonzero axes (perpendicular where two are needed): C(n) has n elements and is generated by the rotation by 360/n degrees; Ch, Cv and D have 2n, Dh and Dd 4n, S(n) n (n even) or 2n (n odd), and each is exactly the set of products of its defining operations; rotations are right-handed, reflections are across the plane perpendicular to the axis; axes that are not perpendicular are rejected. screw_group terminates for every rational angle and, up to multiples of the translation, is a cyclic group; a glide applied twice is twice its translation. T, Td, Th, O, Oh have 12, 24, 24, 24, 48 elements and are exactly the symmetries of the tetrahedron, the pyritohedron and the cube; Fd3m is a group of 48 elements up to vectors of the fcc lattice.", "quantifier": "all orders n >= 1, all nonzero real axes (perpendicular pairs), all rational screw angles p/q of a turn with q < 10^8, all translations and origins; all isometries for the cubic groups", "why_tests_cant": "Tests compare a few groups with tabulated orders; closure, distinctness and generation for every n and every axis, and that nothing else preserves the cube, are statements about infinitely many groups and matrices. The tolerance of the perpendicularity check only fails for axes no test uses.", "anchors": ["netket/utils/group/axial.py: rotation, C, screw, screw_group, inversion, reflection, glide, Ch, Cv, rotoreflection, S, D, Dh, Dd", "netket/utils/group/planar.py: rotation, C, reflection, glide, glide_group, D", "netket/utils/group/cubic.py: T, Td, Th, O, Oh, Fd3m", "netket/utils/group/_point_group.py: PGSymmetry.change_origin, PointGroup.__matmul__"]}
{"id": "C90", "title": "Grids: sites, edges and the full symmetry group of the box", "statement": "graph.Grid (hence Hypercube, Cube, Square, Chain) has exactly one site for every cell of the box and joins two sites if and only if they differ by one step along one axis, including the step from the last to the first cell of a periodic axis. Its point group consists of exactly the permutations of axes of the same length and boundary condition combined with all reversals of axes (about the middle of open axes, about the first site of periodic ones), each listed once, the identity first; it is a group and its tables of inverses and products are correct. Its space group consists of exactly these maps combined with the translations along periodic axes, is a group, every element maps edges to edges, and every element is listed once if all sides are longer than one and periodic sides longer than two.", "quantifier": "all extents with sides >= 1 (below 3326400 for the space group), all combinations of boundary conditions, any number of dimensions; all inversions of matrices that invert orthogonal matrices", "why_tests_cant": "a test can only list the groups of a few boxes of small dimension; the number of elements grows factorially with the dimension and the claim is about every box and every boundary condition", "anchors": ["netket/graph/common_lattices.py: _perm_symm, _axis_reflection, _grid_point_group, Grid, Hypercube, Cube, Square, Chain", "netket/graph/lattice.py: Lattice", "netket/graph/space_group.py: SpaceGroupBuilder.space_group"]}
{"id": "C91", "title": "Metropolis moves given by an operator", "statement": "CustomRuleNumpy(operator, weight_list) refuses matrices with negative elements, with rows or columns that do not sum to one or that are not symmetric (within the allclose tolerances), and weights of the wrong number or sign. With symmetric doubly stochastic moves the rule can be constructed and every step succeeds: each chain proposes a configuration drawn with the matrix elements of a move that was drawn in proportion to its weight, using only the two random numbers of that chain, and the zero log-probability correction is right because the proposal probabilities are symmetric. This should also hold whatever the constant of the operator, for moves with very small probabilities, for several moves on the same sites, and for weights that are zero.", "quantifier": "all Hilbert spaces, all lists of moves and weights, all configurations of all chains, all random numbers in (0,1)", "why_tests_cant": "A test draws a few steps of a few chains; a row that sums to less than one only shows when a random number falls into the missing piece, and the step then silently reads the data of another chain.", "anchors": ["netket/sampler/rules/custom_numpy.py: CustomRuleNumpy.__post_init__, init_state, transition, _pick_random_and_init, _choose_and_return, _check_operators", "netket/operator/_local_operator.py: LocalOperator.get_conn_filtered"]}
{"id": "C92", "title": "Gradient of the steady-state cost", "statement": "For a density matrix rho and a super-operator L, the expectation of Squared(L) is |L rho|^2/|rho|^2 and the update computed by the SteadyState driver is its derivative with respect to the (conjugate) parameter up to the factor two convention, however the samples are spread over MPI ranks and for real and complex parameters and log-amplitudes.", "quantifier": "all super-operators (any list of connected states describing the matrix), log-amplitudes with derivatives, parameter values, numbers of ranks, real/complex kinds of parameter and output", "why_tests_cant": "The claim is about the derivative of a function of real parameters for every operator and every density matrix and about numbers of MPI ranks; a test compares finite differences at a few points on one rank.", "anchors": ["netket/vqs/mc_state.py:grad_expect_operator_Lrho2", "netket/operator/_der_local_values_jax.py:_local_value_and_grad_notcentered_kernel", "netket/driver/steady_state.py:SteadyState._forward_and_backward", "netket/jax/_grad.py:grad"]}
{"id": "C93", "title": "The estimated gradient is that of the operator asked for", "statement": "expect_and_grad (and grad) of an operator either raises or returns the estimate for that operator (for its square if Squared was given), using the formula for hermitian operators only when the operator is hermitian, also when is_hermitian is given and for operators on another space.", "quantifier": "all kinds of operator (hermitian or not, super-operator or not, squared or not), values of is_hermitian and of the experimental flag, same, physical or other Hilbert space", "why_tests_cant": "The combinations of flags are dispatched by nested branches across three classes; tests exercise the usual combinations and the experimental flag is off in them.", "anchors": ["netket/vqs/mc_state.py:MCState.expect_and_grad", "netket/vqs/base.py:VariationalState.grad", "netket/vqs/base.py:VariationalMixedState.expect_and_grad"]}
{"id": "C94", "title": "Configuration flags hold the last value written", "statement": "A boolean configuration flag is read when it is defined from the environment variable of its name, or else from its default; the words y, yes, t, true, on, 1 and n, no, f, false, off, 0 are understood in whatever case, anything else raises ValueError. After any history of definitions and updates, failing ones included, reading a flag gives the value written last, of the declared type, or raises KeyError. Defining a flag twice raises KeyError and changes nothing; a failing update changes nothing. Updating with a text means what the environment variable set to that text means, and a flag declared not editable at run time cannot be changed afterwards.", "quantifier": "every environment, every finite history of define and update calls with every name, type, default and value", "why_tests_cant": "Tests set one flag at a time in one environment; a history in which a failed definition precedes an update, or a text in unusual case, is not sampled.", "anchors": ["netket/utils/config_flags.py: bool_env, int_env, get_env, Config.define, Config.update, Config.FLAGS, FlagsDict"]}
{"id": "C95", "title": "Every number logged to tensorboard arrives once under its own name", "statement": "After any sequence of calls of the tensorboard logger, the writer has received a number v under name s at step k exactly if some call at step k was given data in which v sits at the position spelled by s (keys and indices joined by slashes, real and imaginary parts of complex numbers under re and im). Calls arrive in order. If no key contains a slash, one call never sends two values under the same name. Every logged value, including arrays with one entry, is sent, and distinct values never share a name.", "quantifier": "every tree of nested lists, tuples, dictionaries, statistics objects, complex numbers and leaves; every sequence of calls and steps", "why_tests_cant": "Unit tests log one fixed dictionary; whether two positions of an arbitrary nested structure can be given the same name is a question about all structures.", "anchors": ["netket/logging/tensorboard.py: tree_log, TBLog.__call__"]}
{"id": "C96", "title": "Checkpoints are loaded exactly as they were saved", "statement": "After a run with the state logger that did not raise, loading checkpoint number k of the folder (with or without the extension .mpack) or of the tar archive (with or without .tar) gives back exactly the variables of the k-th saved call, counted from the first number the logger used; other numbers raise, or, when appending to an archive, are read as before the run. At every crash point of a run that logs to a folder, the checkpoints of all calls that had returned can be loaded.", "quantifier": "every earlier content of the folder or archive, every mode in which the run does not raise, every saving interval, every sequence of calls, every crash point, every number k, every serializer that reads back what it wrote", "why_tests_cant": "Round-trip tests save one state and load it back; whether numbering and naming of loader and logger agree for every history of runs into the same place is not settled by samples.", "anchors": ["netket/vqs/experimental.py: variables_from_file, variables_from_tar", "netket/logging/state_log.py: StateLog"]}
{"id": "C97", "title": "Local values of a batch of samples and their derivatives, for numpy machines", "statement": "`nk.operator.local_values(op, machine, v)` returns one number for every row x of the two-dimensional array v: <x|O|psi>/<x|psi> for a wave function, the same with the density matrix as a vector for a Liouvillian, and <x|O rho|x>/<x|rho|x> for a density matrix and any other operator; an `out` array does not change the result and arrays of another shape are refused with an error. `nk.operator.der_local_values` returns the derivatives of these local values with respect to every parameter, or with center_derivative=False the derivative of <x|O|psi> divided by <x|psi>; `batch_size` only bounds memory and does not change the result, an invalid batch_size is refused, and center_derivative is read as a truth value.", "quantifier": "every operator given by its connected states, every log-amplitude and differentiable family of log-amplitudes, every batch of samples, every number of parameters, every batch size, and every content of uninitialised memory", "why_tests_cant": "Splitting the flattened arrays of connected states by running totals and by batches is correct only if it is for all batch sizes relative to all total counts of connected states; tests use one operator and the default batch size, and the derivative is compared with finite differences at few points.", "anchors": ["netket/operator/_local_values.py: local_values, _local_values_impl, _local_values_kernel, _local_values_op_op_impl, _op_op_unpack_kernel", "netket/operator/_der_local_values.py: der_local_values, _der_local_values_impl, _der_local_values_kernel, _der_local_values_notcentered_impl, _der_local_values_notcentered_kernel"]}
{"id": "C98", "title": "Metropolis sampling spread over devices", "statement": "`nk.sampler.MetropolisSamplerPmap` runs on every device a Metropolis sampler of its own, with its own random key: after any sequence of reset, sample_next and sample, chain d*n_chains_per_device+c of every batch it returns is chain c of device d, every batch has n_chains_per_rank configurations of the Hilbert space, `n_steps` and `n_accepted` count all moves of all devices of all ranks since the last reset, and the acceptance lies in [0,1]. n_chains is rounded to the nearest multiple of the number of devices with a warning when it changes; n_chains_per_device is taken as it is; giving it together with another number, or a number which is not positive, is refused, as is everything unless experimental features are enabled. The samples have the requested dtype.", "quantifier": "every number of ranks, devices and chains, every transition rule, model, random generator and acceptance test, every sequence of calls and every change of the parameters between calls", "why_tests_cant": "Tests run on one or two devices with one number of chains; how stacked arrays of devices, times and chains are merged, and what the counters add up to, has to be right for all numbers of devices, ranks, chains and all sequences of calls.", "anchors": ["netket/sampler/metropolis_pmap.py: MetropolisSamplerPmap, MetropolisSamplerPmapState", "netket/sampler/base.py: Sampler.__pre_init__, n_chains"]}
{"id": "C99", "title": "Boltzmann machines written with numpy: value, gradient, symmetries, parameters", "statement": "For every configuration the exponential of the value of nk.legacy.machine.RbmSpin / RbmSpinSymm / RbmSpinReal / RbmMultiVal equals the documented exp(sum a_i s_i) prod_j cosh(sum_i W_ij s_i + b_j) of the parameters last set; der_log is its logarithmic gradient in the order of `parameters`, with weight sharing under symmetries taken into account; symmetric machines have equal values on configurations related by a symmetry; the parameters read are those set, vectors of another length are refused; `out` holds the result; the number of hidden units is alpha * size or n_hidden; RbmSpinPhase has the logarithms of its two networks as real and imaginary parts and assignments to its parameters happen wholly or not at all.", "quantifier": "every number of units, table of permutations, choice of biases, parameter vector, batch of configurations and differentiable path of parameters", "why_tests_cant": "the claims range over real and complex parameters and all group tables; tests compare with finite differences at random points, where no hidden unit has an exactly imaginary input and no caller reads the buffer passed in", "anchors": ["netket/legacy/machine/rbm.py: RbmSpin, RbmSpinReal, RbmSpinSymm, RbmMultiVal, RbmSpinPhase, _log_cosh_sum"]}
{"id": "C100", "title": "Numpy optimizers of the legacy drivers: their rules over whole histories", "statement": "After any sequence of gradients the parameters produced by nk.legacy.optimizer.Sgd / Momentum / AdaGrad / RmsProp / AdaDelta / AmsGrad / AdaMax are those of the documented rule, with the averages, sums and maxima taken over all gradients since the start; settings outside the documented ranges are refused and all others accepted; an update changes the array it is given into the one it returns and a failing update has no effect; reset makes an optimizer behave as a new one; the functions of nk.legacy.optimizer build the optimizer with the settings they are given; a wrapped jax optimizer updates the parameters it is given.", "quantifier": "every setting, every length and type of the parameters, every finite sequence of gradients, every history of updates and resets", "why_tests_cant": "the rules are statements about unboundedly long histories of real and complex vectors; tests run a few steps of one optimizer with default settings and never reset, fail or change a setting of AmsGrad", "anchors": ["netket/legacy/optimizer/numpy: Sgd, Momentum, AdaGrad, RmsProp, AdaDelta, AmsGrad, AdaMax (update, reset, __init__)", "netket/legacy/optimizer/*.py: factory functions", "netket/legacy/optimizer/jax/wrap.py: Wrap"]}
{"id": "C101", "title": "Numpy Jastrow machine and what numpy machines share", "statement": "A numpy Jastrow machine without automorphisms computes log psi(s) = sum over i<j of s_i J_ij s_j plus, with a visible bias, sum of a_i s_i, with one parameter for each pair in the order (0,1), (0,2), ... after the bias; with a group of automorphisms there is exactly one parameter for each class of pairs of sites related by the group. log_val is linear in the parameters and der_log gives its coefficients. Without visible bias the values do not change when a configuration is permuted by an automorphism. Parameters that are set are read back; a wrong number of them is refused; constructor arguments are checked as documented. vector_jacobian_prod is the inner product of the vector with the derivative of log_val along each parameter. to_array is the vector of amplitudes divided by its norm (or a positive multiple of it with largest modulus 1) and log_norm the logarithm of the sum of moduli to the given power. A machine built with the same arguments gets the saved parameters back from the file. Not true of the code: the documented sum over all i and j (each pair counts once); invariance with a visible bias; that a new machine has defined values (the bias is uninitialised memory); that `out` holds the result with a visible bias; that configurations of too few sites are refused; that vector_jacobian_prod takes batches with several chains; that a file survives a crash during save.", "quantifier": "every number of sites, every choice of bias, dtype and automorphism table, all parameters and batches of configurations, all content of uninitialised memory, all vectors, all file contents and crash points", "why_tests_cant": "Tests compare a few small machines with numerical derivatives; that the numbering of orbits of pairs is right for every permutation group, and that nothing depends on uninitialised memory, ranges over all groups and all memory contents.", "anchors": ["netket/legacy/machine/jastrow.py: Jastrow.__init__, log_val, der_log, state_dict, _gen_symm", "netket/legacy/machine/abstract_machine.py: AbstractMachine.vector_jacobian_prod, to_array, log_norm, parameters, save, load"]}
{"id": "C102", "title": "Metropolis chains converge to |psi|^machine_pow, and exactly when", "statement": "Run a Metropolis sampler for n steps from any initial distribution of a chain, on a finite space, with any wave function without zeros. For any transition rule whose correction is right, the distribution of the chain tends to |psi|^machine_pow divided by its total - geometrically, with constants that do not depend on the start - if and only if (a) any two configurations are connected by proposals that are possible in both directions and (b) some configuration can come back to itself in an odd number of proposals or some proposal can be rejected. For LocalRule (jax and numpy form) on any unconstrained space with at least two values per site, (a) always holds and (b) holds exactly if some site has three or more values or |psi| is not constant; with two values per site and constant |psi| the chain after n steps only visits configurations that differ from the start on a number of sites of the parity of n, so with an even number of steps between samples half of the space is never sampled. For ExchangeRule whose clusters link all sites, the chain converges on the rearrangements of the initial configuration if this has a repeated value or |psi| is not constant there. For HamiltonianRule with an operator that joins all configurations, it converges if some configuration is connected to itself or |psi|^machine_pow is not proportional to the number of connected configurations. Under these conditions the average of any function over n recorded configurations, with any fixed number of steps between them and any start, has a mean square error of at most C/n as an estimate of the expectation value.", "quantifier": "every finite configuration space, transition rule with a right correction, wave function, power, initial distribution and number of steps", "why_tests_cant": "a test runs finitely many steps of a few chains and can only compare histograms; convergence for every start, and non-convergence for the exceptional cases, concern the limit of the exact distribution", "anchors": ["netket/sampler/metropolis.py: MetropolisSampler._sample_next", "netket/sampler/metropolis_numpy.py: MetropolisSamplerNumpy._sample_next", "netket/sampler/rules/local.py: LocalRule.transition", "netket/sampler/rules/local_numpy.py: LocalRuleNumpy", "netket/sampler/rules/exchange.py: ExchangeRule_.transition, compute_clusters", "netket/sampler/rules/hamiltonian.py: HamiltonianRule"]}
{"id": "C103", "title": "Legacy state reconstruction (Qsr) descends the likelihood of its data", "statement": "For every machine, every set of basis rotations, every training set and every outcome of the sampling on any number of MPI ranks, the direction returned by one step of the legacy Qsr driver is the exact gradient of (mean of log|psi|^2 over the sampled configurations) minus (mean of log|<x|U_b|psi>|^2 over the drawn measurements); averaged over the random inputs (each sample Born-distributed, each drawn position uniform, arbitrary correlations) it is the gradient of the negative log-likelihood of the whole training set. With SR the same gradient and the derivatives at all samples are handed to the solver. nll() returns that negative log-likelihood when given the log of the norm, is not affected by the subtraction of the maximum, and is never negative for unitary rotations. A drawn measurement of amplitude zero makes the update NaN and nll infinite. At least n_samples and n_samples_data inputs are used, fewer than one extra round; invalid sizes raise ValueError.", "quantifier": "all machines (values and derivatives), rotations, training sets, samples, draws, ranks, parameter velocities, sizes", "why_tests_cant": "The gradient identity is an identity between a program and a derivative of a function of the parameters; tests compare with finite differences at a few points, and whether the estimator is unbiased concerns all outcomes of the sampling at once.", "anchors": ["netket/legacy/_qsr.py: Qsr._forward_and_backward, Qsr._compute_rotated_grad, Qsr._rotated_grad_kernel, Qsr.nll, Qsr.n_samples, Qsr.n_samples_data, Qsr.n_discard", "netket/legacy/machine/abstract_machine.py: vector_jacobian_prod", "netket/legacy/machine/jax.py: vector_jacobian_prod", "netket/legacy/stats/mpi_stats.py: mean"]}
{"id": "C104", "title": "Update directions of the legacy Vmc and SteadyState drivers", "statement": "For the legacy drivers, whatever samples the chains of all MPI ranks gave: `Vmc` reports as energy the mean of <s|H|psi>/<s|psi> over the samples of all ranks, and its direction is the covariance of the logarithmic derivatives with these local values (real part for real parameters; with stochastic reconfiguration this covariance is what is handed to the solver, along with every rank's derivatives). If the samples occur with exactly the Born frequencies then twice the direction is the gradient of the energy; if they are random, Born distributed and pairwise independent, the mean of the direction is (T-1)/(2T) times that gradient, T the total number of samples. `SteadyState` reports the mean of |<s|L|rho>/<s|rho>|^2, its direction is half the gradient of <L^dagger L> for exact frequencies, and for random samples it is off by an explicit covariance over T. `estimate_expectations` returns the mean and the same covariance as gradient, and discards the number of sweeps asked for. The number of samples is rounded up to a multiple of chains x ranks, never by a whole multiple, and non-positive numbers raise ValueError. Observables of SteadyState use their own sampler, with the documented defaults.", "quantifier": "every Hilbert space size, every operator and every correct listing of its connected entries, every machine (logarithm and derivatives), every number of ranks, chains and samples, every sample, every solver; for the averages every finite random experiment with Born distributed, pairwise independent samples", "why_tests_cant": "A gradient estimate is random: a test compares one seed within a tolerance wide enough to hide a wrong factor, a missing centring or a missing sum over ranks; unbiasedness is a statement about all samples at once.", "anchors": ["netket/legacy/_vmc.py: Vmc.__init__, n_samples, n_discard, _forward_and_backward", "netket/legacy/_steadystate.py: SteadyState", "netket/legacy/variational.py: estimate_expectations"]}
{"id": "C105", "title": "Runs of the legacy drivers: number of updates, callbacks, log files", "statement": "A run of a legacy driver that returns has performed whole blocks of step_size updates, each preceded by one look at which the statistics are estimated, logged and shown to all callbacks, until n_iter is covered or until the first look at which some callback objects; the update of that look is not made. On the first rank with an output, the log file then contains exactly the entries of all looks in order, after the entries the logger already had, and the parameter file contains the final parameters. At every instant in between, each file is the old one, one being written, or a prefix of the log (respectively the parameters of one of the looks), and between calls the log lacks fewer than write_every entries and the parameters are at most save_every - 1 looks old. A run whose callbacks do not raise returns. A second run with a logger opened in mode append leaves the entries of both runs; the modes write, append and fail behave as documented. Other ranks touch no file.", "quantifier": "All gradients, updates, estimates, callbacks (which may change the state and raise), numbers of steps and block sizes, write and save intervals, previous contents of the two files, ranks, and points at which the process dies.", "why_tests_cant": "Tests run a few dozen steps with the default intervals and look at the files afterwards; they cannot stop the process at every write, nor cover all intervals and callbacks.", "anchors": ["netket/legacy/abstract_variational_driver.py: AbstractMCDriver.run, iter, advance, update_parameters, reset", "netket/legacy/logging/_json_log.py: JsonLog", "netket/logging/json_log_old.py: JsonLog"]}
{"id": "C106", "title": "Reductions, broadcasts and gathers over MPI ranks", "statement": "mpi_sum, mpi_prod, mpi_any and mpi_max of an array give every rank the elementwise reduction over all ranks, for arrays of every shape and memory layout as well as for numbers and lists; an array passed is overwritten by the result, and no other memory changes. mpi_mean gives that sum divided by the number of ranks. An argument that cannot be reduced in place is copied or refused, never left unreduced. mpi_bcast gives everyone the root's value and refuses roots that are not ranks; mpi_allgather gives everyone the values of all ranks in order; on one rank they behave as on a group of one. A too old mpi4jax is rejected by comparing versions number by number, whatever suffix they have.", "quantifier": "All numbers of ranks, contents, shapes, offsets, strides and write flags of the arrays passed, all reduction operations, all roots, all version numbers and suffixes.", "why_tests_cant": "The tests run with one or two ranks on freshly made contiguous arrays; layouts, aliasing and the surrounding memory are not looked at.", "anchors": ["netket/utils/mpi/primitives.py: mpi_sum, mpi_prod, mpi_mean, mpi_any, mpi_max, mpi_bcast, mpi_bcast_jax, mpi_allgather", "netket/legacy/stats/_sum_inplace.py: sum_inplace", "netket/utils/mpi/mpi.py: _get_version_tuple"]}
{"id": "C107", "title": "Stochastic reconfiguration of the legacy numpy drivers solves the regularised equation of all samples on every rank", "statement": "With equally many samples on every MPI rank and solvers that find a solution when there is one, the legacy numpy SR object returns, on every rank, the solution x of (S + diag_shift) x = f, where S is the covariance of the log-derivatives of the samples of all ranks: with complex parameters for every solver, with real parameters (real parts of S and f, x real) for the iterative solvers on any number of ranks. The equation has exactly one solution for any samples and any positive shift, so neither the solver nor the start of the iteration matters, and the solution is a direction of descent: its product with the gradient is at least diag_shift times its own square. Without a machine a ValueError is raised, if the iteration reports failure a RuntimeError. The options select the documented solvers, svd_threshold is refused with iterative ones, minres with complex parameters, and unknown names are refused. The same should hold for the dense solvers with real parameters and for the scale-invariant regularisation, but does not: dense solvers with real parameters use only the samples of their own rank and leave different ranks with different parameters, Cholesky does not take the real part, and the scale-invariant regularisation replaces the diagonal and solves another equation.", "quantifier": "All numbers of parameters, samples, ranks, gradients, shifts, all exact solvers, starts of the iteration and options.", "why_tests_cant": "Tests compare a few runs on one rank with a fixed number of samples; that the equation is solvable for every set of samples and solved for every number of ranks is a statement about all matrices.", "anchors": ["netket/legacy/optimizer/numpy/stochastic_reconfiguration.py: SR.compute_update, SR._init_solver, SR._linear_operator, SR._apply_preconditioning, SR._revert_preconditioning"]}
{"id": "C108", "title": "Density matrices of the legacy machines", "statement": "The matrix returned by to_matrix of a legacy density matrix has trace one and is proportional to the values of the machine, row by row and column by column; if the machine is hermitian and positive on the basis, so is the matrix. to_array returns the same entries in one row (trace one with 'trace' or True, the bare values with False), log_trace the logarithm of the trace, diagonal() the machine of the diagonal entries; spaces without an index are refused with RuntimeError. The neural density matrices NdmSpin and NdmSpinPhase are hermitian, have a real diagonal that is not negative, and are positive for every choice of parameters; rows and columns may be given apart or joined. RbmSpin evaluates the pure machine at the joined configurations.", "quantifier": "every machine, every list of basis states, every parameter (real, any number of units, with or without biases), every vector of the quadratic form", "why_tests_cant": "positivity is a statement about all vectors and all parameters; tests of the legacy machines compare a few random entries, and never the trace against its logarithm", "anchors": ["netket/legacy/machine/density_matrix/abstract_density_matrix.py: AbstractDensityMatrix.to_matrix, to_array, log_trace, diagonal", "netket/legacy/machine/density_matrix/diagonal.py: Diagonal", "netket/legacy/machine/density_matrix/jax.py: NdmSpin, NdmSpinPhase, DensePurificationComplex, DenseMixingReal, DensePureRowCol, BiasRealModPhase, JaxDensity.log_val", "netket/legacy/machine/density_matrix/rbm.py: RbmSpin"]}
{"id": "C109", "title": "VMC and SteadyState drivers lower the energy and apply their options", "statement": "A step of the VMC driver reports the energy of the parameters before the step. With exact forces, a Hermitian Hamiltonian and a positive diagonal shift, the energy decreases along the update at least as fast as twice the shift times the squared update, also when the geometric tensor is estimated from few samples and when parameters are partly real and partly complex; a small enough learning rate strictly lowers the energy unless all forces vanish, and then the parameters stay. Without a preconditioner the update is the bare gradient and the same holds. Real parameters stay real over any number of steps, one value is reported per step, and each update starts from the result of the last. VMC refuses a Hamiltonian of another space (TypeError), both spellings of the preconditioner, and sr_restart without one (ValueError), without side effects; otherwise it uses the given preconditioner with the given option, or none. SteadyState behaves alike with its Lindbladian; info() describes the driver.", "quantifier": "every operator, wave function differentiable at the parameters, list of real and complex leaves, sample set for the tensor, shift, number of steps, combination of constructor arguments and heap of preconditioner objects", "why_tests_cant": "descent is a statement about all wave functions and parameters and about the limit of small steps; tests run a few steps on one model with fixed seeds", "anchors": ["netket/driver/vmc.py: VMC.__init__, VMC._forward_and_backward, VMC.info", "netket/driver/steady_state.py: SteadyState.__init__, SteadyState._forward_and_backward, SteadyState.info", "netket/driver/abstract_variational_driver.py: AbstractVariationalDriver.iter, advance, update_parameters, apply_gradient", "netket/optimizer/preconditioner.py: identity_preconditioner"]}
{"id": "C110", "title": "Samplers of the legacy interface", "statement": "The Markov chains of the legacy samplers (MetropolisLocal, MetropolisExchange, MetropolisHamiltonian and their parallel-tempering variants) leave |psi|^machine_pow unchanged, at any machine_pow, and every accept test uses the amplitudes of the current parameters, whatever has been done with the sampler since it was made. The acceptance is between 0 and 1. generate_samples(n) and list(samples(n)) hold the configurations after 1, ..., n steps, also after the number of chains was changed. Parallel tempering permutes the inverse temperatures 1 - i/n, exchanges neighbours by the ratio of the joint weights, returns the configuration of the replica at inverse temperature 1, and records mean and variance of its position. ExactSampler draws with probabilities |psi|^machine_pow / sum |psi|^machine_pow.", "quantifier": "All local states, spaces, graphs, operators, machines, powers, kernels, states of the generator, sequences of uses of a sampler (reset, next, generate_samples, setters, changes of the parameters), numbers of chains and replicas", "why_tests_cant": "A test runs a chain of finite length with one seed and one machine; a wrong stationary distribution shows up as a small bias inside the statistical error, and stale log-values appear only after particular histories.", "anchors": ["netket/legacy/sampler/numpy/metropolis_hastings.py: MetropolisHastings", "netket/legacy/sampler/numpy/metropolis_hastings_pt.py: MetropolisHastingsPt", "netket/legacy/sampler/numpy/local_kernel.py: _LocalKernel", "netket/legacy/sampler/numpy/exchange_kernel.py: _ExchangeKernel", "netket/legacy/sampler/numpy/hamiltonian_kernel.py: _HamiltonianKernel", "netket/legacy/sampler/metropolis_exchange.py: _compute_clusters", "netket/legacy/sampler/abstract_sampler.py: AbstractSampler", "netket/legacy/sampler/exact_sampler.py: ExactSampler"]}
{"id": "C111", "title": "hilbert.random_state is uniformly distributed on the Hilbert space", "statement": "hilbert.random_state(key) never raises for a space built by the constructors and returns a configuration drawn from the uniform distribution on the configurations of the space: every configuration, and nothing else, has positive probability, and all have the same one. The deprecated random_state() without a key does the same, and the call reaches the function and the size its arguments say.", "quantifier": "every Fock, Spin, Qubit and Custom space made by the constructors, with or without total number or magnetisation, every tensor product and doubled space of them, every configuration; draws of integers uniform and independent", "why_tests_cant": "A test compares histograms of a few small spaces within statistical error; it cannot decide that every configuration of every space has the same probability, and the tests only check that drawn states belong to the space.", "anchors": ["netket/hilbert/abstract_hilbert.py AbstractHilbert.random_state", "netket/hilbert/random/base.py random_state", "netket/hilbert/random/fock.py", "netket/hilbert/random/spin.py", "netket/hilbert/random/qubit.py", "netket/hilbert/random/custom.py", "netket/hilbert/random/tensor_hilbert.py", "netket/hilbert/random/doubled.py", "netket/hilbert/fock.py Fock._random_state_legacy", "netket/hilbert/spin.py Spin._random_state_legacy", "netket/hilbert/homogeneous.py HomogeneousHilbert._random_state_legacy", "netket/hilbert/doubled_hilbert.py DoubledHilbert._random_state_legacy"]}
{"id": "C112", "title": "Linear layers contract the requested axes and add the bias to the features", "statement": "nk.nn.Dense computes y[e,j] = sum_i x[e,i] k[i,j] + bias[j] for inputs of any number of dimensions. nk.nn.DenseGeneral contracts the given axes with the kernel, separately for every index of the leading batch dimensions, puts the features last and adds the bias along the features; batch dimensions that are not 0,...,n raise ValueError; members of the batch start from independent weights; parameters have the type dtype.", "quantifier": "every shape of the input, every list of features, axes and batch dimensions, every kernel and bias, entries in any additive monoid with a product", "why_tests_cant": "Tests call the layers on one or two shapes; that indices and broadcasting are right for every number of dimensions and every choice of axes cannot be sampled, and shapes with equal sizes hide a bias added along the wrong dimension.", "anchors": ["netket/nn/linear.py Dense", "netket/nn/linear.py DenseGeneral", "netket/nn/linear.py _normalize_axes"]}
{"id": "C113", "title": "Legacy jax stochastic reconfiguration: same update, stored or on the fly", "statement": "For the legacy jax machines, vjp returns the conjugate transpose of the derivatives times the given vector whichever of the real/complex code paths is taken, and grad the derivatives. The jax SR object returns, at every call of every run and on any number of ranks, the solution of (S + diag_shift) x = f with S the covariance of the derivatives over all samples (real parts for real parameters), the same with onthefly=True and onthefly=False. An SR object that has been set up for another machine works for it. Every solver name in its lists is accepted or falls back to cg as announced.", "quantifier": "All samples, ranks with equal numbers of samples, parameter types (real, complex, mixed), shifts > 0, exact solvers, histories of calls, option values.", "why_tests_cant": "The two ways are compared in tests on a few random machines with tolerances; whether the products agree for all samples depends on the mean phase gradient, which is zero or not tested for the machines used.", "anchors": ["netket/legacy/machine/_jax_utils.py: grad, vjp", "netket/legacy/optimizer/jax/_sr_onthefly.py: mat_vec, Odagger_DeltaO_v, O_mean, OH_w", "netket/legacy/optimizer/jax/stochastic_reconfiguration.py: SR"]}
{"id": "C114", "title": "Legacy samplers of jax machines produce Metropolis chains from fresh random numbers", "statement": "For every legacy Metropolis sampler of a jax machine, with any kernel, in any state: generate_samples(n) returns n sets of configurations, one configuration per chain; each set is sweep_size Metropolis steps after the previous one, accepting a proposal y from x when u < (|psi(y)|/|psi(x)|)^machine_pow with the parameters the machine has at that moment; the last set is the state the next request starts from. Whatever sequence of resets, requests and assignments is made, samples of the local kernel stay in the Hilbert space and samples of the exchange kernel are permutations of the initial configuration; no random key is used twice or derived from a used one, the keys of different chains are unrelated, and results depend on random numbers only through these keys. Constructors refuse negative n_chains and sweep_size. Expected as well: chains start from independent random configurations, n_chains can be reassigned, and bad sweep sizes are refused.", "quantifier": "all machines (as functions of parameters and configurations), parameters, powers, sweep sizes, numbers of chains, local states, pairs of sites, random sources, initial keys, and all histories of resets, requests and assignments including failing ones", "why_tests_cant": "Tests run one seed and one history and compare statistics within tolerance; reuse of a key, a stale log-probability or identical starting chains change correlations that such tests do not see, and assignments after failures are not exercised.", "anchors": ["netket/legacy/sampler/jax/metropolis_hastings.py: MetropolisHastings", "netket/legacy/sampler/jax/local_kernel.py: _JaxLocalKernel", "netket/legacy/sampler/jax/exchange_kernel.py: _JaxExchangeKernel", "netket/legacy/sampler/abstract_sampler.py: AbstractSampler"]}
{"id": "C115", "title": "Old names keep working", "statement": "For every function marked deprecated or renamed, every argument list and every state of the program: calling it emits exactly one warning naming it and then has the same effects, result or exception as the function itself; if the user turns warnings into errors, that error is raised and the function is not called. A name shared with a legacy function calls the legacy one, with unchanged arguments, exactly if its first parameter is a legacy machine. Public names of the old module netket.optim are those of netket.optimizer. The old argument graph of Hilbert spaces means N = number of nodes and is refused beside N. acceptance_ratio is the acceptance as a percentage and None before any step. The old methods of lattices return cell, label and position of each site consistently, and vector_to_site returns the site with label 0 of the cell. Hiding submodules renames the public submodules that are files, and changes no other attribute.", "quantifier": "all functions (as state transformers with results or exceptions), all positional and keyword arguments, all warning filters that record or raise, all attribute tables and file lists, all lattices with any basis, unit cell, extents and boundary conditions, all site numbers including negative ones", "why_tests_cant": "Tests call a few old names with a few arguments; they do not cover keyword calls of every wrapper, warning filters set to errors, name clashes between files and attributes, or lattices with several sites per cell.", "anchors": ["netket/utils/deprecation.py: deprecated, deprecated_new_name, wraps_legacy", "netket/optim.py: __getattr__", "netket/hilbert/_deprecations.py: graph_to_N_depwarn", "netket/sampler/metropolis.py: MetropolisSamplerState.acceptance_ratio", "netket/graph/lattice.py: Lattice.atom_label, site_to_vector, site_to_coord, vector_to_site, vector_to_coord", "netket/utils/moduletools.py: _hide_submodules, export, hide_unexported"]}
{"id": "C116", "title": "A LocalOperator is built from exactly the matrices and sites that are given", "statement": "LocalOperator(hi, operators, acting_on, constant, dtype) represents constant plus the sum of every given matrix on its sites: a single matrix with one number or a flat list of sites is the same as lists with one entry; lists that do not belong together (several matrices with flat sites, one matrix with nested sites, numbers among lists) are errors; sites outside the space, repeated sites and matrices of the wrong size are errors; the type of the operator can hold all the values that were given, and the order of the terms does not matter; no matrix is dropped; conjugate() and transpose(concrete=True) keep the type.", "quantifier": "every discrete space with sorted local states, every list of arrays of any type, dimension and size, every form of acting_on with any integers, every constant and dtype", "why_tests_cant": "there are unboundedly many combinations of lists, types, sizes and site orders; the failures need two matrices of different types or sizes in a particular order, which tests with matching lists never meet", "anchors": ["netket/operator/_local_operator.py: LocalOperator.__init__, _add_operator, __add_new_operator__, _reorder_kronecker_product, conjugate, transpose"]}
{"id": "C117", "title": "Arithmetic between operators of different classes follows the matrices", "statement": "For operators A and B of any classes (LocalOperator, GraphOperator, Ising, BoseHubbard, PauliStrings) and numbers, A + B, A - B, A * B, A @ B, A / c and the in-place forms either raise or give the operator whose matrix is the sum, difference or product of the matrices in this order; if A + B is defined so is A - B; if A @ A is defined so is A * A; operators on different spaces are not combined; division by c is multiplication by 1/c.", "quantifier": "every pair of operands of these classes, every matrices, numbers and spaces, every identity of objects", "why_tests_cant": "the result depends on which of the two operands' special methods Python calls, for every pair of classes and every pair of non-commuting matrices; tests compare a few pairs, mostly commuting or of one class", "anchors": ["netket/operator/_local_operator.py: LocalOperator.__add__ ... __rmul__", "netket/operator/_hamiltonian.py: SpecialHamiltonian", "netket/operator/_abstract_operator.py: __matmul__, __rmatmul__", "netket/operator/_pauli_strings.py: PauliStrings"]}
{"id": "C118", "title": "Graphs made from lists of edges, their copies and their symmetries", "statement": "Graph(edges, n_nodes) has exactly the edges given, in order, with their colours (0 when none is given), and without n_nodes the largest label is the last node; entries of mixed length, nodes that do not exist and non-sequences are refused; the coloured edges of a graph build the same graph again. edges() with filter_color returns exactly the edges of that colour in order, and the old color argument means the same. DoubledGraph gives two copies of the input with no walk between them, identical to the input; disjoint_union keeps both graphs with their colours. automorphisms() returns each colour-preserving symmetry once, the identity first, closed under composition, and the same list on later calls. distances() gives the shortest distance, and -1 between unconnected nodes. (Fails: DoubledGraph drops the colours; unconnected nodes are at infinity, not -1.)", "quantifier": "all lists of edges and colours, all numbers of nodes, all graphs, all orders in which the isomorphism search returns its results", "why_tests_cant": "tests build a few lattices without colours; the claims are about every list of edges, every colouring and every result order of the search", "anchors": ["netket/graph/graph.py: Graph, Edgeless, DoubledGraph, disjoint_union", "netket/graph/abstract_graph.py: distances"]}
{"id": "C119", "title": "Models written for jax.stax, haiku or another package behave like flax modules", "statement": "A model passed to nk.vqs.MCState is recognised by what it is: flax modules are used as they are; a pair of functions of jax.experimental.stax and a haiku Transformed are wrapped so that init({\"params\": key, ...}, x) returns {\"params\": p} with the parameters p of the package's own initialiser, and apply(variables, x) is the package's own function at p and x; asking for mutable collections, or passing variables without \"params\", is an error; wrapping parameters and unwrapping them gives them back; a model of any other package that has init and apply is used as it is. (Fails: without haiku installed every other model raises ImportError; a Transformed made by without_apply_rng receives an extra argument; a Transformed with two named arguments per function passes for a stax pair; unwrap_params of the fallback does not undo its wrap_params.)", "quantifier": "all models, functions, signatures, keys, samples and variables, with and without haiku installed", "why_tests_cant": "tests run one network per package in one installation; the claims are about every pair of functions, every signature and both installations", "anchors": ["netket/utils/model_frameworks/base.py: identify_framework, maybe_wrap_module, UnknownFramework", "netket/utils/model_frameworks/jax.py: JaxWrapper, JaxFramework", "netket/utils/model_frameworks/haiku.py: HaikuWrapper, HaikuFramework", "netket/utils/model_frameworks/flax.py: FlaxFramework", "netket/vqs/mc_state.py: MCState.__init__"]}
{"id": "C120", "title": "The runtime log holds every logged value at its place", "statement": "After any sequence of calls logger(step, item, state) of nk.logging.RuntimeLog with items that are nested dictionaries, lists and tuples, the history found in logger.data (or logger[key]) at every place is exactly the list of the steps and values logged at that place, in order: nothing lost, nothing at another place or step. Keys may be absent at some steps, appear late or hold None. A place that changes between leaf and dictionary is an error. (Fails: a list or tuple that becomes shorter discards the histories of its other elements, one that becomes longer loses the new values, both without an error.)", "quantifier": "all sequences of calls, all nested items and all places in them", "why_tests_cant": "tests log a few steps of one flat dictionary; the claim is about every history of calls and every nesting", "anchors": ["netket/logging/runtime_log.py: RuntimeLog", "netket/utils/history.py: accum_in_tree, accum_histories_in_tree"]}
{"id": "C121", "title": "A machine made from a torch module has parameters that can be read and written back, and its derivative products agree however they are computed", "statement": "For nk.legacy.machine.Torch(module, hilbert): n_par is the length of parameters. Assigning a vector of that length makes parameters equal to its real parts, leaves names, kinds and sizes of the module's parameters and every parameter that is not trained as they were; assigning what was read changes nothing; a vector of another length raises ValueError. Loading what another machine of the same layout saved gives that machine's parameters, including those that are not trained; a file without one of the names is refused. der_log holds the derivative of the real and imaginary output in each entry, with BackPACK as without. vector_jacobian_prod gives sum conj(J) v with conjugate=True and sum J conj(v) with conjugate=False, the same with and without return_jacobian, whatever gradients were left on the module before, and leaves none. TorchLogCosh is documented as log(cosh): it is not (it is log(cosh) + log 2 everywhere).", "quantifier": "all modules (any number, sizes, kinds of parameters), all vectors, all saved files, all derivatives, samples, numbers of samples and parameters, both values of conjugate, all gradients left before, all real inputs of the activation", "why_tests_cant": "a test checks one module and a few random vectors; that the two ways of computing the product agree for every vector, and independently of earlier backward passes, is an algebraic identity", "anchors": ["netket/legacy/machine/torch.py: Torch.__init__", "netket/legacy/machine/torch.py: Torch.parameters", "netket/legacy/machine/torch.py: Torch.save, Torch.load, Torch.state_dict", "netket/legacy/machine/torch.py: Torch.der_log, Torch._der_log_backpack", "netket/legacy/machine/torch.py: Torch.vector_jacobian_prod", "netket/legacy/machine/torch.py: TorchLogCosh.forward"]}
{"id": "C122", "title": "Seeding the legacy random module is reproducible in every process, and its integers are uniform over the range", "statement": "For nk.legacy.random: after seed(s) the generator of each MPI process is decided by s and its rank alone: not by what was drawn before, nor by the number of processes. The documented claim that every process is assigned a different sub-seed is not guaranteed: sub-seeds are independent draws, and for every generator two processes share one as soon as there are more processes than values. The comment that without a seed the generator is initialised on node 0 and propagated is false: every process draws its own seed and nothing is exchanged. randint(low, high) with low < high gives a value v with low <= v < high, exactly when the uniform draw lies in an interval of length 1/(high-low); with low = high it returns high, which the documentation excludes, rather than raising.", "quantifier": "all generators (states, seeding, drawing), all seeds and earlier states, ranks and numbers of processes, all bounds, all uniform draws", "why_tests_cant": "the guarantee is about every generator state and every number of processes; tests run in one process, with one seed, and cannot see that nothing is exchanged between the processes", "anchors": ["netket/legacy/random.py: seed", "netket/legacy/random.py: randint"]}
