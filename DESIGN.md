# Formal model of NetKet in Rocq/Coq 8.16.1 — design

Source: `/repo` (NetKet v3, July 2021). The source is read as text; nothing is run.
All Coq files live in `rocq/theories/`, logical prefix `Verif`.

## 1. How the model is organised

For every area `X` there are up to four files:

* `X_Model.v` – executable Gallina functions that mirror the Python functions branch by
  branch. Every definition carries a comment with file and line numbers of the Python it
  mirrors and the simplifications made.
* `X_Spec.v` – the independent vocabulary in which the property is stated (what a
  configuration is, what the matrix of an operator is, what a permutation is ...). The
  specification never calls model functions.
* `X_Proofs.v` – lemmas.
* `X_Props.v` – the property theorems only, each closed by `exact`, each followed by
  `Print Assumptions`, with `Example`s showing that hypotheses are satisfied by a
  concrete non-trivial case.

When the full English property is false of the faithful model, the theorem is called
`..._refuted` and exhibits a concrete witness (checked by `vm_compute`); when possible the
largest true part is proved next to it with suffix `_partial`, with the missing part named.

### Modelling conventions

* **Numbers.** Python ints are `Z`/`nat` (unbounded; the properties that are about int32 or
  int64 overflow say so explicitly). Floats and complex numbers are exact: either an
  abstract commutative ring with conjugation (`Section` variables, discharged to a
  universally quantified statement), or exact rationals `Q`/`Qc`, Gaussian integers
  `Z*Z`, Gaussian rationals. Rounding errors are outside the model.
* **Cut-offs** (`|x| > mel_cutoff`) are an abstract boolean predicate on ring elements
  about which nothing is assumed except when stated.
* **Arrays** are lists (matrices: functions of indices or lists of rows). Indexing out of
  bounds is an explicit fault, or is guarded by a hypothesis or a proved bound.
* **Exceptions** are values (`Err e` / `None`), so "raises" is an observable outcome.
* **Randomness** (jax/numpy generators), **models** (`apply_fun`), **callbacks**, wall-clock
  time and **user constraints** are arbitrary functions/streams that the theorems
  quantify over. Probability statements are made by counting draws or by exact
  rational transition probabilities.
* **MPI**: a collective operation is a function of the list of all ranks' inputs.
* **Object identity/aliasing** is modelled with an explicit heap where a property depends
  on it; elsewhere values are immutable.
* **Files and crash points**: a file system is a finite map, a write is a sequence of
  atomic steps, a crash may occur between any two steps.
* jax jit / vmap / scan / pytrees are modelled by their functional meaning (map, fold).

## 2. Trusted base

* Coq 8.16.1's kernel (including `vm_compute` used in `_refuted` witnesses and Examples).
* The axioms listed by `Print Assumptions` under each theorem (the intention is
  "Closed under the global context" everywhere; any stdlib axiom is listed in section 5).
* The correspondence between the Python text and the Gallina definitions, documented in the
  comment on each definition. Library functions of numpy/jax/scipy/flax/igraph are
  modelled by their documented meaning (`searchsorted`, `nonzero`, `unique`, `argsort`,
  `triu`, `kron`, `cumsum`, `reshape`, `lax.scan`, MPI reductions, ...).

## 3. Plan per property

| id | what is modelled | how it is proved |
|---|---|---|
| C01 | `hilbert_index.py` number_to_state/state_to_number over lists of Z, searchsorted as 'number of smaller elements' | digit induction on the number of sites; both directions plus range |
| C02 | all_states = map number_to_state over 0..n-1 | strictly increasing in lexicographic order + NoDup + completeness from C01 |
| C03 | `_bare_numbers` as filter over all indices; searchsorted into it | sorted-list search lemma + C01 |
| C04 | same model | expected false: kernel raises only past the last bare number; `_refuted` with a Fock space; prove the part that the returned index is right when the constraint holds, and raising exactly when beyond the last number |
| C05 | TensorHilbert digit loops over a list of abstract indexable factor spaces | mixed-radix induction over factors |
| C06 | DoubledHilbert conversions over an abstract indexable space | div/mod arithmetic |
| C07 | range check of numbers_to_states | upper side proved, negative side expected false (`_refuted`) |
| C08 | `__pow__` of Fock/Spin/Qubit/Custom as functions on a record of constructor arguments with explicit outcome | unconstrained proved; constrained Fock/Spin raises (`_refuted`) |
| C09 | ptrace of homogeneous and tensor spaces as list operations | list induction; duplicated sites refuted |
| C10 | flip kernels of random/{fock,spin,qubit,custom}.py with the draw as argument | case analysis + counting; unsorted CustomHilbert refuted |
| C11 | the Fock insertion loop and the Spin fill/permute construction with arbitrary random stream | loop invariant over sites |
| C12 | get_conn kernel over abstract ring; compiled tables of `_append_matrix`; spec: matrix of a sum of embedded local matrices | induction over terms, per-row list of non-zero off-diagonals |
| C13 | `_reorder_kronecker_product` index arithmetic | homogeneous dims: proved; inhomogeneous: `_refuted` by computation |
| C14 | add/imul/iadd on the list of terms with merging by support | matrix semantics, induction over terms |
| C15 | imatmul: product of term lists, enlargement of supports, constants | matrix semantics of embedding is multiplicative |
| C16 | object-identity aware imatmul (self aliases other) | `_refuted` by computation with non-zero constant; proved for zero constant |
| C17 | is_hermitian flag and `.H` as the code keeps them | constructor/sum part proved, scalar multiplication refuted |
| C18 | heap of matrices with references | `_refuted` by computation; out-of-place path proved safe |
| C19 | flattened/padded/n_conn loops | list induction |
| C20 | kernel with explicit bounds-checked buffers | `_refuted` for operators without diagonal; proved when a diagonal entry is always emitted |
| C21 | Ising kernel | induction over sites/edges; spec is sum of Pauli terms |
| C22 | BoseHubbard kernel with amplitudes kept as squared radicals | invariant per hop; to_local_operator coefficient refuted |
| C23 | PauliStrings constructor and kernel over Gaussian integers | induction over strings |
| C24 | inductive type of wrappers with collect/transpose/conjugate rules | structural induction; wrong rules refuted |
| C25 | Liouvillian kernel over abstract ring | algebra over lists; padded/single sample paths refuted |
| C26 | CSR construction | sum over row segment |
| C27 | permutations as lists, numpy fancy indexing | list/nth algebra |
| C28 | np.unique semantics | first-occurrence part proved; inverse refuted |
| C29 | conjugacy_table and greedy class extraction | equivalence-class induction |
| C30 | HashableArray eq/hash with numpy broadcasting | refuted |
| C31 | create_sites, get_edges, get_true_edges with its in-place wrapping, simplify, and the translation group, for grids of every dimension with integer coordinates | loop invariant over the naive edges; induction over axes; arithmetic mod extent |
| C32 | Metropolis state machine with arbitrary rule/model/random stream | invariant by induction over operations |
| C33 | accept test u < exp(...) over the real numbers of the standard library | probability of the test as the length of an interval, case analysis, sums over finite spaces |
| C34 | draw counting for local/exchange/hamiltonian rules | bijection between draws |
| C35 | exchange update on lists | Permutation + involution, induction over runs |
| C36 | jax and numpy sampler counters | jax proved; numpy refuted |
| C37 | swap_rows of the PT sampler | pairing involution; odd number refuted |
| C38 | batch_choice with cumulative sums over Q | interval characterisation; zero-probability selection refuted |
| C39 | ceil arithmetic of n_chains/n_samples setters and getters | proved bounds; getters refuted |
| C40 | mean/var over list of rank arrays, Q | sum algebra |
| C41 | masked dense / conv index arithmetic over abstract ring with arbitrary activation | congruence of finite sums on agreeing prefixes, induction over layers |
| C42 | ARNN conditionals as normalised positive weights | induction over sites of the sum over configurations |
| C43 | symmetrizer column table and contraction | re-indexing of finite sums by a permutation |
| C44 | product-table kernel and contraction | re-indexing over group elements |
| C45 | trace of product of matrices over abstract ring | cyclicity of trace |
| C46 | rank splitting, fake states, normalisation | one-rank/even split proved; witness with several fake ranks refuted |
| C47 | MCState cache state machine | invariant over operation histories |
| C48 | local estimator sums; random samples as finite probability spaces (`EstimRand_Spec.v`) | finite-sum algebra over a field; means of products of averages from pairwise independence |
| C49 | force over dual numbers (exact first derivative) | algebra; factor for real parameters refuted, complex proved; mean over random samples from the covariance form of the force |
| C50 | QGT mat_vec variants over Gaussian rationals / abstract *-ring | centering algebra; positivity over ordered field |
| C51 | dense (`*` elementwise) vs sparse (`*` matrix product) branch | refuted for dense by computation, proved for sparse |
| C52 | driver loop as a recursive function with callback oracle | step-count induction; non divisible step refuted |
| C53 | EarlyStopping state machine over Q | induction over loss sequences; min_delta clause refuted |
| C54 | JsonLog over crash-step file system | schedule invariant proved; durability refuted |
| C55 | StateLog over directory state | no-overwrite proved; empty-directory append and tar/fail refuted |
| C56 | History append as error-state machine | success invariant proved; failed append refuted |
| C57 | cache fields of struct dataclass | invariant over histories |
| C58 | copy and same-class sums of Ising and BoseHubbard | algebra for equal edges; different edges and isolated last site refuted |
| C59 | acceptance test of a tempered replica over the real numbers | interval length of the accepting draws; the scaled correction term refuted |
| C60 | serialize/deserialize of MCState fields | equation of records; different numbers of chains refuted |
| C61 | sample() on an abstract sampler (oracle); the state of the sampler after reset and discarding. | Direct from the model; the argument is ignored when the state has n_discard_per_chain = 0 (refuted by a concrete sampler). |
| C62 | Timeout callback over a sequence of clock readings | direct computation on the model |
| C63 | tree_map on the model of C57: caches travel with the non-pytree fields | proved for objects without cached values; refuted in general by a concrete class |
| C64 | QGT solve methods over the QGT models of C50: split into real coordinates, rescaling of right hand side and result, cast of the result; solvers are oracles that may be assumed exact on the operator they get; direct solvers get the dense matrix | change of coordinates between the system handed to the solver and S; uniqueness from positivity of S; QGTOnTheFly with a direct solver and non-holomorphic complex parameters refuted by a one-parameter state |
| C65 | LinearPreconditioner as a state machine holding the last solution | induction over the calls; documentation refuted: the condition is negated; with a Jacobian QGT and complex parameters the second call raises |
| C66 | log_cosh with the principal complex logarithm (minus infinity at zero), PureRBM, MixedRBM and NDM over the real numbers of the standard library, one pair of configurations at a time. | Every entry is shown to be a product of Gram kernels: phi(r) conj(phi(c)) from the pure parts and cosh(u(r) + conj u(c)) for each mixed unit; Gram kernels are closed under sums, products and non-negative factors and have non-negative quadratic forms. |
| C67 | The modules of models/rbm.py and models/jastrow.py, on top of DenseSymm (C33). | exp(log z) = z for the principal logarithm from the trigonometry of the standard library; products of amplitudes by induction; invariance from the pooling lemma of DenseSymm; witnesses for the parts that do not hold. |
| C68 | jnp.fft.fftn/ifftn as the iterated sums they compute; DenseSymmFFT and DenseEquivariantFFT with their index maps and reshapes; DenseEquivariantIrrep with the concatenated forward and inverse matrices, the runs of irreps of equal size and the assembled products; complex numbers over the reals of the standard library, no masks. | orthogonality of the roots of unity and induction over the dimensions give the convolution theorem; entries of each layer are then compared with those of the matrix layers; for irreps by the representation property and completeness. A group of six permutations in another order with explicit exponentials refutes the rest. |
| C69 | the four network classes (layers, activations, logsumexp with its NaN for negative sums of real numbers, equal_amplitudes, concatenation and broadcasting in the parity readout) and the decision table of the function GCNN. | hidden layers are rewritten to matrix layers by C68, shown to move with left translation of the group, and the weighted sum of exponentials is re-indexed by that translation. Refutations: NaN for a sign representation with real weights; the parity classes raise for two or more symmetries and vanish for parity -1 with one; Graph arguments, mode 'matrix' and plain arrays of characters raise. |
| C70 | build_SR, _SR, the deprecated constructors and QGTAuto with its cache, as functions on argument lists and association lists; the keywords each tensor constructor accepts. | case analysis on the arguments with lemmas on dictionaries; for the refutations an invariant that keys survive to the constructor, which then raises. |
| C71 | The five functions of spin.py: np.arange, np.diag, the formulas for the entries over rational/real numbers, the LocalOperator built from them (model of C12), and expressions (sums, products) formed with them. | Entries of the matrices computed for every N; commutators by finite sums over three-diagonal matrices; rows through the cutoff theorem of C12; operator commutators through the product theorem of C15. |
| C72 | The four functions of boson.py in the same way, with Python's negative indices in proj. | As for C71. |
| C73 | graph_operator over any commutative ring on top of the model of LocalOperator: list of terms, dtype test, exceptions; the graph library's edge list as an external behaviour | C73_row through C12's row theorem; C73_errors and C73_self_loop by cases; refuted: site operators alone and several bond operators without colours raise AssertionError although documented, a complex matrix after a real one raises |
| C74 | heisenberg on top of graph_operator; is_bipartite is an input | row by cases on the spins of an edge; Marshall signs by a product over sites; conservation through permutations; matrices of C71 for sx, sy, sz |
| C75 | mk_graph, edges, doubled_graph; igraph's vertex and edge lists are modelled by their documented behaviour | direct, by induction on the edge list; refuted: DoubledGraph forgets the colours |
| C76 | the whole function with blocks, batches, both autocorrelation times, their thresholds and NaN / infinity; square roots not taken; complex numbers with rational parts | Jensen's inequality for means of groups shows that the thresholds on tau never fail, so the result is a closed formula of all chains; affine and permutation laws from that formula; R_hat^2 < 2 from the same inequality; the mean of the reported squared error over a finite probability space of chains (`McErr_Spec.v`) from Steiner's identity |
| C77 | Keys as trees of splits (jax.random.split as a free constructor, trusted), every key consumption of each sampler, initialisation over MPI ranks, the state's and mixed state's seed handling. | Invariant by induction over the calls: consumed keys lie in the subtree of the current key's consumed half and the carried key in the other half, hence pairwise prefix-incomparable; the clauses about PRNGSeq.next, a single seed and sampler assignment refuted for all inputs. |
| C78 | reset (pdf), jax.random.choice by inversion of the cumulative sum (trusted), sample_next, sample, the state across calls; rational amplitudes. | Counting lemma for sorted predicates as in C37; round trip of C01; induction over histories; refutation for the un-reset state for all inputs. |
| C79 | The mixed state as a pair of Monte Carlo states (MCState model), constructor keywords, overridden setters and reset, serialisation with the shared diagonal, the op-op local estimator over complex numbers. | Refinement: the diagonal after any history is the MCState run on a projected history, then the C47/C60 lemmas; double-sum exchange for the trace; refutations with witnesses. |
| C80 | Weighted samples on ranks, value, centred values, reverse pass per rank (mpi4jax: the transpose of allreduce is the identity, trusted), the mean of the gradients over ranks; derivatives of log_pdf and function as given by automatic differentiation. | Quotient rule for the parametrised mean over Coq's reals; permutation invariance of the sums; connection to C48/C49 for operators; witness on two ranks. |
| C81 | The two right-hand sides, the estimates, the attributes of the driver, scipy's OdeSolver.step with the integration step as an oracle, the conversion of the right-hand side to the type of the initial array, the argument order of JsonLog in run(). | Derivatives of quadratic forms over Coq's reals, mean value theorem, a Gronwall argument for the norm in imaginary time; induction over integration steps and over sequences of advance calls; witnesses for the failures. |
| C82 | A function is a code object plus captured values; partials with arguments and keyword dictionary; ==, hash as functions of hash oracles; functools.partial.__call__; a jit cache keyed by ==; the partials created in the library. | Dictionaries without repeated keys compared through lookup, permutation of keys; induction over sequences of cached calls; witnesses for captured values and for 2 == 2.0. |
| C83 | Trees as lists of typed leaves; jax's vjp through derivatives with respect to real and imaginary parts; jax.grad of real functions as an oracle returning derivatives; the dispatch on input and output types; transposes of concatenation, real and imaginary part as in jax. | Induction over leaves, algebra of finite sums over Coq's reals; case analysis of element types; witnesses for mixed trees, C -> R and has_aux. |
| C84 | comparable, comparable_periodic, is_approx_int and prune_zeros on rational numbers, with numpy.rint as rounding to nearest with ties to even; prune_zeros also returns the argument after the call and whether it shares memory with the result. Float rounding inside these functions is not modelled. | Floor/rounding lemmas (unique nearest integer, monotonicity, shift by even integers); refutations: arbitrarily close numbers in different bins, an odd density breaks periodicity, the tolerance of prune_zeros is used for imaginary parts only, the argument is overwritten. |
| C85 | The construction of sites and edges with arbitrary basis (through its Gram matrix, rational), extents, boundary conditions and offsets, with the shell of neighbouring cells and its folding; the cleaning of offsets; the dictionaries of positions and coordinates; wave vectors. Not modelled: the k-d tree (its answer, all pairs within the cut-off, is taken exactly), rounding, custom edges. | The loop over candidate edges is shown to keep an invariant relating it to pairs of sites at the smallest distance, from which sites and edges follow; bins of positions are shown invariant under whole periods and to identify places up to their width; np.unique is shown to list each row once. Failing clauses are refuted by lattices in one dimension. |
| C86 | PGSymmetry (construction with its tolerance, action, preimage, momentum action, products, change of origin, determinant, equality), Identity, canonical forms with and without unit cell, lookup, inverse, product_table, group equality, remove_duplicates, rotation_group, change_origin, product of groups (PointGp_Model). Entries are exact rationals; np.linalg.inv is an argument; names of symmetries and conjugacy classes are not modelled. | Linear algebra over the rationals for every dimension (a left inverse is a right inverse, by linear dependence of n+1 vectors); canonical forms agree for maps equal modulo the lattice and only for nearly equal ones; congruence of composition modulo the lattice; determinants by ring up to dimension three; counterexamples by computation. |
| C87 | Sites and look-ups as in C85 (components with respect to the basis, rational). A symmetry is an affine map of components (the preimage of PGSymmetry in the basis is proved to be one); ids_of looks up all preimages; groups are products of lists of elements as in C20-C22. | A permutation belongs to a map when the map sends each site to the point of the listed site, up to the periods of the box. Lookups are exact (C85), an undoable map of sites gives a permutation, products of elements belong to composed maps, two permutations of one map agree. Powers of the unit translation and products over axes by induction; closure and inverses by reducing displacements modulo the extents and pulling them through the symmetries. Refuted: non-symmorphic point groups, quarter turn on a 2x4 torus, repeated elements for Chain(2). |
| C88 | Wave vectors as the rational numbers k.a_d/2pi; to_reciprocal_lattice with its tolerance and rejection of open axes; the modular comparison with the first element of the star; the table of the little group as an argument written into a real array; the sum over p of little-group factor, non-symmorphic phase and product of translation phases over the axes; prune_zeros. Exact sines and cosines (stdlib reals). | The modular comparison is equality up to reciprocal lattice vectors because extents divide out; the product of translation phases is exp(-i t.p(k)) by induction over the axes. Orthogonality: sums of roots of unity over all translations select equal elements of the star, which differ by elements of the little group, then reindexing by group bijections. Refutations by concrete groups (flip listed first; C4 at k=0; pgg at X). |
| C89 | Every function of axial.py, planar.py and cubic.py that builds an operation or a group, over the real numbers (Coq's cos, sin, sqrt); elements are Identity or x -> W x + w with the product rules of C86; the screw loop has fuel and the tolerance of is_approx_int; the perpendicularity assertion has numpy's tolerance; arctan2 is any angle with the right cosine and sine. Not modelled: rounding errors of cos/sin/sqrt, zero axes. | A list is a finite group if its maps of space are closed, have inverses, contain the identity first and are pairwise different (up to a lattice where one is needed). Rodrigues' formula is shown multiplicative in the angle and characterised by its action on the axis and the plane perpendicular to it (nsatz); cyclic groups by powers, the other families by adding one coset at a time; the cubic groups by passing to integer matrices, whose closure and completeness are decided by computation inside the kernel. A witness shows that short axes at 45 degrees pass the assertion and give a list that is not closed (C89_short_axes_refuted). |
| C90 | Grid_Model: _grid_point_group (itertools.permutations in order, the filter by kind, the product with the reflections, replacing the first element, change_origin) and the geometry passed to Lattice; the lattice, products of point groups and the space group are the models of C85, C86, C87. | The elements are shown to be signed permutation matrices in bijection with (permutation, set of reversed axes); closedness, inverses and tables follow from the composition law of such maps. For the lattice, squared distances are sums of squares of integers, so nearest neighbours are one step apart. The maps are box symmetries and isometries, so the theorems of C87 apply; distinctness by evaluating at the origin and at unit vectors. Refuted: distinctness for a periodic side of length two. Grids with a single site and open boundaries raise ValueError although the documentation allows sides >= 1 (C90_single_site). |
| C91 | `Custom_Model.v`: the constructor checks over Gaussian rationals, normalised weights (0/0 as NaN), searchsorted on the cumulative weights, the concatenated get_conn_filtered rows with their sections, and the cumulative walk of `_choose_and_return`, which continues into the entries of the following chains and faults past the end. Random numbers are given; sums of floats are exact. | `Custom_Spec.v` says what it means to draw from a weighted list (the number lies in the piece of the outcome), what the law of a move must be (its masses are the matrix elements between configurations), and what doubly stochastic moves are. Proof: the stored tables of the operator (LocalOp_Build) give rows whose masses are the matrix elements and whose total is one; induction over the chains. Refuted: a non-zero constant, elements within the cut-off, two moves on the same sites, all weights zero. |
| C92 | `grad_expect_operator_Lrho2` for one scalar parameter over the real numbers: local values converted to the output type, vector-Jacobian products at connected states (nk_vjp of JaxUtils_Model), nkjax.grad, the mean over all ranks followed by the further MPI sum, and the driver's real part; derivatives are given (what automatic differentiation returns). | Full sampling turns the sums into brackets of L(g rho) and L rho; the derivative of the expectation of L^dagger L is that of Estim_Proofs. Value, complex (holomorphic) and real cases proved; the dependence on the number of ranks, real log-amplitudes with complex elements and non-holomorphic parameters refuted by a two-state example. |
| C93 | The dispatch of `expect_and_grad` in MCState and VariationalMixedState and of `grad`; operators are described by whether they are hermitian, super-operators, squared. | Case analysis; the override of is_hermitian on squares and grad ignoring it are refutations. |
| C94 | Flags_Model: the environment as a function from names to strings, python's int of a string as a parameter, the three dictionaries of Config as lists of pairs, define and update as functions returning the exception and the state left behind. | Induction over the history for the last value and for well-typedness; case folding is compared with a specification letter by letter. The clauses on texts and on run-time editability are refuted: update uses python's truth value, and the editable table is never consulted. |
| C95 | TBLog_Model: trees with one constructor per branch of tree_log, the data list threaded as in the code, the writer as the list of add_scalar calls; decimal numerals as in the standard library. | An induction principle for nested trees; tree_log is shown to append the list of (path, leaf) pairs; membership in that list is the inductive position predicate; names are injective in paths whose components contain no slash (numerals are injective and contain none). The clauses on slashes in keys and on arrays are refuted by witnesses. |
| C96 | VarFile_Model: the two loaders branch by branch over a file system that maps paths to bytes; file names are strings, related to the names of StateLog_Model by a spelling in which k.mpack is the checkpoint k; flax's to_bytes and from_bytes are parameters. | From the theorems of C55 on what a run leaves behind, and lemmas on suffixes of strings and on numerals; members of an archive with the same name are resolved to the last one. |
| C97 | `LocVal_Model`: the two functions with their numba kernels: loops over the sections, unpacking of the samples for density matrices, allocation of arrays with unknown content, range with a step, slices and assignment to slices; log_val, der_log and the connected states are parameters (the latter as proved of the operators in C12 and following). | Induction over the samples with the arrays split at the running total (kernels); induction over the batches with the invariant that the first s rows are written (batches); calculus of complex-valued functions from the standard library's derivatives (derivative of a local value is the centred sum). Witnesses for the refuted clauses: negative batch_size, center_derivative=1. |
| C98 | `Pmap_Model`: the constructor (numbers of chains given as keyword arguments, the warning, the sampler of a device and its dtype), and init/reset/sample_next/sample as maps of the functions of `Metro_Model` over the devices with the reshapes that merge devices and chains; the counters summed over devices and multiplied or summed over ranks. | Arithmetic of the rounding (least multiple); the stacked state after any sequence of calls is the list of the states of independent samplers (induction over the calls), the entry of a concatenation of equal blocks; counters by the reference runs of C36. Witnesses for the refuted clauses. |
| C99 | LegRbm_Model mirrors rbm.py function by function: _get_hidden with its errors, the stored (symmetric) and the full parameter arrays, the setter and the views of state_dict, _log_cosh_sum with np.sign, the kernel of log_val with its rebinding of out, _bare_der_log, _build_der_mat, the one-hot encoding and extended permutations, and the pair of machines of RbmSpinPhase. | The two index maps of the symmetric machine (the one that spreads parameters and the one of the derivative matrix) are shown to be the same map; derivatives by the product rule for prod cosh; invariance by the pooling lemma of the symmetric dense layer; extended permutations form a group; witnesses for purely imaginary inputs, out, state_dict and torn assignment. |
| C100 | LegOpt_Model.v: numpy arrays with a type and broadcasting of one-dimensional arrays, the constructors, update (as optimizer afterwards, caller's array afterwards, result), reset, the factory functions with their jax variants, and the wrapper of jax optimizers with the three functions of jax as oracles. Exact arithmetic, settings are floats. | One update acts on every coordinate as a scalar recursion (LegOpt_Proofs); induction over the history gives the recursions along the path and the closed forms of the averages, sums and maxima (LegOpt_Hist, LegOpt_Final); resets by an invariant over histories of updates and resets, failures by case analysis of every branch (LegOpt_Reset); refutations by witnesses (LegOpt_Bugs). |
| C101 | Model: the table of parameter numbers as a function on pairs of sites, filled by the loops of the constructor (with and without automorphisms, including the dictionary that renumbers), the kernels of log_val and der_log over the real and complex numbers, the parameters property, vector_jacobian_prod for two and three axes, to_array, log_norm, save as the list of file contents at each crash point, load through an oracle for the numpy file format; np.empty is an oracle. | Proof: the label of a pair after the marking loop is the last pair of its orbit (induction over the loop); for a group two labels are equal exactly when the pairs are related, and renumbering keeps this. Values are then sums over pairs, linear in the parameters; invariance by writing twice the sum over i<j as a sum over all i and j different and reindexing. Failures are shown by witnesses. |
| C102 | the accept/reject kernel and the proposal probabilities of C33-C35 (Balance_Model, Rules_Model) on a finite space; the specification (Ergo_Spec) defines distributions, the l1 distance, geometric and pointwise convergence, walks of two-way proposals | powers of the kernel; a walk is a positive power; with connected configurations and a closed walk of every large length some power is strictly positive, hence contracts differences of distributions (Doeblin) while |psi|^machine_pow is invariant (C33). Conversely the limit is positive everywhere, so some odd power has a positive diagonal. Rules: sitewise interpolation (LocalRule), transpositions along links (ExchangeRule), parity of the number of differing sites for the exceptional case. Averages: first and second moments of sums along the chain by recursion on its length, with the geometric bound summed in blocks |
| C103 | LegQsr_Model mirrors _qsr.py: the setters of the sizes, the rotated gradient kernel with its maximum and division, the rows written by vector_jacobian_prod (or left alone by the jax machines, whose arrays then keep what np.empty gave), the means over rows and ranks, the SR branch, and nll. NaN rows and infinite nll are None. | The rotated gradient is shown to be the conjugate of the logarithmic derivative of <x|U_b|psi>; a real-linear form on vectors turns every mean into a mean of derivatives; nested means over equal blocks are flat means. Unbiasedness exchanges the sum over outcomes with these means and uses only the marginals; the derivative of the norm gives the Born average. Unitarity gives probabilities. Refutations by witnesses. |
| C104 | `LegVmc_Model.v`: the numeric part of `Vmc._forward_and_backward`, `SteadyState._forward_and_backward` and `estimate_expectations`, on the samples of every rank (list of ranks, chains, samples), with the machine (logarithm and logarithmic derivatives) and the SR solver as oracles; the setters of the sample numbers, and the sizes used for observables. Not modelled: the samplers (C102), SR solvers (C68 and others for the new code), the optimizer (C100), floating point. | Sample sums over ranks are shown to be averages over the concatenated sample list; the energy derivative is computed (Estim_Proofs) as a Born covariance; exact frequencies replace averages by Born means; for random samples the mean of the sample covariance is computed from pairwise independence. estimate_expectations multiplies the gradient by the number of chains (partial and refuted), n_discard=0 is treated as not given (refuted), and the defaults for observables of SteadyState raise (refuted). |
| C105 | The driver is a state machine over an abstract world with oracles for gradient, update, estimate, callbacks and serialisability; the logger writes to a disk of two files whose every intermediate state is recorded, and a file opened for writing is torn until it is complete. | Induction over the blocks of a run gives the sequence of looks; an invariant on the logger (counters and the entries the files lag behind) is kept by every call and discharged by the final flush; totality by induction; refutations by computing concrete runs. |
| C106 | Arrays are windows (offset, sizes, strides) on the memory of their rank; numpy's reshape(-1) and the requirements of MPI on buffers are modelled; a collective is a function of the arguments of all ranks. Version strings are parsed character by character. | A characterisation of equally spaced layouts by induction over the axes decides for every array whether it is reduced, refused or lost; the rest is elementwise reasoning; printing and parsing of numbers use the round trip of the decimal library. |
| C107 | `LegSr_Model.v`: option parsing, centring of the log-derivatives with the mean over ranks, the dense matrix (summed over the ranks for complex parameters, not for real ones), preconditioning, the operator of the iterative solvers, and the update on every rank; the solvers of scipy are oracles. | Solvability of (S + shift) x = f by induction on the number of unknowns (Schur complement) from positivity of the quadratic form; the matrix of the code is the covariance of all samples (averages over blocks of equal size); witnesses with computed updates, for every exact solver, against the three false clauses. |
| C108 | LegDm_Model.v: to_array (with the shift by the greatest quantum number), to_matrix, log_trace as written, the layers of NdmSpin and NdmSpinPhase, the joining of rows and columns. A machine is a function of row and column; the logarithm of the hyperbolic cosine is that of C99 (with its sign of zero). | LegDm_Proofs.v: the common factor cancels. LegDm_Net.v, LegDm_Final.v: the entries are f(x) conj(f(y)) times a product of hyperbolic cosines of u(x)+conj(u(y)), hermitian always, a Gram matrix if no input lies on the imaginary axis; a quadratic form of value -31/4 for two sites refutes positivity in general; log_trace is always below the logarithm of the trace of two states or more. |
| C109 | Vmc_Model.v: constructors over a heap of preconditioner objects, the step (expectation and gradient, preconditioner, real part), plain gradient descent, sequences of steps. State and preconditioner are inputs; forces are those of C49, the natural gradient is the relation of C64. | Vmc_Proofs.v: the force is linear in the direction, so the one-parameter theorem of C49 along the line of updates gives the slope -2 <d, F>; positivity of S + shift (C50) bounds it; a negative derivative gives a strictly lower energy for small steps. Sequences by induction. Vmc_Ctor.v: cases. |
| C110 | LegSamp_Model: kernels on one chain (local, exchange, Hamiltonian batch), the sampler object with its attributes as a record, next/reset/generate_samples/samples/setters, the parallel-tempering object with exchange step and running statistics, the exact sampler; kernel, generator, machine and parameters are arbitrary functions and types. Only real parts of log-amplitudes; exact reals; one process. Not modelled: the jax kernels, custom kernels, numpy's uniform generator itself. | Detailed balance and invariance for real powers via the lemmas of C21/C34 (Balance, Rules); decisions of a sweep chain by chain; invariants over arbitrary lists of operations (log-values belong to configurations; multiset of inverse temperatures, position of the cold replica); exchange of disjoint pairs = ratio of joint weights for an even number of replicas; Welford recursion = mean and squared deviations. False parts refuted by witnesses: Hamiltonian kernel at power 2 (correction multiplied by the power), stale log-values after a change of the parameters, samples() aliasing one buffer, n_chains setter, negative sweep_size, odd numbers of replicas, n_replicas setter, ExactSampler without reset. |
| C111 | Unif_Model.v: random_state and _random_state_legacy as programs which draw integers (a tree with one branch per value drawn), with exceptions; the dispatch of the call. Trusted: draws of numpy and jax are uniform and independent, jax.random.permutation is the uniform shuffle; one row of the batch. | Unif_Spec.v defines the probability of a configuration as the average over the tree. Support by relating the trees to the loops of C11; uniformity by induction: independent draws give 1/n^N, filling N two-valued sites with n particles n!(N-n)!/N!, shuffling two values a!b!/(a+b)!, concatenation multiplies. When a site can hold all particles the multinomial law, which is not uniform, hence the refutation. |
| C112 | Dense_Model.v: arrays as shape and function of the index; Dense and DenseGeneral with lax.dot_general, expand_dims and broadcasting modelled by their documentation (trusted); the initial kernel; the dtype of parameters. Conv and ConvTranspose are not modelled. | Index arithmetic by induction over the lists of dimensions: the placed indices are the concatenations b++e++c and b++c++f, inserted dimensions of the bias are ignored. Contracting the first axis is computed in general and refutes the bias clause. |
| C113 | LegJsr_Model: a sample is its vector of derivatives; vjp as contraction, real for real leaves (what jax does); the branches of _vjp/_grad; O_mean, O_jvp, OH_w, mat_vec and the stored-derivative products for all ranks at once; the SR object with its last solution (flat or tree, size), constructor options; cg is an oracle that is exact for hermitian positive matrices. Not modelled: float types beyond real/complex, tolerances. | Products reduced to the covariance (reusing C107), with the exact defect of the on-the-fly product; equivalence with 'mean derivative by real parameters is real'; positivity gives unique solvability; induction over calls; counterexamples of one or two parameters. |
| C114 | Model `LegJsamp_Model`: kernels, `step`, `scan`, `metropolis_kernel`, `reset`, the setters, `make`, `generate`, `next`, histories in which errors are caught and the sampler is used on; random numbers are arbitrary functions of symbolic keys (trees of splits); the list of keys drawn from is modelled beside. Not modelled: the counters of accepted moves (set to 0 and never changed by the code), compilation, float rounding. | Specification `LegJsamp_Spec`: `moves`/`linked` (Metropolis steps with unrelated keys), `follows`, `agree`, `bounded`. Proof by induction over steps, samples and histories: the log-probabilities carried by a walker are those of its configurations; every operation turns the current key into a new one and unrelated used ones; two random sources that agree on the used keys give the same history. Refuted: chains of the exchange kernel all start from one configuration (a non-jax random function is evaluated once while tracing); assigning n_chains raises AssertionError after changing it, and later init_random requests fail; sweep_size 0 is accepted and negative ones take effect; generate_samples(0) returns None and does not reset. |
| C115 | Model `Compat_Model`: functions take positional and keyword arguments and the state of the world and return a value or an exception; warnings.warn is a parameter (the filters of the user); attributes of modules are association lists; lattices are those of `LatGen_Model`. Not modelled: functools.wraps metadata, dedent (a parameter), the wording of two of the warnings is shortened. | Direct proofs for the wrappers with recording and raising filters; induction over the list of files with an invariant giving the value of every attribute; look-up lemmas of C85 for lattices. Refuted: a legacy machine given by keyword raises IndexError in every wrapped function (args[0] of an empty tuple is read); graph beside N=1 is accepted; acceptance_ratio raises TypeError before any step; vector_to_site does not invert site_to_vector for several sites per cell. |
| C116 | `LocCtor_Model`: the forms of `operators` and `acting_on`, dtypes with promotion and same-kind casts, the order of the checks; the storage is `LocalOp_Model`. Values are exact: rounding to single precision is visible in the type only; arrays of objects are not modelled. | Equality with the constructor of C12 for well-formed lists (with the row of get_conn as corollary), invariants of the loop over the pairs for the checks, induction for the excess of lists; the rest refuted by computed witnesses. |
| C117 | `Arith_Model`: the special methods of each class as functions returning a value, NotImplemented or an exception, Python's protocol of reflected methods and in-place fall-back on top; an operator is its identity, space, matrix and is_hermitian over an arbitrary algebra. What LocalOperators compute among themselves is C14 - C16, sums within one special class are C58, lazy wrappers C24. | Case analysis over all pairs of operands with the laws of the algebra; the exchanged factors for all operands, refutations over integer two by two matrices. |
| C118 | Graph as number of nodes and list of coloured edges (igraph by its contract: order kept, smaller node first, unknown nodes refused); _clean_edges branch by branch, edges with the old argument, automorphisms with its cache and np.unique as insertion in lexicographic order, DoubledGraph, disjoint_union, distances. The isomorphism search and the shortest paths are arguments of the theorems. | induction over lists of edges; joined/walk relations for the copies; the identity is first because seq 0 n is lexicographically least among its permutations; witnesses for the two refuted parts. |
| C119 | The list of registered frameworks in order, is_my_module branch by branch (tuples, numbers of arguments, the import of haiku), the two wrappers over a small universe of Python values with arbitrary functions for the packages, wrap_params/unwrap_params. | case analysis on the model; the functions of the packages are universally quantified; witnesses for the refuted parts. |
| C120 | accum_in_tree branch by branch over trees of None, leaves, sequences and dictionaries (a leaf history as the list of steps and values; the class History is C56), RuntimeLog as the fold over the calls, __getitem__. What an exception leaves behind in the dictionary is not modelled. | induction over the form of the items with an invariant on the accumulated data, then over the calls; places are paths of keys and indices; witnesses for sequences of changing length. |
| C121 | TorchM_Model.v: the module as its list of named parameters with a flag for training, the getter, the setter (consecutive pieces), save/load by name, der_log, the BackPACK variant, vector_jacobian_prod with the accumulating p.grad and zero_grad, TorchLogCosh, in exact real arithmetic; what autograd computes is an argument | induction over the module for the setter and the loader; induction over samples and ring identities for the products; ln/exp identities of the standard library for the activation, whose documented value is refuted |
| C122 | LegRand_Model.v: seed as a function of rank, number of processes, the optional seed and the state of the process's generator, which is an argument; randint as the floor of the scaled draw in exact real arithmetic | induction over the number of draws (prefixes agree); pigeonhole for the sub-seeds; a counting generator as witness against propagation; the floor's characterisation for randint |

## 4. Not modelled

Floating-point rounding, jit compilation, GPU execution, MPI failures, flax module machinery,
tensorboard output, plotting, legacy API (`netket/legacy`), FFT/irrep implementations of the
equivariant layers, eigen-solvers and iterative linear solvers (third-party numerics).
What each model leaves out is also said in the comment above the definition concerned.

## 5. Trusted base and axioms

* Coq 8.16.1's kernel and standard library (no other library).
* The reading of the Python code that the comments of the `*_Model.v` files record
  (file and lines), including the behaviour of numpy, jax, mpi4py, flax and the
  Python runtime that they quote.  Oracles (random streams, networks, callbacks,
  clocks, proposal rules) are universally quantified arguments, not axioms.
* `Print Assumptions` stands under every theorem.  Theorems over the real numbers of the
  standard library (C33, C34 partly, C42, C46, C48, C49, C50, C59) list
  `ClassicalDedekindReals.sig_not_dec`, `ClassicalDedekindReals.sig_forall_dec`,
  `FunctionalExtensionality.functional_extensionality_dep` and `Classical_Prop.classic`.
  All other theorems are closed under the global context, unless their `_Props.v`
  file says otherwise.
