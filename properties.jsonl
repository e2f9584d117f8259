{"id": "C01", "title": "loop_fast_unstable returns the closed-loop response", "statement": "When the 'loop_fast_unstable' inverse solve of a scattering matrix returns normally and the network has at most one steady state (or purging is off), the returned edge (i,o) is the response at o to a unit source at i: every x with x_s = u_s + sum_r S(r,s) x_r satisfies x_o = sum_i result(i,o) u_i (negated when negative=True), and for every u such an x exists.", "quantifier": "every finite graph, every edge values in any field, every input/output node set, every queue discipline and every set iteration order", "why_tests_cant": "depends on an unbounded family of graphs and elimination orders", "anchors": ["phasor/matrix/graph_algorithm.py:inverse_solve_inplace", "phasor/matrix/graph_algorithm.py:mgraph_simplify_inplace"]}
{"id": "C02", "title": "loop_fast_unstable fails only on a unit loop gain", "statement": "On a well-formed graph the 'loop_fast_unstable' simplification never raises KeyError: the only possible failure is a division by zero at a node whose accumulated self edge equals 1, and the loop always terminates.", "quantifier": "every well-formed graph, every elimination order", "why_tests_cant": "absence of errors over all graphs cannot be sampled", "anchors": ["phasor/matrix/graph_algorithm.py:mgraph_simplify_inplace"]}
{"id": "C03", "title": "LU node reduction preserves the input/output relation", "statement": "Eliminating a node with a nonzero self edge leaves unchanged the set of (input vector, output vector) pairs related by the remaining linear system.", "quantifier": "every sparse system with input (alpha) and output (beta) edges, every node with a nonzero pivot, every field", "why_tests_cant": "quantifies over all systems", "anchors": ["phasor/matrix/DAG_algorithm_impl.py:reduceLU"]}
{"id": "C04", "title": "Pivoting preserves the input/output relation", "statement": "Swapping two columns (with their output edges) or two rows (with their input edges) leaves the input/output relation of the system unchanged and moves every edge exactly as documented.", "quantifier": "every sparse system and every pair of nodes", "why_tests_cant": "quantifies over all systems", "anchors": ["phasor/matrix/DAG_algorithm_impl.py:pivotCOL_OP", "phasor/matrix/DAG_algorithm_impl.py:pivotROW_OP"]}
{"id": "C05", "title": "Householder reflections preserve the input/output relation and zero the requested edges", "statement": "A Householder row (column) operation leaves the input/output relation unchanged, removes every requested edge, and leaves a nonzero self edge on the target node.", "quantifier": "every sparse complex system, every target node with nonzero self edge and every set of nodes with edges to it", "why_tests_cant": "quantifies over all systems", "anchors": ["phasor/matrix/DAG_algorithm_impl.py:householderREFL_ROW_OP", "phasor/matrix/DAG_algorithm_impl.py:householderREFL_COL_OP"]}
{"id": "C06", "title": "The LUQ solver returns the inverse", "statement": "When the 'loop_LUQ' inverse solve finishes with no node left, the returned edge map is the matrix relating sources to responses: A^-1 for a plain matrix, (1-S)^-1 for a scattering matrix, negated when negative=True.", "quantifier": "every graph, inputs, outputs, and every sequence of node choices made by the priority queues", "why_tests_cant": "quantifies over graphs and histories of queue choices", "anchors": ["phasor/matrix/DAG_algorithm.py:inverse_solve_inplace", "phasor/matrix/DAG_algorithm.py:mgraph_simplify_badguys"]}
{"id": "C07", "title": "The LUQ reduction never gets stuck on a solvable system", "statement": "If the system is solvable for every source, choosing the largest coefficient as pivot never divides by zero and never meets an empty or all-zero row.", "quantifier": "every solvable system", "why_tests_cant": "quantifies over all systems", "anchors": ["phasor/matrix/DAG_algorithm_impl.py:reduceLUQ_row"]}
{"id": "C08", "title": "Node order does not matter", "statement": "Two runs of a solver on the same system that eliminate nodes in different orders and both succeed return the same responses.", "quantifier": "every system, every two orders", "why_tests_cant": "factorially many orders", "anchors": ["phasor/matrix/graph_algorithm.py:mgraph_simplify_inplace", "phasor/matrix/DAG_algorithm.py:mgraph_simplify_inplace"]}
{"id": "C09", "title": "The solvers agree", "statement": "loop_fast_unstable, loop_LUQ and the sparse-matrix solver return the same response for the same scattering problem whenever they return.", "quantifier": "every scattering problem", "why_tests_cant": "quantifies over all problems", "anchors": ["phasor/matrix/solvers_registry.py", "phasor/matrix/scisparse_algorithm.py:inverse_solve_inplace"]}
{"id": "C10", "title": "Purging unreachable nodes is exact and harmless", "statement": "Colour purging removes exactly the nodes not reachable from the start set, keeps forward and backward adjacency mirrored, terminates, and never changes a requested response.", "quantifier": "every graph and start set", "why_tests_cant": "quantifies over all graphs", "anchors": ["phasor/matrix/matrix_generic.py:color_purge_inplace", "phasor/matrix/matrix_generic.py:purge_subgraph_inplace"]}
{"id": "C11", "title": "Pre-purge makes adjacency match the edge map", "statement": "After pre-purging, every adjacency link is backed by an edge value; links with values are untouched; the mirrored-adjacency invariant survives.", "quantifier": "every graph", "why_tests_cant": "quantifies over all graphs", "anchors": ["phasor/matrix/matrix_generic.py:pre_purge_inplace"]}
{"id": "C12", "title": "Sparse matrix multiplication is matrix multiplication", "statement": "The product of two sparse (sequence, requirement, edge) matrices represents the matrix product of what they represent, and its adjacency is exactly the set of composable pairs.", "quantifier": "every pair of sparse matrices", "why_tests_cant": "quantifies over all matrices", "anchors": ["phasor/matrix/SRE_matrix_algorithms.py:matrix_mult_sre"]}
{"id": "C13", "title": "Sparse adjoint is an involution reversing products", "statement": "Taking the adjoint of a sparse matrix conjugate-transposes it; doing it twice gives the original; the adjoint of a product is the reversed product of adjoints.", "quantifier": "every sparse complex matrix", "why_tests_cant": "quantifies over all matrices", "anchors": ["phasor/matrix/SRE_matrix_algorithms.py:adjoint_sre"]}
{"id": "C14", "title": "Cartesian index enumeration", "statement": "stackrange yields every index tuple of the given ranges exactly once, in lexicographic order.", "quantifier": "every non-empty tuple of ranges", "why_tests_cant": "unbounded rank and extents", "anchors": ["phasor/matrix/linalg.py:stackrange"]}
{"id": "C15", "title": "Priority queue drains in order and loses nothing", "statement": "Whatever sequence of push, pop, replace and pushpop is applied, the queue always holds exactly the pushed and not yet popped items, pop returns a least one, popping an empty queue raises Empty, and draining yields the items sorted.", "quantifier": "every sequence of operations", "why_tests_cant": "unbounded histories", "anchors": ["phasor/utilities/priority_queue/heap_priority_queue.py:HeapPriorityQueue"]}
{"id": "C16", "title": "Threadsafe priority queue behaves like the plain one", "statement": "Every operation of the thread-safe queue has the same effect as the same operation of the plain queue.", "quantifier": "every history", "why_tests_cant": "unbounded histories", "anchors": ["phasor/utilities/priority_queue/heap_priority_queue.py:HeapPriorityQueueThreadsafe"]}
{"id": "C17", "title": "Bit enumeration", "statement": "yield_bits_on(n) yields exactly the positions of the set bits of n, in increasing order, and terminates.", "quantifier": "every non-negative integer of any size", "why_tests_cant": "infinitely many integers, table-driven algorithm with a shift loop", "anchors": ["phasor/math/numerics.py:yield_bits_on"]}
{"id": "C18", "title": "Topological sort", "statement": "For an acyclic dependency graph topological_sort yields every reachable node exactly once and after everything it depends on; a cyclic graph is reported, with the cycle's component.", "quantifier": "every finite graph", "why_tests_cant": "quantifies over all graphs", "anchors": ["phasor/math/key_matrix/keymatrix_reduce_tarjan.py:topological_sort"]}
{"id": "C19", "title": "Dictionary keys behave as finite maps", "statement": "Union is associative, idempotent and right-biased, difference and intersection undo it as documented, key removal and replacement touch only the named keys, and a missing key raises KeyError.", "quantifier": "every pair or triple of keys", "why_tests_cant": "quantifies over all keys", "anchors": ["phasor/base/dictionary_keys.py:DictKey"]}
{"id": "C20", "title": "Equal dictionary keys hash equally", "statement": "Two DictKeys that compare equal have equal hash tuples whatever the insertion order of their entries.", "quantifier": "every pair of keys and insertion orders", "why_tests_cant": "all insertion orders", "anchors": ["phasor/base/dictionary_keys.py:DictKey"]}
{"id": "C21", "title": "Dictionary keys are totally ordered", "statement": "'<' on DictKeys is a strict total order compatible with equality (needed by the sorted solvers and heap entries).", "quantifier": "every pair of keys", "why_tests_cant": "quantifies over all keys", "anchors": ["phasor/base/dictionary_keys.py:DictKey.__lt__"]}
{"id": "C22", "title": "Frequency keys form an abelian group", "statement": "Adding, subtracting, negating and integer-scaling frequency keys is pointwise integer arithmetic; the frequency of a sum is the sum of the frequencies.", "quantifier": "every set of frequency keys", "why_tests_cant": "quantifies over all keys", "anchors": ["phasor/base/dictionary_keys.py:FrequencyKey"]}
{"id": "C23", "title": "Frequency keys are canonical", "statement": "Every frequency key built by addition, subtraction and negation from non-degenerate keys has no zero entries, so equality, hash and the DC test depend only on the represented frequency combination; scaling by zero is the DC key.", "quantifier": "every arithmetic expression over keys", "why_tests_cant": "unbounded expressions", "anchors": ["phasor/base/dictionary_keys.py:FrequencyKey"]}
{"id": "C24", "title": "Complex arithmetic is field arithmetic", "statement": "Complex +,-,*,/ (and the reflected forms with real operands) satisfy the field laws, conjugation is an automorphism, |zw|=|z||w|.", "quantifier": "all operands", "why_tests_cant": "quantifies over all numbers", "anchors": ["phasor/math/complex.py:Complex"]}
{"id": "C25", "title": "Complex integer powers", "statement": "z**n is the n-fold product of z for every integer n (n=0 gives 1, negative n the inverse).", "quantifier": "all z and integers n", "why_tests_cant": "unbounded exponents", "anchors": ["phasor/math/complex.py:Complex.__pow__"]}
{"id": "C26", "title": "Complex square root", "statement": "z**.5 squares to z and has non-negative real part, for every z.", "quantifier": "all z including the negative real axis", "why_tests_cant": "quantifies over all numbers", "anchors": ["phasor/math/complex.py:Complex.__pow__"]}
{"id": "C27", "title": "Complex exponential and angle", "statement": "exp(z) has modulus e^Re(z) and turns addition into multiplication; |z| e^{i angle(z)} = z for all z and angle lies in (-pi,pi].", "quantifier": "all z", "why_tests_cant": "quantifies over all numbers", "anchors": ["phasor/math/complex.py:exp", "phasor/math/complex.py:angle"]}
{"id": "C28", "title": "Key spaces are bijections once frozen", "statement": "Freezing a key space numbers its keys 0..n-1 bijectively; afterwards unknown keys are rejected and the numbering never changes.", "quantifier": "every history of key additions and freezes", "why_tests_cant": "unbounded histories", "anchors": ["phasor/math/key_matrix/keymatrix.py:KVSpace"]}
{"id": "C29", "title": "Key matrix addition is entrywise", "statement": "Adding (subtracting) two keyed matrices adds (subtracts) entries key by key, absent entries counting as zero, and add_by on a keyed vector adds to one entry only.", "quantifier": "every pair of matrices", "why_tests_cant": "quantifies over all matrices", "anchors": ["phasor/math/key_matrix/keymatrix.py:KeyVectorBase.add_by", "phasor/math/key_matrix/keymatrix.py:KeyMatrix.__add__"]}
{"id": "C30", "title": "Array views round-trip", "statement": "Rebuilding a key matrix from its dense array through the key space gives back the same entries.", "quantifier": "every matrix", "why_tests_cant": "quantifies over all matrices", "anchors": ["phasor/math/key_matrix/keymatrix.py:KeyMatrix.array", "phasor/math/key_matrix/keymatrix.py:backmap_array"]}
{"id": "C31", "title": "Port propagation reaches the least closed set", "statement": "The port-update algorithm terminates when the element rules are bounded, and the final port/key sets are exactly the least sets containing the initial requests and closed under the element rules, independently of processing order.", "quantifier": "every set of monotone element rules, initial requests and schedules", "why_tests_cant": "all schedules", "anchors": ["phasor/system/ports_algorithm.py:PortUpdatesAlgorithm"]}
{"id": "C32", "title": "Symmetric updates see every new pair", "statement": "symmetric_update hands an element every pair of keys in which at least one member is new, and nothing else, so over the whole run each pair is processed at least once.", "quantifier": "every history of updates", "why_tests_cant": "unbounded histories", "anchors": ["phasor/system/ports_algorithm.py:PortUpdatesAlgorithm.symmetric_update"]}
{"id": "C33", "title": "Coherent sparsity graph is the least fixpoint", "statement": "The set of coherently driven nodes computed before solving is exactly the least set containing the sources and closed under linear edges and under nonlinear edges whose factors are all driven.", "quantifier": "every set of injections and every worklist order", "why_tests_cant": "all graphs and schedules", "anchors": ["phasor/system/matrix_algorithm.py:MatrixBuildAlgorithm._coherent_sparsity_graph"]}
{"id": "C34", "title": "Nonlinear triplet linearisation is consistent", "statement": "The edges and source terms generated for a triplet coupling around a field solution sum to the product coupling at that solution and to its exact derivative around it.", "quantifier": "all field values and couplings", "why_tests_cant": "quantifies over all values", "anchors": ["phasor/system/matrix_injections.py:TripletCoupling"]}
{"id": "C35", "title": "Normalised triplet linearisation is consistent", "statement": "The same holds for the power-normalised triplet coupling.", "quantifier": "all field values and couplings", "why_tests_cant": "quantifies over all values", "anchors": ["phasor/system/matrix_injections.py:TripletNormCoupling"]}
{"id": "C36", "title": "Solve order bookkeeping", "statement": "Solving to order N leaves exactly N+1 solutions regardless of earlier solves, repeated solves never recompute or discard solutions, and solution lookups by (possibly negative) order return the documented entry.", "quantifier": "every history of solve and lookup calls", "why_tests_cant": "unbounded histories", "anchors": ["phasor/system/solver_algorithm.py:SystemSolver.solve"]}
{"id": "C37", "title": "Frequency-order rejection is symmetric and monotone", "statement": "A frequency key is rejected exactly when its total order exceeds the configured limits; rejection is unaffected by negation.", "quantifier": "every key and limit configuration", "why_tests_cant": "quantifies over all keys", "anchors": ["phasor/system/system.py:reject_classical_frequency_order", "phasor/system/system.py:reject_optical_frequency_order"]}
{"id": "C38", "title": "Terminators implement Ohm's law", "statement": "A wave pair at a terminated electrical (mechanical) port satisfies the terminator's scattering relation exactly when voltage and current obey V = Z I (or I = Y V), including open, short and matched limits.", "quantifier": "all impedances with Z+Z0 nonzero and all waves", "why_tests_cant": "quantifies over all values", "anchors": ["phasor/electronics/passive.py:TerminatorImpedance", "phasor/electronics/smatrix.py"]}
{"id": "C39", "title": "Series elements implement Ohm's and Kirchhoff's laws", "statement": "Waves satisfy the two-port scattering relation of a series impedance (admittance) exactly when the current entering one side leaves the other and the voltage drop is Z times the current.", "quantifier": "all impedances and waves", "why_tests_cant": "quantifies over all values", "anchors": ["phasor/electronics/passive.py:SeriesImpedance", "phasor/electronics/passive.py:SeriesAdmittance"]}
{"id": "C40", "title": "Multi-way connections implement Kirchhoff's laws", "statement": "Waves at an N-way connection satisfy its scattering relation exactly when all voltages are equal and the currents sum to zero; the scattering matrix is an orthogonal involution.", "quantifier": "every N and all waves", "why_tests_cant": "unbounded N", "anchors": ["phasor/electronics/elements.py:Connection", "phasor/mechanical/elements.py:Connection"]}
{"id": "C41", "title": "Sources impose their voltage or current", "statement": "A voltage source fixes its port voltage, a current source its port current; the balanced versions fix the difference voltage (inject equal and opposite currents) with no common-mode current.", "quantifier": "all source values and incoming waves", "why_tests_cant": "quantifies over all values", "anchors": ["phasor/electronics/sources.py"]}
{"id": "C42", "title": "Two-by-two impedance matrix element", "statement": "A Z2x2To4Port built from impedances Zij enforces V1 = Z11 I1 + Z12 I2 and V2 = Z21 I1 + Z22 I2 on its two floating port pairs.", "quantifier": "all impedance matrices", "why_tests_cant": "quantifies over all values", "anchors": ["phasor/electronics/passive.py:Z2x2To4Port"]}
{"id": "C43", "title": "Ideal op-amp", "statement": "An OpAmp draws no input current and drives its output to gain*(V+ - V-) whatever the load.", "quantifier": "all waves and gains", "why_tests_cant": "quantifies over all values", "anchors": ["phasor/electronics/opamps.py:OpAmp"]}
{"id": "C44", "title": "Passive elements are passive", "statement": "Series, termination, connection and cable elements with non-negative resistance never output more wave power than enters.", "quantifier": "all passive impedances and waves", "why_tests_cant": "quantifies over all values", "anchors": ["phasor/electronics/passive.py", "phasor/electronics/elements.py:Connection"]}
{"id": "C45", "title": "Mirrors conserve power", "statement": "For every setting of transmission, loss and backscatter, a mirror's optical coupling plus its loss ports conserve power (lossless: unitary), for front and back incidence, at normal and oblique incidence.", "quantifier": "all T, L, R_backscatter in range", "why_tests_cant": "quantifies over all values", "anchors": ["phasor/optics/mirror.py:Mirror"]}
{"id": "C46", "title": "Spaces are pure delays that compose", "statement": "Propagation through a space multiplies each field by a unit-modulus phase; successive spaces add lengths; raising and lowering fields get inverse phases.", "quantifier": "all lengths, wavenumbers and frequencies", "why_tests_cant": "quantifies over all values", "anchors": ["phasor/optics/space.py:Space"]}
{"id": "C47", "title": "Polarisation rotators compose and undo", "statement": "Rotators by a and b compose to a+b; a reciprocal rotator is undone by the return pass, a Faraday rotator doubled; special-cased angles agree with the general formula.", "quantifier": "all angles", "why_tests_cant": "quantifies over all values", "anchors": ["phasor/optics/polarization.py"]}
{"id": "C48", "title": "Circulators permute ports cyclically", "statement": "An N-port circulator routes port k to k+1 modulo N: a permutation of order N.", "quantifier": "every N", "why_tests_cant": "unbounded N", "anchors": ["phasor/optics/circulator.py:OpticalCirculator"]}
{"id": "C49", "title": "Zero-pole filters are real and normalised", "statement": "A filter of real roots and conjugate pairs satisfies H(-f) = conj H(f), has unit DC gain before scaling, and has magnitude |gain| at the normalisation frequency.", "quantifier": "all root sets and frequencies", "why_tests_cant": "unbounded root sets", "anchors": ["phasor/signals/ZPSOS.py"]}
{"id": "C50", "title": "State space blocks realise C(s-A)^-1 B + D", "statement": "The signals at a state-space block satisfy s x = A x + B u and y = C x + D u.", "quantifier": "all sizes and matrices", "why_tests_cant": "unbounded sizes", "anchors": ["phasor/signals/state_space.py:StateSpaceModel"]}
{"id": "C51", "title": "Total noise is the sum over sources", "statement": "The total cross spectral density reported by a noise readout is the sum of the by-source densities, each is Hermitian in its ports, and auto spectra are real.", "quantifier": "every set of noise sources and couplings", "why_tests_cant": "unbounded sets", "anchors": ["phasor/readouts/noise.py:NoiseReadout"]}
{"id": "C52", "title": "ABCD systems compose", "statement": "The ray matrix between two positions composes: matrix(a,c) = matrix(b,c) matrix(a,b), matrix(b,a) is the inverse of matrix(a,b), all determinants are the index ratio (1 here).", "quantifier": "every component list and positions", "why_tests_cant": "unbounded component lists", "anchors": ["phasor/alm/system.py:System.matrix_between"]}
{"id": "C53", "title": "Component inverse and reversal", "statement": "Every component's matrix_inv is the inverse of its matrix and reversing a component gives the matrix of the reversed ray.", "quantifier": "all component parameters", "why_tests_cant": "quantifies over all values", "anchors": ["phasor/alm/bases.py"]}
{"id": "C54", "title": "Beam parameters propagate by Moebius action", "statement": "Propagating q by a matrix product equals propagating step by step; physical beams (positive Rayleigh range) stay physical; free space shifts Z and keeps waist.", "quantifier": "all beams and matrices of positive determinant", "why_tests_cant": "quantifies over all values", "anchors": ["phasor/alm/beam_param.py:ComplexBeamParam"]}
{"id": "C55", "title": "Cavity eigenmode is a fixed point", "statement": "eigen_q of a stable round-trip matrix is a physical beam parameter reproduced by one round trip.", "quantifier": "all stable unit-determinant matrices", "why_tests_cant": "quantifies over all values", "anchors": ["phasor/alm/utils.py:eigen_q"]}
{"id": "C56", "title": "Beam constructors round-trip", "statement": "Building a beam from (waist position, waist), (W,R) or (Z,ZR) and reading the same quantities back returns them.", "quantifier": "all physical parameters", "why_tests_cant": "quantifies over all values", "anchors": ["phasor/alm/beam_param.py:ComplexBeamParam"]}
{"id": "C57", "title": "Element names resolve to the element", "statement": "For every built element tree, looking up an element's dotted path from the root returns that element; names containing dots are rejected; siblings have distinct names.", "quantifier": "every history of insertions", "why_tests_cant": "unbounded trees", "anchors": ["phasor/base/autograft.py:Element"]}
{"id": "C58", "title": "Unitful values form a graded module", "statement": "Adding values of convertible units converts, adding inconvertible units raises, multiplication multiplies units, and conversion round-trips.", "quantifier": "all values and units", "why_tests_cant": "quantifies over all values", "anchors": ["phasor/base/simple_units.py:SimpleUnitfulGroup"]}
{"id": "C59", "title": "Section finding covers exactly the true samples", "statement": "generate_sections returns disjoint increasing index intervals covering exactly the true entries, and generate_antisections the complement.", "quantifier": "every boolean array", "why_tests_cant": "unbounded arrays", "anchors": ["phasor/utilities/np.py:generate_sections", "phasor/utilities/np.py:generate_antisections"]}
{"id": "C60", "title": "Meters and fluctuations act at a terminal", "statement": "A voltage readout reports the terminal voltage (or the difference of two), a current readout the current in its direction; a voltage fluctuation acts as a source in series with the terminal, a current fluctuation as one in parallel.", "quantifier": "all wave amplitudes, terminals and termination impedances", "why_tests_cant": "quantifies over all wave states", "anchors": ["phasor/electronics/multimeter.py", "phasor/electronics/noise.py"]}
{"id": "C61", "title": "Wave plates act by reflection and add up", "statement": "A mounted half-wave plate at angle a sends linear polarisation at angle b to -b - 2a, in both directions, for raising and lowering fields; two quarter-wave plates at the same angle act as one half-wave plate.", "quantifier": "all angles and polarisation amplitudes", "why_tests_cant": "quantifies over all angles", "anchors": ["phasor/optics/polarization.py:WavePlateMount", "phasor/optics/polarization.py:WavePlate"]}
{"id": "C62", "title": "Mixers multiply waveforms", "statement": "The in-phase output of a mixer is, at every instant, the product of the waveforms at its two inputs; the quadrature output is the same product with the local oscillator advanced by a quarter period.", "quantifier": "all key sets, amplitudes and instants", "why_tests_cant": "quantifies over all sets of frequencies", "anchors": ["phasor/signals/mixer.py:Mixer"]}
{"id": "C63", "title": "The mean square detector reports the mean square", "statement": "The DC output of a mean square mixer is the zero-frequency part of the square of the input waveform, each pair of conjugate frequencies counted once.", "quantifier": "all key sets and amplitudes", "why_tests_cant": "quantifies over all sets of frequencies and iteration orders", "anchors": ["phasor/signals/RMS.py:MeanSquareMixer"]}
{"id": "C64", "title": "Mechanical responses obey Newton's law", "statement": "The single resonance filter is the displacement of a mass on a damped spring under a force, with width center/Q; the integrator divides by s in the sign convention of the other elements.", "quantifier": "all masses, frequencies and widths", "why_tests_cant": "quantifies over all values", "anchors": ["phasor/signals/siso_filter.py"]}
{"id": "C65", "title": "Summing and distribution amplifiers are linear", "statement": "A distribution amplifier copies its input to each output times that output's gain; a summing amplifier adds its inputs times their gains.", "quantifier": "all lists of gains", "why_tests_cant": "unbounded lists of ports", "anchors": ["phasor/signals/amplifiers.py"]}
{"id": "C66", "title": "Thin lens composites obey the lensmaker's formula", "statement": "A plano-convex or biconvex lens and a plano-convex mirror substrate of no thickness have the focal power given by the lensmaker's formula, whichever way they are mounted; a flat plate of thickness L and index n acts as a space of reduced length.", "quantifier": "all indices and radii, both orientations", "why_tests_cant": "quantifies over all values", "anchors": ["phasor/alm/substrates.py", "phasor/alm/composites.py"]}
{"id": "C67", "title": "Beam overlap is an inner product", "statement": "The overlap of a beam with itself is 1, swapping beams conjugates it, its magnitude is at most 1 with equality only for equal beam parameters, and sending both beams through the same optics keeps the magnitude.", "quantifier": "all pairs of physical beams and all matrices of positive determinant", "why_tests_cant": "quantifies over all values", "anchors": ["phasor/alm/beam_param.py:ComplexBeamParam.overlap_with"]}
{"id": "C68", "title": "Focus, telescope and sensitivity matrices", "statement": "A shifted focus is the focus conjugated by free space, a telescope has magnification R and no focal power, and the sensitivity root squares to the (positive) negated sensitivity matrix.", "quantifier": "all lengths, ratios and physical beams", "why_tests_cant": "quantifies over all values", "anchors": ["phasor/alm/utils.py:matrix_telescope", "phasor/alm/utils.py:matrix_focus", "phasor/alm/beam_param.py:ComplexBeamParam.sensitivity_matrix_sqrt"]}
{"id": "C69", "title": "Positions along an optical system", "statement": "The matrix from the left end to position z is the product of the parts in front of z and of the partial space; the matrix from any target to z lands on a plane at z, the same one for all targets unless a part sits exactly at z; a target's reported position is where the matrix to it lands.", "quantifier": "every nested component list, target and position", "why_tests_cant": "unbounded nesting and lists", "anchors": ["phasor/alm/system.py:System.matrix_target_to_z", "phasor/alm/system.py:System.target_pos"]}
{"id": "C70", "title": "Sorting and limiting a domain keep samples together", "statement": "Sorting a domain returns it in increasing order with every other array permuted alike, so pairs of samples stay together; limiting to an interval keeps exactly the samples inside it, in order, in every array.", "quantifier": "all arrays of equal length and every order argsort may return for equal samples", "why_tests_cant": "unbounded arrays", "anchors": ["phasor/utilities/np.py:domain_sort", "phasor/utilities/np.py:interval_limit"]}
{"id": "C71", "title": "Attributes read the same quantity in every unit", "statement": "An attribute given in one unit and read in another of the same dimension denotes the same quantity, other dimensions raise, a fitted value injected by an attribute is read back unchanged by it, and giving no or several values raises.", "quantifier": "all values, units and entries of the configuration tree", "why_tests_cant": "quantifies over all values", "anchors": ["phasor/base/simple_units.py:ElementRefValue", "phasor/base/multi_unit_args.py:generate_refval_attribute"]}
{"id": "C72", "title": "Homodyne readouts give every quadrature consistently", "statement": "Changing the readout phase rotates the noise matrix and the responses consistently; the noise ellipse bounds the noise at every phase, is attained, and does not depend on the phase; its angle is the phase of largest noise; the noise of one quadrature after the best subtraction of the other is as reported; no phase is more sensitive than the reported optimum.", "quantifier": "all 2x2 noise matrices, responses and phases", "why_tests_cant": "quantifies over all real matrices and angles", "anchors": ["phasor/readouts/homodyne_AC.py:HomodyneACReadout"]}
{"id": "C73", "title": "Regenerating a model keeps what was added to it", "statement": "When the root is regenerated and completed, every element that had been inserted, at any depth, is there again under the same name with the same class, nothing else appears, no exception is raised, and the optical and electrical bonds made between them are kept; regenerating again changes nothing more.", "quantifier": "every tree of classes, every history of insertions, lookups, completions, bonds and regenerations", "why_tests_cant": "unbounded trees and histories; the losses only show after a second regeneration or an unusual order of calls", "anchors": ["phasor/base/autograft.py:Element._complete", "phasor/base/autograft.py:Element.insert", "phasor/base/autograft.py:RootElement.regenerate", "phasor/optics/ports.py:OpticalPort._complete", "phasor/electronics/ports.py:ElectricalPort._complete"]}
{"id": "C74", "title": "A photodiode measures the power of the light", "statement": "The signal of a photodiode, read as a waveform, is at every moment the squared magnitude of the field, summed over polarizations and carriers that do not interfere; its mean is the sum of the squared amplitudes; its small-signal response is the derivative of the power; it is set up exactly when its signal keys are closed under negation; the pass-through photodiode also leaves the light alone.", "quantifier": "all key sets, amplitudes, polarizations and moments", "why_tests_cant": "unbounded sets of sidebands; each beat note is split over several couplings added in pairs", "anchors": ["phasor/optics/nonlinear_utilities.py:modulations_fill_2optical_2classical", "phasor/optics/photodiode.py:PD", "phasor/optics/photodiode.py:MagicPD"]}
{"id": "C75", "title": "Modulators multiply the light by the drive", "statement": "A phase modulator multiplies the field by 1 + i phi(t), an amplitude modulator by 1 + m(t), the combined one by 1 + i phi(t) + m(t), where the drive is the waveform of the signal; the raising field leaves as the conjugate of the lowering field; the back-action of phase modulation is the power over c and that of amplitude modulation vanishes.", "quantifier": "all light, drives, key sets and moments", "why_tests_cant": "unbounded sets of sidebands", "anchors": ["phasor/optics/modulators.py:PM", "phasor/optics/modulators.py:AM", "phasor/optics/modulators.py:AMPM"]}
{"id": "C76", "title": "Moving mirrors and radiation pressure", "statement": "Light reflected off a moving mirror gains the phase of the changed path, on each face with its own sign, and the light pushes the mirror with 2 R P cos(angle) / c away from the face it falls on.", "quantifier": "all light, motions, reflectivities, phases, angles and faces", "why_tests_cant": "quantifies over all values and sidebands", "anchors": ["phasor/optics/mirror.py:Mirror.system_setup_coupling"]}
{"id": "C77", "title": "Photodiodes and modulators get every key they need", "statement": "When the keys are settled, every product of the light at a modulator or photodiode with its drive, every beat note of the light, and every key its couplings name is present at its ports, within the frequency limits; so setting up its couplings neither raises nor names a missing key, and the modulated field and the measured power are complete.", "quantifier": "every system, placement, initial request, scheduling order and key set within the limits", "why_tests_cant": "unbounded key sets, fixpoint over several passes; each pass sees only the newly added keys", "anchors": ["phasor/optics/nonlinear_utilities.py:ports_fill_2optical_2classical", "phasor/optics/modulators.py:PM.system_setup_ports", "phasor/optics/photodiode.py:PD.system_setup_ports", "phasor/optics/photodiode.py:MagicPD.system_setup_ports"]}
{"id": "C78", "title": "Modulators do not make the keys depend on the order of events", "statement": "The keys present at every port at the end do not depend on the order in which elements and ports are taken from the pending sets, for systems with modulators.", "quantifier": "every system, initial request and pair of scheduling orders", "why_tests_cant": "set.pop picks an arbitrary order that a test does not control", "anchors": ["phasor/optics/nonlinear_utilities.py:ports_fill_2optical_2classical", "phasor/system/system.py:BGSystem"]}
{"id": "C79", "title": "Levers are rigid, massless rods", "statement": "The displacements at the two ends of a lever differ by the rotation times the arm, the forces on it cancel, the torque is the arm times the force, and it takes up no energy; in one dimension and in three, for any displacement. A mass at one end with the other end held answers a rotation with the torque of its moment of inertia. The driver along a single axis does the same.", "quantifier": "all displacements, displacement vectors, waves and frequencies", "why_tests_cant": "real parameters in three dimensions; the matrices come from a derivation that is not in the code", "anchors": ["phasor/mechanical/xyz.py:Moment1D", "phasor/mechanical/xyz.py:XYZMomentDriver", "phasor/mechanical/xyz.py:MomentDriver"]}
{"id": "C80", "title": "A string carries waves of its own impedance", "statement": "A string relates the displacements and forces at its ends as a line of delay length over speed and of characteristic impedance: force is the root of tension times density, times velocity. At rest it is a spring of constant tension over length.", "quantifier": "all tensions, densities, lengths, losses, frequencies and waves", "why_tests_cant": "real parameters and all frequencies", "anchors": ["phasor/mechanical/string.py:String", "phasor/mechanical/string.py:ZConverter"]}
{"id": "C81", "title": "Sensitivities and loop gains are those of the cut loop", "statement": "AC_sensitivity is the readout for a unit drive, AC_sensitivityOL the ratio of two readouts and, when driven at its own port, the response with that port held and its loops cut; CLG and OLG of a port are 1/(1-L) and -L, where L is what returns to the port when it is held at 1; GPlant is the response of the plant alone, whatever closes the loop; a drive as large as the noise-limited sensitivity moves the readout by the noise.", "quantifier": "all networks of any size, couplings, drives and ports", "why_tests_cant": "quantifies over networks of any size; the code only divides entries of an inverse matrix", "anchors": ["phasor/readouts/AC.py:ACReadout", "phasor/readouts/AC.py:ACReadoutCLG", "phasor/readouts/AC.py:ACReadoutLG"]}
{"id": "C82", "title": "A piezo converts between voltage and motion", "statement": "A piezo element relates its voltage, current, force and displacement by the piezo equations: displacement is force over stiffness plus d times voltage, charge is capacitance times voltage plus d times force; without a force it moves by d times the voltage; it takes up no energy.", "quantifier": "all stiffnesses, capacitances, piezo constants, terminations, frequencies and waves", "why_tests_cant": "real parameters and all frequencies; the scattering matrix was derived elsewhere", "anchors": ["phasor/transducers/PZT.py:PZTMountedGrounded"]}
{"id": "C83", "title": "Expressions keep their value", "statement": "Multiplying two sums of products gives an expression with the product of their values; collecting like terms keeps the value, leaves every product once, in order, and makes no new products.", "quantifier": "all expressions, however nested, and all field values", "why_tests_cant": "unbounded nesting and numbers of terms", "anchors": ["phasor/optics/ODE_solver.py:lt_mult", "phasor/optics/ODE_solver.py:lt_sort_collect"]}
{"id": "C84", "title": "Nonlinear elements are linearised about the present fields", "statement": "An element that integrates polynomial equations of its fields sends, with the present fields at its inputs, the solution after N steps (each component advanced in turn), and responds to changes of the fields with the exact derivative of that solution; updates with unchanged fields change nothing; this holds after any sequence of updates.", "quantifier": "all systems of polynomial equations, numbers of steps, fields and sequences of updates", "why_tests_cant": "unbounded sizes; the derivative matrix is accumulated step by step with several short cuts for zero fields", "anchors": ["phasor/optics/ODE_solver.py:ExpMatCoupling"]}
{"id": "C85", "title": "A nonlinear crystal mixes the fields and keeps their energy", "statement": "A nonlinear crystal integrates the three-wave mixing equations of the light present: every pair of fields drives the field at its sum frequency and every field with a conjugate the one at the difference frequency, in proportion to frequency; the energy in the fields is kept; light that takes part in no process goes through unchanged; products of unrelated wavelengths raise an error.", "quantifier": "all sets of modes and polarizations, all frequencies that are multiples of a base wavelength, all fields and gains, all sequences of updates", "why_tests_cant": "unbounded sets of modes; energy is a sum over all processes at once, and depends on how often each pair is counted", "anchors": ["phasor/optics/nonlinear_crystal.py:NonlinearCrystal"]}
{"id": "C86", "title": "An acousto-optic modulator moves light between its two beams and keeps its energy", "statement": "An acousto-optic modulator moves light between its two beams, shifting it by every drive frequency above the split in the direction set by the beam it comes from; with a real drive the energy in the light is kept and conjugate fields stay conjugate; light that no drive frequency moves goes through unchanged.", "quantifier": "all sets of modes and drive frequencies, all fields, drives and gains, all sequences of updates", "why_tests_cant": "unbounded sets of modes and frequencies; energy is a sum over all pairs", "anchors": ["phasor/optics/AOM.py:AOM"]}
{"id": "C87", "title": "A squeezer given by its variances puts those variances on the light", "statement": "A squeezer built from a variance of 0 to 1 and a second variance, of product at least 1, uses a loss and gains that give these two variances: light of unit variance in both inputs leaves with the first variance in the quadrature at the angle chosen and the second in the other, and the outgoing fields keep the canonical commutators.", "quantifier": "all pairs of variances, angles, modes, key sets and incoming fields", "why_tests_cant": "the variances are real numbers and the gains nested square roots of them; the commutators are sums over all inputs", "anchors": ["phasor/optics/EZSqz.py:EZSqz"]}
{"id": "C88", "title": "Generators, lasers and vacuum give the signals, powers and noise that were set", "statement": "A signal generator puts out the real sine of its amplitude, phase and frequency, and each harmonic the sine of its gain at the multiple of frequency and phase; a laser emits light of its power and phase, so that a photodiode before it reads the power; and where the vacuum fluctuations of all ports reach a photodiode completely, the noise spectrum is the shot noise 2 h nu P.", "quantifier": "all frequencies, phases, amplitudes, harmonics, powers, sets of modes and of vacuum ports, fields at the photodiode and signal frequencies", "why_tests_cant": "the waveform holds at every time, and the shot noise is a sum over all vacuum ports, modes and sidebands that no finite set of optical setups covers", "anchors": ["phasor/signals/signal_generator.py:SignalGenerator", "phasor/optics/laser.py:Laser", "phasor/optics/vacuum.py:OpticalVacuumFluctuation"]}
{"id": "C89", "title": "A homodyne readout reads the quadratures of the light against its local oscillator", "statement": "The I and Q outputs of the homodyne readout are, at every time, the two quadratures of the light times the conjugate of the local oscillator turned by the phase set, divided by the root of its power; the quantum outputs have the noise 1 for vacuum and uncorrelated quadratures; the common output is the sum of the intensities; the power photodiode reads the power; and light passes unchanged.", "quantifier": "all phases, modes, fields of light and local oscillator, output frequencies and sets of vacuum ports", "why_tests_cant": "the outputs are sums over all pairs of modes of two ports, and the noise is a sum over all vacuum ports and sidebands, with a branch for each multiple of 90 degrees", "anchors": ["phasor/optics/hidden_variable_homodyne.py:HiddenVariableHomodynePD", "phasor/optics/hidden_variable_homodyne.py:TotalDCPowerPD"]}
{"id": "C90", "title": "Selectors sort the light by its keys and stacks act on each kind of light with its own element", "statement": "A selector sends each key of the light in front to the one back port whose selection shares an entry with it and refuses keys with none or several; no light is lost, doubled or sent elsewhere; light entering at the back comes out in front; a stack of elements shows the sum of what its elements make of the light they are selected for, and acts key by key as the selected element; and a stack of elements with different ports is refused.", "quantifier": "all selections, sets of keys, fields and elements", "why_tests_cant": "the couplings depend on how every key meets every selection, and the elements of a stack are arbitrary", "anchors": ["phasor/optics/selectors.py:PolSelector", "phasor/optics/selectors.py:GenericSelector", "phasor/optics/selectors.py:OpticalSelectionStack", "phasor/optics/selective_mirrors.py:PolarizingSelector", "phasor/optics/selective_mirrors.py:HarmonicSelector"]}
{"id": "C91", "title": "Filters given by zeros, poles and gain combine, convert and shift as their transfer functions say", "statement": "The product and quotient of zero-pole-gain filters have the product and quotient of their transfer functions; a filter with conjugate roots and real gain has conjugate responses at conjugate frequencies and the combinations keep that; converted for a rational filter it keeps its shape and has magnitude one at the given frequency; the boost and controller designs have magnitude one at their centre frequency, and are real, stable and of minimum phase; a shifted filter is the product of its two copies about plus and minus the frequency.", "quantifier": "all filters, frequencies, shifts and orders, and whatever stable real prototypes the scipy designs return", "why_tests_cant": "the roots, gains and frequencies are arbitrary complex and real numbers", "anchors": ["phasor/signals/power_loops.py:zpk_mult", "phasor/signals/power_loops.py:zpk_div", "phasor/signals/power_loops.py:sort_roots", "phasor/signals/power_loops.py:zpk_convert", "phasor/signals/power_loops.py:ledge_boost", "phasor/signals/power_loops.py:shift_to"]}
{"id": "C92", "title": "A sparse matrix is turned into orthonormal columns spanning the same spaces", "statement": "Gram-Schmidt on the columns of a sparse matrix, in sorted order, yields orthonormal columns such that each given column is a combination of the new ones up to it with positive last coefficient, or reports that a column depends on the earlier ones; a known decomposition is found exactly; the successor, predecessor and edge tables of the result agree.", "quantifier": "all sparse matrices, all orders in which sets and dicts are iterated, all fields with conjugation and square root", "why_tests_cant": "orthogonality must hold for every number of columns and rows and every choice of entries", "anchors": ["phasor/matrix/SRE_matrix_algorithms.py:generate_unitary_by_gram_schmidt", "phasor/matrix/SRE_matrix_algorithms.py:edge_matrix_to_unitary_sre"]}
{"id": "C93", "title": "A polarizing beamsplitter separates the polarizations and an isolator passes light one way", "statement": "A polarizing beamsplitter passes the power 1 - selection_defect - select_loss of the polarization named and reflects 1 - rejection_defect - reject_loss of the other, from each of its ports, loses nothing else, and by default separates them completely; two of them with a Faraday rotator of 45 degrees and a half-wave plate between them pass all the light forward and none back.", "quantifier": "all ports, polarizations, shares of power, light fields and rotation angles", "why_tests_cant": "the statement is about all fields at all ports at once and about a chain of six elements with waves both ways", "anchors": ["phasor/optics/polarization.py:PolarizingBeamsplitter", "phasor/optics/polarization.py:polarization_opposite", "phasor/optics/faraday_isolator.py:FaradayIsolator"]}
{"id": "C94", "title": "Optimum filters of every order have the monotonic response of Papoulis", "statement": "For every order the integers returned are exactly the coefficients of Papoulis' polynomial (the truncation to integers loses nothing): 0 at zero frequency, 1 at the cutoff, rising between and after, even, of degree twice the order. The filter made of its left-half-plane roots is stable and real, has as many poles as its order and no zeros, gain 1 at zero frequency, the squared response 1/(1+L(w)), which falls monotonically and is one half at the cutoff.", "quantifier": "all orders, all frequencies", "why_tests_cant": "the polynomials come from exact fractions that have to cancel for every order, and the response is a statement about all frequencies; tests compare the first ten orders", "anchors": ["phasor/signals/filters/legendre_filters.py:optimum_poly", "phasor/signals/filters/legendre_filters.py:legendreap"]}
{"id": "C95", "title": "A system cut at two boundaries is the stretch of the whole between them", "statement": "Setting boundary_left and boundary_right keeps exactly the components between them, each at its distance from the boundary, with the gaps up to the boundaries as spaces, so the length is the distance of the boundaries and the cut system acts as one holding the kept components and a target at each boundary. Two stretches that meet at a boundary multiply to the whole stretch, in a system used backwards as well, and the reversed stretch takes every ray back.", "quantifier": "all systems of any depth in order and without overlap, used forwards or backwards, both, one or none of the boundaries at any place", "why_tests_cant": "the slices depend on places and lengths in any order of magnitude, and the reversed branch counts places from the other end", "anchors": ["phasor/alm/system.py:System.component_pos_pairings", "phasor/alm/system.py:System.boundary_left", "phasor/alm/system.py:System.boundary_right"]}
{"id": "C96", "title": "Beams, overlaps and Gouy phases measured on a layout do not depend on the way", "statement": "target_q carries the beam of a target to any name, index or distance: going there by way of any other index gives the same beam, the target itself gives its own beam, and targets whose beams match give the same beam everywhere. overlap has the same magnitude in both directions, at most one, one exactly if the beam carried over is the beam of the target, and is 1 of a target with itself. relative_gouy_phasor has magnitude one, is the change of the Gouy phasors of target_q, multiplies along the way, is conjugate backwards and 1 at one place, for names and distances in any mix, and is the same from matching sources.", "quantifier": "all layouts of any depth with positive indices and spaces of length zero or more, all names, indices and distances at which no part without length stands, all physical beams", "why_tests_cant": "the four branches of relative_gouy_phasor use inverses and two walks each; a test fixes one order of places, and an inverse or a side taken wrongly shows only when source and places are in another order", "anchors": ["phasor/alm/measurements.py:Measurements.target_q", "phasor/alm/measurements.py:Measurements.overlap", "phasor/alm/measurements.py:Measurements.relative_gouy_phasor", "phasor/alm/measurements.py:Measurements.target_idx"]}
{"id": "C97", "title": "Every space is searched for a waist exactly once, and the waists reported are those of the beam", "statement": "waist_descriptions asks every space exactly once, with the beam of a target next to it. Every waist reported lies in the space asked, but for the tolerance, and is where the beam carried into that space has its waist, with its Rayleigh range; every waist strictly inside a space is reported. If the targets match, the answer is that of the beam of any one of them. q_target_z at the place reported has no curvature. z_nearest_waist gives the waist in a medium of index one.", "quantifier": "all layouts of any depth without compound lenses, with positive indices and spaces of length zero or more, any number of targets above zero in any order of names, also repeated, all physical beams, all tolerances", "why_tests_cant": "which target is asked depends on the order of places and of paths with ties at shared ends, and the side on which the beam is taken changes the formula; one layout shows one case", "anchors": ["phasor/alm/measurements.py:Measurements.waist_descriptions", "phasor/alm/measurements.py:Measurements._z_q_descmap", "phasor/alm/measurements.py:Measurements.beam_targets", "phasor/alm/measurements.py:Measurements.z_nearest_waist", "phasor/alm/space.py:Space.waist_description"]}
{"id": "C98", "title": "The graph handed to METIS is a valid undirected graph of the system", "statement": "SRABE2METIS writes a file METIS accepts: one line per node, neighbours counted from one, no loops, no neighbour twice, the same weight on both lines of an edge, and the count of edges in the header. Two different nodes are neighbours exactly if the system couples them in one direction or the other. The weight is the size of the last edge listed between the two, in either direction, and not the greater of both sizes. METIS_reorder returns the nodes in the order of METIS.", "quantifier": "all systems: any number of nodes, any edges in any order, with loops, with edges to nodes outside seq, of any sizes", "why_tests_cant": "symmetry and the count of edges depend on the order in which both directions of an edge are met; a test sees one system, and METIS itself is not installed where tests run", "anchors": ["phasor/matrix/metis_reorder.py:SRABE2METIS", "phasor/matrix/metis_reorder.py:METIS_reorder"]}
{"id": "C99", "title": "A label shows the value it was made for", "statement": "unit_str and str_m give a number with an SI prefix that a reader turns back into the value to within half a unit of the last decimal, and with d digits asked for to within a half in 10^d of the value itself. The number before the prefix lies between 1 and 1000 for values up to a million. A value and its negative get the same digits. Every value gets a label.", "quantifier": "all values, all numbers of digits, with and without the centi prefix", "why_tests_cant": "the chain of ten ranges and the three ways of dropping decimals interact; a test looks at a few printed strings", "anchors": ["phasor/alm/utils.py:unit_str", "phasor/alm/utils.py:str_m"]}
{"id": "C100", "title": "Phases and delays of sampled data keep their turns", "statement": "group_delay gives the change of phase of the data between neighbouring frequencies, whatever turns np.angle cuts off, as long as the phase moves by less than half a turn; a pure delay gives the same value everywhere. mag_phase_signed gives a real number and an angle within a fixed half turn that make up the data; data of opposite sign have the same angle and opposite numbers. continuous_phase gives the phase of the data, without jumps, also where it passes half a turn.", "quantifier": "all data of two samples or more, all frequencies, phases that turn any number of times", "why_tests_cant": "the cut of np.angle may fall between any two samples and in either direction; a test shows one place", "anchors": ["phasor/utilities/np.py:group_delay", "phasor/utilities/np.py:mag_phase_signed", "phasor/utilities/np.py:continuous_phase"]}
{"id": "C101", "title": "The first sample that is a number is found", "statement": "first_non_NaN returns the place of the first value that is no NaN, or the length of the array if there is none.", "quantifier": "all arrays, of any length above zero, with NaNs anywhere", "why_tests_cant": "the search probes only some places, so whether it is right depends on where the numbers lie; a test tries a few places", "anchors": ["phasor/utilities/np.py:first_non_NaN"]}
