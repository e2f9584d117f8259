# Formal model of phasor in Coq 8.16

`/repo` is read as text only. Everything below is about hand-written Gallina
models of the Python functions; each definition cites file and lines.

## Layout (`rocq/theories`)

* `Fld.v` - the scalar interface: a record of field operations with their laws
  (`fld`), finite sums over lists and finite sets, a computable instance (`Qc`).
* `<Area>Model.v` - the model of the code, definitions only, branch by branch.
* `<Area>Spec.v` (or the head of the property file) - the small independent
  specification used in the statements.
* `<Area>Proofs.v` - lemmas.
* `<Area>Props.v` - only theorems (closed by `exact`), `Print Assumptions`, and
  beside each theorem an `Example` that meets its hypotheses.

## Conventions

* Python numbers used as matrix coefficients: an arbitrary field (record `fld`);
  where conjugation/absolute value/square roots matter, complex numbers over the
  Coq reals. NumPy arrays are modelled one sample at a time (all operations in
  the code are elementwise); float rounding is not modelled.
* `dict`/`defaultdict` -> std++ `gmap`; `set` -> `gset`. The order in which a
  Python set or dict is iterated is a parameter (`enum`), so theorems hold for
  every iteration order.
* heap based queues: wherever only the choice of next node matters, the queue is
  a parameter that may return any of its entries.
* exceptions -> an explicit result type; loops -> structural recursion or fuel
  with an explicit out-of-fuel value which the theorems exclude.
* If the faithful model violates a property: theorem `..._refuted` with a
  witness plus the strongest true part; status `partial` in MANIFEST.json.

## Plan per property

| id | model | proof |
|----|-------|-------|
| C01 C02 C08 | graph_algorithm.py simplify + inverse solve on (seq,req,edge_map) | abstract elimination lemma (solutions before = solutions after), refinement of the dict-level loop, induction over the queue loop |
| C03 | reduceLU on (seq,req,req_alpha,seq_beta,edge_map) | same abstract lemma with inputs/outputs |
| C04 | pivotCOL_OP / pivotROW_OP | permutation of unknowns / equations |
| C05 | Householder ops over a field with conjugation | u'u=1 => reflection involutive |
| C06 C07 | reduceLUQ_row, trivial/badguys stages, inverse solve | composition of C03-C05, induction over queue history |
| C09 | the two loop solvers and the scipy solver (spsolve as an assumed exact solver) | uniqueness of the response |
| C10 C11 | matrix_generic.py | worklist invariant, reachability |
| C12 C13 | SRE_matrix_algorithms.py | finite sums |
| C14 | stackrange as a stack machine | simulation of nested loops |
| C15 C16 | heap_priority_queue.py over heapq's list algorithms | heap invariant, permutation |
| C17 | yield_bits_on over N | invariant, finite table check lifted |
| C18 | topological_sort | DFS invariant on DAGs; refutation on cycles |
| C19-C23 | dictionary_keys.py | finite maps |
| C24-C27 | complex.py over R | ring/field, trigonometry |
| C28-C30 | keymatrix.py | finite maps |
| C31 C32 | ports_algorithm.py | least fixpoint, schedule independence |
| C33 | matrix_algorithm.py sparsity graph | least fixpoint |
| C34 C35 | matrix_injections.py | ring |
| C36 | solver_algorithm.py bookkeeping | induction over histories |
| C37 | system.py frequency order tests | arithmetic |
| C38-C44 | electronics, mechanical | field algebra, induction on N |
| C45-C48 | optics | algebra over R / C |
| C49-C51 | signals, readouts | induction on root/source lists |
| C52-C56 | alm | 2x2 matrices, complex Moebius maps |
| C57 | autograft naming | tree induction |
| C58 | simple_units | finite maps |
| C59 C70 | utilities/np.py sections, sorting, limiting | list induction |
| C60 | electrical meters and fluctuations | field algebra on the couplings |
| C61 | wave plates on polarization pairs | field algebra |
| C62 C63 | signals mixers | finite sums over harmonics |
| C64 C65 | mechanical transfer functions, amplifiers | field algebra |
| C66 - C69 | alm substrates, overlap, design matrices, positions | real / complex algebra, tree induction |
| C71 | unit attributes | case analysis on the attribute's states |
| C72 | homodyne noise matrices | real algebra |
| C73 | autograft regeneration | invariant over histories, tree induction |
| C74 | photodiode couplings | pairing loop by induction, double sums over modes |
| C75 | PM, AM, AMPM couplings | the same loops, sidebands as a product of waves |
| C76 | mirror drives and forces | the same, with refuted force law |
| C77 | the key requests of photodiodes and modulators, in a run of the port algorithm | every wanted key is present at the fixpoint (invariant of the run); then the couplings exist and name only present keys; a driven back-action port of a photodiode raises, refuted |
| C78 | the same | modulators are incremental for one carrier type, so the fixpoint is unique; counterexample run for two |
| C79 | levers of xyz.py | the scattering matrix is a reflection along the constraint; equivalence with the rigid-rod law by vector algebra |
| C80 | string.py | bonded converters and cable, equivalence with the line law by field algebra; counterexample for the characteristic impedance |
| C81 | readouts/AC.py over the response relation of LinSpec | uniqueness of responses: rescale the state of the cut network; subtract states for the plant |
| C82 | transducers/PZT.py | equivalence of the scattering matrix with a constitutive law by field algebra; power balance; counterexample |
| C83 | optics/ODE_solver.py lt_mult, lt_sort_collect | induction over nested expressions; insertion sort, runs of equal keys |
| C84 | optics/ODE_solver.py ExpMatCoupling | loop invariant: vector and derivative along any direction advance together; complex derivative of the flow by induction over steps; induction over updates |
| C85 | optics/nonlinear_crystal.py system_setup_coupling | terms as a bind over pairs of keys; energy by reindexing difference terms as conjugate sum terms and symmetrising; only listed keys couple, by induction over updates |
| C86 | optics/AOM.py system_setup_coupling | terms as a bind over ports, keys and drive keys; energy by exchanging the two ends of each process and negating the drive frequency |
| C87 | optics/EZSqz.py constructor, requests and couplings | real square roots; outputs as sums over keys; commutators by expanding the three inputs of an output |
| C88 | signals/signal_generator.py, optics/laser.py, optics/vacuum.py, adjust_PSD | waveforms as sums over keys; shot noise from C51 and C74: the answer of a photodiode to light in one quantum key, by linearity from conjugate pairs, and a sum over sidebands |
| C89 | optics/hidden_variable_homodyne.py | sums over the keys as in C74 with two ports; vacuum noise from C51 with the answer to light in one quantum key |
| C90 | optics/selectors.py, optics/selective_mirrors.py | couplings as lists of injections; the sum arriving at a node reduces to the one key; stacks by the equations of the fields at the bonds |
| C91 | signals/power_loops.py | lists of roots and a gain over the complex numbers; transfer functions as products over the roots; scipy's prototypes are arbitrary filters with their roots in the left half plane |
| C92 | matrix/SRE_matrix_algorithms.py 65-124 | invariant over the columns done: orthonormal and triangular; the residual after all projections is the column minus its components |
| C93 | optics/polarization.py 456-510, optics/faraday_isolator.py | the mirror formulas of C45 for each polarization; the angle of linear polarization followed through the chain with C47 and C61 |
| C94 | signals/filters/legendre_filters.py optimum_poly and legendreap | Legendre's recursion gives identities between the polynomials and their derivatives, these closed forms of both integrals; the closed forms have integer coefficients by binomial identities; unique factorization pairs the roots |
| C95 | alm/system.py component_pos_pairings with boundaries | the scans by induction are filters of the ordered list; the filled list between its end marks is that of a system with targets at the boundaries, which splits at any place |
| C96 | alm/measurements.py target_q, overlap, relative_gouy_phasor | every matrix of the four branches times the one up to the source is the one up to the place, by induction positive determinants, so all phasors are quotients of one unit phasor per place |
| C97 | alm/measurements.py waist_descriptions, z_nearest_waist, alm/space.py waist_description | the order of paths is the order of places by induction; the intervals between sorted targets hold the near end of each space once; at either end of the space the formula finds the same waist |
| C98 | matrix/metis_reorder.py SRABE2METIS, METIS_reorder | invariant over the edges: the second dictionary is the transpose of the first, keys distinct and below; the entry is the last edge of the pair |
| C99 | alm/utils.py unit_str | the integer nearest, ties to even, is unique and odd in sign; every prefix range by linear arithmetic; decimals dropped are paid for by the size of the number |
| C100 | utilities/np.py group_delay, mag_phase_signed, continuous_phase | differences of angles are those of the phases up to one turn; remainder by half a turn is unique; whole half turns change only the sign, by induction |
| C101 | utilities/np.py first_non_NaN | induction on the doublings: the search probes the powers of two and nothing else |

## Not expressible

Float rounding, performance, NumPy broadcasting shapes, plotting, file/HDF5
output, METIS ordering quality, thread scheduling of the CPython interpreter.

## Trusted base

* Coq 8.16.1's kernel (`coqc`, `vm_compute` included; no `native_compute`, no
  plugins beyond the standard tactics) and its standard library. std++ is used
  as a library of definitions and lemmas, which are themselves checked and add
  no axioms.
* No axiom, parameter, section-less variable, module type or functor is declared in
  `rocq/theories`; nothing is `Admitted`; no kernel check is switched off.
* `ASSUMPTIONS.md` (written by `tools/mkassumptions.py`) lists what `Print
  Assumptions` says of every theorem. Most are closed under the global context.
  Those over the real or complex numbers use the standard library's
  `ClassicalDedekindReals.sig_forall_dec`, `ClassicalDedekindReals.sig_not_dec`
  and `FunctionalExtensionality.functional_extensionality_dep` (the axioms of
  the constructive Cauchy reals' quotient); a few of them also
  `Classical_Prop.classic`.
* Loading the Reals library and ssreflect's `under` brings into the
  environment the opaque module parameters of
  `Rdefinitions.RbaseSymbolsImpl`, `Rdefinitions.RinvImpl` and
  `ssrunder.Under_rel`. They are implemented in the standard library and
  `Print Assumptions` does not list them.
* The translation: that each Gallina definition does what the cited Python lines do.
  Simplifications are stated in the comment of each definition and at the head
  of each model file, and summed up next.

## What is modelled

| file | code |
|------|------|
| GraphModel | matrix/matrix_generic.py, matrix/graph_algorithm.py |
| DagModel | matrix/DAG_algorithm.py, matrix/DAG_algorithm_impl.py |
| SparseModel | matrix/scisparse_algorithm.py (spsolve is an oracle) |
| SreModel | matrix/SRE_matrix_algorithms.py, stackrange of matrix/linalg.py |
| HeapModel | utilities/priority_queue/heap_priority_queue.py with CPython's heapq.py |
| BitsModel | yield_bits_on of math/numerics.py |
| TopoModel | topological_sort of math/key_matrix/keymatrix_reduce_tarjan.py |
| KeysModel | base/dictionary_keys.py, frequency order tests of system/system.py |
| CplxModel | math/complex.py |
| KmatModel | math/key_matrix/keymatrix.py |
| PortModel | system/ports_algorithm.py |
| CohModel | the sparsity analysis of system/matrix_algorithm.py |
| InjModel | system/matrix_injections.py, matrix building of system/solver_algorithm.py |
| SolModel | the solution bookkeeping of system/solver_algorithm.py |
| ElecModel | electronics/*.py, mechanical/*.py: the couplings of each element |
| OptModel | optics/*.py: mirrors, spaces, polarization, circulators and other passive elements |
| SigModel | signals/*.py: filters, state space, mixers, detectors, amplifiers |
| NoiModel | noise sources of signals, optics, electronics, mechanical; readouts/noise.py, readouts/homodyne_AC.py |
| AlmModel | alm/*.py: ray matrices, systems, beam parameters |
| SecModel | utilities/np.py |
| UnitModel | base/simple_units.py, base/multi_unit_args.py |
| PdModel | optics/nonlinear_utilities.py modulations_fill, photodiode.py, modulators.py, the faces of mirror.py |
| FillModel | optics/nonlinear_utilities.py ports_fill_2optical_2classical, system_setup_ports of photodiode.py PD and MagicPD and of modulators.py PM, AM, AMPM |
| LevModel | mechanical/xyz.py matrix_inject, Moment1D, XYZMomentDriver, array shapes of MomentDriver; mechanical/string.py ZConverter, String. Not: the bundles of three elements in xyz.py |
| LoopModel | readouts/AC.py AC_sensitivity, AC_sensitivityOL, CLG, OLG, GPlant, AC_noise_limited_sensitivity, on the response that C01-C08 prove the solver computes |
| GraftModel | base/autograft.py; the bonds of optics/ports.py, electronics/ports.py |
| PztModel | transducers/PZT.py PZTMountedGrounded: couplings and the default of d_eff_m_V |
| OdeModel | optics/ODE_solver.py 36-450: lt_mult, lt_sort_collect, ExpMatCoupling (__init__, update_solution, generate_solution). Not: pk_prefs (the order of pks is an argument), the commented-out class |
| NlcModel | optics/nonlinear_crystal.py 147-252: the equations and maps of one direction. Not: which keys are requested (77-145) |
| AomModel | optics/AOM.py 183-281: the equations and maps of one direction. Not: which keys are requested (60-181) |
| SqzModel | optics/EZSqz.py whole file, without the attributes assigned at 153-170 that nothing reads |
| SrcModel | signals/signal_generator.py 49-132, optics/laser.py 37-97, optics/vacuum.py 40-58, system/system.py 112-119 |
| HomModel | optics/hidden_variable_homodyne.py 176-460, 517-611 |
| SelModel | optics/selectors.py 15-195, the selections of optics/selective_mirrors.py |
| ZpkModel | signals/power_loops.py 11-334, 375-383 (scipy's cheby1 and butter are arguments; not 236-252, 337-371) |
| GsModel | matrix/SRE_matrix_algorithms.py 9-10, 65-124 (edges are single numbers) |
| PbsModel | optics/polarization.py 456-510 at 45 degrees (motion of the mirrors not modelled), optics/faraday_isolator.py (wiring only: its base class does not exist, so it cannot be imported as it is) |
| LegModel | signals/filters/legendre_filters.py optimum_poly, legendreap (exact fractions; _roots an argument; numpy's Legendre series by its meaning) |
| CutModel | alm/system.py 85-221 component_pos_pairings with boundary_left and boundary_right; ref and val of a place the same number |
| MeaModel | alm/measurements.py target_idx, target_q, overlap, relative_gouy_phasor, beam_targets, _z_q_descmap, waist_descriptions; alm/space.py waist_description; hidden targets, arrays, constraints and text left out |
| MetModel | matrix/metis_reorder.py SRABE2METIS, METIS_reorder; files, the call of ndmetis and its failure, symbolic edges left out |
| LblModel | alm/utils.py unit_str, str_m; exact fractions, the text as its digits, decimals and prefix |
| PhaModel | utilities/np.py continuous_phase, mag_phase_signed, group_delay; the data by its angles, two samples or more |
| NanModel | utilities/np.py first_non_NaN; the array by which values are NaN |

Not modelled: floating point rounding, inf and nan; NumPy broadcasting (one sample
at a time); the symbolic (SRABE_SYM) twin graphs; METIS itself; plotting, fitting, file and
HDF5 output; the configuration tree (declarative, DeepBunch) beyond what UnitModel
says; printing and warnings; the packages phasor calls (declarative, pint, scipy,
casadi).
