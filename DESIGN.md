# Formal model of fbpic — design

## What this is

A Coq 8.16.1 development in `rocq/theories` (logical root `Verif`) that models selected
functions of the fbpic sources in `/repo/fbpic` and proves (or refutes) the properties
listed in `properties.jsonl`.  The code is never run: the only tie between model and code
is the reading of the sources, so each definition carries a `file:lines` citation and says
where it simplifies.

Layout: each area `X` has

* `X_Model.v`  – Gallina definitions mirroring the Python functions, no proofs;
* `X_Spec.v`   – (where useful) what the property says, written without the model's helpers;
* `X_Proofs.v` – lemmas;
* `X_Props.v`  – only the property theorems, closed by `exact <lemma>`, each followed by
  `Print Assumptions`, and the non-vacuity `Example`s.

Theorem names end in `_partial` when only a part of the property is proved and in `_refuted`
when the property is false of the faithful model (the theorem is then the counterexample).

## Modelling conventions

* Integers (`int`, array indices, sizes) are `Z` or `nat`, unbounded.  Python's `int(x)` is
  truncation toward zero (`Ztrunc`), `%` is `Z.modulo`, `a:b` slices are `firstn/skipn` or
  index predicates.  `uint32`/`uint64` wrap-around is modelled only where a property is about it.
* Floating point values are modelled as real numbers `R` (exact arithmetic) unless the
  property is about rounding; then IEEE binary64 is used, either Flocq's rounding operator
  or the executable `SpecFloat` of the standard library.
* Complex numbers are pairs of reals (Coquelicot's `C`).
* Exceptions (`raise ValueError`, failed `assert`, `AttributeError`) are values.
* In-place array updates become functions returning the new array; an array is a list or a
  total function on indices together with its length.
* Physical constants `c, e, m_e, eps_0, mu_0` are section variables with the hypotheses that
  are used (`c>0`, `mu_0 eps_0 c^2 = 1`), i.e. the theorems are universally quantified over them.
* MPI is modelled as ordered channels per (source, destination, tag); message delivery and the
  ranks' program counters interleave arbitrarily.
* FFT and Hankel transforms: the spectral solver is modelled mode by mode in spectral space.
  The transforms themselves are only modelled where a property speaks about them.
* Random draws are universally quantified inputs.

## Plan per property

| id | model | method |
|----|-------|--------|
| C01 | `Decomp_Model`: `get_Nz_and_iz`, `get_zmin_zmax`, `divide_into_domain` over `Z`; `int(Nz/size)` additionally with Flocq binary64 division | arithmetic over all ranks, induction on rank for the tiling; Flocq proof for the quotient |
| C02 | gather/scatter of lists with offsets computed by `get_Nz_and_iz` | tiling + list reindexing |
| C03 | `Guard_Model`: per-rank arrays as functions on local indices; buffers as in `handle_*_buffer` | index arithmetic for every cell |
| C04 | same model, `add` method | index arithmetic; disjointness from the `4*n_guard` check |
| C05 | `Mpi_Model`: transition system with posted sends/receives, non-overtaking channels | invariant over reachable states + progress |
| C06 | `PExch_Model`: lists of particle records per rank, selection, shift, concatenation; bit pattern of the integer buffer | permutation of the concatenation over ranks; refutation for integer attributes on the CPU path |
| C07 | same model with positions | interval arithmetic |
| C08 | `Period_Model`: exchange period, grid and particle displacement between exchanges, cell indices of both shapes | real arithmetic, induction on steps |
| C09 | `Wrap_Model`: the two `while` loops with fuel | induction; termination bound; binary64 refutation of the half-open bound |
| C10 | `Track_Model`: id generators, histories of operations over ranks | invariant over operation lists |
| C11 | `overwrite_ids` as written (assignment to a misspelt attribute) | refutation witness; proof for the intended assignment |
| C12 | `Sched_Model`: `step` loop counters, `write` conditions | induction over call lists |
| C13 | `Step_Model`: the whole `step` control flow over an abstract state of flags and exchange counters | invariant over call histories, case analysis on options |
| C14 | `cross_deposit` and `push_x` over reals | algebra |
| C15 | `Window_Model` | invariant over histories |
| C16 | shift array as complex powers; DFT as finite sum | induction, reindexing of finite sums |
| C17 | `Inject_Model` | invariant over histories, lattice argument; refutation when the plasma outruns the window |
| C18 | `Chunk_Model` | arithmetic, list of intervals |
| C19 | `Sort_Model`: per-thread writes in arbitrary order | proof that every schedule of the writes gives the count |
| C20 | CPU selection and GPU cell selection for one particle | witness of disagreement; exact description of both regions |
| C21 | `Shape_Model` | polynomial algebra on each cell |
| C22 | `Deposit_Model`: one-particle scatter, thread accumulation, folding, volume division | finite sums |
| C23 | same | permutation invariance of sums |
| C24 | integrals of the shape against `r dr` | antiderivatives, induction on the cell index |
| C25 | `Push_Model` Vay pusher | real algebra, square roots |
| C26 | same | real algebra |
| C27 | `Ionize_Model`: batches, flags, cumulative sums, copy | list induction; multiset of written slots |
| C28 | `get_E_amplitude`, `get_ionization_probability` | Cauchy–Schwarz type inequality, `exp` |
| C29 | `Compton_Model` | real algebra (Lorentz transformation, rotation, Compton formula) |
| C30 | same, recoil as written | refutation witness |
| C31 | `determine_scatterings`, batches | floor arithmetic, Riemann integral, list induction |
| C32–C36 | `Psatd_Model`: coefficients and updates per mode over `C` | field algebra; induction over steps |
| C37 | `correct_divE` and the constructor's `inv_k2` | algebra; refutation for the default option |
| C38 | `get_modified_k` recursion | finite differences of polynomials |
| C39 | `BinomialSmoother` factors | Bernoulli inequality by induction |
| C40 | component transforms and copies | algebra |
| C41 | `BoostConverter` | real algebra |
| C42 | `ExternalField` amplitudes and coordinates | algebra against the textbook transformation |
| C43 | `get_space_charge_spect` | field algebra |
| C44 | selection of bunch particles per rank; binary64 edges | from C01 over reals; `SpecFloat` refutation |
| C45 | bunch helper argument plumbing and weights | sums; refutations where the code deviates |
| C46 | antenna rank selection, deposit weights | from C01; sums |
| C47 | mirror index arithmetic | refutation + exact description of what is zeroed |
| C48 | crash model of checkpoint writes and restart | refutations by crash witness; proof under complete checkpoints |
| C49 | plane crossing selection and interpolation | real algebra, histories |
| C50 | slice index bookkeeping, transform | arithmetic, algebra |
| C51 | damping arrays, PML factors | trigonometric bounds |
| C52 | species list filtering | list induction |
| C53 | `adapt_to_grid`, `generate_evenly_spaced` | finite sums, list filters |
| C54 | `add_linear_gather_for_mode`, `add_cubic_gather_for_mode` | algebra |
| C55 | field datasets, selection filters | algebra, list filters |
| C56 | the component and mode round trip of `SpectralTransformer`, `DHT`, `FFT` with buffers | composition of C04, C05 |
| C57 | the sorted GPU deposition kernels as multisets of atomic additions, any schedule; the CPU model of C22 as specification | prefix-sum invariant of C19, permutation of finite sums |
| C58 | two depositions with the grid moved in between, `sorted` flag kept | from C57 on a fixed grid; refutation with one particle and one moved cell |
| C59 | the deposition model of C22 (and the GPU one through C57) against a closed formula: splines of `Shape_Spec`, azimuths as unit complex numbers | index bookkeeping of the loops turned into sums with indicator functions; symmetry of the splines under reflection at the axis |
| C60 | the gathering model of C54 against a closed formula on Cartesian vectors | the same, with the reflection of the node index and the direction -e |
| C61 | the antenna of C46; the wave radiated by a moving current sheet from the jump conditions of Maxwell's equations | mobility times weight gives 2 eps0 c E per unit area for every point and history; linear algebra of the jump conditions |
| C62 | the push of C33 on one mode; Maxwell's equations as an ODE on (E, B) for the three frames | existence and uniqueness of the ODE (energy of the difference of two solutions), reduction of the comoving frame to the Galilean one by a phase, second-order equation for B and curl E, E determined by its curl and divergence; induction on iterations |
| C63 | all analytical laser profiles (constructors with their checks, longitudinal and transverse evaluate, E_field) on complex numbers | every transverse profile is a sum of modes z -> P(harmonic polynomial) q^-a L_p^m(..) exp(..); the Laguerre differential equation (from the three-term recurrence the code uses, and its closed form) gives the paraxial equation for each; the few-cycle pulse is differentiated directly | scipy's genlaguerre is modelled by its recurrence; binom by factorials; fsolve is an oracle; complex power is exp(s ln) on the right half-plane |
| C64 | as C63 | the intensity at the focus is (1 + (k0 c t/s)^2)^-(s+1), solved at one half | refuted: the code's equation for s gives the width of the amplitude divided by sqrt 2, not of the intensity |
| C65 | direct_injection.py in full (one azimuthal mode at a time), with Er, Et sampled on 2 Nm angles, and the choice of the converter in laser.py | aliasing of the DFT in the angle; algebra on one spectral mode, with C62 for the push; the Lorentz transformation; C02 for the ranks | refuted for the part of the field with kz = 0, whose divergence is not cleaned |
| C66 | `sample_x`, `scatter_one` and `get_scattering_probability` of `Compton_Model`; means over n pairs of uniform draws as iterated Riemann integrals | Bernstein coefficients for the rejection bound; change of variables; induction on the number of turns; an antiderivative for the total |
| C67 | `ComptonScatterer.__init__` and `get_photon_density_gaussian` | the Gaussian integral (`Gauss_Lib`, from the derivative of a parametric integral); Lorentz transformation |
| C68 | the cross-section with one binary64 rounding (Flocq) per operation and any accurate logarithm | relative error analysis; refuted by two neighbouring doubles near 2^-19 |
| C69 | the laser profiles of C63 | norm and orthogonality of generalised Laguerre polynomials from the Gamma integral by induction; polar integrals; Gaussian integral in z |
| C70 | add_laser for the Gaussian type, on top of the model of GaussianLaser | C63 (paraxial solution) applied to the passed arguments; the parameters that are not passed give the refutation |
| C71 | gaussian_beam of Bunch_Model and the conversion of the PICMI distribution | algebra on each draw, linearity of the average |
| C72 | add_applied_field on top of the model of ExternalField | induction over the six components; evaluation for the refutations |
| C73 | add_species and add_interaction as a state machine over the PICMI species | induction over lists of species and interactions; evaluation for the refutations |
| C74 | the conversions of simulation.py, on top of the models of BoostConverter, BinomialSmoother and FieldDiagnostic | algebra for the time step; case analysis on the strings; evaluation for the refutations |
| C75 | The whole of step() as a transformer of the arrays, kernels abstract (Cycle_Model) | relational invariant: states equal except for what diagnostics overwrite; the rest of the iteration maps related states to equal ones; induction over iterations |
| C76 | Same model as C75; damping from Damp_Model in the counterexample | split of the iteration loop and relational argument; witness computed for the refutations |
| C77 | ADK tables over the reals, atomic data transcribed as rationals (Adk_Model) | table checked by reflection with integer square roots; powers regrouped; Gamma recurrence for hydrogen |
| C78 | Same model as C77 | inequality ln x < x - 1 on both sides of the maximum; hydrogen witness |
| C79 | Pdiag_Model: the whole of ParticleDiagnostic (lists of quantities, selection, gathering of the ranks with offsets, paths, dimensions) | induction over rules, ranks and quantities; refuted for the dimension of the mass, for species changed after the diagnostic was created, and for the fields of neutral species |
| C80 | GAntenna_Model: antenna with host and device copies, kernels of cuda_methods_unsorted as lists of atomic additions per thread | refinement of Antenna_Model by induction on the history; deposition by pairing with a test function, as for C57 |
| C81 | BallisticBeforePlane, the injector of a bunch, push_p/push_x of it and the loop of step() as seen by the bunch (Plane_Model.v on top of Push_Model.v), the fields of each step being arbitrary | induction over the steps; plane position against the lab position of the particle; the plane is taken half a step ahead of the positions, so the claim is refuted in a boosted frame |
| C82 | both functions on every rank, MPI gather/Split as functions of the list of the processor names (Select_Model.v) | loop invariant of the check, residues in an interval of ranks; refutation: the local rank 0 of another node evaluates None in None, for every non-consecutive distribution; two node names with the same color |
| C83 | numba_push_eb_pml_standard/comoving and the PML branch of push_eb_with, on top of Psatd_Model (Pml_Model) | histories of E, B and the PML parts that satisfy differential equations (Pml_Spec); any such history rotates the defect, the code multiplies it by cos: equivalence; explicit histories for the converse; induction on the number of steps; witnesses for a laser at the start and for one step of current |
| C84 | Every CUDA thread is a program of loads and stores (Cuda_Model.v); a launch runs the threads of the grid that cuda_tpb_bpg_2d computes in double precision, in any interleaving; the exchange has device and host buffers apart | a launch whose threads only write locations that no other thread touches has one outcome (invariant over interleaving steps); the block computation covers the grid (Flocq); then per-cell evaluation and C03, C04, C51. FBPIC_ENABLE_GPUDIRECT with a CPU simulation is refuted |
| C85 | Every kernel as a thread program of loads and stores on (array, iz, ir), launched with the code's block computation; correct_divE with numpy and cupy arrays told apart | one-outcome theorem of Cuda_Proofs, evaluation of each thread on its cell, equality with the CPU models (Psatd, Pml, Smooth, Window). step(correct_divE=True) on a GPU is refuted (TypeError) |
| C86 | Kernels as thread programs over flat buffers, cuFFT / cuBLAS / MKL as functions on flat buffers following their interface, the sequences of launches of the transformer | each array element belongs to one thread (ownership), so every interleaving gives the same memory; index arithmetic of flat layouts; reduction to the CPU model of C40 and C56 |
| C87 | Arrays as (location, content), attribute lists of the send and receive methods transcribed one by one, the loops over modes and species, the manager, the diagnostics; computations are abstract functions | induction over attribute lists, modes and species; refutations for a species under two names, diagnostics outside a step, a step or a new species inside the manager |
| C88 | constructor and evaluate, squared_profile_integral, get_mean_wavelength over the reals; interp1d (sort, fill, linear), trapz, fftfreq, fft, fftshift modelled; polyfit a parameter specified as a least squares minimiser | interpolation lemmas on sorted lists by induction, reindexing of the FFT sum by permutation, inversion of the DFT for the non-zero maximum, uniqueness of the fit with five nodes; REFUTED parts: subtract_linear_phase removes the slope at frequency 0 and delays a chirped centred pulse; lines narrower than lambda0/1000 can give a division by zero; the documented weight k*sqrt(I) |
| C89 | BFile_Model.v: dictionaries of columns, selection and unit conversion, buffers per process, compaction, gather, extensible datasets, loops over snapshots and species, write/flush, restart on existing files. HDF5 attributes and dtypes not modelled; the crossing of the plane is in BPart_Model.v (C49). | invariant: for each snapshot and species, file columns = columns of one list of particles, buffers = encodings of slices, both permutations of the selected caught particles; induction on the iterations. Restart, duplicated id and untracked id refuted by witnesses. |
| C90 | Lasy_Model.v: reading of the attributes, version check, both interpolation functions (None for nan), E_field, dispatch of add_laser_pulse/add_laser. | interpolation = sum of hat functions over all nodes (floor lemma per axis), de Moivre for the angular modes; antenna positions from Antenna_Model.v; witnesses for the axis, gridUnitSI, radial offset, development versions, default antenna. |
| C91 | GExch_Model.v: species on GPU with named attribute arrays; the kernels as writes of threads in any order (Sort_Model); attribute lists, buffers, exchange over all the ranks. | index ranges from the sort (C19), kernels give rows = slices of the arrays, merge gives left ++ stay ++ right, records recovered from rows by injectivity; re-indexing of the ranks by induction; executions shown to exist. |
| C92 | exchange_and_damp_EB for all the ranks at once, with the models of the transforms (Hankel_Model), exchange (Guard_Model), damping (Damp_Model) and mirrors (Mirror_Model); the four transform functions of Fields; the exchange of J | the Hankel step acts row by row and is linear, the boundary operations only move, add and scale rows: a relation between the partial and the full representation is preserved by each of them; FFT and inverse FFT cancel. PML branch: exact for modes with exact inverses, counterexample for mode 1 |
| C93 | stencil_reach, get_stencil_reach and the choice of n_guard, exact arithmetic, ifft as the sum it computes | convolution theorem, Parseval and conjugate symmetry for the discrete Fourier transform; first index below the threshold by induction; refutations by witness (4 cells, c dt < dz: a response of more than 1/32 beyond the number returned; grids of 1 or 2 cells: IndexError) |
| C94 | Grid objects with their coordinates, the moves of the window on communicator and grids, gather_grid on top of the model of gather_grid_array (C02); gather_ptcl with Python attribute lookup | Positions computed by induction on the moves; owner of each cell from C02; uniqueness of the owner from C01; failure of gather_ptcl by evaluation of its arguments in order |
| C95 | The cache of compiled kernels keyed by the hash of the types, the list of machine words passed to a kernel, numba's calling convention and address computation per layout | Invariant of the cache over any history; decoding of the words by the signature; address arithmetic by induction on the dimensions; counterexamples for strided arrays and integer amplitudes (IEEE decoding with Flocq) |
| C96 | The list of operations of one pass of the loop as a function of the options, a relation for the effect of each operation on the grid position, the particle arrays, the flag `sorted` and the prefix sum (any result allowed where only the flag matters), and the trace of the depositions | Hoare triples over the three conditions any / up to date / flag cleared, one per operation, sequenced along the loop and by induction on the iterations and calls; the cell of a particle is invariant under the periodic wrap; one deposition as in C57; refutations by explicit runs of one particle at rest. |
| C97 | GPU branch of get_particle_data: sort if needed, cell range, lookup in the prefix sum with the window shift, extraction kernels as sets of writes; the slice and the transform of C49; the loop of C96 | the selected particles lie in the copied rows of cells (plane faster than light, particles slower); the prefix-sum lookup splits the sorted particles by row; order relation with the shifted grid kept by every step of the loop; refuted for the weights of ionizable species and for the last half cell of the box |
| C98 | SliceHandler.extract_slice with all fields and modes, the GPU kernel as the writes of its threads in any order, launches one per mode; the Lorentz transform on the whole array (GSlice_*) | fold invariants over modes and fields; order-independence since all writes to an element agree; linearity of the reconstruction; REFUTED for a plane in the last half cell when there is no row after the domain (IndexError) |
| C99 | GPart_Model.v: each kernel and threaded loop body as a list of statements on one element of the shared arrays and on the local variables of its thread; a launch = any interleaving of the threads' statements, threads given by the launch geometry (GPU), by an arbitrary division (prange) or by the chunks (cubic, CPU); push_p, push_x, gather choose the bodies. Formulas of one mode and of push_p_vay are those of Gather_Model, Push_Model. | A thread's statements in an interleaving are its own program in order; the other threads touch neither its particles nor its locals, so its particles evolve as in a sequential run; each body computes the single-particle function whatever the initial locals; launch geometry and chunks cover every index once; composition over calls. |
| C100 | The statements of the 12 kernels as tables, one row per statement (register, point and sign and coefficient of the radial factor, point of the longitudinal factor, last factor; array, part and indices of each atomic addition), with an interpreter: registers start with arbitrary content, loop over the particles of the cell, atomic additions in any order. Simplified: exact arithmetic, the scalar factors as in C57. | The rows are checked by computation against the pattern (each register written by one row, rows a permutation of the expected ones); a general lemma turns the check into equality of the registers with sums over the particles; then refinement to the models of C22 and C57. |
| C101 | unalign_angles (both methods), the Cartesian positions, momenta and weights of the created macroparticles on top of the model of C17/C53; the deposition of C22. The draws are arbitrary functions. Exact arithmetic. | The contribution of a particle is a factor that depends on r and z, times its phase; a ring is kept or dropped as a whole; orthogonality of the roots of unity; a ring of two particles and mode 2 shows that the condition is needed. |
| C102 | Files as finite attributes and arrays; creation of the file, records and components, gathering and storage of the modes, flushes of the snapshots (Pmd_Model.v) | a separate relational reader of the standard (Pmd_Spec.v); invariants of the loops over records and components, gathering (C94), storage of the modes (C55) |
| C103 | the group of a species as a tree of HDF5 groups and datasets with attributes, possibly left by a previous run; h5py operations (require_group, create_dataset, del) as in its documentation. A reader of the standard is specified separately. Frame reasoning: every operation changes one path; the loop over the quantities by induction. Refuted: constants are declared for one particle; records that are not asked for stay from the previous run; TypeError if the species was ionizable before; the declared shape is always linear |
| C104 | Time of the values in the output | `Timed_*` on the loop of `Cycle_Model` (all kernels abstract): laws of free motion for the kernels (species `ps t` at the time t); an invariant over the iterations gives the particles, the spectral charge and the spectral current at each output in terms of `ps`. Particles, rho, rho_<species>: those of n dt. J: that of (n - 1/2) dt (corrected with rho at n-1 and n), and of n dt without correction at the first iteration of a call, hence refuted for J |
| C105 | Show_Model.v: the progress bar with the readings of the clock as an arbitrary sequence, the loop of `step` with an arbitrary body that may raise, the decorator for GPU memory errors | induction over the iterations with an invariant on the bar (averages between the shortest and longest duration); rounding as an arbitrary monotone function exact on integers (exact arithmetic and binary64 are instances). Refuted: step(0) divides by zero, the total time leaves out the last iteration, without CUDA every exception becomes a NameError |
| C106 | Seed_Model.v: the three generators as arbitrary state machines, the functions that draw from them in the order of the code, a run as a list of operations | induction over the run with the relation `same generators in use`; a pigeonhole argument for the GPU states. Refuted: Compton scattering on CPU is not reached by the seed, a diagnostic with subsampling changes the simulation, GPU scattering repeats its random states within 257 calls; seed n+1 on rank r is seed n on rank r+1 |
| C107 | Script_Model.v: the choice of the script on the command line, its encoding, the attributes; files of Pmd_Model.v | induction over the parameters; an invariant on the attributes of the root through the field and density diagnostics. Refuted: scripts that are not ASCII and lists of strings stop the run, `.py` anywhere in an argument decides which file is saved, at an iteration without other output the file is not an openPMD file |
| C108 | Trip_Spec.v: composition of the models of the particle output (Pfile_Model.v, C103) and of the loading of bunches (Bunch_Model.v, C44) through a reader of the openPMD standard; openPMD-viewer (version 1) is specified, not modelled | a component of a file has one value; C103 and C44 give both ends |
| C109 | Draw_Model.v: the values of np.random.rand (k/2^53) and of cupy.random.rand in single precision. Both are ASSUMPTIONS about external libraries that are not in /repo and were not checked; the formula for cupy (cuRAND's k*2^-32 + 2^-33 in single precision, then 1 replaced by 0) is from memory | CPU: the draws below p are counted with Zceil, through C27 and C28; GPU: refuted for that generator with Flocq (the last 127 integers round to 2^32, then to 1, then become 0), so the result on GPU holds only as far as the assumption does |

The text of the twelve unrolled deposition kernels is transcribed statement by statement
(GUnroll_Model.v) and checked in Coq against the general pattern (C100).

Nothing is planned as not applicable. What stays outside is excluded from the statements above: the
rounding of floating-point arithmetic except where a property is about it (binary64 through Flocq), the
numerical accuracy of FFT and Hankel matrices, the internals of HDF5, MPI, numba and cupy. The GPU part of
C109 depends on a formula for the internals of an external library (the values of `cupy.random.rand` in
single precision): it was written from memory and could not be checked here, so `C109_gpu_floor`,
`C109_gpu_refuted` and, on GPU, `C109_zero` are conditional on it. Threads on
GPU and CPU are interleaved statement by statement on a shared, sequentially consistent memory (C57,
C91, C96-C100, Cuda_Model.v, GPart_Model.v); weaker memory models are not considered.

## Trusted base

* the Coq 8.16.1 kernel (and `coqchk`);
* the axioms of the standard library that `Print Assumptions` lists for each theorem, in the table
  below. No axiom of another library and no axiom of this development occurs:
  - F: `ClassicalDedekindReals.sig_forall_dec`
  - N: `ClassicalDedekindReals.sig_not_dec`
  - E: `FunctionalExtensionality.functional_extensionality_dep`
  - C: `Classical_Prop.classic` (through lemmas of Flocq and Coquelicot)
  - "closed": no axiom;
* the reading of the Python sources, function by function, as cited in the comment of each definition;
* the specifications (`*_Spec.v`, and the statements in `*_Props.v`): they are short and meant to be read.

### Axioms per theorem

| property | theorem (module) | axioms |
|---|---|---|
| C01 | `C01_constructor_valid`, `C01_edges_tile` (Decomp_Props) | FE |
| C01 | `C01_decomposition_tiles` (Decomp_Props) | closed |
| C01 | `C01_double_quotient_exact` (Decomp_Props) | FNEC |
| C02 | `C02_gather_scatter_roundtrip`, `C02_gather_reads_owner` (Decomp_Props) | closed |
| C03 | `C03_replace_exchange` (Guard_Props) | F |
| C04 | `C04_add_exchange` (Guard_Props) | F |
| C05 | `C05_delivery`, `C05_no_deadlock`, `C05_terminates`, `C05_filled_once_per_call` (Mpi_Props) | closed |
| C06 | `C06_exchange_conserves_partial`, `C06_exchange_conserves_untracked`, `C06_integer_attributes_refuted` (PExch_Props) | FNEC |
| C07 | `C07_inside_after_exchange` (PExch_Props) | FNEC |
| C08 | `C08_grid_operations_stay_inside`, `C08_window_starts_ok`, `C08_constructor_rejects`, `C08_single_periodic_partial`, `C08_single_periodic_cubic_refuted` (Period_Props) | FE |
| C09 | `C09_periodic_wrap_partial` (Wrap_Props) | FE |
| C09 | `C09_binary64_edge_refuted`, `C09_binary64_termination_refuted` (Wrap_Props) | closed |
| C10 | `C10_ids_unique_gpu`, `C10_gpu_generation_is_cpu` (Track_Props) | closed |
| C10 | `C10_ids_unique_cpu_partial`, `C10_ids_unique_cpu_refuted` (Track_Props) | FNEC |
| C100 | `C100_gpu_thread`, `C100_gpu_thread_others`, `C100_agree`, `C100_cpu_charge`, `C100_cpu_current`, `C100_gpu_totals` (GUnroll_Props) | FNEC |
| C100 | `C100_cpu_particle` (GUnroll_Props) | FNE |
| C101 | `C101_modes_empty`, `C101_gpu`, `C101_no_transverse_current`, `C101_too_few_angles` (Ring_Props) | FNEC |
| C101 | `C101_enough_angles` (Ring_Props) | closed |
| C102 | `C102_fields`, `C102_rest`, `C102_density`, `C102_lab` (Pmd_Props) | FNE |
| C102 | `C102_clash` (Pmd_Props) | FE |
| C103 | `C103_records`, `C103_rest`, `C103_constant_refuted`, `C103_stale_refuted`, `C103_charge_refuted`, `C103_shape_refuted` (Pfile_Props) | FE |
| C104 | `C104_rho_particles_partial`, `C104_J_half_step_before`, `C104_J_first`, `C104_J_refuted` (Timed_Props) | FE |
| C105 | `C105_transparent`, `C105_shown_partial`, `C105_step_0_refuted`, `C105_total_refuted` (Show_Props) | FE |
| C105 | `C105_roundings` (Show_Props) | FNEC |
| C105 | `C105_errors`, `C105_errors_refuted` (Show_Props) | closed |
| C106 | `C106_reproducible_partial`, `C106_diagnostics`, `C106_states_refuted`, `C106_overlap` (Seed_Props) | closed |
| C106 | `C106_fresh`, `C106_fresh_gpu`, `C75_subsampling_refuted`, `C106_compton_refuted` (Seed_Props) | FE |
| C107 | `C107_saved_partial` (Script_Props) | FNE |
| C107 | `C107_kept` (Script_Props) | FE |
| C107 | `C107_interactive`, `C107_unicode_refuted`, `C107_strings_refuted`, `C107_which_refuted`, `C107_alone_refuted` (Script_Props) | closed |
| C108 | `C108_phase_space`, `C108_empty` (Trip_Props) | FE |
| C108 | `C108_round_trip` (Trip_Props) | FNE |
| C109 | `C109_cpu`, `C109_zero`, `C109_gpu_floor`, `C109_gpu_refuted` (Draw_Props) | FNEC |
| C11 | `C11_restart_unique_partial`, `C11_restart_unique_refuted`, `C11_computed_value_is_safe` (Track_Props) | closed |
| C12 | `C12_schedule`, `C12_split_independent` (Step_Props) | FE |
| C13 | `C13_no_inconsistent_push`, `C13_single_rank` (Step_Props) | FE |
| C14 | `C14_cross_deposition_restores` (Step_Props) | FE |
| C15 | `C15_window_follows` (Window_Props) | FE |
| C15 | `C15_window_needs_open` (Window_Props) | F |
| C15 | `C15_run_follows` (Step_Props) | FE |
| C16 | `C16_shift_translates`, `C16_shift_translates_spectral`, `C16_shifts_compose`, `C16_shift_inverse` (Window_Props) | FNE |
| C17 | `C17_injection_lattice_partial`, `C17_gap_between_ranks_refuted`, `C17_speed_change_refuted` (Inject_Props) | FNE |
| C18 | `C18_chunks_cover`, `C18_launch_1d`, `C18_launch_2d` (Chunk_Props) | FNEC |
| C19 | `C19_sorting` (Sort_Props) | FNEC |
| C20 | `C20_gpu_keeps_partial`, `C20_cpu_kept_gpu_kept_partial`, `C20_same_particles_refuted` (Sort_Props) | FNEC |
| C21 | `C21_partition_of_unity`, `C21_weights_in_unit`, `C21_mean_position`, `C21_spline` (Shape_Props) | FE |
| C21 | `C21_continuous` (Shape_Props) | FNEC |
| C22 | `C22_total_charge`, `C22_total_axial_current` (Deposit_Props) | FNEC |
| C23 | `C23_threads_and_order` (Deposit_Props) | FNEC |
| C24 | `C24_uniform_density`, `C24_last_cell` (Ruyten_Props) | FNEC |
| C25 | `C25_pushed`, `C25_consistent`, `C25_magnetic`, `C25_displacement` (Push_Props) | FNE |
| C26 | `C26_force_free` (Push_Props) | FNE |
| C27 | `C27_electrons`, `C27_levels`, `C27_count`, `C27_charge` (Ionize_Props) | FNEC |
| C28 | `C28_amplitude` (Ionize_Props) | FNE |
| C28 | `C28_probability`, `C28_no_field`, `C28_field_ionizes` (Ionize_Props) | FNEC |
| C29 | `C29_angle`, `C29_photons`, `C29_conservation` (Compton_Props) | FNEC |
| C30 | `C30_recoil_refuted`, `C30_no_gain_partial` (Compton_Props) | FNEC |
| C31 | `C31_count`, `C31_slots`, `C31_once` (Compton_Props) | FNEC |
| C32 | `C32_divB` (Psatd_Props) | FE |
| C33 | `C33_standard`, `C33_partial`, `C33_refuted` (Psatd_Props) | FNEC |
| C33 | `C33_no_resonance` (Psatd_Props) | FNE |
| C34 | `C34_curlfree`, `C34_cross`, `C34_cross_deposited`, `C34_gauss` (Psatd_Props) | FNEC |
| C34 | `C34_kz_true` (Psatd_Props) | FNE |
| C34 | `C34_states`, `C34_states_frozen` (Cross_Props) | FE |
| C35 | `C35_energy`, `C35_dispersion`, `C35_reversible` (Psatd_Props) | FNE |
| C36 | `C36_coefficients`, `C36_iteration` (Psatd_Props) | FNE |
| C37 | `C37_partial`, `C37_only_divE` (Psatd_Props) | FE |
| C37 | `C37_refuted` (Psatd_Props) | closed |
| C38 | `C38_stencil`, `C38_orders` (ModK_Props) | FNE |
| C39 | `C39_factors`, `C39_no_amplification`, `C39_passes`, `C39_charge_partial`, `C39_charge_refuted` (Smooth_Props) | FNE |
| C39 | `C39_arguments` (Smooth_Props) | closed |
| C40 | `C40_rt_pm_rt`, `C40_pm_rt_pm`, `C40_copy`, `C40_gemm` (Hankel_Props) | FE |
| C40 | `C40_norm` (Hankel_Props) | FNE |
| C41 | `C41_frame`, `C41_length`, `C41_number`, `C41_velocity`, `C41_momentum`, `C41_gamma_partial`, `C41_gamma_refuted`, `C41_wavenumber`, `C41_particle`, `C41_interaction_time` (Boost_Props) | FNE |
| C42 | `C42_boost`, `C42_lab`, `C42_names` (ExtField_Props) | FNE |
| C43 | `C43_maxwell` (SpaceCharge_Props) | FNE |
| C43 | `C43_bunch` (SpaceCharge_Props) | FNEC |
| C43 | `C43_gamma` (SpaceCharge_Props) | FE |
| C44 | `C44_exact` (Bunch_Props) | FNE |
| C44 | `C44_double_partial`, `C44_double_two_ranks`, `C44_double_refuted` (Bunch_Props) | FNEC |
| C45 | `C45_total`, `C45_loaded_partial`, `C45_ranks_refuted`, `C45_symmetric`, `C45_electrons_partial`, `C45_electrons_refuted`, `C45_cylindrical_partial`, `C45_cylindrical_refuted` (Bunch_Props) | FNE |
| C45 | `C45_openpmd_centred` (Bunch_Props) | FE |
| C46 | `C46_rank_partial`, `C46_rank_initial`, `C46_every_time_refuted`, `C46_displacement` (Antenna_Props) | FNE |
| C46 | `C46_double_refuted`, `C46_neutral` (Antenna_Props) | FNEC |
| C46 | `C46_pairs` (Antenna_Props) | FE |
| C47 | `C47_slab_partial`, `C47_never_between_refuted`, `C47_refuted`, `C47_boosted_plane` (Mirror_Props) | FNE |
| C48 | `C48_explicit_partial`, `C48_completed_partial`, `C48_latest_partial`, `C48_skew_refuted`, `C48_incomplete_refuted`, `C48_photon_refuted`, `C48_refuses` (Restart_Props) | FNE |
| C49 | `C49_once_partial`, `C49_record`, `C49_never`, `C49_momentum`, `C49_written`, `C49_flushed`, `C49_gpu`, `C49_on_plane_refuted`, `C49_edge_refuted`, `C49_outside_refuted`, `C49_kick_refuted` (BPart_Props) | FNE |
| C50 | `C50_file`, `C50_consecutive`, `C50_gap_free_partial`, `C50_gap_free_refuted`, `C50_unflushed_refuted`, `C50_invariants`, `C50_lorentz` (BField_Props) | FNE |
| C50 | `C50_weights_partial`, `C50_linear`, `C50_weights_refuted` (BField_Props) | FE |
| C51 | `C51_ends`, `C51_ends_energy`, `C51_no_damp_cells_refuted` (Damp_Props) | FNE |
| C51 | `C51_pml`, `C51_pml_energy_refuted`, `C51_pml_energy_partial` (Damp_Props) | FNEC |
| C52 | `C52_silent_species`, `C52_insert` (Deposit_Props) | FNEC |
| C53 | `C53_uniform_density` (Load_Props) | FNE |
| C53 | `C53_adapt_to_grid` (Load_Props) | FE |
| C54 | `C54_uniform`, `C54_outside` (Gather_Props) | FNE |
| C55 | `C55_fields_partial`, `C55_fields`, `C55_mode0_refuted` (Store_Props) | FNE |
| C55 | `C55_selection` (Store_Props) | FE |
| C56 | `C56_scalar`, `C56_vector`, `C56_wavenumbers` (Hankel_Props) | FNE |
| C57 | `C57_gpu_equals_cpu`, `C57_same_particles` (GDeposit_Props) | FNEC |
| C58 | `C58_frozen_same_grid_partial`, `C58_frozen_window_refuted` (GDeposit_Props) | FNEC |
| C59 | `C59_deposit_formula`, `C59_gpu_formula` (DepForm_Props) | FNEC |
| C60 | `C60_gather_formula` (GatForm_Props) | FNE |
| C61 | `C61_opposite_partial`, `C61_sign_refuted` (Emit_Props) | FNE |
| C62 | `C62_standard`, `C62_no_rho`, `C62_run`, `C62_partial`, `C62_run_partial`, `C62_refuted` (Maxwell_Props) | FNEC |
| C63 | `C63_gaussian`, `C63_unchirped`, `C63_chirp`, `C63_peak`, `C63_laguerre`, `C63_donut`, `C63_flattened`, `C63_few_cycle` (Laser_Props) | FNEC |
| C63 | `C63_sum` (Laser_Props) | FE |
| C64 | `C64_partial`, `C64_refuted` (Laser_Props) | FNEC |
| C65 | `C65_modes`, `C65_divergence_partial`, `C65_divergence_refuted`, `C65_boost`, `C65_backward`, `C65_smooth`, `C65_ranks` (Direct_Props) | FNE |
| C65 | `C65_lasers`, `C65_wave`, `C65_push` (Direct_Props) | FNEC |
| C66 | `C66_mean_unique` (KN_Props) | FNE |
| C66 | `C66_angle`, `C66_ends`, `C66_azimuth`, `C66_rate` (KN_Props) | FNEC |
| C67 | `C67_energy`, `C67_boost`, `C67_pulse` (Beam_Props) | FNEC |
| C68 | `C68_error_partial`, `C68_slow_electrons_refuted` (KNRound_Props) | FNEC |
| C69 | `C69_transverse`, `C69_longitudinal`, `C69_energy` (LaserEn_Props) | FNEC |
| C70 | `C70_partial`, `C70_refuted` (Picmi_Props) | FNEC |
| C71 | `C71_focus`, `C71_picmi` (Picmi_Props) | FNE |
| C72 | `C72_constant`, `C72_boost_refuted`, `C72_refuted` (Picmi_Props) | FNE |
| C73 | `C73_partial`, `C73_ionization`, `C73_order_refuted` (Picmi_Props) | F |
| C73 | `C73_mass_refuted` (Picmi_Props) | FE |
| C74 | `C74_cfl` (Picmi_Props) | FNE |
| C74 | `C74_smoother`, `C74_smoother_refuted`, `C74_diagnostic`, `C74_lab_refuted` (Picmi_Props) | closed |
| C75 | `C75_simulation`, `C75_records`, `C75_density` (Cycle_Props) | FE |
| C75 | `C75_subsampling_refuted` (Seed_Props) | FE |
| C76 | `C76_partial`, `C76_step_0`, `C76_J_refuted` (Cycle_Props) | FE |
| C76 | `C76_refuted` (Cycle_Props) | FNE |
| C77 | `C77_rate`, `C77_bounds`, `C77_hydrogen`, `C77_timestep`, `C77_accepts` (Adk_Props) | FNEC |
| C77 | `C77_units` (Adk_Props) | FE |
| C78 | `C78_partial`, `C78_refuted` (Adk_Props) | FNEC |
| C79 | `C79_records`, `C79_fields`, `C79_mass_refuted`, `C79_late_refuted`, `C79_neutral_refuted` (Pdiag_Props) | FE |
| C80 | `C80_history` (GAntenna_Props) | FNE |
| C80 | `C80_deposit` (GAntenna_Props) | FNEC |
| C81 | `C81_selection`, `C81_ballistic`, `C81_no_boost`, `C81_half_step`, `C81_boost_refuted` (Plane_Props) | FNE |
| C82 | `C82_check`, `C82_own_gpu`, `C82_balanced`, `C82_warning`, `C82_refuted`, `C82_color_refuted` (Select_Props) | closed |
| C83 | `C83_exact`, `C83_steps`, `C83_laser`, `C83_laser_refuted`, `C83_current_refuted` (Pml_Props) | FNEC |
| C84 | `C84_replace`, `C84_add`, `C84_outcome`, `C84_damp`, `C84_damp_profile`, `C84_pml`, `C84_gpudirect_refuted` (Gpu_Props) | FNEC |
| C84 | `C84_damp_outcome`, `C84_not_stuck` (Gpu_Props) | closed |
| C85 | `C85_field_step`, `C85_divB`, `C85_continuity`, `C85_erase`, `C85_divide_by_volume`, `C85_filter`, `C85_shift` (GSpect_Props) | FNEC |
| C85 | `C85_outcome` (GSpect_Props) | closed |
| C85 | `C85_divE_cpu`, `C85_divE_gpu`, `C85_divE_refuted` (GSpect_Props) | FE |
| C86 | `C86_scalar`, `C86_vector`, `C86_terminates`, `C86_round_trip` (GTrans_Props) | FNEC |
| C86 | `C86_mkl`, `C86_mkl_shape` (GTrans_Props) | FNE |
| C87 | `C87_step`, `C87_particle_diag`, `C87_field_diag`, `C87_density_diag`, `C87_manager`, `C87_cpu`, `C87_two_names_refuted`, `C87_between_steps_refuted`, `C87_step_in_manager_refuted`, `C87_new_species_refuted` (GData_Props) | closed |
| C88 | `C88_mean_wavelength`, `C88_spectrum`, `C88_documented_weight_refuted`, `C88_pulse`, `C88_positive`, `C88_two_lines_refuted`, `C88_integral`, `C88_linear_phase`, `C88_linear_phase_refuted` (Spectrum_Props) | FNE |
| C88 | `C88_direction` (Spectrum_Props) | closed |
| C89 | `C89_aligned`, `C89_selection`, `C89_bad_rule`, `C89_untracked_refuted`, `C89_duplicate_refuted`, `C89_restart`, `C89_restart_refuted` (BFile_Props) | FE |
| C89 | `C89_invalid` (BFile_Props) | closed |
| C90 | `C90_cylindrical`, `C90_cartesian`, `C90_antenna`, `C90_axis_refuted`, `C90_unit_refuted`, `C90_radial_offset_refuted`, `C90_delay`, `C90_version`, `C90_dev_version_refuted` (Lasy_Props) | FNE |
| C90 | `C90_method`, `C90_default_antenna_refuted` (Lasy_Props) | FE |
| C91 | `C91_conserved`, `C91_inside`, `C91_runs`, `C91_on_grid_needed` (GExch_Props) | FNEC |
| C92 | `C92_as_in_space`, `C92_same_fields`, `C92_effect`, `C92_current`, `C92_pml_exact` (EBound_Props) | FNE |
| C92 | `C92_pml_refuted` (EBound_Props) | FNEC |
| C93 | `C93_first`, `C93_effect`, `C93_sides`, `C93_direction`, `C93_energy`, `C93_guard`, `C93_small_refuted` (StReach_Props) | FNE |
| C93 | `C93_beyond_refuted` (StReach_Props) | FNEC |
| C94 | `C94_extent`, `C94_own_grids`, `C94_values`, `C94_nothing_lost` (GGrid_Props) | FE |
| C94 | `C94_particles_refuted` (GGrid_Props) | closed |
| C95 | `C95_sees`, `C95_contiguous`, `C95_compiled_once`, `C95_external_field`, `C95_layout_refuted` (Cupy_Props) | closed |
| C95 | `C95_integer_amplitude_refuted` (Cupy_Props) | FNEC |
| C96 | `C96_no_window_partial`, `C96_loop_partial`, `C96_period_one_partial`, `C96_density_diagnostic_refuted`, `C96_window_no_guard_refuted` (GOrder_Props) | FNEC |
| C96 | `C96_created` (GOrder_Props) | FNE |
| C97 | `C97_which_partial`, `C97_same_partial`, `C97_loop_partial`, `C97_weights_refuted`, `C97_edge_refuted` (GBack_Props) | FNEC |
| C98 | `C98_gpu_partial`, `C98_linear_partial` (GSlice_Props) | FNEC |
| C98 | `C98_value_partial`, `C98_lab_frame`, `C98_last_refuted` (GSlice_Props) | FNE |
| C99 | `C99_gather`, `C99_push_p`, `C99_push_x`, `C99_backends`, `C99_alone`, `C99_executions` (GPart_Props) | FNEC |

### Code that is modelled

Every definition of a `*_Model.v` file cites the file and lines it stands for, and says where it is
simplified. Together they cite every function of `fbpic/` except those listed below. A citation means
that the behaviour relevant to some property is modelled, not that every statement is.

### Code that is not modelled

* `utils/printing.py`: the description of the simulation and of the GPUs (`print_simulation_setup`, `print_gpu_meminfo`...); 
* `utils/cuda.py`: `make_cupy_kernel` (compilation itself; the cache and the arguments are in C95);
* `fields/spectral_transform/mkl_fft.py`: the calls of the MKL library; the FFT is the sum it computes;
* `fields/spectral_transform/hankel.py`: the values of Bessel functions and their zeros are parameters;
* one-line wrappers and constructors that only store their arguments: `BoundaryCommunicator.move_grids`,
  `remove_outside_particles` (its two branches are modelled), `PMLDamper.__init__`, `Fields.correct_divE`,
  `Fields.divide_by_volume`, `numba_erase_threading_buffer`, `DHT.get_r`, `DHT.get_nu`,
  `LabSnapshot.__init__`, `ParticleCatcher.__init__`,
  `allocate_empty`, `copy_particle_data_*`, base classes and `E_field` wrappers of the laser profiles;
* `add_elec_bunch_openPMD`, `add_elec_bunch_from_arrays` (reading of a file, then the modelled
  `add_elec_bunch_from_arrays`-like creation of particles), `Particles.activate_compton` and
  `picmi.Simulation.step` as entry points (what they call is modelled);
* `docs/`, `tests/`, and the packaging.
