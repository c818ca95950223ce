{"id": "C01", "title": "Domain decomposition tiles the global grid", "statement": "For every accepted grid size, rank count, damping/injection/guard width, the cell ranges that the communicator reports for ranks 0..size-1 (without guard cells, with or without damp cells) are pairwise disjoint, consecutive in rank order, and their union is exactly the reported global range; with guard cells every local range is the same range extended by n_guard cells on both sides. The integer division done through a double-precision quotient gives the exact floor.", "quantifier": "all Nz, all MPI sizes, all n_guard/nz_damp/n_inject, all ranks, both boundary kinds", "why_tests_cant": "A test fixes a handful of (Nz,size) pairs; a missing or doubly owned cell appears only for particular remainders and rank positions.", "anchors": ["fbpic/boundaries/boundary_communicator.py:get_Nz_and_iz", "fbpic/boundaries/boundary_communicator.py:divide_into_domain"]}
{"id": "C02", "title": "Gathering a scattered grid returns the same grid", "statement": "Scattering a global array from root and gathering the local arrays back (with the same with_damp flag, local data embedded in arrays enlarged by guard and damp cells) returns exactly the original global array, whatever the content of the guard cells; every global cell is read from the rank that owns it.", "quantifier": "all global arrays, sizes, widths, guard-cell contents", "why_tests_cant": "Requires all decompositions and all array contents; MPI tests run at one or two sizes.", "anchors": ["fbpic/boundaries/boundary_communicator.py:gather_grid_array", "fbpic/boundaries/boundary_communicator.py:scatter_grid_array"]}
{"id": "C03", "title": "Guard-cell replacement makes neighbouring subdomains agree", "statement": "After exchange_fields(...,'replace') on all ranks, every guard cell that faces a neighbouring rank holds the value which that neighbour had, before the exchange, in its own physical cell covering the same global position (cyclically for periodic boundaries); every other cell is unchanged.", "quantifier": "all field contents, sizes >= 2, guard widths and local sizes accepted by the constructor checks, periodic and open boundaries", "why_tests_cant": "Off-by-one slices only show for particular widths; a test compares a few fields on two ranks.", "anchors": ["fbpic/boundaries/boundary_communicator.py:exchange_fields", "fbpic/boundaries/field_buffer_handling.py:handle_vec_buffer", "fbpic/boundaries/field_buffer_handling.py:handle_scal_buffer"]}
{"id": "C04", "title": "Guard-cell addition sums source terms once and only once", "statement": "After exchange_fields(...,'add') on all ranks, each cell of the region shared by two neighbouring ranks holds, on both ranks, the sum of the two contributions deposited there before the exchange, and cells outside shared regions are unchanged; no contribution is counted twice or dropped.", "quantifier": "all deposited arrays, sizes >= 2, guard widths and local sizes accepted by the constructor checks, periodic and open boundaries", "why_tests_cant": "Needs every content and geometry, in particular the smallest local domain accepted by the size check.", "anchors": ["fbpic/boundaries/boundary_communicator.py:exchange_fields", "fbpic/boundaries/boundary_communicator.py:divide_into_domain", "fbpic/boundaries/field_buffer_handling.py:handle_scal_buffer"]}
{"id": "C05", "title": "Neighbour exchange delivers the right message and cannot deadlock", "statement": "When every rank calls the neighbour exchange, under every interleaving of posting, delivery and waiting: no reachable state is stuck before all ranks finish, and when they finish each rank's left receive buffer holds what its left neighbour passed as right send buffer and vice versa, including two periodic ranks whose left and right neighbours coincide.", "quantifier": "all rank counts >= 2, periodic/open boundaries, all interleavings, any number of successive exchanges", "why_tests_cant": "Schedules are not controllable from a test; message mismatch needs specific reorderings.", "anchors": ["fbpic/boundaries/boundary_communicator.py:exchange_domains"]}
{"id": "C06", "title": "Particle exchange neither loses, duplicates nor alters particles", "statement": "After exchange_particles on all ranks of a multi-rank simulation, the multiset over all ranks of particles (position, momentum, weight, id, ionization level) is the one before the exchange, up to a shift of z by one global box length for particles that cross a periodic end, and minus exactly the particles that were beyond an open global end.", "quantifier": "all particle populations, sizes, boundary kinds, tracked and ionizable species", "why_tests_cant": "Conservation must hold for every population and every attribute; tests check a few float attributes on one layout.", "anchors": ["fbpic/boundaries/boundary_communicator.py:exchange_particles_aperiodic_subdomain", "fbpic/boundaries/particle_buffer_handling.py:remove_particles_cpu", "fbpic/boundaries/particle_buffer_handling.py:add_buffers_cpu"]}
{"id": "C07", "title": "After an exchange every particle is inside its rank's physical subdomain", "statement": "If before the exchange each particle is at most one (smallest) subdomain length outside of its rank's physical subdomain, then after exchange_particles every particle held by a rank lies inside that rank's physical subdomain (with damp cells at open ends).", "quantifier": "all particle populations, rank counts, boundary kinds", "why_tests_cant": "Concerns every particle position including cell and box edges.", "anchors": ["fbpic/boundaries/boundary_communicator.py:exchange_particles_aperiodic_subdomain", "fbpic/boundaries/particle_buffer_handling.py:remove_particles_cpu"]}
{"id": "C08", "title": "Automatic exchange period keeps particle deposition inside the local grid", "statement": "With the automatically chosen exchange_period, a particle that was in the physical subdomain at the last exchange and moves slower than light never, at any of the positions at which charge or current is deposited or fields are gathered until the next exchange (half steps and cross-deposition included, moving window or Galilean grid of speed at most c included), touches a cell outside the local grid, for linear and cubic shapes; and the constructor rejects parameters for which no such period exists.", "quantifier": "all n_guard, dt, dz, particle trajectories with |v|<c, window/Galilean speeds |v|<=c, all steps between exchanges", "why_tests_cant": "An out-of-range index is undefined behaviour in compiled code and appears only for extreme trajectories.", "anchors": ["fbpic/boundaries/boundary_communicator.py:__init__", "fbpic/main.py:step", "fbpic/main.py:cross_deposit", "fbpic/particles/deposition/threading_methods.py"]}
{"id": "C09", "title": "Single-rank periodic wrap puts every particle in the box by whole box lengths", "statement": "For a single-rank periodic simulation, exchange_particles leaves every particle with zmin <= z < zmax, changes z only by a whole number of box lengths, leaves particles already inside untouched, and terminates.", "quantifier": "all particle positions, all box edges", "why_tests_cant": "The half-open bound can fail only at rounding boundaries; termination depends on magnitude.", "anchors": ["fbpic/boundaries/particle_buffer_handling.py:shift_particles_periodic_numba"]}
{"id": "C10", "title": "Particle ids are globally unique during a run", "statement": "In any history of id generation on any ranks (initial load, injection, ionization, scattering), interleaved arbitrarily with particle exchange and removal, no two particles of a tracked species ever carry the same id, as long as ids stay below 2^64.", "quantifier": "all MPI sizes, all histories of generation, exchange and removal", "why_tests_cant": "Uniqueness over unbounded histories and all rank interleavings.", "anchors": ["fbpic/particles/tracking/tracking.py:ParticleTracker.__init__", "fbpic/particles/tracking/tracking.py:generate_new_ids", "fbpic/particles/tracking/tracking.py:generate_new_ids_gpu"]}
{"id": "C11", "title": "Particle ids stay unique after a restart", "statement": "After restarting from a checkpoint, ids attributed to newly created particles differ from the ids of all the particles that were restored, on all ranks.", "quantifier": "all sets of restored ids, all MPI sizes, all subsequent generations", "why_tests_cant": "Depends on which particles were lost before the checkpoint; a test that restarts with dense ids does not see it.", "anchors": ["fbpic/particles/tracking/tracking.py:overwrite_ids", "fbpic/openpmd_diag/checkpoint_restart.py:load_species"]}
{"id": "C12", "title": "Splitting a run into several step() calls keeps time and output schedule", "statement": "For every way of splitting N iterations into successive step(N_i) calls, iteration and time after the calls and the exact sequence of iterations at which each diagnostic and checkpoint is written are those of a single step(N) call; a diagnostic with period p, iteration_min a, iteration_max b writes exactly at the iterations n in [a,b) with p | n.", "quantifier": "all splittings, all periods and iteration windows", "why_tests_cant": "Quantifies over all call histories.", "anchors": ["fbpic/main.py:step", "fbpic/openpmd_diag/generic_diag.py:write"]}
{"id": "C13", "title": "step() never pushes or corrects fields with inconsistent guard-cell state", "statement": "For every combination of step() options that passes the argument checks and every history of step() calls with possibly different options, each internal consistency assertion on exchanged sources succeeds, and every field push on several ranks uses a current (and, with use_true_rho, charge densities) whose guard cells were exchanged exactly once since deposition.", "quantifier": "all option combinations, all call histories, all MPI sizes and exchange periods, antennas/moving windows present or not", "why_tests_cant": "Depends on the interplay of flags across steps and calls.", "anchors": ["fbpic/main.py:step", "fbpic/main.py:deposit", "fbpic/fields/fields.py:push", "fbpic/fields/fields.py:correct_currents"]}
{"id": "C14", "title": "Cross-deposition leaves particles and grid where they were", "statement": "After the cross-deposition stage every particle position, antenna position and grid edge equals its value before the stage, and the two auxiliary densities were deposited at (transverse n+1, longitudinal n) and (transverse n, longitudinal n+1) positions.", "quantifier": "all positions, velocities, timesteps, Galilean speeds, move_positions on or off", "why_tests_cant": "Round trip must be exact for every state, not for sampled ones.", "anchors": ["fbpic/main.py:cross_deposit", "fbpic/main.py:shift_galilean_boundaries", "fbpic/particles/push/numba_methods.py:push_x_numba"]}
{"id": "C15", "title": "Moving window follows its nominal position to within one cell", "statement": "For a window of speed v >= 0, after every move the grid origin differs from the nominal position z0 + v (t - t0 + dt) by less than one cell and never overtakes it, and has moved by a whole number of cells in total; all ranks move by the same number of cells, for every sequence of move times.", "quantifier": "all speeds, times, cell sizes, histories of moves", "why_tests_cant": "Error accumulation over unbounded histories.", "anchors": ["fbpic/boundaries/moving_window.py:move_grids", "fbpic/boundaries/moving_window.py:__init__"]}
{"id": "C16", "title": "Spectral shift equals a whole-cell translation", "statement": "Moving the window by n cells multiplies each spectral coefficient by the phase that corresponds to translating the real-space field cyclically by n cells; shifting by n then m equals shifting by n+m, shifting by n then -n restores the field, for positive and negative n.", "quantifier": "all n, all Nz, all field contents", "why_tests_cant": "All integers n and all fields; the negative branch uses a different code path.", "anchors": ["fbpic/boundaries/moving_window.py:shift_spect_grid", "fbpic/boundaries/moving_window.py:shift_spect_array_cpu"]}
{"id": "C17", "title": "Continuous injection leaves no gap and no overlap", "statement": "Over any history of window moves and injections, the longitudinal positions of all continuously injected particles plus the loaded plasma form, in the frame co-moving with the plasma end, one evenly spaced lattice with no missing and no repeated site, and the plasma edge stays within one particle spacing of the injection position whenever the window is not slower than the plasma.", "quantifier": "all histories of moves/injections, window and plasma speeds, spacings", "why_tests_cant": "Gap/overlap depends on accumulated truncations over unbounded histories.", "anchors": ["fbpic/particles/injection/continuous_injection.py:increment_injection_positions", "fbpic/particles/injection/continuous_injection.py:generate_particles", "fbpic/particles/injection/continuous_injection.py:generate_evenly_spaced"]}
{"id": "C18", "title": "Thread chunks and GPU launch grids cover every index exactly once", "statement": "The CPU chunk bounds split the particle range [0,Ntot) in consecutive disjoint chunks whose union is the whole range for every particle number and thread count; the 1D/2D CUDA launch sizes cover every index, and out-of-range threads do nothing.", "quantifier": "all Ntot >= 0, all thread counts >= 1, all grid sizes", "why_tests_cant": "All sizes, in particular Ntot smaller than the number of threads and exact multiples of the block size.", "anchors": ["fbpic/utils/threading.py:get_chunk_indices", "fbpic/utils/cuda.py:cuda_tpb_bpg_1d", "fbpic/utils/cuda.py:cuda_tpb_bpg_2d"]}
{"id": "C19", "title": "Particle sorting builds exact cumulative counts per cell", "statement": "After GPU sorting, for every cell c the prefix sum equals the number of particles with cell index <= c (0 for an empty species), every attribute array is permuted consistently by one permutation, and the particles of cell c occupy exactly the index range [prefix(c-1), prefix(c)), whatever the order in which GPU threads run.", "quantifier": "all particle sets, all grids, all thread orders", "why_tests_cant": "Parallel prefix fill has many corner cases (empty cells, first/last cell, no particle).", "anchors": ["fbpic/particles/utilities/cuda_sorting.py:incl_prefix_sum", "fbpic/particles/utilities/cuda_sorting.py:prefill_prefix_sum", "fbpic/particles/utilities/cuda_sorting.py:write_sorting_buffer", "fbpic/particles/particles.py:sort_particles"]}
{"id": "C20", "title": "CPU and GPU exchange keep the same particles", "statement": "For a given species and grid, the set of particles that stay in the local subdomain during particle exchange is the same on the CPU path (position test) and the GPU path (sorted cell index test).", "quantifier": "all particle positions, grids, guard widths, moving-window shifts", "why_tests_cant": "A difference confined to a fraction of a cell at the subdomain edges escapes sampled comparisons.", "anchors": ["fbpic/boundaries/particle_buffer_handling.py:remove_particles_cpu", "fbpic/boundaries/particle_buffer_handling.py:remove_particles_gpu", "fbpic/particles/utilities/cuda_sorting.py:get_cell_idx_per_particle"]}
{"id": "C21", "title": "Particle shape factors are a partition of unity", "statement": "For linear and cubic shapes, at every position, the weights given to the 2 (resp. 4) grid points sum to 1 in z and in r (with any Ruyten correction), the z weights lie in [0,1], are continuous across cell boundaries, and reproduce the particle position as weighted mean of the grid points.", "quantifier": "all real particle positions, all Ruyten coefficients", "why_tests_cant": "All positions, in particular exactly on grid points.", "anchors": ["fbpic/particles/deposition/particle_shapes.py"]}
{"id": "C22", "title": "Deposition conserves total charge", "statement": "For any set of particles that lie in the local grid, any thread count and both shapes, the sum over all cells of the deposited mode-0 charge (cell density times cell volume, after reduction over threads and folding of the guard cells) equals q times the sum of the weights; the same holds for the total axial current; particles beyond rmax or next to the axis included.", "quantifier": "all particle sets, thread counts, grids, shapes", "why_tests_cant": "Exact identity over all populations, including folding near the axis and at the outer radius.", "anchors": ["fbpic/particles/deposition/threading_methods.py", "fbpic/fields/numba_methods.py:sum_reduce_2d_array", "fbpic/fields/fields.py:sum_reduce_deposition_array", "fbpic/fields/fields.py:divide_by_volume"]}
{"id": "C23", "title": "Deposition does not depend on threads or particle order", "statement": "The deposited grid arrays are, in exact arithmetic, the same for every number of threads and every permutation of the particles.", "quantifier": "all populations, permutations, thread counts, modes", "why_tests_cant": "All permutations and chunkings.", "anchors": ["fbpic/particles/deposition/threading_methods.py", "fbpic/particles/particles.py:deposit", "fbpic/fields/numba_methods.py:sum_reduce_2d_array"]}
{"id": "C24", "title": "Ruyten-corrected deposition reproduces a uniform density", "statement": "With the Ruyten coefficients computed by the grid, a spatially uniform charge density sampled by a radially continuous particle distribution deposits exactly the same density in every radial cell down to the axis, for linear and cubic shapes.", "quantifier": "all cell indices, all numbers of radial cells, any density value", "why_tests_cant": "An exact integral identity for every cell; numerical tests see sampling noise.", "anchors": ["fbpic/fields/interpolation_grid.py:InterpolationGrid.__init__", "fbpic/particles/deposition/particle_shapes.py:Sr_linear", "fbpic/particles/deposition/particle_shapes.py:Sr_cubic"]}
{"id": "C25", "title": "Momentum push keeps the Lorentz factor consistent and speeds below c", "statement": "After each momentum push the stored inverse Lorentz factor satisfies inv_gamma = 1/sqrt(1+u^2), is in (0,1], and the velocity inv_gamma*u is below 1, for every electric and magnetic field, charge state and timestep; a zero electric field leaves the energy unchanged.", "quantifier": "all momenta, fields, charges, timesteps", "why_tests_cant": "Algebraic invariant over all real inputs.", "anchors": ["fbpic/particles/push/inline_functions.py:push_p_vay", "fbpic/particles/push/numba_methods.py:push_p_numba"]}
{"id": "C26", "title": "Momentum push preserves force-free motion", "statement": "A particle whose velocity v satisfies E + v x B = 0 keeps exactly its momentum through a push, for every timestep.", "quantifier": "all velocities |v|<c, all B, all timesteps and charges", "why_tests_cant": "Exact cancellation for all inputs is the defining property of the pusher and is only sampled by tests.", "anchors": ["fbpic/particles/push/inline_functions.py:push_p_vay"]}
{"id": "C27", "title": "Ionization conserves particles and charge", "statement": "In each ionization step, the number of electrons created equals the number of ionization events, each new electron copies position, momentum and weight of its parent ion, no slot of the electron arrays is left unfilled or written twice, ion levels never exceed the maximal level, and total charge (ion charge from levels plus electrons) is unchanged; with several target species each electron goes to the species assigned to the level it left.", "quantifier": "all ion populations, levels, random outcomes, batch sizes, target maps", "why_tests_cant": "Holds for every random outcome and every batch split.", "anchors": ["fbpic/particles/elementary_process/ionization/numba_methods.py", "fbpic/particles/elementary_process/ionization/ionizer.py:handle_ionization", "fbpic/particles/elementary_process/cuda_numba_utils.py"]}
{"id": "C28", "title": "Ionization probabilities are probabilities", "statement": "For every field, momentum and ionization level the squared field amplitude seen by the ion is non-negative, and the ionization probability lies in [0,1); it is zero when no field acts on the ion.", "quantifier": "all fields, momenta, levels, ADK tables with non-negative prefactors, timesteps", "why_tests_cant": "Sign of a difference of large terms for all relativistic inputs.", "anchors": ["fbpic/particles/elementary_process/ionization/inline_functions.py:get_E_amplitude", "fbpic/particles/elementary_process/ionization/inline_functions.py:get_ionization_probability"]}
{"id": "C29", "title": "Compton scattering conserves energy-momentum of each event", "statement": "For every electron, photon-beam direction and random draws accepted by the sampler, the scattered photon is on the light cone with positive energy, its scattering angle cosine lies in [-1,1], and with photon/electron ratio 1 the electron and photon energy and momentum after the event add up to those before, the electron staying on its mass shell.", "quantifier": "all electron momenta, photon momenta, random draws", "why_tests_cant": "Composition of boosts and rotations must close exactly for all inputs.", "anchors": ["fbpic/particles/elementary_process/compton/numba_methods.py:scatter_photons_electrons_numba", "fbpic/particles/elementary_process/compton/inline_functions.py:lorentz_transform"]}
{"id": "C30", "title": "Recoiling electrons keep velocities below c", "statement": "After a Compton scattering event the electron data used by the next position push is consistent (inv_gamma = 1/sqrt(1+u^2)), so that the electron never moves faster than light.", "quantifier": "all electron and photon momenta, random outcomes", "why_tests_cant": "Visible only for high recoil within the half step that follows the event.", "anchors": ["fbpic/particles/elementary_process/compton/numba_methods.py:scatter_photons_electrons_numba", "fbpic/main.py:step"]}
{"id": "C31", "title": "Scattering event counts are unbiased and fill the photon arrays exactly", "statement": "The number of macro-photons emitted by an electron with scattering probability p and ratio R is the floor or the floor plus one of p*R, its mean over the uniform draw is exactly p*R, total emitted photons equal the number of photon slots created, and each slot is written exactly once by one batch.", "quantifier": "all probabilities, ratios, draws, batch layouts", "why_tests_cant": "Mean over a continuum of draws and index disjointness for every outcome.", "anchors": ["fbpic/particles/elementary_process/compton/numba_methods.py:determine_scatterings_numba", "fbpic/particles/elementary_process/compton/compton.py:handle_scattering", "fbpic/particles/elementary_process/cuda_numba_utils.py"]}
{"id": "C32", "title": "Field push preserves div B = 0", "statement": "If the magnetic field is divergence-free in spectral space it stays divergence-free after any number of field pushes, for any currents and charge, standard, Galilean and comoving schemes.", "quantifier": "all wave vectors, field values, sources, timesteps, numbers of steps", "why_tests_cant": "Invariant over unbounded time for all field contents.", "anchors": ["fbpic/fields/numba_methods.py:numba_push_eb_standard", "fbpic/fields/numba_methods.py:numba_push_eb_comoving", "fbpic/fields/psatd_coefs.py"]}
{"id": "C33", "title": "Field push preserves Gauss' law when charge is conserved", "statement": "If div E = rho/eps0 holds and the current satisfies the discrete continuity equation with rho_prev and rho_next, then after the push div E = rho_next/eps0, whether or not the deposited rho is used (use_true_rho), for every number of steps.", "quantifier": "all wave vectors, field values, sources, timesteps, numbers of steps, standard and Galilean/comoving schemes", "why_tests_cant": "Invariant over unbounded time for all field contents.", "anchors": ["fbpic/fields/numba_methods.py:numba_push_eb_standard", "fbpic/fields/numba_methods.py:numba_push_eb_comoving", "fbpic/fields/psatd_coefs.py"]}
{"id": "C34", "title": "Current correction enforces the continuity equation", "statement": "After current correction (curl-free or cross-deposition, standard or Galilean/comoving), the spectral current satisfies the discrete continuity equation between rho_prev and rho_next at every wave vector where the equation constrains the current.", "quantifier": "all wave vectors, deposited sources, timesteps, Galilean speeds", "why_tests_cant": "Holds mode by mode; special modes (kz = 0, kr = 0, Nyquist) are exactly where it may break.", "anchors": ["fbpic/fields/numba_methods.py:numba_correct_currents_curlfree_standard", "fbpic/fields/numba_methods.py:numba_correct_currents_crossdeposition_standard", "fbpic/fields/numba_methods.py:numba_correct_currents_curlfree_comoving", "fbpic/fields/numba_methods.py:numba_correct_currents_crossdeposition_comoving"]}
{"id": "C35", "title": "Vacuum propagation conserves energy and is reversible", "statement": "Without sources the standard field push conserves the electromagnetic energy of every spectral mode for every timestep (no Courant limit), propagates with the vacuum dispersion relation, and pushing after flipping the sign of B undoes a push.", "quantifier": "all wave vectors, transverse fields, timesteps, numbers of steps", "why_tests_cant": "Unconditional stability is a statement over all k and dt.", "anchors": ["fbpic/fields/numba_methods.py:numba_push_eb_standard", "fbpic/fields/psatd_coefs.py", "fbpic/main.py:reverse_time"]}
{"id": "C36", "title": "Zero-velocity Galilean/comoving scheme is the standard scheme", "statement": "With comoving velocity 0 the coefficients and the field update of the Galilean/comoving solver coincide with those of the standard solver.", "quantifier": "all wave vectors, timesteps, fields, sources", "why_tests_cant": "Requires the removable singularities (kz=0, w=0) to be treated consistently for all modes.", "anchors": ["fbpic/fields/psatd_coefs.py", "fbpic/fields/numba_methods.py:numba_push_eb_comoving"]}
{"id": "C37", "title": "correct_divE makes Gauss' law exact", "statement": "With step(correct_divE=True), after each field push the electric field satisfies div E = rho/eps0 in every spectral mode with k != 0, and the correction leaves the curl of E unchanged; this works for every current-correction setting that the constructor accepts.", "quantifier": "all wave vectors, fields, charge densities, constructor options", "why_tests_cant": "Depends on an option combination that the test suite does not run.", "anchors": ["fbpic/fields/spectral_grid.py:correct_divE", "fbpic/fields/fields.py:correct_divE", "fbpic/main.py:step"]}
{"id": "C38", "title": "Finite-order wave numbers have the advertised order", "statement": "For every even order n_order = 2m the modified wave number is the symbol of an antisymmetric stencil of reach m that differentiates every polynomial of degree at most 2m exactly, is odd in k and vanishes at k = 0; odd or non-positive orders other than -1 are rejected.", "quantifier": "all m >= 1, all k, all dz", "why_tests_cant": "The order condition holds for every m; tests try a few.", "anchors": ["fbpic/fields/utility_methods.py:get_modified_k"]}
{"id": "C39", "title": "Current smoother is a bounded low-pass filter", "statement": "For every number of passes and both compensator settings the filter factors lie in [0,1], equal 1 at k = 0, so filtering never amplifies a mode and preserves total charge.", "quantifier": "all k, all numbers of passes, both directions", "why_tests_cant": "Bernoulli-type inequality for every pass number.", "anchors": ["fbpic/fields/smoothing.py:BinomialSmoother"]}
{"id": "C40", "title": "Component transforms are exact inverses", "statement": "The radial/azimuthal to plus/minus component conversion and its inverse are mutually inverse and preserve |Er|^2+|Et|^2 up to the factor two of the convention, and copying complex grids through the real-valued GEMM buffers and back is the identity.", "quantifier": "all complex arrays", "why_tests_cant": "Identity over all inputs, in-place aliasing included.", "anchors": ["fbpic/fields/spectral_transform/numba_methods.py", "fbpic/fields/spectral_transform/spectral_transformer.py"]}
{"id": "C41", "title": "Boosted-frame conversions are consistent Lorentz transformations", "statement": "The converter's length, density, velocity, wave number, momentum and Lorentz factor conversions agree with the Lorentz transformation: mass shell preserved, velocity conversion is relativistic addition and stays below c, boosted bunch particles lie on the boosted image of the particle's lab world line, number of particles per length is invariant.", "quantifier": "all boosts gamma0 >= 1, all lab quantities", "why_tests_cant": "Identities over a continuum of inputs, with cancellation.", "anchors": ["fbpic/lpa_utils/boosted_frame.py:BoostConverter"]}
{"id": "C42", "title": "External lab-frame fields are boosted correctly", "statement": "An external field given in the lab frame and applied in a boosted frame acts on particles with exactly the Lorentz-transformed field evaluated at the lab coordinates of the particle, for each component.", "quantifier": "all components, fields, positions, times, boosts", "why_tests_cant": "Sign errors in individual cross terms show only for particular components.", "anchors": ["fbpic/lpa_utils/external_fields.py:ExternalField"]}
{"id": "C43", "title": "Bunch space-charge initialization solves Maxwell's equations", "statement": "The fields added for a relativistic bunch satisfy Gauss' law for the bunch's charge density, div B = 0, and Faraday/Ampere for rigid motion at the bunch velocity, in every spectral mode with k != 0.", "quantifier": "all wave vectors, charge densities, gamma >= 1", "why_tests_cant": "All modes and gammas.", "anchors": ["fbpic/lpa_utils/bunch.py:get_space_charge_spect", "fbpic/lpa_utils/bunch.py:get_space_charge_fields"]}
{"id": "C44", "title": "A particle bunch is loaded exactly once over the ranks", "statement": "Every particle of a bunch that lies in the global physical domain is kept by exactly one rank and particles outside by none, so the loaded bunch does not depend on the number of ranks.", "quantifier": "all particle positions, all decompositions, double-precision edges", "why_tests_cant": "A particle within one rounding error of a subdomain edge is never sampled.", "anchors": ["fbpic/lpa_utils/bunch.py:add_particle_bunch_from_arrays", "fbpic/boundaries/boundary_communicator.py:get_zmin_zmax"]}
{"id": "C45", "title": "Bunch helpers load the requested charge", "statement": "Gaussian and file bunches carry a total weight equal to the requested number of physical particles (|Q|/e for the charge-based helpers, whatever the sign of Q), symmetrization keeps the total and makes the transverse means exactly zero; the cylindrical bunch helper uses the requested number of particles along each direction.", "quantifier": "all particle numbers, charges, samples", "why_tests_cant": "All samples and argument combinations.", "anchors": ["fbpic/lpa_utils/bunch.py:add_particle_bunch_gaussian", "fbpic/lpa_utils/bunch.py:add_elec_bunch", "fbpic/lpa_utils/bunch.py:add_elec_bunch_gaussian", "fbpic/lpa_utils/bunch.py:add_elec_bunch_from_arrays"]}
{"id": "C46", "title": "Laser antenna is neutral and active on exactly one rank", "statement": "At every time while the antenna plane is inside the global box (with damp cells) exactly one rank deposits the antenna, otherwise none; the antenna's total deposited charge is zero, and its transverse oscillation displacement always equals the time integral implied by its velocity updates.", "quantifier": "all antenna positions, decompositions, histories of updates", "why_tests_cant": "Edge positions and all decompositions.", "anchors": ["fbpic/lpa_utils/laser/antenna_injection.py:LaserAntenna"]}
{"id": "C47", "title": "A mirror zeroes the fields between z_start and z_end", "statement": "At each step a mirror sets the fields to zero at all grid cells between z_start and z_end, on all ranks, and leaves the other cells unchanged.", "quantifier": "all mirror positions, thicknesses, decompositions", "why_tests_cant": "Existing test uses a thick mirror and looks only at reflected fields.", "anchors": ["fbpic/lpa_utils/mirrors.py:Mirror.set_fields_to_zero"]}
{"id": "C48", "title": "Restart resumes exactly the checkpointed state on all ranks", "statement": "If the run is killed at any point, restart either refuses to start or resumes with time, iteration, fields and particles of all ranks from one and the same completed checkpoint.", "quantifier": "all crash points, all checkpoint periods, rank counts, requested iterations", "why_tests_cant": "Crash points between the per-rank file writes cannot be enumerated by running.", "anchors": ["fbpic/openpmd_diag/checkpoint_restart.py:restart_from_checkpoint", "fbpic/openpmd_diag/checkpoint_restart.py:check_restart", "fbpic/openpmd_diag/generic_diag.py"]}
{"id": "C49", "title": "Back-transformed particle output records each crossing exactly once", "statement": "For every particle that crosses the moving lab-snapshot plane during a step the boosted-frame particle diagnostic records it in exactly one step, with lab time equal to the snapshot time and linear interpolation weights in [0,1]; a particle that never crosses is never recorded.", "quantifier": "all trajectories with |v| < c, boosts, snapshot times, step sequences", "why_tests_cant": "Equality cases on the plane and all trajectories.", "anchors": ["fbpic/openpmd_diag/boosted_particle_diag.py"]}
{"id": "C50", "title": "Back-transformed field output slices are complete and correctly transformed", "statement": "The lab-frame slice indices written by the boosted-frame field diagnostic form a gap-free and repetition-free range while the snapshot is inside the box, the slice is interpolated with weights in [0,1], and the Lorentz transform of the slice preserves the field invariants E.B and E^2-c^2B^2.", "quantifier": "all boosts, snapshot times, windows, step sequences", "why_tests_cant": "Index bookkeeping over all histories.", "anchors": ["fbpic/openpmd_diag/boosted_field_diag.py"]}
{"id": "C51", "title": "Boundary damping only attenuates", "statement": "Damping factors lie in [0,1], are exactly 0 in the guard and injection cells of an open end, 1 beyond the damping region, non-decreasing towards the interior, symmetric at both ends; the PML damping factor is in (0,1]; so damping never increases the energy of the fields.", "quantifier": "all widths, all cell indices, all field contents", "why_tests_cant": "All widths including odd and minimal ones.", "anchors": ["fbpic/boundaries/boundary_communicator.py:generate_damp_array", "fbpic/boundaries/boundary_communicator.py:damp_EB_open_boundary", "fbpic/boundaries/pml_damping.py"]}
{"id": "C52", "title": "Tracer and neutral species do not act on the fields", "statement": "Adding tracer species or species with zero charge, in any position among the species and with any particles, leaves all deposited sources unchanged.", "quantifier": "all species lists, populations", "why_tests_cant": "All lists and populations.", "anchors": ["fbpic/main.py:deposit", "fbpic/particles/particles.py:deposit"]}
{"id": "C53", "title": "Evenly spaced plasma loading reproduces the requested density", "statement": "Loading p_nz*p_nr*p_nt particles per cell of a uniform plasma gives, per cell, a total weight equal to density times cell volume, positions strictly inside the requested (grid-aligned) range, and the grid-alignment never loads outside the box or the empty cells.", "quantifier": "all box sizes, particle counts per cell, ranges", "why_tests_cant": "Exact sums for every count and range.", "anchors": ["fbpic/main.py:adapt_to_grid", "fbpic/particles/injection/continuous_injection.py:generate_evenly_spaced"]}
{"id": "C54", "title": "Field gathering reproduces simple fields exactly", "statement": "Gathering with linear or cubic shapes returns the exact value for spatially constant longitudinal fields at all particle positions including near the axis, and transverse Cartesian components of a uniform transverse field (mode 1) are returned exactly for every azimuth.", "quantifier": "all particle positions inside the box, all field values, both shapes", "why_tests_cant": "All positions and angles.", "anchors": ["fbpic/particles/gathering/threading_methods.py", "fbpic/particles/gathering/inline_functions.py"]}
{"id": "C55", "title": "Stored field slices and mode reconstruction", "statement": "Writing fields as 2*mode (real and imaginary parts) and reloading them at restart returns the original complex mode coefficients for every mode, and particle selection in diagnostics keeps exactly the particles satisfying all bounds.", "quantifier": "all field contents, modes, selection bounds, particles", "why_tests_cant": "All values; equality at bounds.", "anchors": ["fbpic/openpmd_diag/field_diag.py", "fbpic/openpmd_diag/checkpoint_restart.py:load_fields", "fbpic/openpmd_diag/particle_diag.py:apply_selection"]}
{"id": "C56", "title": "Spectral fields survive a round trip through the interpolation grid", "statement": "Transforming a field from the spectral grid to the interpolation grid and back returns the same spectral field, for scalar fields and for the transverse components of vector fields, for every azimuthal mode; only the kr = 0 entry that a nonzero azimuthal mode does not represent (scalar and plus components) is erased.", "quantifier": "all grid sizes, azimuthal modes, spectral fields, loop orders of the parallel kernels", "why_tests_cant": "Identity over all field contents and sizes, with buffers that alias each other.", "anchors": ["fbpic/fields/spectral_transform/hankel.py", "fbpic/fields/spectral_transform/fourier.py", "fbpic/fields/spectral_transform/spectral_transformer.py"]}
{"id": "C57", "title": "GPU and CPU deposit the same charge and current", "statement": "For the same particles, depositing rho or J on GPU gives in every cell of every azimuthal mode the value that the CPU gives, whatever the GPU's scheduling of the atomic additions, the order of the particles inside each cell and the number of CPU threads; nothing else is changed on the grids, and the particles are the same afterwards up to order.", "quantifier": "all grids, particles between the z boundaries, weights, charges, shapes, numbers of modes, orders of the atomic additions, thread numbers", "why_tests_cant": "All schedules and particle contents; GPU code is not even run by the CPU test suite.", "anchors": ["fbpic/particles/deposition/cuda_methods.py", "fbpic/particles/deposition/cuda_methods_one_mode.py", "fbpic/particles/particles.py:deposit", "fbpic/main.py:deposit"]}
{"id": "C58", "title": "Frozen particles deposit correctly at every step on GPU", "statement": "When a simulation on GPU is run with move_positions=False, the charge and current deposited at each step are those of the particles at their (fixed) positions on the current grid, also with a moving window.", "quantifier": "all numbers of steps, grids, window displacements, particles", "why_tests_cant": "Combination of an option, a device and a history of steps.", "anchors": ["fbpic/main.py:step", "fbpic/particles/particles.py:deposit", "fbpic/particles/particles.py:push_x", "fbpic/boundaries/moving_window.py:move_grids"]}
{"id": "C59", "title": "Every deposited value is the textbook sum over particles", "statement": "After a deposition of rho or J, the value in each cell of each azimuthal mode is the sum over the depositing particles of charge times weight times (1, v_r, v_theta or v_z) times exp(i m theta), times the linear or cubic B-spline along z (periodic) and along r (with the Ruyten correction), divided by the cell volume; what a spline puts on the other side of the axis is counted as deposited at the azimuth theta + pi, and what it puts beyond the last cell is put in the last cell.", "quantifier": "all grids, numbers of modes, components, shapes, particles with r <= rmax and inside the z range, azimuths, thread numbers, CPU and GPU", "why_tests_cant": "The corner cases (axis, both edges, signs of each mode and component below the axis) are many, and tests check integrals or a few positions only.", "anchors": ["fbpic/particles/deposition/threading_methods.py", "fbpic/particles/deposition/threading_methods_one_mode.py", "fbpic/particles/deposition/particle_shapes.py", "fbpic/particles/deposition/cuda_methods.py", "fbpic/main.py:deposit"]}
{"id": "C60", "title": "Particles feel the interpolation of the grid's Cartesian field", "statement": "The E and B vectors that a particle inside the box gathers are the linear or cubic B-spline interpolation of the Cartesian vectors of the grid's field (all azimuthal modes summed) at the nodes of the plane that contains the axis and the particle: nodes on the other side of the axis carry the field at azimuth theta + pi, beyond the last cell the field is continued as constant, and z is periodic.", "quantifier": "all field contents, numbers of modes, shapes, grids, particle positions with r < rmax inside the box, including on the axis", "why_tests_cant": "Sign conventions for every mode and component across the axis; arbitrary fields.", "anchors": ["fbpic/particles/gathering/threading_methods.py", "fbpic/particles/gathering/threading_methods_one_mode.py", "fbpic/particles/gathering/inline_functions.py", "fbpic/particles/particles.py:gather"]}
{"id": "C61", "title": "The antenna emits the field of the laser profile", "statement": "The wave radiated by the current that a laser antenna deposits is, at the antenna and on the side towards which the laser propagates, the electric field of the laser profile at that place and time: same amplitude, direction and sign; for a moving antenna as well, and in a boosted frame it is the Lorentz transform of that field.", "quantifier": "all profiles, times, antenna velocities, boosts, propagation directions, points of the antenna", "why_tests_cant": "The existing test fits the amplitude up to sign and phase, for one profile.", "anchors": ["fbpic/lpa_utils/laser/antenna_injection.py:LaserAntenna.__init__", "fbpic/lpa_utils/laser/antenna_injection.py:update_v", "fbpic/lpa_utils/laser/antenna_injection.py:deposit"]}
{"id": "C62", "title": "One PIC iteration advances the fields exactly as Maxwell's equations do", "statement": "Given the current deposited for a timestep (and charge densities consistent with it), the E and B fields after the field push are the values at the end of the timestep of the solution of Maxwell's equations with these initial fields, each azimuthal, longitudinal and radial mode being exact: no numerical dispersion, whatever the timestep. In the Galilean scheme the equations are those of the moving grid with a current constant on it, in the comoving scheme those of the fixed grid with a current moving at the given speed. Over many iterations the fields are the solution driven by the sequence of currents.", "quantifier": "all wavevectors including zero, timesteps, currents, initial fields with div B = 0, schemes and their speeds, with and without use_true_rho, any number of iterations", "why_tests_cant": "Tests follow one laser mode or one plasma wave to a tolerance; exactness concerns all modes, all sources and the limits of the coefficients at vanishing frequency.", "anchors": ["fbpic/fields/psatd_coefs.py:PsatdCoeffs", "fbpic/fields/numba_methods.py:numba_push_eb_standard", "fbpic/fields/numba_methods.py:numba_push_eb_comoving", "fbpic/fields/spectral_grid.py:push_eb_with"]}
{"id": "C63", "title": "Laser profiles are paraxial pulses with the documented focal shape", "statement": "For every laser profile (Gaussian with or without chirp, Laguerre-Gauss, donut-like Laguerre-Gauss, flattened Gaussian, few-cycle), the electric field is the real part of an envelope that solves the paraxial wave equation for the given wavelength and propagation direction, times a carrier and time envelope that moves rigidly at c in that direction; in the focal plane the envelope is the documented one (for the flattened Gaussian the documented shape far from focus also holds). The field is polarized along theta_pol, its peak is a0 m_e c^2 k0/e, and a positive chirp puts the red part of the pulse in front of the blue one.", "quantifier": "all amplitudes, waists, durations, positions, focal planes, wavelengths, phases, mode numbers p and m, orders N, propagation directions, all points and times", "why_tests_cant": "The equation must hold at every point; the tests compare a few propagated profiles on a grid with a tolerance, for one sign of the direction of propagation.", "anchors": ["fbpic/lpa_utils/laser/laser_profiles.py", "fbpic/lpa_utils/laser/longitudinal_laser_profiles.py", "fbpic/lpa_utils/laser/transverse_laser_profiles.py"]}
{"id": "C64", "title": "The few-cycle laser has the requested duration", "statement": "The intensity envelope of a FewCycleLaser has, in the focal plane and on axis, a full width at half maximum equal to the requested tau_fwhm.", "quantifier": "all durations and wavelengths for which the equation for the pulse parameter has a solution", "why_tests_cant": "The test only checks propagation; the duration is a continuous function of the inputs.", "anchors": ["fbpic/lpa_utils/laser/laser_profiles.py:FewCycleLaser"]}
{"id": "C65", "title": "A laser added directly to the grid is the requested wave", "statement": "add_laser_pulse with method='direct' adds to the grid the field of the profile: the azimuthal modes reproduce the profile at every angle if Nm is at least the documented number; Ez is such that div E = 0, and B is such that each mode satisfies Maxwell's equations in vacuum and propagates in the propagation direction of the profile, without change of shape under the field solver; in a boosted frame the field is the Lorentz transformation of the lab field (backward lasers are refused); the transverse field is only altered by one compensated pass of the binomial filter along z; the result does not depend on the number of MPI ranks and adds to the fields that were there.", "quantifier": "all profiles that are trigonometric polynomials of the angle (all profiles of the code, and sums), positions, times, boost factors, numbers of modes, grids, spectral modes, field-solver orders and numbers of ranks", "why_tests_cant": "Tests compare one Gaussian laser on one grid within a percent; they cannot cover every angle, wavenumber and decomposition.", "anchors": ["fbpic/lpa_utils/laser/direct_injection.py:add_laser_direct", "fbpic/lpa_utils/laser/direct_injection.py:get_laser_Er_Et", "fbpic/lpa_utils/laser/direct_injection.py:calculate_laser_fields", "fbpic/lpa_utils/laser/laser.py:add_laser_pulse"]}
{"id": "C66", "title": "Compton scattering follows the Klein-Nishina formula", "statement": "For an electron of any momentum and a photon beam of any energy and direction, the cosine of the scattering angle in the rest frame of the electron that the rejection sampler returns is distributed exactly as the Klein-Nishina differential cross-section (the proposal is above the exact density at every angle and every energy), the loop ends with probability one, the azimuth is isotropic, and the probability of an event in a time step is 1-exp(-sigma n (c - v.n) dt) with sigma the same cross-section integrated over the angles.", "quantifier": "all electron momenta, photon energies and directions, numbers of turns of the rejection loop, angles; means over the uniform draws", "why_tests_cant": "A histogram of finitely many draws at one energy cannot establish a distribution, nor that the rejection bound holds at every energy.", "anchors": ["fbpic/particles/elementary_process/compton/numba_methods.py:scatter_photons_electrons_numba", "fbpic/particles/elementary_process/compton/inline_functions.py:get_scattering_probability"]}
{"id": "C67", "title": "The photon beam of Compton scattering is the requested laser pulse", "statement": "The photons met by the electrons are those of a Gaussian pulse of the requested energy, wavelength, waist and duration that moves along -z at c: at every time and in every frame, their total number is laser_energy/(h c/lambda); their density and flux and their 4-momentum in a boosted frame are the Lorentz transformation of those of the lab; the density falls to 1/e^2 at the waist and at ctau.", "quantifier": "all laser parameters, boost factors, positions and times", "why_tests_cant": "Integral over all space, for a continuum of parameters and frames.", "anchors": ["fbpic/particles/elementary_process/compton/compton.py:ComptonScatterer", "fbpic/particles/elementary_process/compton/inline_functions.py:get_photon_density_gaussian"]}
{"id": "C68", "title": "The computed Compton cross-section is accurate for all electrons", "statement": "In double precision, the cross-section used for the scattering probability is close to the exact one for every energy of the photon in the rest frame of the electron; in particular it is positive, and the scattering probability is between 0 and 1.", "quantifier": "all photon energies between 2^-40 and 1 m c^2, all logarithm functions with a small relative error", "why_tests_cant": "The error depends on the bits of the energy that are lost in 1+2k; a test would have to hit slow electrons and compare with higher precision.", "anchors": ["fbpic/particles/elementary_process/compton/inline_functions.py:get_scattering_probability"]}
{"id": "C69", "title": "A laser defined by its energy has that energy", "statement": "The value returned by squared_profile_integral is the integral of |profile|^2 over every plane z = const (transverse profiles: Gaussian, Laguerre-Gauss of any order, donut, flattened Gaussian) and over z at every time (longitudinal profile, with any chirp). Consequently the pulse built by ParaxialApproximationLaser carries the energy E_laser at every time, for every combination of profiles (averaged over two pulses with carrier phases that differ by pi/2).", "quantifier": "all orders p, m, N, waists, foci, wavelengths, durations, chirps, phases, directions, energies, times", "why_tests_cant": "The normalisation of each mode is a separate integral (orthogonality of Laguerre polynomials); a test can only integrate numerically a few modes at a few distances.", "anchors": ["fbpic/lpa_utils/laser/laser_profiles.py:ParaxialApproximationLaser", "fbpic/lpa_utils/laser/transverse_laser_profiles.py:squared_profile_integral", "fbpic/lpa_utils/laser/longitudinal_laser_profiles.py:squared_profile_integral"]}
{"id": "C70", "title": "A PICMI Gaussian laser is emitted as described", "statement": "When a Gaussian laser is added through the PICMI interface (Simulation.add_laser with a laser antenna), the field that the antenna emits is the pulse described by the PICMI object: its a0, wavelength, waist, duration, centroid and focal positions, propagation direction (+z or -z), polarization vector, carrier phase and chirp; descriptions that cannot be represented are refused by an exception.", "quantifier": "all PICMI Gaussian lasers along z, all amplitudes, wavelengths, waists, durations, positions, polarization vectors, phases, chirps, and all positions and times", "why_tests_cant": "A test runs one laser, almost always with the 0.8 micron wavelength and +z direction of the examples; the emitted field must match the description for every value of a dozen real parameters.", "anchors": ["fbpic/picmi/simulation.py: Simulation.add_laser", "fbpic/lpa_utils/laser/laser_profiles.py: GaussianLaser"]}
{"id": "C71", "title": "A Gaussian bunch has the requested size, divergence and emittance", "statement": "Particles created by add_particle_bunch_gaussian, moved ballistically to the time tf, have the Gaussian distribution of the focal plane (size sig_r and sig_z around zf, transverse momentum n_emit/sig_r, energy gamma0 with spread sig_gamma). A PICMI Gaussian bunch with rms size, rms velocity and velocity divergence has, at t=0, this rms size, this momentum spread and this expansion rate, and represents the requested number of physical particles.", "quantifier": "all sizes, emittances, energies, focal times, numbers of macroparticles, and all draws of the random generator (for the second moments: all draws with the moments of independent standard variables)", "why_tests_cant": "The bunch is random: a test sees one seed and compares moments within statistical errors of a few percent, which hide wrong factors of gamma or beta and wrong signs of the divergence.", "anchors": ["fbpic/lpa_utils/bunch.py: add_particle_bunch_gaussian", "fbpic/picmi/simulation.py: Simulation._create_new_fbpic_species"]}
{"id": "C72", "title": "PICMI applied fields reach the particles", "statement": "A constant, analytic or mirror field added through the PICMI interface acts on the simulation as described: a constant field adds its value to the fields felt by every macroparticle of every species (in a boosted-frame simulation, the Lorentz-transformed field), an analytic field adds the value of its expression, a mirror reflects the fields at its position.", "quantifier": "all field values for the six components, all expressions, all mirrors, all species and macroparticles, all boosts", "why_tests_cant": "Tests call it with one constant field without boost; failures depend on the type of field, on which components are set and on the boost.", "anchors": ["fbpic/picmi/simulation.py: Simulation.add_applied_field", "fbpic/lpa_utils/external_fields.py: ExternalField", "fbpic/lpa_utils/mirrors.py: Mirror"]}
{"id": "C73", "title": "PICMI species have the requested charge, mass and ionization", "statement": "A species added through the PICMI interface gets the charge and mass of its particle type and charge state, whatever was added before; adding it to several layouts does not change them; and a field-ionization interaction makes the ions ionizable into the target, whatever the order in which species and interaction are added.", "quantifier": "all lists of species, all charge states, all orders of add_species and add_interaction, all previous states of the simulation", "why_tests_cant": "The result depends on the history of calls; a test fixes one order (the one of the examples).", "anchors": ["fbpic/picmi/simulation.py: Simulation.add_species, _add_species_generic, _create_new_fbpic_species", "fbpic/picmi/particle_charge_and_mass.py", "fbpic/particles/particles.py: make_ionizable"]}
{"id": "C74", "title": "PICMI time step, smoother and field diagnostics are the requested ones", "statement": "With a cfl number the simulation runs with c dt equal to cfl times the smaller cell size in the frame of the simulation; the binomial smoother has the requested passes and compensators in each direction; a field diagnostic writes exactly the records of the requested quantities, in the simulation frame and in the lab frame.", "quantifier": "all grids, boosts, cfl numbers, numbers of passes, compensators, and all lists of requested quantities", "why_tests_cant": "Tests have one grid and one data_list; that no combination of names writes another record, and that the time step is right in every boosted frame, are statements about all of them.", "anchors": ["fbpic/picmi/simulation.py: Simulation.init, add_diagnostic", "fbpic/smoothing/smoothing.py: BinomialSmoother", "fbpic/openpmd_diag/field_diag.py: FieldDiagnostic"]}
{"id": "C75", "title": "Diagnostics change neither the simulation nor each other", "statement": "The state of the simulation after step() (particles, fields on both grids, grid positions, clock) is the same whatever the list of diagnostics attached to it, and what a diagnostic records at each iteration is the same as if it were the only one. Without laser antenna, at an iteration with particle exchange the recorded rho is the sum of the recorded densities of the non-tracer species.", "quantifier": "all lists of field, boosted-frame field, particle-density and particle diagnostics with any schedule, all numbers of steps, all options of step(), any initial state, any numerical kernels", "why_tests_cant": "Field and density diagnostics overwrite the arrays rho, J and rho_next of the running simulation; that each overwritten value is recomputed before use must hold for every combination of diagnostics, options and kernels.", "anchors": ["fbpic/main.py:Simulation.step", "fbpic/main.py:Simulation.deposit", "fbpic/openpmd_diag/field_diag.py:FieldDiagnostic.write_hdf5", "fbpic/openpmd_diag/particle_density_diag.py:ParticleChargeDensityDiagnostic.write_hdf5", "fbpic/openpmd_diag/boosted_field_diag.py:store_snapshot_slices"]}
{"id": "C76", "title": "A run may be split into several calls of step", "statement": "Calling step(N1) and then step(N2) gives the same simulation and the same records as step(N1+N2). (False with open boundaries: E and B are damped once more at each call; false for the records of J, which at the first iteration of a call are those of the uncorrected deposited current. True for the simulation when the operations at the start of a call leave E and B unchanged, at iterations with particle exchange.)", "quantifier": "all N1 >= 1, N2, all options, any initial state, any kernels with the stated property", "why_tests_cant": "A test compares a few runs, usually with periodic boundaries or within a tolerance; the equality ranges over all states, kernels and splittings.", "anchors": ["fbpic/main.py:Simulation.step", "fbpic/boundaries/boundary_communicator.py:damp_EB_open_boundary"]}
{"id": "C77", "title": "Ionization probabilities follow the ADK rate for every supported element", "statement": "For each of the supported elements and each of its levels, the probability that an ion of Lorentz factor g is ionized in one timestep in a field of amplitude E (in its rest frame) is 1 - exp(-W dt/g), where W is the ADK tunnelling rate, finite and positive for E > 0; the probability is 0 without field and strictly between 0 and 1 otherwise; for hydrogen W is 4 omega_a (E_a/E) exp(-2 E_a / 3 E); omega_a and E_a are the atomic units; the probability over an interval does not depend on how it is cut into timesteps. Unknown elements and too high a level_max raise ValueError.", "quantifier": "all elements and levels of the data file, all fields, timesteps, Lorentz factors, positive physical constants, and any function with the recurrence and positivity of Gamma", "why_tests_cant": "Tests run one gas at one intensity; here positivity of every Gamma argument over the whole data file and equality with the published formula for all fields are needed.", "anchors": ["fbpic/particles/elementary_process/ionization/ionizer.py:initialize_ADK_parameters", "fbpic/particles/elementary_process/ionization/inline_functions.py:get_ionization_probability", "fbpic/particles/elementary_process/ionization/read_atomic_data.py", "fbpic/particles/elementary_process/ionization/atomic_data.txt"]}
{"id": "C78", "title": "A stronger field ionizes more", "statement": "At a given level and timestep, the ionization probability increases with the amplitude of the field. (False: it increases up to the field (2/3)(U/UH)^(3/2) E_a/(2n-1) and decreases beyond it, for every element and level.)", "quantifier": "all elements and levels of the data file, all pairs of field amplitudes", "why_tests_cant": "Tests sample moderate fields only; monotonicity and the position of the maximum are statements about all pairs of fields.", "anchors": ["fbpic/particles/elementary_process/ionization/ionizer.py:initialize_ADK_parameters", "fbpic/particles/elementary_process/ionization/inline_functions.py:get_ionization_probability"]}
{"id": "C79", "title": "Particle output lists the selected particles once, in SI units", "statement": "A ParticleDiagnostic writes, for each species and for any number of MPI ranks, datasets that all refer to one and the same list of particles: exactly those that satisfy all the rules of `select` (strict bounds) and, with subsampling_fraction, were drawn; each appears once. The values are the documented quantities in SI units (momentum in kg m/s, also for photons; charge per ion; ids for tracked species; fields at the particles), the declared dimensions are those of the quantities, and the mass and charge of the species are given. This holds whatever the order in which the diagnostic and the options of the species were created.", "quantifier": "all species, all numbers of particles and of MPI ranks, all lists of documented quantities, all rules of selection, all random draws, all orders of calls of make_ionizable / track and of the creation of the diagnostic", "why_tests_cant": "tests run on one rank, with one species and no selection, and compare a few datasets; they never look at the declared dimensions, nor at neutral species", "anchors": ["fbpic/openpmd_diag/particle_diag.py: ParticleDiagnostic", "fbpic/openpmd_diag/data_dict.py: unit_dimension_dict", "fbpic/openpmd_diag/generic_diag.py: setup_openpmd_record", "fbpic/boundaries/boundary_communicator.py: gather_ptcl_array", "fbpic/boundaries/particle_buffer_handling.py: add_buffers_to_particles", "fbpic/particles/particles.py: gather"]}
{"id": "C80", "title": "A laser antenna emits the same sources on GPU as on CPU", "statement": "For the same laser antenna and the same sequence of time steps (including moving window, Galilean frame, cross-deposition and rank updates), a GPU run holds at every moment the same virtual particles as a CPU run (positions, excursions, velocities, deposition flag, on the host and on the device), raises the same exceptions, and each charge or current deposition (species and antennas together) puts in each cell of each azimuthal mode exactly the value that the CPU code puts there, whatever the order of the atomic additions and the number of CPU threads.", "quantifier": "all antenna parameters, laser profiles, histories of operations, numbers of modes and particles, grids, species, execution orders on GPU and CPU thread numbers (exact arithmetic)", "why_tests_cant": "The GPU code is a separate text that needs a GPU to run; a test compares a few laser fields within a tolerance and does not cover the orders of the atomic additions.", "anchors": ["fbpic/lpa_utils/laser/antenna_injection.py: LaserAntenna.update_v, push_x, update_current_rank, deposit_virtual_particles_gpu, deposit_virtual_particles_cpu", "fbpic/particles/deposition/cuda_methods_unsorted.py: deposit_rho_gpu_unsorted, deposit_J_gpu_unsorted", "fbpic/main.py: Simulation.deposit"]}
{"id": "C81", "title": "A bunch injected through a plane moves ballistically until it crosses the plane", "statement": "Particles of a bunch created with z_injection_plane keep their momentum and move in straight line, whatever the fields, at every step in which they are before the plane (in the lab frame) when the fields act on them; every other particle of the bunch gets the usual push.", "quantifier": "every bunch, plane position, boosted frame (or none), time step, number of steps, field seen at each step, with or without cross-deposition", "why_tests_cant": "the only test uses one bunch in one set-up; the claim is about every trajectory, any field history, any number of steps", "anchors": ["fbpic/particles/injection/ballistic_before_plane.py:BallisticBeforePlane", "fbpic/lpa_utils/bunch.py:add_particle_bunch_from_arrays", "fbpic/particles/particles.py:push_p", "fbpic/particles/push/numba_methods.py:push_p_after_plane_numba", "fbpic/main.py:step"]}
{"id": "C82", "title": "Each MPI rank gets its own GPU", "statement": "When every node has at least as many GPUs as MPI ranks, importing fbpic on every rank succeeds and two ranks of a node never select the same GPU; with more ranks than GPUs the ranks are spread evenly on the GPUs and a warning is emitted, for every distribution of the ranks on the nodes. (False when the ranks of a node are not consecutive.)", "quantifier": "every number of ranks, of nodes, of GPUs per node, every assignment of ranks to nodes and every names of the nodes", "why_tests_cant": "needs several multi-GPU nodes; the CI has none", "anchors": ["fbpic/utils/cuda.py:mpi_select_gpus", "fbpic/utils/cuda.py:check_consecutive_ranks_on_same_nodes", "fbpic/main.py"]}
{"id": "C83", "title": "The split fields of the radial PML follow the split Maxwell equations", "statement": "With open radial boundaries, the auxiliary PML fields are, at every step, the parts of E and B that the radial derivatives generate, so that the layer absorbs exactly what propagates radially: away from the layer, a step in vacuum is the exact solution of Maxwell's equations together with the equations in which the derivatives along z are left out. (True for waves whose PML fields already hold their share kr^2/(kz^2+kr^2), and then for ever; false for a laser put in the box at the start, whose PML fields are zero, and after any current. The error then decays as |cos(omega dt)|^n.)", "quantifier": "every spectral mode (kz, kr), every frame (standard, Galilean, comoving), every source-free divergence-free field, every content of the PML arrays, every timestep and number of steps", "why_tests_cant": "the claim is an equivalence over all modes, contents and numbers of steps; the existing tests look at the reflected amplitude of one pulse", "anchors": ["fbpic/fields/spectral_grid.py:SpectralGrid.push_eb_with", "fbpic/fields/numba_methods.py:numba_push_eb_pml_standard", "fbpic/fields/numba_methods.py:numba_push_eb_pml_comoving", "fbpic/fields/fields.py:Fields.push"]}
{"id": "C84", "title": "Guard-cell exchange and boundary damping give on a GPU the result of the CPU, for every schedule of the threads", "statement": "In a simulation run on GPUs, exchanging the guard cells of the fields (replacing or adding) and damping E and B at the open ends and in the radial PML leaves in every cell of every rank the value that the CPU code leaves there, whatever the order in which the GPU executes the loads and stores of the threads of each kernel launch, with host-staged or direct GPU transfers; the launches cover all cells, and every launch can finish.", "quantifier": "All element types, all communicators accepted by the constructor with at least two ranks, all numbers of guard, damping and PML cells, all grid sizes up to 2^52 cells per direction, all initial contents of grids and buffers, all interleavings of the threads", "why_tests_cant": "A test on a GPU samples one schedule of the hardware; a race or an uncovered cell may show up only for other grid sizes or another device. Continuous integration of the project has no GPU at all.", "anchors": ["fbpic/boundaries/boundary_communicator.py: BoundaryCommunicator.exchange_fields, damp_EB_open_boundary", "fbpic/boundaries/field_buffer_handling.py: BufferHandler", "fbpic/boundaries/cuda_methods.py: copy_vec_to_gpu_buffer, replace_vec_from_gpu_buffer, add_vec_from_gpu_buffer, copy_scal_to_gpu_buffer, add_scal_from_gpu_buffer, cuda_damp_EB_left, cuda_damp_EB_right", "fbpic/boundaries/pml_damping.py: PMLDamper.damp_pml_EB, cuda_damp_pml_EB", "fbpic/utils/cuda.py: cuda_tpb_bpg_2d"]}
{"id": "C85", "title": "The field solver gives on a GPU the fields of the CPU, for every schedule of the threads", "statement": "A field step on a GPU (correction of the currents, push of E, B, rho and of the PML fields, filtering, erasing, division by the cell volumes, shift of the moving window) leaves in every mode and cell the value that the CPU code gives, for every order in which the GPU executes the loads and stores of the threads of each kernel, for every scheme (standard, Galilean, comoving; curl-free or cross-deposition) and option of step; in particular div B = 0 and the continuity equation hold as on the CPU.", "quantifier": "All grids up to 2^52 cells per direction, all contents of the arrays, all wavenumbers and coefficients, all schemes and options, all interleavings of the threads of each launch", "why_tests_cant": "No test of the project can enumerate thread schedules, and the suite compares CPU and GPU on no common case; the CPU and GPU kernels are two separately written texts for each formula and each option.", "anchors": ["fbpic/fields/cuda_methods.py", "fbpic/fields/spectral_grid.py: SpectralGrid.correct_currents, push_eb_with, push_rho, filter, correct_divE", "fbpic/fields/interpolation_grid.py: InterpolationGrid.erase, divide_by_volume", "fbpic/boundaries/moving_window.py: MovingWindow.shift_spect_grid, shift_spect_array_gpu"]}
{"id": "C86", "title": "Transforms on a GPU, and through MKL, equal the CPU transforms", "statement": "On a GPU, transforming a scalar or a vector field between the interpolation grid and the spectral grid gives, in every cell, the value that the CPU code gives (FFT along z, combination of the r and theta components, matrix product along r), whatever the order in which the threads run; only the destination arrays are modified. A round trip of a scalar spectral field through the interpolation grid on the GPU gives the field back, except the mode of zero radial wavenumber in the modes m > 0. On the CPU, the FFT computed by MKL equals the one computed by FFTW for arrays laid out as new numpy arrays; arrays of another shape raise an AssertionError.", "quantifier": "All grid sizes up to 2^52 cells per direction, all fields, matrices, array addresses other than the two internal buffers, both launch geometries, all interleavings of the GPU threads; all contents for MKL.", "why_tests_cant": "The kernels run concurrently in place on shared buffers, and the flat layouts handed to cuFFT, cuBLAS and MKL (row or column order, strides, batch) are correct or not for all sizes at once; tests need a GPU and see a few sizes and schedules.", "anchors": ["fbpic/fields/spectral_transform/cuda_methods.py: cuda_copy_2d_to_1d, cuda_copy_1d_to_2d, cuda_copy_2dC_to_2dR, cuda_copy_2dR_to_2dC, cuda_rt_to_pm, cuda_pm_to_rt", "fbpic/fields/spectral_transform/fourier.py: FFT.transform, FFT.inverse_transform", "fbpic/fields/spectral_transform/hankel.py: DHT.transform, DHT.inverse_transform", "fbpic/fields/spectral_transform/spectral_transformer.py: SpectralTransformer", "fbpic/fields/spectral_transform/mkl_fft.py: MKLFFT"]}
{"id": "C87", "title": "Copies between CPU and GPU", "statement": "With use_cuda, every array of the particles (including ids and ionization levels) and of the fields (including PML and cross-deposition arrays) is on the GPU while sim.step iterates, and is a numpy array with the computed contents once the step has returned, wherever it was before. Particle, field and charge density diagnostics written during a step see numpy arrays with the contents of the GPU and leave the simulation unchanged and on the GPU. GpuMemoryManager runs its body with all data on the GPU and then puts each species and the fields back where they were, also when the body raises. Without use_cuda all of this has no effect.", "quantifier": "All simulations (any number of species and modes, any contents), any initial location of the data, any computation in the step or in the body of the manager that keeps the data on the GPU, any list of species in a diagnostic.", "why_tests_cant": "A forgotten attribute only shows on a GPU with the feature that uses it (tracking, ionization, PML, cross-deposition), and the locations of the data depend on the order of the calls; tests on a CPU never execute this code.", "anchors": ["fbpic/utils/cuda.py: send_data_to_gpu, receive_data_from_gpu, GpuMemoryManager", "fbpic/particles/particles.py: Particles.send_particles_to_gpu, Particles.receive_particles_from_gpu", "fbpic/fields/fields.py: Fields.send_fields_to_gpu, Fields.receive_fields_from_gpu", "fbpic/fields/interpolation_grid.py: InterpolationGrid", "fbpic/fields/spectral_grid.py: SpectralGrid", "fbpic/openpmd_diag/particle_diag.py: ParticleDiagnostic.write_hdf5", "fbpic/openpmd_diag/field_diag.py: FieldDiagnostic.write_hdf5", "fbpic/openpmd_diag/particle_density_diag.py: ParticleChargeDensityDiagnostic.write_hdf5", "fbpic/main.py: Simulation.step"]}
{"id": "C88", "title": "Laser pulse from a measured spectrum", "statement": "CustomSpectrumLongitudinalProfile gives the pulse whose energy per unit of wavelength is the intensity of the file and whose spectral phase is that of the file plus the requested dispersion orders about the mean frequency: at every z and t, evaluate returns the superposition of the plane waves of that spectrum travelling in the given direction and passing at z0 at t=0, normalised so that its modulus never exceeds 1 and reaches 1; get_mean_wavelength is a wavelength of the range of the file, whichever way the file is ordered; squared_profile_integral is the integral of the squared modulus; subtract_linear_phase recentres a pulse shifted in time and leaves a centred pulse centred; any spectrum gives a pulse.", "quantifier": "all files (any number of lines, any positive wavelengths in order, any non-negative intensities, any phases), all dispersions, positions, directions, all z and t", "why_tests_cant": "The test of the repository compares one Gaussian spectrum with the analytical pulse; the frequency grid, the sorting and interpolation of arbitrary files, narrow lines and phases with a curvature are not reachable by sampling a few files.", "anchors": ["fbpic/lpa_utils/laser/longitudinal_laser_profiles.py: CustomSpectrumLongitudinalProfile"]}
{"id": "C89", "title": "The files of the back-transformed particle diagnostic hold every selected particle once, with aligned columns", "statement": "A BackTransformedParticleDiagnostic accumulates, at every iteration, the particles that cross the plane of each lab-frame snapshot on each MPI process, and writes them to the file of the snapshot every `period` iterations. For any number of processes, snapshots and species, in the file of each snapshot and species all the records (position, momentum, weighting, charge, id) list the same particles in the same order and in SI units; these particles are exactly those that crossed on any process and satisfy the `select` rules, each once, up to the last multiple of the period. An unsupported quantity is refused by the constructor. Restarting a run from a checkpoint leaves each particle in the file once.", "quantifier": "every number of MPI processes, snapshots, species; every list of supported quantities, every selection; every sequence of iterations and every set of particles crossing at each of them on each process; every flush period; every restart", "why_tests_cant": "The tests run one process, one flush period and one selection, and compare histograms; alignment of all columns and completeness concern all interleavings of catching, flushing and gathering; the restart tests do not use this diagnostic.", "anchors": ["fbpic/openpmd_diag/boosted_particle_diag.py: BackTransformedParticleDiagnostic.__init__, write, store_snapshot_slices, flush_to_disk, gather_particle_arrays, write_slices, create_file_empty_slice", "fbpic/openpmd_diag/boosted_particle_diag.py: LabSnapshot.register_slice, compact_slices", "fbpic/openpmd_diag/boosted_particle_diag.py: ParticleCatcher.extract_slice, apply_opmd_standard, apply_selection", "fbpic/openpmd_diag/particle_diag.py: ParticleDiagnostic.__init__", "fbpic/openpmd_diag/checkpoint_restart.py: restart_from_checkpoint"]}
{"id": "C90", "title": "A laser read from a lasy file is the pulse of the file", "statement": "A FromLasyFileLaser gives, at any point and time, the field Re[polarization * envelope * exp(-i omega (t - t_start + tmin))], where the envelope is the linear interpolation between the nodes of the file (in r and t with the angular modes for a cylindrical file, in x, y and t for a cartesian one, the nodes being at (offset + i*spacing)*gridUnitSI), and 0 outside the grid of the file; the time axis of the file starts at t_start, that is a pure delay. The field is defined at every position of an antenna. Files of lasy from version 0.3.0 on are accepted, others refused. Such a laser can only be added with an antenna at rest; an antenna whose position is not given to add_laser is at the focal plane.", "quantifier": "every file content (number of modes, nodes, spacings, offsets, unit, envelope, polarization, frequency, version), every t_start, every position and time, every antenna", "why_tests_cant": "The tests emit one Gaussian pulse from one file and compare the intensity with a tolerance; the interpolation between all nodes, the offsets, units and the axis are not sampled.", "anchors": ["fbpic/lpa_utils/laser/laser_profiles.py: FromLasyFileLaser", "fbpic/lpa_utils/laser/laser.py: add_laser_pulse, add_laser", "fbpic/lpa_utils/laser/antenna_injection.py: LaserAntenna.__init__"]}
{"id": "C91", "title": "Particle exchange between ranks on GPU loses, duplicates and mixes nothing", "statement": "When the particles live on GPU, an exchange of particles between the MPI ranks (split of the sorted arrays into what goes left, stays, goes right; transfer; merge of the received particles) delivers every particle whole: the multiset of particle records (position, momentum, inv_gamma, weight, id, ionization level, w*level together) over all the ranks after the exchange is the one before it, except for the particles beyond an open end of the box, which disappear, the particles that cross a periodic end, whose z is moved by one box length, and the newly injected particles, which arrive on the last rank. Afterwards each rank only holds particles of its own subdomain (plus half a cell), and the species is flagged for a new sort. The condition is that no particle has left the local grid with its guard cells since the last exchange.", "quantifier": "every number of ranks, open and periodic boundaries, every number and position of the particles (within the local grids), with and without tracker and ionizer, species sorted earlier (and grid moved by the moving window since) or not, every order of the writes of the GPU threads, every result allowed to the library sort", "why_tests_cant": "A test needs several GPUs or a CUDA emulator and exercises one schedule and one distribution of particles; a mix-up of two attribute arrays or a lost last particle only shows for particular counts, and the race-freedom of the copies concerns all the schedules.", "anchors": ["fbpic/boundaries/particle_buffer_handling.py: remove_particles_gpu", "fbpic/boundaries/particle_buffer_handling.py: add_buffers_to_particles", "fbpic/boundaries/particle_buffer_handling.py: add_buffers_gpu", "fbpic/boundaries/particle_buffer_handling.py: split_particles_to_buffers", "fbpic/boundaries/particle_buffer_handling.py: copy_particles", "fbpic/boundaries/boundary_communicator.py: exchange_particles_aperiodic_subdomain"]}
{"id": "C92", "title": "Boundary handling of E, B and J through partial transforms acts on the fields in space", "statement": "At the end of each step, E and B in space on every rank are what one gets by transforming the spectral E and B fully to space, copying the guard cells from the neighbours, damping the boundaries and zeroing the mirror cells there; and they are the inverse transforms of the spectral E and B with which the solver goes on. So each row is the local row, or the neighbour's row at the same place, times one factor between 0 and 1 that is the same for all components and radii. Likewise the exchange of the corrected current adds the currents in space. This is so although, without radial PML, the code only does the FFT in z and never goes to space in between.", "quantifier": "all numbers of ranks, boundary conditions, numbers of modes, grids, spectral fields, damping and mirror settings, orders of the parallel loops, transform matrices; with and without PML", "why_tests_cant": "tests run small sets of parameters, mostly on one rank, and compare with analytic solutions within a tolerance; a wrong component or a field in space that differs from the one in the spectral grid is a small error there", "anchors": ["fbpic/main.py: Simulation.exchange_and_damp_EB, Simulation.step", "fbpic/fields/fields.py: Fields.spect2interp, interp2spect, spect2partial_interp, partial_interp2spect", "fbpic/boundaries/boundary_communicator.py: BoundaryCommunicator.exchange_fields, damp_EB_open_boundary, damp_pml_EB", "fbpic/lpa_utils/mirrors.py: Mirror.set_fields_to_zero"]}
{"id": "C93", "title": "Automatic number of guard cells", "statement": "When n_guard is not given, the number of guard cells is one more than the smallest distance at which the field solver, in one time step, does not carry a field above machine precision (1e-16), so that what happens beyond the guard cells does not change the fields inside; the same number is used for both directions of a moving (Galilean) frame; and a simulation that needs no guard cells (one process, periodic) can be created on any grid.", "quantifier": "all grids (Nz, dz), time steps, orders of the solver, speeds of the comoving frame, fields and cells", "why_tests_cant": "The response of the solver oscillates with the distance and depends on the continuous parameters dz, c dt and v; tests try a few grids, on which the first crossing of the threshold happens to be the last.", "anchors": ["fbpic/fields/utility_methods.py: stencil_reach, get_stencil_reach", "fbpic/boundaries/boundary_communicator.py: BoundaryCommunicator.__init__"]}
{"id": "C94", "title": "A gathered grid shows every field of the whole domain at the right position; a gathered species shows every particle", "statement": "Gathering a grid on one rank succeeds and returns a grid with the mode, the number of cells and the extent of the physical domain (moved along with the moving window). Each of its ten fields has, at a position (z, r), exactly the value that the rank in charge of that position has at that same position, and every value that a rank holds inside its own part of the physical domain is there. Gathering a species returns all the particles of all ranks.", "quantifier": "every number of ranks, every number of cells, guard, damp and injection cells, PML thickness, root rank, content of the arrays, and every sequence of moves of the window; for species: every species and communicator", "why_tests_cant": "The positions come from three separate computations (the decomposition, the edges of each local grid, the edges of the gathered grid) which are shifted separately at each move of the window; agreement must hold for all sizes and histories. The repository has no test of gather_grid with several ranks and none of gather_ptcl.", "anchors": ["fbpic/boundaries/boundary_communicator.py: gather_grid, gather_ptcl, get_Nr, get_rmax, get_zmin_zmax", "fbpic/fields/interpolation_grid.py: InterpolationGrid", "fbpic/boundaries/moving_window.py: move_grids"]}
{"id": "C95", "title": "A GPU function works on exactly the arguments that it is given, whatever was called before", "statement": "The functions compiled for the GPU are compiled at the first call with given argument types and reused afterwards. Every call works on exactly the arrays (type, shape, each element) and scalars of that call, independently of the earlier calls; the same call is never compiled twice. In particular, the function of an external field receives the fields and positions of the species, the time, and the amplitude and length scale that the user gave, on GPU as on CPU.", "quantifier": "every sequence of earlier calls with any argument types, every shape, number of dimensions, strides and data type of the arrays, every scalar; external fields with any amplitude and length scale, integer or float", "why_tests_cant": "Depends on the whole history of calls and on the layout of the arrays; the wrong outcomes are silent (other elements are read, or the bits of an integer are read as a float). The repository has no test of this decorator, and its GPU tests need a GPU.", "anchors": ["fbpic/utils/cuda.py: compile_cupy, get_args_hash", "fbpic/lpa_utils/external_fields.py: ExternalField"]}
{"id": "C96", "title": "On GPU, every deposition of a run uses an up-to-date order of the particles", "statement": "With use_cuda, in any sequence of calls of sim.step(N) in which the particles move, every deposition of charge or current (rho_prev, J, the two cross-deposited rho, rho_next, and the per-species densities written by ParticleChargeDensityDiagnostic) leaves on each grid, for each azimuthal mode, exactly what the CPU code computes from the same particles on the same grid, although the particles are sorted again only when the code believes that they moved since the last sort.", "quantifier": "all numbers of calls of step and of steps per call, all exchange periods, all initial particles, fields and grids, with or without periodic boundaries, moving window, Galilean frame, cross-deposition, ionization and Compton scattering, diagnostics in any number and order, particles arriving from other ranks or injected, all executions of the GPU kernels", "why_tests_cant": "The order is a cached quantity; it is stale only for particular interleavings of window moves, exchange iterations, diagnostics and pushes, and the deposited arrays then differ by a cell, which looks plausible; the GPU code is not run in the continuous-integration tests.", "anchors": ["fbpic/main.py:Simulation.step", "fbpic/main.py:Simulation.cross_deposit", "fbpic/main.py:Simulation.deposit", "fbpic/main.py:Simulation.shift_galilean_boundaries", "fbpic/particles/particles.py:Particles.push_x", "fbpic/particles/particles.py:Particles.deposit", "fbpic/boundaries/particle_buffer_handling.py:add_buffers_to_particles", "fbpic/boundaries/particle_buffer_handling.py:shift_particles_periodic_subdomain", "fbpic/boundaries/moving_window.py:MovingWindow.move_grids", "fbpic/openpmd_diag/particle_density_diag.py:ParticleChargeDensityDiagnostic.write_hdf5", "fbpic/openpmd_diag/boosted_particle_diag.py"]}
{"id": "C97", "title": "Back-transformed particle output on GPU equals the one on CPU", "statement": "For the same particles, what a back-transformed particle diagnostic appends to a snapshot at one iteration (positions, momenta, weights, ids and charges of the particles that crossed the output plane) is the same on GPU, where only the particles of the cells near the plane are copied to the host, as on CPU, where all the particles are examined; in particular after any number of moving-window shifts since the particles were last sorted.", "quantifier": "all boosts, snapshot times, grids, species and particle positions not faster than light; all thread schedules of the sort and of the extraction; every diagnostic call of the PIC loop for any number of steps, exchange periods and window moves", "why_tests_cant": "the GPU code is not run by the CPU test suite, and the cell range depends on real arithmetic of plane, grid, window shift and time step", "anchors": ["fbpic/openpmd_diag/boosted_particle_diag.py:ParticleCatcher.get_particle_data", "fbpic/openpmd_diag/cuda_methods.py:extract_slice_from_gpu", "fbpic/openpmd_diag/cuda_methods.py:extract_particles_from_gpu", "fbpic/openpmd_diag/cuda_methods.py:extract_array_from_gpu"]}
{"id": "C98", "title": "Fields of the back-transformed field diagnostic at every angle, on CPU and on GPU", "statement": "For every field (Er, Et, Ez, Br, Bt, Bz, Jr, Jt, Jz, rho), number of modes, radial cell and angle, the value that an openPMD reader computes from the modes stored in a file of the back-transformed field diagnostic is the interpolation, at the plane of the snapshot, of the field of the simulation at that angle, and the Lorentz transform applied mode by mode is the transform of the fields at that angle; the GPU version stores the same slice as the CPU version for every order of the threads, and no plane inside the domain makes the diagnostic fail.", "quantifier": "all field arrays, numbers of modes, numbers of radial cells, positions of the plane and of the grid, orders of the threads, former contents of the slice array, angles and boosts", "why_tests_cant": "The relation must hold for every number of modes, angle and thread order, and the failing planes lie in half a cell that an automated test crosses only by accident.", "anchors": ["fbpic/openpmd_diag/boosted_field_diag.py: SliceHandler.extract_slice, extract_slice_cpu, get_dataset, extract_slice_cuda, transform_fields_to_lab_frame, BackTransformedFieldDiagnostic"]}
{"id": "C99", "title": "Field gathering and particle push treat each macroparticle as if it were alone, on CPU and GPU", "statement": "Calling gather, push_p and push_x of a species, in any sequence, changes each macroparticle exactly as if the species contained it only: the fields are those gathered at its own position, the momentum is pushed with its own fields, charge state and position, and nothing is written outside the particle arrays. The result does not depend on use_cuda, on the number of CPU threads, on how particles are divided among threads, on how the threads interleave, on the index of the particle, nor on the other particles (in exact arithmetic).", "quantifier": "all species (neutral, ordinary, ionizable, ballistic before a plane), particle shapes, numbers of azimuthal modes and field values; all numbers of particles below 2^52 and threads; all divisions of the particles among threads and all interleavings of the individual statements of the threads, with arbitrary left-over local variables; all sequences of calls", "why_tests_cant": "A data race shows only for some interleavings; tests run a few schedules on one machine, with one number of threads, and compare CPU and GPU on a few particles within a tolerance.", "anchors": ["fbpic/particles/gathering/cuda_methods.py: gather_field_gpu_linear, gather_field_gpu_cubic", "fbpic/particles/gathering/cuda_methods_one_mode.py", "fbpic/particles/gathering/threading_methods.py", "fbpic/particles/gathering/threading_methods_one_mode.py: erase_eb_numba", "fbpic/particles/push/cuda_methods.py", "fbpic/particles/push/numba_methods.py", "fbpic/particles/particles.py: Particles.gather, push_p, push_x"]}
{"id": "C100", "title": "Every statement of the written-out deposition kernels deposits on its own grid point", "statement": "For the linear and the cubic shape, for charge and for current, on CPU and on GPU, with the GPU code for two azimuthal modes and with the one for any other number, a particle gives to each of the 4 or 16 grid points around it the weight of that point, with the sign of that component and mode below the axis, once and only once; the GPU and the CPU give the same fields in every cell for every component and mode, and the total charge and the total axial current on the grid are those of the particles.", "quantifier": "every grid, every particle distribution between the two z boundaries, every number of modes, both shapes, rho and J, every order of the atomic additions, every number of CPU threads, any initial content of the registers", "why_tests_cant": "The kernels have several hundred nearly identical statements; one wrong index or sign among them changes a single point of a single component and mode, which only shows for particles in particular cells, and the tests compare few components to a tolerance.", "anchors": ["fbpic/particles/deposition/cuda_methods.py: deposit_rho_gpu_linear, deposit_J_gpu_linear, deposit_rho_gpu_cubic, deposit_J_gpu_cubic", "fbpic/particles/deposition/cuda_methods_one_mode.py: deposit_rho_gpu_linear_one_mode, deposit_J_gpu_linear_one_mode, deposit_rho_gpu_cubic_one_mode, deposit_J_gpu_cubic_one_mode", "fbpic/particles/deposition/threading_methods.py: deposit_rho_numba_linear, deposit_J_numba_linear, deposit_rho_numba_cubic, deposit_J_numba_cubic", "fbpic/particles/particles.py: Particles.deposit"]}
{"id": "C101", "title": "A freshly loaded plasma has no charge or current in the higher azimuthal modes", "statement": "When species are loaded with add_new_species (or as an initial plasma) with a density that is uniform or a function of z and r, whatever the random angles that are drawn, the deposited charge density is exactly zero in every azimuthal mode m >= 1 that is not a multiple of p_nt; so is the axial current of a cold plasma, and the transverse current of a cold plasma moving along z vanishes in all the modes. With p_nt at least the number of modes, all the modes above 0 are therefore empty at the start, on CPU and on GPU.", "quantifier": "every grid, every density of z and r, every bounds and numbers of particles per cell, every drawn angle, every mode m >= 1 not a multiple of p_nt, any number of species with different p_nt, both shapes, any number of threads", "why_tests_cant": "The angles are random and different in each ring; a test sees one draw, to a tolerance, and for p_nt = 4 and two modes, while the cancellation is exact for all draws and fails only for particular pairs of p_nt and mode.", "anchors": ["fbpic/particles/injection/continuous_injection.py: generate_evenly_spaced, unalign_angles", "fbpic/main.py: Simulation.add_new_species", "fbpic/particles/particles.py: Particles.deposit"]}
{"id": "C102", "title": "A reader of the openPMD standard finds the fields of the simulation in the output files", "statement": "After the output of the fields with a field diagnostic (records E, B, J, rho, in any choice), the file read as the openPMD standard prescribes for the geometry thetaMode (position of an element = offset + (index + position) * spacing times unit, on the axes named by axisLabels; value = unitSI times the real part of mode 0 plus the coefficients of cos(m theta) and sin(m theta); time = (time + timeOffset) * unit) contains, at every position (z, r, theta), exactly the real field whose modes are those of the process in charge of this position, and nothing at other positions; the time is the iteration times the timestep; each record has the dimension of its quantity. This holds whatever else the file of that name already contains; everything else in this file is unchanged, except that a file in which one of these arrays has another shape is refused with an error. The same holds of the charge density of each species (records rho_<species>). The file of a back-transformed snapshot has the time of the snapshot and the cells of the lab frame, with the values of the flushes so far and zero elsewhere.", "quantifier": "every number of processes, modes, cells and guard cells, every motion of the window, every list of fields and of species, every content of an existing file, every sequence of flushes and every position and angle", "why_tests_cant": "Tests read back a few files with the same conventions as the writer and on one process; a wrong offset, spacing, sign convention of the modes or unit in the metadata shows up only in a reader that follows the standard, at positions and for decompositions that are not tested.", "anchors": ["fbpic/openpmd_diag/field_diag.py:FieldDiagnostic.write_hdf5", "fbpic/openpmd_diag/field_diag.py:FieldDiagnostic.create_file_empty_meshes", "fbpic/openpmd_diag/field_diag.py:FieldDiagnostic.setup_openpmd_mesh_record", "fbpic/openpmd_diag/generic_diag.py:OpenPMDDiagnostic.setup_openpmd_file", "fbpic/openpmd_diag/particle_density_diag.py:ParticleChargeDensityDiagnostic.write_hdf5", "fbpic/openpmd_diag/boosted_field_diag.py:BackTransformedFieldDiagnostic.write_slices"]}
{"id": "C103", "title": "A reader of the openPMD standard finds one consistent set of particles, also in the files of a previous simulation", "statement": "After the output of a species by a ParticleDiagnostic, in a new file or in the file that a previous simulation left with that name, a reader that follows the openPMD standard (datasets, or constants repeated as many times as their shape says, times unitSI; extensive quantities scaled by macroWeighted and weightingPower) finds in every record of the species one value for each of the selected particles, in one common order and in SI units, with the right dimension, the time of the iteration as declared time (for the time of the values see C104) and the right meaning with respect to the weight of the macroparticles; the constants (mass, charge, offset of the positions) apply to these same particles; no record describes other particles; the declared shape of the particles is the one used; and the output succeeds.", "quantifier": "all species (ionizable or not, tracked or not), all lists of documented quantities, all selections, all numbers of MPI ranks and of particles, all contents of the group of the species in an existing file", "why_tests_cant": "tests write in an empty directory and read a few datasets by their name; they do not use the constant records nor the attributes as a reader of the standard does, and never run two different simulations in the same directory", "anchors": ["fbpic/openpmd_diag/particle_diag.py: ParticleDiagnostic.write_hdf5, setup_openpmd_species_group, setup_openpmd_species_record, setup_openpmd_species_component, write_particles, write_dataset", "fbpic/openpmd_diag/data_dict.py: macro_weighted_dict, weighting_power_dict, unit_dimension_dict", "fbpic/openpmd_diag/generic_diag.py: setup_openpmd_record, setup_openpmd_component"]}
{"id": "C104", "title": "The values in the output are those of the time declared in the file", "statement": "The time declared in the output of iteration n is n times the timestep, with a zero offset for every record. The particles, the charge density, the density of each species and the current written at iteration n are those of this time: when no force acts on the particles, so that their state is a known function of time, the output at iteration n has the particles of the time n dt, their charge density and their current.", "quantifier": "every motion of the particles without forces, every number of species and of iterations, every diagnostic and its schedule, every initial iteration, with or without filter, correction of the currents, tracers", "why_tests_cant": "The values are right up to half a timestep, so that a comparison with a tolerance does not see the difference; which half of the leapfrog scheme a record belongs to depends on the place of the deposition and of the output in the loop, and differs at the first iteration of a call.", "anchors": ["fbpic/main.py: Simulation.step, deposit", "fbpic/openpmd_diag/generic_diag.py: open_file, setup_openpmd_file, setup_openpmd_record", "fbpic/openpmd_diag/field_diag.py: FieldDiagnostic.write_hdf5", "fbpic/openpmd_diag/particle_diag.py: ParticleDiagnostic.write_hdf5"]}
{"id": "C105", "title": "The display of the progress is right and never disturbs the run; errors reach the user as they are", "statement": "step(N) with the progress bar gives the same simulation (or the same exception) as without it, for every N and on every process. The first process shows one line per iteration: after the message about the compilation, a bar of constant length, filled in proportion to the iterations and full at the last one, the number of the iteration, the time of the last iteration, and from the 20th iteration on a remaining time in hours, minutes and seconds that lies between those obtained from the shortest and the longest previous iteration (but the first one); finally the total time of the call and the average time per iteration. An exception that is raised by ionization, Compton scattering or GPU functions reaches the caller as it is, and when a GPU has no memory left, all the processes stop.", "quantifier": "all numbers of iterations, all sequences of times read on the clock, all bodies of the loop (which may raise), all ranks, exact arithmetic and double precision for the bar, all exceptions, with and without CUDA", "why_tests_cant": "Tests do not look at what is printed, never call step(0), and do not provoke exceptions inside the wrapped functions on machines with and without CUDA; the durations are not reproducible.", "anchors": ["fbpic/utils/printing.py: ProgressBar, catch_gpu_memory_error, handle_cuda_memory_error", "fbpic/main.py: Simulation.step", "fbpic/particles/elementary_process/ionization/ionizer.py: Ionizer.handle_ionization", "fbpic/particles/elementary_process/compton/compton.py: ComptonScatterer.handle_scattering"]}
{"id": "C106", "title": "A run with a fixed seed is reproducible", "statement": "After set_random_seed(s) the particles, the fields and everything that is written are the same each time the same script is run, whatever random numbers were drawn before, with injection of thermal plasmas, Gaussian bunches, ionization, Compton scattering and diagnostics with or without subsampling. Adding or removing diagnostics does not change the simulation. Different calls of the Monte Carlo parts use different random numbers, and so do two runs with different seeds.", "quantifier": "all generators (numpy, cupy, compiled functions), all seeds and MPI ranks, all sequences of injections, bunches, ionizations, scatterings, diagnostics and other operations (arbitrary functions of the state and of the numbers drawn), with and without CUDA, all states of the generators before the seed is set", "why_tests_cant": "A test sees one script; that no hidden generator takes part, and that a diagnostic does not take numbers away from the physics, is a statement about all scripts. That the GPU scattering has 256 possible sets of random states shows up only after many calls.", "anchors": ["fbpic/utils/random_seed.py: set_random_seed", "fbpic/lpa_utils/bunch.py: add_particle_bunch_gaussian", "fbpic/particles/injection/continuous_injection.py: generate_evenly_spaced, unalign_angles", "fbpic/particles/elementary_process/ionization/ionizer.py: Ionizer.handle_ionization", "fbpic/particles/elementary_process/compton/compton.py: ComptonScatterer.handle_scattering", "fbpic/particles/elementary_process/compton/numba_methods.py: determine_scatterings_numba, scatter_photons_electrons_numba", "fbpic/openpmd_diag/particle_diag.py: ParticleDiagnostic.apply_selection"]}
{"id": "C107", "title": "The input script is saved with the output", "statement": "With an InputScriptDiagnostic, every file of the output at its iterations has the text of the input script, as it was when the simulation was set up, and the additional parameters as attributes. Whatever the order of the diagnostics, nothing else in the file changes, and a reader finds the same fields. In interactive use nothing is written.", "quantifier": "all scripts and command lines, all dictionaries of parameters (strings, numbers, lists), all previous contents of the file, all field and density diagnostics that write in the same file", "why_tests_cant": "Tests do not use this diagnostic with other texts than their own; the command lines, alphabets and dictionaries of the users are unlimited.", "anchors": ["fbpic/openpmd_diag/inputscript_diag.py: InputScriptDiagnostic", "fbpic/openpmd_diag/generic_diag.py: OpenPMDDiagnostic.open_file, setup_openpmd_file", "fbpic/openpmd_diag/field_diag.py: FieldDiagnostic.write_hdf5", "fbpic/openpmd_diag/particle_density_diag.py: ParticleChargeDensityDiagnostic.write_hdf5"]}
{"id": "C108", "title": "Particles written by one simulation are the bunch that another one loads from the file", "statement": "The phase space that an openPMD reader finds in the output of a species with a mass is that of the selected particles (positions in meters, momenta in units of m c, weights), in one common order and determined by the file. add_particle_bunch_openPMD loads from it, over all the processes of the second simulation together, exactly one copy of each of these particles that falls in the box: same x, y, momenta, Lorentz factor and weight, all moved along z by one common distance that brings the mean position, weighted, to z_off; with a boost, the Lorentz transform of these copies. A file without particles raises an exception.", "quantifier": "all species with a mass, numbers of processes of both simulations, selections and subsamplings, lists of recorded quantities with position, momentum and weighting, previous contents of the file, values of z_off, boosts, decompositions and positions of the moving window", "why_tests_cant": "The test loads one file that is shipped with the code on one process; it does not compare with the simulation that wrote the file.", "anchors": ["fbpic/openpmd_diag/particle_diag.py: ParticleDiagnostic", "fbpic/lpa_utils/bunch.py: add_particle_bunch_openPMD, add_particle_bunch_from_arrays"]}
{"id": "C109", "title": "An ion is ionized with the probability that has been computed", "statement": "In one step, an ion whose ADK probability is p is ionized by a share p of the equally likely random draws, up to one draw; whatever is drawn for the other ions, on CPU and on GPU.", "quantifier": "all tables of ADK coefficients with a non-negative prefactor, fields and momenta on the ions, levels, numbers of ions, batch sizes, targets and draws of the other ions", "why_tests_cant": "A test on some thousand ions measures the share to a few percent; it cannot see probabilities around 1e-8 per step, which matter for dark current over many steps.", "anchors": ["fbpic/particles/elementary_process/ionization/ionizer.py: Ionizer.handle_ionization", "fbpic/particles/elementary_process/ionization/inline_functions.py: get_ionization_probability"]}
