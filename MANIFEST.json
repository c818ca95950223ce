{"claims": [
 {"property": "C01", "status": "proved", "theorems": ["C01_constructor_valid", "C01_decomposition_tiles", "C01_edges_tile", "C01_double_quotient_exact"], "note": "all sizes; the double-precision quotient is exact for Nz + size <= 2^53"},
 {"property": "C02", "status": "proved", "theorems": ["C02_gather_scatter_roundtrip", "C02_gather_reads_owner"], "note": "MPI Gatherv/Scatterv semantics assumed as documented (counts/displacements)"},
 {"property": "C03", "status": "proved", "theorems": ["C03_replace_exchange"], "note": "n_guard >= 1 (an explicit n_guard=0 on several ranks makes numpy raise on the empty slice); CPU buffers"},
 {"property": "C04", "status": "proved", "theorems": ["C04_add_exchange"], "note": "n_guard >= 1; any commutative addition"},
 {"property": "C05", "status": "proved", "theorems": ["C05_delivery", "C05_no_deadlock", "C05_terminates", "C05_filled_once_per_call"], "note": "MPI: non-overtaking channels per (source,dest,tag), buffered and synchronous sends; message sizes not modelled"},
 {"property": "C06", "status": "partial", "theorems": ["C06_exchange_conserves_partial", "C06_exchange_conserves_untracked", "C06_integer_attributes_refuted"], "note": "REFUTED for tracked/ionizable species on the CPU path: uint_send_right is a float64 array (particle_buffer_handling.py:133) so ids/levels of right-going particles are reinterpreted. All float attributes, and untracked species, are conserved."},
 {"property": "C07", "status": "proved", "theorems": ["C07_inside_after_exchange"], "note": "CPU path; closed box [lo,hi]; newly injected particles excluded"},
 {"property": "C08", "status": "partial", "theorems": ["C08_grid_operations_stay_inside", "C08_window_starts_ok", "C08_constructor_rejects", "C08_single_periodic_partial", "C08_single_periodic_cubic_refuted"], "note": "Real arithmetic. Proved in full for every configuration with guard cells; a single periodic rank is proved under an extra bound on the distance per step, without which it is REFUTED for cubic shapes (row past the end of the deposition array for c*dt=dz)."},
 {"property": "C09", "status": "partial", "theorems": ["C09_periodic_wrap_partial", "C09_binary64_edge_refuted", "C09_binary64_termination_refuted"], "note": "Full property proved in exact arithmetic; REFUTED in double precision (position can land on zmax; far particle makes the loop run forever)."},
 {"property": "C10", "status": "partial", "theorems": ["C10_ids_unique_gpu", "C10_ids_unique_cpu_partial", "C10_ids_unique_cpu_refuted", "C10_gpu_generation_is_cpu"], "note": "Proved in full for GPU exchange; on the CPU proved for histories without transfers to the right and REFUTED otherwise (transfers to the right corrupt ids, two ids coincide after seven transfers)."},
 {"property": "C100", "status": "proved", "theorems": ["C100_gpu_thread", "C100_gpu_thread_others", "C100_cpu_particle", "C100_agree", "C100_cpu_charge", "C100_cpu_current", "C100_gpu_totals"], "note": "All 12 written-out kernels, one table row per statement; refinement to the models of C22 and C57."},
 {"property": "C101", "status": "proved", "theorems": ["C101_modes_empty", "C101_gpu", "C101_enough_angles", "C101_no_transverse_current", "C101_too_few_angles"], "note": "Exact cancellation ring by ring; C101_too_few_angles shows that the condition on p_nt is needed."},
 {"property": "C102", "status": "proved", "theorems": ["C102_fields", "C102_rest", "C102_clash", "C102_density", "C102_lab"], "note": "Fields, densities of species and back-transformed snapshots, read with an independent reader of the standard; h5py itself is not modelled beyond groups, attributes and arrays"},
 {"property": "C103", "status": "partial", "theorems": ["C103_records", "C103_rest", "C103_constant_refuted", "C103_stale_refuted", "C103_charge_refuted", "C103_shape_refuted"], "note": "REFUTED: mass, charge and positionOffset are declared with shape 1 whatever the number of particles; records of a previous simulation that are not asked for stay beside the new ones; TypeError when the species was ionizable in the previous simulation and no longer is; particleShape is 1 also for the cubic shape. Proved: every record that is asked for reads, in any usable file, as the values of the selected particles in SI units with the right dimension, time and weighting; the rest of the group is unchanged."},
 {"property": "C104", "status": "partial", "theorems": ["C104_rho_particles_partial", "C104_J_half_step_before", "C104_J_first", "C104_J_refuted"], "note": "REFUTED for the current: the declared time is n dt with timeOffset 0 (generic_diag.py:219-220, called an approximation there), but J in the output is that of (n - 1/2) dt, and of n dt (uncorrected) at the first iteration of a call of step (C104_J_refuted, C104_J_half_step_before, C104_J_first). Proved for particles in free motion on one process, with or without Galilean frame and cross-deposition, without moving window and antennas: particles, rho and the densities of the species are those of the declared time. Momenta (which the code pushes from n-1/2 to n+1/2) are not covered: without forces they do not depend on time."},
 {"property": "C105", "status": "partial", "theorems": ["C105_transparent", "C105_shown_partial", "C105_roundings", "C105_errors", "C105_step_0_refuted", "C105_total_refuted", "C105_errors_refuted"], "note": "REFUTED: step(0) with the default show_progress=True raises ZeroDivisionError on the first process (printing.py:128), after the fields have been exchanged and damped; the total time and the average time leave out the last iteration, because they are taken at its start (step(1) shows 0 s); without CUDA the name OutOfMemoryError is not defined, so that every exception in ionization or Compton scattering becomes a NameError. Proved for N >= 1: the display changes nothing, and lines, bar and remaining time are right, in exact arithmetic and (bar) in binary64; with CUDA exceptions are unchanged and a lack of memory aborts all processes."},
 {"property": "C106", "status": "partial", "theorems": ["C106_reproducible_partial", "C106_diagnostics", "C106_fresh", "C106_fresh_gpu", "C75_subsampling_refuted", "C106_compton_refuted", "C106_states_refuted", "C106_overlap"], "note": "REFUTED: Compton scattering on CPU draws from generators that set_random_seed does not reach (C106_compton_refuted); a ParticleDiagnostic with subsampling_fraction draws from the generator of the simulation and changes it (C75_subsampling_refuted); the GPU scattering seeds its states with randint(256), so among 257 calls two use the same random states (C106_states_refuted; hypothesis: randint(n) is in [0, n)); seed n+1 on rank r gives the numbers of seed n on rank r+1 (C106_overlap). Proved: everything else is reproducible, for arbitrary generators and functions; diagnostics without subsampling do not change the simulation; no number delivered by numpy or cupy is used twice by injections, bunches and ionizations."},
 {"property": "C107", "status": "partial", "theorems": ["C107_saved_partial", "C107_kept", "C107_interactive", "C107_unicode_refuted", "C107_strings_refuted", "C107_which_refuted", "C107_alone_refuted"], "note": "REFUTED: a script with a character outside ASCII stops the run at the first output (np.string_ raises UnicodeEncodeError; C107_unicode_refuted); so does a list of strings among the parameters (h5py has no type for it; C107_strings_refuted); the first argument that contains '.py' anywhere is saved, e.g. a program in a directory .pyenv (C107_which_refuted); at an iteration at which no other diagnostic writes, the file has no openPMD attributes (C107_alone_refuted). Proved: for ASCII scripts named *.py the text and the parameters are saved, nothing else changes, and the field and density diagnostics keep them."},
 {"property": "C108", "status": "proved", "theorems": ["C108_phase_space", "C108_round_trip", "C108_empty"], "note": "Exact arithmetic; the reader of the file is the openPMD standard (Pfile_Spec.v) with momenta in units of m c; the particles of the first simulation have consistent momenta and Lorentz factors (C25)."},
 {"property": "C109", "status": "partial", "theorems": ["C109_cpu", "C109_zero", "C109_gpu_floor", "C109_gpu_refuted"], "note": "Proved on CPU, for draws k/2^53. REFUTED on GPU under an assumption: if cupy's float32 generator follows the formula in Draw_Model.v (external library, written from memory, not checked), any ion with p > 0 is ionized with probability at least 127/2^32. The GPU result says nothing about /repo if that formula is wrong. C109_zero: p = 0 never ionizes, under the same formulas."},
 {"property": "C11", "status": "partial", "theorems": ["C11_restart_unique_partial", "C11_restart_unique_refuted", "C11_computed_value_is_safe"], "note": "REFUTED: overwrite_ids assigns a misspelt attribute. Proved under a condition on the restored ids, and the value that was meant to be assigned is proved safe."},
 {"property": "C12", "status": "proved", "theorems": ["C12_schedule", "C12_split_independent"], "note": "Loop model with arbitrary particle, laser and elementary-process oracles; time is exact arithmetic."},
 {"property": "C13", "status": "proved", "theorems": ["C13_no_inconsistent_push", "C13_single_rank"], "note": ""},
 {"property": "C14", "status": "proved", "theorems": ["C14_cross_deposition_restores"], "note": "Exact arithmetic."},
 {"property": "C15", "status": "proved", "theorems": ["C15_window_follows", "C15_window_needs_open", "C15_run_follows"], "note": "Exact arithmetic; both directions of motion. C15_run_follows is the same along a run of Simulation.step, any options."},
 {"property": "C16", "status": "proved", "theorems": ["C16_shift_translates", "C16_shift_translates_spectral", "C16_shifts_compose", "C16_shift_inverse"], "note": "DFT as mathematical sums over C; FFT libraries assumed to compute them."},
 {"property": "C17", "status": "partial", "theorems": ["C17_injection_lattice_partial", "C17_gap_between_ranks_refuted", "C17_speed_change_refuted"], "note": "On the last rank: loaded plus injected particles form one lattice, each site once, density sampled at the site, any speeds; edge within one spacing when the window is not slower. REFUTED in full generality: with several ranks, if the plasma ends before the last rank, the injector restarts at the end of the box and leaves a permanent gap; changing the window speed from below to above the plasma speed fills a site twice."},
 {"property": "C18", "status": "proved", "theorems": ["C18_chunks_cover", "C18_launch_1d", "C18_launch_2d"], "note": "All Ntot>=0, nthreads>=1 with Ntot+nthreads<=2^53 (np.linspace(...).astype in binary64), all launch sizes below 2^52, any order of execution of the threads."},
 {"property": "C19", "status": "proved", "theorems": ["C19_sorting"], "note": "Every execution order of the kernels' writes; thrust.argsort enters by its contract. Particles at most one box length outside of the box, sizes below 2^52."},
 {"property": "C20", "status": "partial", "theorems": ["C20_gpu_keeps_partial", "C20_cpu_kept_gpu_kept_partial", "C20_same_particles_refuted"], "note": "REFUTED: the GPU test keeps particles up to half a cell beyond each edge that the CPU test removes. Proved: exact description of the GPU set (incl. moving-window shift) and CPU-kept implies GPU-kept."},
 {"property": "C21", "status": "proved", "theorems": ["C21_partition_of_unity", "C21_weights_in_unit", "C21_mean_position", "C21_spline", "C21_continuous"], "note": "All positions; the z weights are the textbook B-splines of order 1 and 3, hence continuous."},
 {"property": "C22", "status": "proved", "theorems": ["C22_total_charge", "C22_total_axial_current"], "note": "CPU kernels, exact arithmetic, all populations inside the z range of the local grid (any radius), any number of threads, both shapes, any Ruyten coefficients, standard or modified volumes. GPU kernels not modelled."},
 {"property": "C23", "status": "proved", "theorems": ["C23_threads_and_order"], "note": "All components and modes, any two thread numbers, any reordering of the particles of each species (CPU kernels, exact arithmetic)."},
 {"property": "C24", "status": "proved", "theorems": ["C24_uniform_density", "C24_last_cell"], "note": "Integral over a continuous radial distribution of the code's own deposition (mode 0), for any cell volumes. The cells that receive the folded charge at rmax (last one, linear; last two, cubic) are excluded, except the last one for the linear shape with standard volumes. A cubic particle beyond rmax+dr/2 still writes into cell Nr-2, so no such statement holds there."},
 {"property": "C25", "status": "proved", "theorems": ["C25_pushed", "C25_consistent", "C25_magnetic", "C25_displacement"], "note": "Exact arithmetic, all three push functions. Neutral species (photons) are skipped by the push and keep their stored value."},
 {"property": "C26", "status": "proved", "theorems": ["C26_force_free"], "note": "Exact arithmetic, all three push functions."},
 {"property": "C27", "status": "proved", "theorems": ["C27_electrons", "C27_levels", "C27_count", "C27_charge"], "note": "CPU functions; exact quotient for the number of batches. Particle ids of the new electrons are the subject of C10."},
 {"property": "C28", "status": "proved", "theorems": ["C28_amplitude", "C28_probability", "C28_no_field", "C28_field_ionizes"], "note": "Real arithmetic; also: the amplitude is that of the field in the rest frame of the ion."},
 {"property": "C29", "status": "proved", "theorems": ["C29_angle", "C29_photons", "C29_conservation"], "note": "Exact arithmetic; any beam direction, electron momenta, accepted draws; energies of electrons are those of their mass shell. Klein-Nishina cross-section and probability modelled. Rejection loop taken with a finite sequence of draws."},
 {"property": "C30", "status": "partial", "theorems": ["C30_recoil_refuted", "C30_no_gain_partial"], "note": "REFUTED: recoil changes u but not inv_gamma; witness at rest hit by a 4 mc^2 photon moves at more than c. Proven part: below c when the electron does not gain energy."},
 {"property": "C31", "status": "proved", "theorems": ["C31_count", "C31_slots", "C31_once"], "note": "Mean is the Riemann integral over the draw in [0,1]; batches of any size."},
 {"property": "C32", "status": "proved", "theorems": ["C32_divB"], "note": "any number of iterations, any sources and coefficients, with or without the corrections"},
 {"property": "C33", "status": "partial", "theorems": ["C33_standard", "C33_partial", "C33_no_resonance", "C33_refuted"], "note": "REFUTED for the moving schemes: at modes where kz*V*dt is a nonzero multiple of 2*pi the push breaks Gauss' law even for a static charge (witness V=c/2). Proved for the standard scheme without restriction, and for Galilean/comoving schemes with |V|<c away from these modes (no mode of the grid is resonant if |V|*dt < 2*dz)."},
 {"property": "C34", "status": "proved", "theorems": ["C34_curlfree", "C34_cross", "C34_cross_deposited", "C34_kz_true", "C34_gauss", "C34_states", "C34_states_frozen"], "note": "every mode; at kz=0 and kr=0 the cross-deposition result uses the deposited sources of the iteration (particles in the box, no scattering between the half pushes); resonant modes of moving frames are those where the current has no effect on the charge"},
 {"property": "C35", "status": "proved", "theorems": ["C35_energy", "C35_dispersion", "C35_reversible"], "note": ""},
 {"property": "C36", "status": "proved", "theorems": ["C36_coefficients", "C36_iteration"], "note": ""},
 {"property": "C37", "status": "partial", "theorems": ["C37_partial", "C37_only_divE", "C37_refuted"], "note": "REFUTED for the default current_correction='cross-deposition': AttributeError (inv_k2 only exists with 'curl-free'). Proved with 'curl-free'."},
 {"property": "C38", "status": "proved", "theorems": ["C38_stencil", "C38_orders"], "note": "Exact arithmetic; polynomials of degree at most 2m by finite differences."},
 {"property": "C39", "status": "partial", "theorems": ["C39_factors", "C39_arguments", "C39_no_amplification", "C39_passes", "C39_charge_partial", "C39_charge_refuted"], "note": "REFUTED in part: with at least one pass along r (default) the total charge is not preserved, because no radial mode of m=0 has kr=0 (C39_charge_refuted). Bounds, value at k=0, no amplification proved; along z the smoother is n passes of the (1/4,1/2,1/4) stencil with compensation (C39_passes); charge preserved column by column when smoothing along z only."},
 {"property": "C40", "status": "proved", "theorems": ["C40_rt_pm_rt", "C40_pm_rt_pm", "C40_norm", "C40_copy", "C40_gemm"], "note": ""},
 {"property": "C41", "status": "partial", "theorems": ["C41_frame", "C41_length", "C41_number", "C41_velocity", "C41_momentum", "C41_gamma_partial", "C41_gamma_refuted", "C41_wavenumber", "C41_particle", "C41_interaction_time"], "note": "REFUTED in part: the Lorentz factor conversion is wrong for every particle that moves backward in the lab (C41_gamma_refuted); right for forward ones. Everything else proved."},
 {"property": "C42", "status": "proved", "theorems": ["C42_boost", "C42_lab", "C42_names"], "note": "For functions of the documented form F + amplitude*f(x,y,z,t,length_scale)."},
 {"property": "C43", "status": "proved", "theorems": ["C43_maxwell", "C43_bunch", "C43_gamma"], "note": "Every mode with k<>0, from the deposited and smoothed charge of a bunch with one gamma moving along z."},
 {"property": "C44", "status": "partial", "theorems": ["C44_exact", "C44_double_partial", "C44_double_two_ranks", "C44_double_refuted"], "note": "Proved in exact arithmetic for any bunch and decomposition, and in binary64 for up to two ranks. REFUTED in binary64 with more ranks: upper edge of a rank and lower edge of the next differ by rounding (400 cells on [-1,1], 5 ranks: one position lost, one loaded twice); away from such gaps exactly one rank keeps the particle."},
 {"property": "C45", "status": "partial", "theorems": ["C45_total", "C45_loaded_partial", "C45_ranks_refuted", "C45_symmetric", "C45_electrons_partial", "C45_electrons_refuted", "C45_cylindrical_partial", "C45_cylindrical_refuted", "C45_openpmd_centred"], "note": "REFUTED in three ways: with several ranks each rank draws its own Gaussian bunch, so the loaded charge can be 0 or twice the requested one; a negative Q gives negative weights (documented: absolute value); add_elec_bunch ignores p_nt. Proved: totals of each generated or read bunch, exact zero transverse sums after symmetrization on every rank with or without boost, counts of the generic cylindrical helper. Density functions in cylindrical bunches not covered here."},
 {"property": "C46", "status": "partial", "theorems": ["C46_rank_partial", "C46_rank_initial", "C46_every_time_refuted", "C46_double_refuted", "C46_neutral", "C46_displacement", "C46_pairs"], "note": "REFUTED as stated for 'at every time': the rank is only chosen at exchange steps, so an antenna that leaves (or enters) the box between two updates is still (or not yet) deposited; and rank edges computed in binary64 do not join for more than two ranks. Proved: after each update exactly one rank (or none) deposits until the next update, in exact arithmetic; total charge and axial current of the antennas are zero; excursions are the sums of dt times the velocities after any number of iterations with any options."},
 {"property": "C47", "status": "partial", "theorems": ["C47_slab_partial", "C47_never_between_refuted", "C47_refuted", "C47_boosted_plane"], "note": "REFUTED: the zeroed rows are the floor((z_end-z_start)/dz) rows below z_start, and only on ranks whose grid contains z_start; no cell between z_start and z_end is ever changed, and a mirror thinner than a cell does nothing. Proved: exactly which values are zeroed and that all others are unchanged, for all mirrors, modes and decompositions."},
 {"property": "C48", "status": "partial", "theorems": ["C48_explicit_partial", "C48_completed_partial", "C48_latest_partial", "C48_skew_refuted", "C48_incomplete_refuted", "C48_photon_refuted", "C48_refuses"], "note": "REFUTED in three ways: without a given iteration each rank resumes from its own latest file, so ranks killed on both sides of a checkpoint resume at different iterations; with no species a file killed between creation and writing is resumed with zero fields; inv_gamma of photons is recomputed with the formula of massive particles. Proved: with a given iteration and at least one species, for all crash points of all ranks, restart refuses or resumes exactly that completed checkpoint on all ranks; completed checkpoints can always be resumed. HDF5 writes are taken as atomic per field dataset and per species, openPMD-viewer from its documentation, exact arithmetic."},
 {"property": "C49", "status": "partial", "theorems": ["C49_once_partial", "C49_record", "C49_never", "C49_momentum", "C49_written", "C49_flushed", "C49_gpu", "C49_on_plane_refuted", "C49_edge_refuted", "C49_outside_refuted", "C49_kick_refuted"], "note": "REFUTED as stated: a particle exactly on the plane at an iteration is recorded twice; one that crosses near the left edge of the snapshot is never recorded (and one beyond the right edge is); a particle scattered between the half steps can be missed. Proved: for every other trajectory exactly one record, at lab time equal to the snapshot time, with an interpolation weight in [0,1]; never crossing means never recorded; momentum; file contents; the GPU pre-selection loses nothing."},
 {"property": "C50", "status": "partial", "theorems": ["C50_file", "C50_consecutive", "C50_gap_free_partial", "C50_gap_free_refuted", "C50_unflushed_refuted", "C50_weights_partial", "C50_linear", "C50_weights_refuted", "C50_invariants", "C50_lorentz"], "note": "REFUTED as stated: a slice exactly on the cut between two processes is stored by neither, leaving a hole; slices stored after the last flush are in no file; in the first half cell of a domain the slice is extrapolated with a negative weight. Proved: the file contents for every run, indices without gap or repetition otherwise, weights in [0,1] from half a cell inside, exact for linear fields, the Lorentz transform and its invariants at every angle."},
 {"property": "C51", "status": "partial", "theorems": ["C51_ends", "C51_ends_energy", "C51_no_damp_cells_refuted", "C51_pml", "C51_pml_energy_refuted", "C51_pml_energy_partial"], "note": "REFUTED in two corners: with n_damp z = 0 at open ends nothing is zeroed in the guard and injection cells; the PML step damps the split part of Et and Bt only, so |Et| (and the energy) can increase when the split part opposes it. Proved for all widths: profile of the ends (0 in guard+injection cells, 1 beyond, monotone, symmetric, in [0,1]), never increasing the energy of any set of cells; PML factors in (0,1], non-increasing outwards, exact effect, and no increase of any split component."},
 {"property": "C52", "status": "proved", "theorems": ["C52_silent_species", "C52_insert"], "note": "Any two species lists with the same active species deposit the same arrays (all components, modes, thread numbers)."},
 {"property": "C53", "status": "proved", "theorems": ["C53_uniform_density", "C53_adapt_to_grid"], "note": "Real arithmetic."},
 {"property": "C54", "status": "proved", "theorems": ["C54_uniform", "C54_outside"], "note": "CPU gathering in exact arithmetic, linear and cubic, any number of modes; grids with at least 2 x 2 cells. Particles at or beyond rmax (radial PML) get 0."},
 {"property": "C55", "status": "partial", "theorems": ["C55_fields_partial", "C55_fields", "C55_mode0_refuted", "C55_selection"], "note": "REFUTED for the mode 0: only its real part is written, so an imaginary part is always lost. Proved: every mode m >= 1 (and a real mode 0) comes back exactly, for any number of modes and any previous content of the file; box bounds too; selection over all ranks keeps exactly the particles strictly within all bounds, in the same order for every quantity. Exact arithmetic; openPMD-viewer's get_field modelled from its documentation."},
 {"property": "C56", "status": "proved", "theorems": ["C56_scalar", "C56_vector", "C56_wavenumbers"], "note": "numpy's inv and pinv are assumed to return right inverses; FFT libraries replaced by the sums they compute"},
 {"property": "C57", "status": "proved", "theorems": ["C57_gpu_equals_cpu", "C57_same_particles"], "note": "All schedules of the atomic additions, exact arithmetic; hypothesis: a species flagged as sorted has been sorted on this grid (see C58); beta_n equal for all modes above 0, as the code computes it. Not modelled: antenna (unsorted) deposition."},
 {"property": "C58", "status": "partial", "theorems": ["C58_frozen_same_grid_partial", "C58_frozen_window_refuted"], "note": "REFUTED for a moving window (or Galilean grid): the sort of the previous grid is reused because only push_x resets the flag. Proved when the grid does not move."},
 {"property": "C59", "status": "proved", "theorems": ["C59_deposit_formula", "C59_gpu_formula"], "note": "Exact arithmetic. Particles with r <= rmax (all those a run keeps inside the box); for r > rmax the cubic kernel puts part of the charge in the wrong last cells (total charge is still right, C22)."},
 {"property": "C60", "status": "proved", "theorems": ["C60_gather_formula"], "note": "Exact arithmetic; the CPU and GPU kernels have the same body per particle."},
 {"property": "C61", "status": "partial", "theorems": ["C61_opposite_partial", "C61_sign_refuted"], "note": "REFUTED for the sign: the radiated field is exactly the opposite of the profile (the deposited surface current is +2 eps0 c E, Ampere's law needs -2 eps0 c E). Amplitude, place and time proved, lab and boosted frame, moving antenna."},
 {"property": "C62", "status": "partial", "theorems": ["C62_standard", "C62_no_rho", "C62_run", "C62_partial", "C62_run_partial", "C62_refuted"], "note": "Standard scheme: proved in full. REFUTED for moving schemes at resonant modes (kz V dt a non-zero multiple of 2 pi), proved for all others with |V| < c; C33_no_resonance excludes resonance on the grid for usual timesteps."},
 {"property": "C63", "status": "proved", "theorems": ["C63_gaussian", "C63_unchirped", "C63_chirp", "C63_peak", "C63_laguerre", "C63_donut", "C63_flattened", "C63_few_cycle", "C63_sum"], "note": "All analytical profiles of laser_profiles.py (FromLasyFileLaser excluded: it reads a file). Real arithmetic."},
 {"property": "C64", "status": "partial", "theorems": ["C64_partial", "C64_refuted"], "note": "REFUTED: with an exact root s of the code's equation, the intensity FWHM is tau_fwhm*sqrt(2/(1+2^(1/(s+1)))), strictly shorter than tau_fwhm (up to 18%); C64_partial gives this exact width and its bounds."},
 {"property": "C65", "status": "partial", "theorems": ["C65_modes", "C65_lasers", "C65_divergence_partial", "C65_divergence_refuted", "C65_wave", "C65_push", "C65_boost", "C65_backward", "C65_smooth", "C65_ranks"], "note": "REFUTED for kz = 0: the part of the laser field that is uniform along z keeps a non-zero div E (Ez is set to 0 there). Everything else is proved: modes, vacuum Maxwell equations, direction, push, boost, smoothing, ranks."},
 {"property": "C66", "status": "proved", "theorems": ["C66_mean_unique", "C66_angle", "C66_ends", "C66_azimuth", "C66_rate"], "note": "Exact arithmetic; the random generator is a sequence of independent uniform numbers."},
 {"property": "C67", "status": "proved", "theorems": ["C67_energy", "C67_boost", "C67_pulse"], "note": "Exact arithmetic."},
 {"property": "C68", "status": "partial", "theorems": ["C68_error_partial", "C68_slow_electrons_refuted"], "note": "REFUTED: for k near 2^-19 (1 eV photons, electrons nearly at rest) the computed cross-section is > 7 times the exact one or negative, depending on the last bits of k. Proved: error at most (7+1500k) 2^-52/k^3."},
 {"property": "C69", "status": "proved", "theorems": ["C69_transverse", "C69_longitudinal", "C69_energy"], "note": "All four transverse profiles, any chirp. The energy is exact for the average over two carrier phases in quadrature. LongitudinalProfile from file / custom profiles are not modelled."},
 {"property": "C70", "status": "partial", "theorems": ["C70_partial", "C70_refuted"], "note": "REFUTED: wavelength, propagation direction and carrier phase are not passed to GaussianLaser, so the laser is always at 0.8 micron towards +z; proved for lasers that ask for that"},
 {"property": "C71", "status": "proved", "theorems": ["C71_focus", "C71_picmi"], "note": "ballistic motion to tf for every draw; second moments for draws with the moments of independent standard variables, without energy spread"},
 {"property": "C72", "status": "partial", "theorems": ["C72_constant", "C72_boost_refuted", "C72_refuted"], "note": "REFUTED: analytic fields and mirrors always raise; constant fields are not Lorentz-transformed in a boosted frame; proved for constant fields without boost"},
 {"property": "C73", "status": "partial", "theorems": ["C73_partial", "C73_mass_refuted", "C73_ionization", "C73_order_refuted"], "note": "REFUTED: the order of the calls matters for ionization, and a species without particle type that is added twice loses its electrons' mass twice; proved for one call, and for the working order"},
 {"property": "C74", "status": "partial", "theorems": ["C74_cfl", "C74_smoother", "C74_smoother_refuted", "C74_diagnostic", "C74_lab_refuted"], "note": "REFUTED for a compensator in one direction only and for lab-frame diagnostics; proved for the time step, equal compensators and diagnostics of the simulation frame"},
 {"property": "C75", "status": "partial", "theorems": ["C75_simulation", "C75_records", "C75_density", "C75_subsampling_refuted"], "note": "CPU path; kernels arbitrary. REFUTED for one case: a ParticleDiagnostic with subsampling_fraction takes random numbers from numpy's global generator, which ionization on CPU and continuous injection use as well (Seed_Model.v)."},
 {"property": "C76", "status": "partial", "theorems": ["C76_partial", "C76_step_0", "C76_J_refuted", "C76_refuted"], "note": "REFUTED: with open boundaries each call of step() damps E and B once more; records of J at the first iteration of a call are uncorrected. Proven: same simulation when the start of a call leaves E and B unchanged (e.g. periodic boundaries with exact transforms) and the call starts at an iteration with particle exchange."},
 {"property": "C77", "status": "proved", "theorems": ["C77_rate", "C77_bounds", "C77_hydrogen", "C77_units", "C77_timestep", "C77_accepts"], "note": "Gamma is any function with G(1)=1, G(x+1)=xG(x), positive on x>0 (an instance is given). The parsing of the text file is not modelled."},
 {"property": "C78", "status": "partial", "theorems": ["C78_partial", "C78_refuted"], "note": "REFUTED: beyond a field depending on the level the probability decreases when the field increases; proven: increasing below it, decreasing above it."},
 {"property": "C79", "status": "partial", "theorems": ["C79_records", "C79_fields", "C79_mass_refuted", "C79_late_refuted", "C79_neutral_refuted"], "note": "REFUTED in three points: the unitDimension of the mass is a length in every file (C79_mass_refuted); a species made ionizable or tracked after the creation of the diagnostic is written with a constant charge e and without ids (C79_late_refuted); the fields written for a neutral species are uninitialized memory after an exchange (C79_neutral_refuted). Everything else is proved (C79_records, C79_fields)."},
 {"property": "C80", "status": "proved", "theorems": ["C80_history", "C80_deposit"], "note": "GPU antenna = CPU antenna: state after any history, and deposition in each cell and mode (with species). Exact arithmetic; antenna plane inside the local grid when it deposits."},
 {"property": "C81", "status": "partial", "theorems": ["C81_selection", "C81_ballistic", "C81_no_boost", "C81_half_step", "C81_boost_refuted"], "note": "REFUTED in a boosted frame (C81_boost_refuted): push_p takes the position of the plane at time+dt/2 while the positions are at time, so a particle that is still before the plane can be pushed. Proved: exact rule of each step (C81_selection), closed form of the ballistic motion over N steps (C81_ballistic), the full claim without boost (C81_no_boost), and in a boosted frame a pushed particle crosses at most half a step later (C81_half_step)."},
 {"property": "C82", "status": "partial", "theorems": ["C82_check", "C82_own_gpu", "C82_balanced", "C82_warning", "C82_refuted", "C82_color_refuted"], "note": "REFUTED when the ranks of the nodes are not consecutive: mpi_select_gpus tests the rank of the node communicator but gathers on COMM_WORLD, so the first rank of every node but the first raises TypeError at import (C82_refuted, for every such distribution); two node names whose colors collide share one communicator and the ranks of a node can take the same GPU (C82_color_refuted). Proved for consecutive ranks: own GPU, balance, warning, and the check itself for all distributions."},
 {"property": "C83", "status": "partial", "theorems": ["C83_exact", "C83_steps", "C83_laser", "C83_laser_refuted", "C83_current_refuted"], "note": "REFUTED in general: exact if and only if the PML arrays hold their share (C83_exact), kept for ever in vacuum (C83_steps); a laser present at the start (C83_laser_refuted) or one step with a current (C83_current_refuted) breaks it; the error decays as |cos(omega dt)|^n (C83_steps). One spectral mode; the effect of the damping in the layer itself is C51."},
 {"property": "C84", "status": "partial", "theorems": ["C84_replace", "C84_add", "C84_outcome", "C84_damp_outcome", "C84_not_stuck", "C84_damp", "C84_damp_profile", "C84_pml", "C84_gpudirect_refuted"], "note": "REFUTED for one configuration: with the environment variable FBPIC_ENABLE_GPUDIRECT=1 and use_cuda=False the guard cells receive stale host buffers (C84_gpudirect_refuted). Proved in all the other cases, for every interleaving of the GPU threads."},
 {"property": "C85", "status": "partial", "theorems": ["C85_field_step", "C85_divB", "C85_continuity", "C85_erase", "C85_divide_by_volume", "C85_filter", "C85_shift", "C85_outcome", "C85_divE_cpu", "C85_divE_gpu", "C85_divE_refuted"], "note": "REFUTED for one option of step: correct_divE=True on a GPU raises TypeError for every grid, because correct_divE mixes numpy and cupy arrays (C85_divE_gpu, C85_divE_refuted). Proved for everything else, for every interleaving of the GPU threads."},
 {"property": "C86", "status": "proved", "theorems": ["C86_scalar", "C86_vector", "C86_terminates", "C86_round_trip", "C86_mkl", "C86_mkl_shape"], "note": "All interleavings of the GPU threads; the libraries cuFFT, cuBLAS and MKL are modelled by their interface on flat buffers, in exact arithmetic."},
 {"property": "C87", "status": "partial", "theorems": ["C87_step", "C87_particle_diag", "C87_field_diag", "C87_density_diag", "C87_manager", "C87_cpu", "C87_two_names_refuted", "C87_between_steps_refuted", "C87_step_in_manager_refuted", "C87_new_species_refuted"], "note": "REFUTED on a GPU (and harmless on a CPU) for: one species under two names in a ParticleDiagnostic, a diagnostic written outside of step, a step inside GpuMemoryManager (AttributeError), a species added inside GpuMemoryManager (IndexError). The claim is proved in all other cases."},
 {"property": "C88", "status": "partial", "theorems": ["C88_mean_wavelength", "C88_spectrum", "C88_documented_weight_refuted", "C88_pulse", "C88_positive", "C88_two_lines_refuted", "C88_integral", "C88_linear_phase", "C88_linear_phase_refuted", "C88_direction"], "note": "Proved: mean wavelength, spectrum, pulse at all z and t, normalisation, integral, direction. REFUTED parts: subtract_linear_phase removes the slope of the fit at frequency 0, so that a file with a pure chirp (a centred pulse) gets the delay phi2*omega0; two lines narrower than a thousandth of the mean wavelength can fall between the frequencies of the grid, and everything is divided by 0; the amplitude is sqrt(I)/k, not k*sqrt(I) as the docstring says. Real arithmetic; numpy/scipy routines are modelled by their documented meaning."},
 {"property": "C89", "status": "partial", "theorems": ["C89_aligned", "C89_selection", "C89_bad_rule", "C89_invalid", "C89_untracked_refuted", "C89_duplicate_refuted", "C89_restart", "C89_restart_refuted"], "note": "REFUTED for restarts: a restart from a checkpoint loses the particles still in the buffers and doubles those flushed after the checkpoint (C89_restart gives the exact content, C89_restart_refuted the witnesses). Also refuted when \"id\" is requested explicitly: KeyError in the middle of the run for an untracked species, id column twice as long for a tracked one. Proved in full otherwise: aligned columns in SI units, each selected particle once up to the last flush, for any number of processes, species, snapshots."},
 {"property": "C90", "status": "partial", "theorems": ["C90_cylindrical", "C90_cartesian", "C90_antenna", "C90_axis_refuted", "C90_unit_refuted", "C90_radial_offset_refuted", "C90_delay", "C90_version", "C90_dev_version_refuted", "C90_method", "C90_default_antenna_refuted"], "note": "REFUTED in corners: the field is nan on the axis when the file has modes other than 0 (never at the positions of an antenna: C90_antenna); the offsets are read without gridUnitSI (cartesian) or not at all (r); a development version (0.4.0.dev1) raises ValueError; add_laser with method='antenna' and no z0_antenna raises ValueError instead of using zf. Proved in full otherwise (files with gridUnitSI = 1 and a radial grid that starts on the axis, as lasy writes them)."},
 {"property": "C91", "status": "proved", "theorems": ["C91_conserved", "C91_inside", "C91_runs", "C91_on_grid_needed"], "note": "C91_on_grid_needed shows that the condition on the local grid is needed: a particle beyond the left end of the local grid (possible with a user-defined exchange_period) is sent to the right neighbour."},
 {"property": "C92", "status": "partial", "theorems": ["C92_as_in_space", "C92_same_fields", "C92_effect", "C92_current", "C92_pml_exact", "C92_pml_refuted"], "note": "REFUTED for radial PML: for modes m >= 1 the fields in space that the particles feel are not the inverse transforms of the spectral fields (C92_pml_refuted), since the step does not transform back after the radial damping and the transform of these modes is a projection. Proved: everything without PML, and with PML for modes whose matrices are inverted exactly. Exact arithmetic."},
 {"property": "C93", "status": "partial", "theorems": ["C93_first", "C93_effect", "C93_sides", "C93_direction", "C93_energy", "C93_guard", "C93_beyond_refuted", "C93_small_refuted"], "note": "REFUTED: the number returned is the first distance below 1e-16, not the last one: with 4 cells and c dt < dz the response is above 1/32 farther away (C93_beyond_refuted); on grids of 1 or 2 cells the creation raises IndexError even when no guard cell is needed (C93_small_refuted). Proved: what the number is, both directions of the frame, and that fields beyond it have no effect whenever the response stays below 1e-16 farther away."},
 {"property": "C94", "status": "partial", "theorems": ["C94_extent", "C94_own_grids", "C94_values", "C94_nothing_lost", "C94_particles_refuted"], "note": "Grids: proved in full. REFUTED for species: gather_ptcl always raises AttributeError on the root, because it reads attributes that neither object has (C94_particles_refuted)."},
 {"property": "C95", "status": "partial", "theorems": ["C95_sees", "C95_contiguous", "C95_compiled_once", "C95_external_field", "C95_layout_refuted", "C95_integer_amplitude_refuted"], "note": "Proved when arrays with the same types always have the same layout (in particular all C-contiguous) and the hashes of the types do not collide. REFUTED otherwise: the layout is not part of the key (C95_layout_refuted), and the explicitly specialized kernel of an external field reads the bits of an integer amplitude as a float (C95_integer_amplitude_refuted)."},
 {"property": "C96", "status": "partial", "theorems": ["C96_no_window_partial", "C96_created", "C96_loop_partial", "C96_period_one_partial", "C96_density_diagnostic_refuted", "C96_window_no_guard_refuted"], "note": "REFUTED: on GPU with a moving window, the density written by ParticleChargeDensityDiagnostic at an iteration without particle exchange uses the order of the particles on the grid before the window moved (off by the cells moved); with an explicit n_guard=0 and a moving window the depositions of the loop are wrong too. Proved: all depositions without moving window; all the depositions of the loop with guard cells, from any state; also those of the diagnostics if exchange_period is 1."},
 {"property": "C97", "status": "partial", "theorems": ["C97_which_partial", "C97_same_partial", "C97_loop_partial", "C97_weights_refuted", "C97_edge_refuted"], "note": "REFUTED: on GPU the weight written for an ionizable species is weight times ionization level (w_times_level), so neutral atoms get weight 0, whereas the CPU writes the weight; and a particle in the last half cell of the box (possible with periodic boundaries) is missed on GPU because its cell index wraps to the first row. Proved: otherwise same particles and same data up to order, at every diagnostic call of the loop (n_guard > 0)."},
 {"property": "C98", "status": "partial", "theorems": ["C98_gpu_partial", "C98_value_partial", "C98_linear_partial", "C98_lab_frame", "C98_last_refuted"], "note": "REFUTED: without a row after the physical domain (comm=None, the default, or no guard cells) a plane in the last half cell makes the diagnostic raise an IndexError (C98_last_refuted). Proved with a row after the plane: GPU slice = CPU slice for every thread order (C98_gpu_partial), value at every angle (C98_value_partial), exactness on linear fields on both (C98_linear_partial); the transform to the lab frame commutes with the reconstruction (C98_lab_frame, no restriction)."},
 {"property": "C99", "status": "proved", "theorems": ["C99_gather", "C99_push_p", "C99_push_x", "C99_backends", "C99_alone", "C99_executions"], "note": "Every interleaving of the statements of the threads, on GPU and CPU, gives each particle the single-particle result of Gather_Model and Push_Model; exact arithmetic, sequentially consistent memory."}
]}
