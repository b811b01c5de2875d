{"id": "C01", "title": "Configuration is last-writer-wins over the defaults", "statement": "After any sequence of set/update calls on a configuration built over the defaults, reading an option returns the string form of the last value written to it (with geometry 'circ' read back as '2d'), an option never written reads as its default, an unknown option reads as the caller's fallback, and writing one option never changes another. [Deviations proved of this commit: A copy keeps every option; the copy of a configuration set to the GPU falls back to the CPU array library.]", "quantifier": "every initial dictionary, every finite history of set/update calls, every option name and value", "why_tests_cant": "histories of set/update calls are unbounded; tests sample a few", "anchors": ["lcode/config/config.py:Config.__init__,get,set,update,adjust_config_values_on_set,__copy__"]}
{"id": "C02", "title": "factorize returns the prime factorisation", "statement": "For every integer n >= 2 factorize(n) is the ascending list of primes (with multiplicity) whose product is n; for n <= 1 it is empty; it always terminates.", "quantifier": "every integer", "why_tests_cant": "infinite input domain", "anchors": ["lcode/config/config.py:factorize"]}
{"id": "C03", "title": "good_size accepts exactly the FFT-friendly odd sizes", "statement": "good_size(n) holds exactly when n is odd and n-1 (for n>=2) is a product of 2,3,5,7 and at most one 11 or 13.", "quantifier": "every integer n", "why_tests_cant": "infinite input domain", "anchors": ["lcode/config/config.py:good_size"]}
{"id": "C04", "title": "3D window adjustment picks the nearest FFT-friendly grid and keeps the cell size", "statement": "When the 3D adjustment succeeds the number of window steps it stores is an FFT-friendly odd number, no other FFT-friendly number is closer to the requested width/step, and width = steps * transverse step exactly; when no friendly number lies within the search range an exception is raised rather than a wrong grid being stored.", "quantifier": "every window width and transverse step", "why_tests_cant": "infinite domain of real widths/steps", "anchors": ["lcode/config/config.py:Config.adjust_window_width_and_steps_3d,_adjust_config_values_3d"]}
{"id": "C05", "title": "3D window adjustment never fails on practical grids, but is not total", "statement": "For every estimate from 0 to 18301 cells the search finds a friendly size (so no exception), and 18302 is the first estimate for which it raises.", "quantifier": "every integer estimate in the stated range; existence outside it", "why_tests_cant": "needs exhaustive argument over the range plus a far counterexample", "anchors": ["lcode/config/config.py:Config.adjust_window_width_and_steps_3d"]}
{"id": "C06", "title": "Each time step is computed exactly once, by one process, at the right time", "statement": "With P processes and S requested steps, the union over processes of the steps they run is exactly 0..S-1, each once, process r runs the steps congruent to r modulo P in increasing order, each step g is run with current time (g+1)*time-step, and exactly one process sees each 'final step' flag.", "quantifier": "every P >= 1, every S, every rank", "why_tests_cant": "unbounded P and S", "anchors": ["lcode/mpi/transport.py:MPITransport", "lcode/simulation.py:Simulation.step"]}
{"id": "C07", "title": "MPI messages match and the pipeline never deadlocks", "statement": "For every number of processes, steps and layers and every interleaving of process progress, every receive is matched by a send carrying the layer of the previous time step that the receiver expects, no message is left over, and the system of blocking sends/receives (even if each send blocks until received) always can make progress until every process has finished.", "quantifier": "every P, S, layer count L and every schedule", "why_tests_cant": "schedules are exponentially many and P,S,L unbounded", "anchors": ["lcode/mpi/beam_io.py:MPIBeamTransport.push,pull,next_step", "lcode/mpi/transport.py:send,recv", "lcode/push_solvers/push_solver.py:step_dt"]}
{"id": "C08", "title": "A multi-process run computes the same beam history as a single-process run", "statement": "For every number of processes, the beam each time step consumes and the final beam drained at the last step are the ones the single-process run produces (up to the order of particles inside a layer), provided every drained particle lies in the layer it is drained from. [Deviations proved of this commit: That proviso fails for the 2D pusher in a strong accelerating field, and for the 3D CPU pusher already for a particle at rest that crosses a layer boundary: with two processes it is then one layer ahead of where a single process has it.]", "quantifier": "every P, S, L, beam and per-step push function", "why_tests_cant": "unbounded state and histories", "anchors": ["lcode/mpi/beam_io.py", "lcode/simulation.py", "lcode/push_solvers/push_solver.py"]}
{"id": "C09", "title": "Stepping in two calls equals stepping once", "statement": "step(n) followed by step(m) leaves the simulation with the same beam and current time as step(n+m). [Deviations proved of this commit: On this commit this is false: the second call restarts the clock, and what it does instead is stated.]", "quantifier": "every n, m and beam", "why_tests_cant": "histories of calls", "anchors": ["lcode/simulation.py:Simulation.step", "lcode/mpi/beam_io.py:MPIBeamTransport.next_step"]}
{"id": "C10", "title": "2D beam source delivers every in-window particle exactly once, in its layer", "statement": "Calling get_beam_slice on consecutive layers, a beam with no particle ahead of the first layer is delivered in order of decreasing xi, each particle in exactly one slice whose [xi_min, xi_max] contains its xi; nothing is duplicated, and only particles behind the last layer remain undelivered.", "quantifier": "every beam, layer width and layer count", "why_tests_cant": "unbounded beams; boundary coincidences", "anchors": ["lcode/beam/beam_io.py:find_sub_slice,MemoryBeamSource"]}
{"id": "C11", "title": "2D beam source: a particle ahead of the window does not block the rest", "statement": "Particles lying inside later layers are still delivered when some particle lies ahead of the first requested layer. [Deviations proved of this commit: On this commit this is false: one particle ahead of the first layer makes every request empty.]", "quantifier": "every beam", "why_tests_cant": "requires reasoning over all later requests", "anchors": ["lcode/beam/beam_io.py:find_sub_slice"]}
{"id": "C12", "title": "2D splitting of a moved layer is an exact partition", "statement": "Splitting a beam layer returns lost, finished and still-moving particles whose union is a permutation of the input with all per-particle attributes kept together; lost are exactly those flagged, finished exactly the unflagged with no steps remaining and xi not behind the layer boundary.", "quantifier": "every layer of particles and every order argsort may return", "why_tests_cant": "unbounded arrays; unstable sort order", "anchors": ["lcode/beam/beam_calculate.py:BeamCalculator2D.split_beam_slice", "lcode/beam/data.py:get_subslice"]}
{"id": "C13", "title": "No beam particle is created, duplicated or silently dropped in a time step (2D)", "statement": "Over one time step every particle handed out by the source ends in exactly one of: drained for the next time step, lost at the wall, or still in the unfinished tail of the window when the loop ends; identity, charge and charge-to-mass ratio are unchanged.", "quantifier": "every beam, fields and layer count", "why_tests_cant": "unbounded loop over layers", "anchors": ["lcode/push_solvers/push_solver.py:PusherAndSolver.step_dt", "lcode/beam/beam_calculate.py"]}
{"id": "C14", "title": "2D beam substepping splits the time step exactly", "statement": "A particle's substep is time_step/2^k with k the least natural number for which 2^-k does not exceed sqrt(sqrt(1/q_m^2+p_z^2)/energy); the number of substeps times the substep is exactly the time step, so every drained particle has been advanced exactly one time step.", "quantifier": "every q_m, p_z, positive energy and time step", "why_tests_cant": "real-valued domain", "anchors": ["lcode/beam/beam_calculate.py:beam_substepping_step,init_substepping"]}
{"id": "C15", "title": "2D beam pusher: particles never drained outside the wall or past their layer", "statement": "The pusher always terminates, executes at most the remaining number of substeps, a particle not flagged lost that moved has r < max(0.9R, R-1), is advanced only by substeps whose midpoint is inside the layer, and in a field-free region with no magnetic field keeps its momentum and angular momentum and moves in a straight line.", "quantifier": "every particle, field arrays and layer index", "why_tests_cant": "real-valued state; unbounded substeps", "anchors": ["lcode/beam/beam_calculate.py:configure_beam_pusher.push_particles,vec_to_beam,beam_to_vec"]}
{"id": "C16", "title": "2D beam deposition conserves charge and is a convex combination inside the layer", "statement": "Bilinear weights sum to one, are nonnegative for a particle inside its layer, reproduce position (first moments in r and xi), and the total weighted charge written to the two layers equals the deposited charge; a particle's charge goes entirely to a layer when it lies exactly on it.", "quantifier": "every set of particles on the grid", "why_tests_cant": "real-valued positions, unbounded count", "anchors": ["lcode/beam/weights.py:beam_particle_weights,deposit_particles,interpolate_particle", "lcode/beam/beam_calculate.py:layout_beam_layer"]}
{"id": "C17", "title": "Saved beams can be loaded back unchanged", "statement": "Loading a beam file written by the drain's save returns the same particles. [Deviations proved of this commit: True in 3D; in 2D the file's column names are not those the loader reads, so loading fails.]", "quantifier": "every beam, in 2D and in 3D", "why_tests_cant": "every beam content", "anchors": ["lcode/beam/beam_io.py:MemoryBeamDrain.save", "lcode/beam/data.py:BeamParticles.load", "lcode/beam3d/data.py:BeamParticles.save,load"]}
{"id": "C18", "title": "3D beam source delivers every in-window particle exactly once, in its layer", "statement": "Requesting consecutive layers from a 3D beam with nothing ahead of the first layer hands out each particle once, in the layer containing its xi; with a particle ahead of the window particles are delivered in wrong layers.", "quantifier": "every beam and layer count", "why_tests_cant": "unbounded beams", "anchors": ["lcode/beam3d/beam_io.py:BeamSource.get_beam_layer_to_layout", "lcode/beam3d/data.py"]}
{"id": "C19", "title": "3D beam mover partitions particles into lost, moved and fallen", "statement": "After moving a layer every particle is in exactly one of lost, moved and fell-to-next-layer, and moved particles have completed their time step and lie in front of the layer end. [Deviations proved of this commit: On this commit the three sets cover the particles but overlap: on the GPU lost particles are drained, on the CPU finished ones can be withheld.]", "quantifier": "every layer, field and position", "why_tests_cant": "real-valued positions", "anchors": ["lcode/beam3d/move.py", "lcode/beam3d/beam_calculator.py:BeamCalculator.move_beam_layer"]}
{"id": "C20", "title": "3D beam deposition conserves charge and assigns it to the right layers", "statement": "Deposition weights sum to one; the nearer plasma layer receives the larger share and a particle exactly on a layer deposits only on it. [Deviations proved of this commit: On this commit the longitudinal share is mirrored: a particle on the far layer leaves its charge on the near one; the exact mirrored weights are stated.]", "quantifier": "every particle position in a layer", "why_tests_cant": "real-valued positions", "anchors": ["lcode/beam3d/weights.py", "lcode/beam3d/beam_calculator.py:layout_beam_layer"]}
{"id": "C21", "title": "3D beam field interpolation interpolates between the enclosing layers", "statement": "The field used for a particle between two plasma layers is the convex combination of the two layers' fields that equals each layer's field at that layer. [Deviations proved of this commit: On this commit the longitudinal interpolation is taken one layer back (extrapolation); its exact form is stated, and the transverse part is exact.]", "quantifier": "every particle position in a layer and any field values", "why_tests_cant": "real-valued domain", "anchors": ["lcode/beam3d/move.py", "lcode/beam3d/weights.py:interpolate"]}
{"id": "C22", "title": "Tridiagonal sweep solves its linear system", "statement": "For every right-hand side and nonnegative factor the sweep never divides by zero and returns the vector satisfying every row of the discretised radial equation including both boundary rows; the solution is unique.", "quantifier": "every grid size >= 2, right-hand side, factor", "why_tests_cant": "real-valued unbounded-size systems", "anchors": ["lcode/plasma/ode.py:tridiagonal_solve", "lcode/plasma/fields.py"]}
{"id": "C23", "title": "Cumulative trapezoid integrates exactly and backward differences invert it", "statement": "cumtrapz returns at each node the trapezoid integral from the chosen end (0 there), its consecutive differences are the trapezoid panels, it is linear in the integrand and exact for affine integrands.", "quantifier": "every array and step", "why_tests_cant": "unbounded arrays", "anchors": ["lcode/plasma/ode.py:cumtrapz_numba"]}
{"id": "C24", "title": "2D fields satisfy their boundary conditions and discrete equations", "statement": "E_z and E_phi vanish at the wall/axis as required, E_r and B_phi vanish on the axis, B_z has zero total magnetic flux up to the background field, and each field satisfies the discrete equation the code claims to solve.", "quantifier": "every current/density array", "why_tests_cant": "real-valued arrays of every length", "anchors": ["lcode/plasma/fields.py"]}
{"id": "C25", "title": "2D plasma deposition conserves charge", "statement": "Summed over the grid the deposited charge density minus longitudinal current equals the total particle charge (quasi-static identity), cell shape weights sum to one and are nonnegative, and nothing is left in the wall cell. [Deviations proved of this commit: Grids whose window ends between half a cell and a cell after the last node let the initial plasma write past the arrays.]", "quantifier": "every particle ensemble inside the grid", "why_tests_cant": "unbounded ensembles", "anchors": ["lcode/plasma/rhoj.py"]}
{"id": "C26", "title": "2D plasma mover keeps every particle inside the window", "statement": "After a move every particle has 0 <= r <= max radius, its charge and mass are unchanged unless it is absorbed (charge set to zero), and absorbed particles never move again.", "quantifier": "every particle, field and step", "why_tests_cant": "real-valued domain, unbounded histories", "anchors": ["lcode/plasma/move.py"]}
{"id": "C27", "title": "2D plasma particle substepping advances each particle by exactly one xi-step", "statement": "The adaptive substep loop terminates, every accepted substep moves less than one cell or is at the minimum step, substeps are dyadic fractions of the xi-step and sum to exactly the xi-step unless the particle was absorbed.", "quantifier": "every particle and field history", "why_tests_cant": "adaptive loops over reals", "anchors": ["lcode/plasma/move.py"]}
{"id": "C28", "title": "Plasma layer substepping covers the xi-step exactly and terminates", "statement": "Whatever the noise detector answers, the solver's nested substepping terminates, the accepted sub-intervals tile the xi-step exactly in order and each is xi_step/10^k with k at most the configured depth. [Deviations proved of this commit: With a trapped-path limit set the layer raises instead.]", "quantifier": "every noise history, every depth", "why_tests_cant": "adversarial oracle histories", "anchors": ["lcode/plasma/solver.py"]}
{"id": "C29", "title": "2D initial plasma is neutral and fills the window", "statement": "The initial plasma places particles at cell-fraction centres inside the window with weights equal to the annulus areas; with mobile ions each electron has an ion of opposite charge at its position, with background ions the ion density cancels the deposited electron density. [Deviations proved of this commit: The density is exact away from the wall (and near the axis for an even number of particles per cell) but not at the wall, nor on the axis for an odd number; and declustering disturbs the initial plasma.]", "quantifier": "every window width, step, particles per cell", "why_tests_cant": "unbounded parameters", "anchors": ["lcode/plasma/initialization.py"]}
{"id": "C30", "title": "3D plasma mover absorbs particles at the wall", "statement": "After a 3D plasma move every particle with nonzero charge lies strictly inside the reflecting/absorbing boundary, absorbed particles get zero charge and momentum and stay absorbed. [Deviations proved of this commit: A half-way point farther out than five half-widths is not brought back inside.]", "quantifier": "every particle and field", "why_tests_cant": "real-valued domain", "anchors": ["lcode/plasma3d/move.py"]}
{"id": "C31", "title": "3D shape functions form a partition of unity and deposition conserves charge", "statement": "The 5x5 (and 3x3) shape weights are nonnegative, sum to one, have zero first moment about the particle, and total rho - j_z deposited equals total particle charge.", "quantifier": "every offset in the cell, every ensemble", "why_tests_cant": "real-valued positions", "anchors": ["lcode/plasma3d/weights.py", "lcode/beam3d/weights.py"]}
{"id": "C32", "title": "3D transverse solvers satisfy the discrete Poisson problems", "statement": "The spectral Dirichlet solve returns the field whose five-point Laplacian is minus the source in the interior and zero on the boundary.", "quantifier": "every odd/even grid size and source", "why_tests_cant": "real arrays of any size", "anchors": ["lcode/plasma3d/fields.py", "lcode/plasma3d/initialization.py:dirichlet_matrix"]}
{"id": "C33", "title": "Diagnostics are produced once per output period", "statement": "With the stored output period (never smaller than the time step) every multiple of the period reached by the run has an output step within half a time step, and with period at most the time step every step is output. [Deviations proved of this commit: At exact ties two steps are output for one multiple; elsewhere exactly one is.]", "quantifier": "every time step, period and step index", "why_tests_cant": "unbounded time horizon, reals", "anchors": ["lcode/diagnostics/utils.py", "lcode/diagnostics/FXi/FXi.py", "lcode/diagnostics/slice.py"]}
{"id": "C34", "title": "Diagnostics accept every documented quantity", "statement": "Each quantity name listed as allowed by a diagnostic is accepted and recorded, any other name is rejected at construction. [Deviations proved of this commit: On this commit a missing comma refuses 'ni' and 'rho_beam' and accepts 'nirho_beam', and in 2D some accepted names raise when recorded.]", "quantifier": "every option string", "why_tests_cant": "string domain", "anchors": ["lcode/diagnostics/diagnostics_3d.py:DiagnosticsFXi"]}
{"id": "C35", "title": "Beam generator produces a consistent beam", "statement": "Generated particles have distinct ids 1..n and come in decreasing order of layers; every particle lies in the half-open layer of one xi-step that produced it, inside the beam; each layer's charge is the beam current at its middle times the step, to within rounding to whole particles; generation succeeds for every beam description. [Deviations proved of this commit: Generation fails when the middle of a layer is a segment boundary, and the last layer may overhang the end of the beam.]", "quantifier": "every beam description, every random draw", "why_tests_cant": "random draws unbounded", "anchors": ["lcode/alt_beam_generator/beam_generator.py"]}
{"id": "C36", "title": "Beam shape covers the whole beam length", "statement": "The total length is the sum of segment lengths, each xi inside the beam belongs to exactly one segment and the current and parameters there are that segment's; outside the beam there is no current; longitudinal shapes run between 0 and 1. [Deviations proved of this commit: On this commit the segment boundaries themselves belong to no segment.]", "quantifier": "every list of segments and every xi including segment boundaries", "why_tests_cant": "boundary coincidences", "anchors": ["lcode/alt_beam_generator/beam_shape.py"]}
{"id": "C37", "title": "Generated transverse radii respect the cut-off", "statement": "For every uniform draw the generated radius is nonnegative and below the cut-off radius, the mapping from draws to radii is the inverse distribution function of the Gaussian, and the generated particles lie inside the simulation window. [Deviations proved of this commit: A beam shifted off axis is cut at the unshifted window, so it can leave the window.]", "quantifier": "every random draw and parameters", "why_tests_cant": "continuous domain", "anchors": ["lcode/alt_beam_generator/rshape.py"]}
{"id": "C38", "title": "Longitudinal plasma profile is the piecewise-linear interpolation of the user's table", "statement": "The density coefficient at any time equals linear interpolation between the segment ends, is continuous inside segments, and times outside the table give the documented constants; the table written to the configuration file is read back as the same table. [Deviations proved of this commit: The written table is lower-cased, so it is not read back as the same table.]", "quantifier": "every table and time", "why_tests_cant": "real times", "anchors": ["lcode/plasma3d/profile.py:_get_zshape_coef"]}
{"id": "C39", "title": "Radial plasma profiles give the documented density at every particle", "statement": "Each predefined radial profile (uniform, stepwise, gaussian, parabolic and hollow channels) multiplies the charge and mass of each particle by the documented function of its distance from the axis, joined continuously, never negative. [Deviations proved of this commit: On this commit the outermost particle of a stepwise profile keeps density 1, an empty ramp raises, and the channel's ramp is wrong and can be negative.]", "quantifier": "every parameter choice", "why_tests_cant": "real parameters", "anchors": ["lcode/plasma3d/profile.py"]}
{"id": "C40", "title": "Declustering noise filter conserves momentum and is bounded", "statement": "The correction added to the momenta sums to zero over every period of the particle grid and the damping factor lies in [0,1]. [Deviations proved of this commit: With damping on, the sum changes by an exactly stated amount, and absorbed particles take part.]", "quantifier": "every particle arrangement", "why_tests_cant": "unbounded arrays", "anchors": ["lcode/plasma3d/noise_filter.py"]}
{"id": "C41", "title": "The MPI datatype transfers exactly the record's bytes", "statement": "The MPI datatype built for any nested record type maps each leaf field at its numpy offset with the right primitive type and has the record's size as extent, so a round trip through a message restores every field.", "quantifier": "every nested record dtype", "why_tests_cant": "recursive type domain", "anchors": ["lcode/mpi/util.py:mpi_type_from_dtype"]}
{"id": "C42", "title": "Coarse/fine plasma interpolation preserves totals", "statement": "In the dual-plasma approach each fine particle's weights on its coarse neighbours sum to one in each direction so a uniform coarse displacement gives the same fine displacement and total charge is that of the coarse plasma. [Deviations proved of this commit: The total charge is not the coarse plasma's; the fine plasma's is that of the single-grid plasma.]", "quantifier": "every grid and fineness ratio", "why_tests_cant": "unbounded grids", "anchors": ["lcode/plasma3d/initialization.py:make_plasma_dual", "lcode/plasma3d/weights.py"]}
{"id": "C43", "title": "Geometry is recognised in any letter case", "statement": "A geometry accepted by the simulation as 3D is prepared as 3D (window widened, friendly grid chosen, fineness set) whatever its letter case. [Deviations proved of this commit: On this commit '3D' in capitals is simulated as 3D but not prepared as 3D.]", "quantifier": "every spelling of the option", "why_tests_cant": "string domain", "anchors": ["lcode/simulation.py:__pull_config", "lcode/config/config.py:_adjust_config_values_3d"]}
{"id": "C44", "title": "3D plasma fineness is the nearest integer (or integer fraction)", "statement": "The 3D adjustment sets fineness to the integer nearest to sqrt(particles per cell) and particles per cell to its square; below one it uses the nearest 1/m and 1/m^2.", "quantifier": "every particles-per-cell value", "why_tests_cant": "infinite domain", "anchors": ["lcode/config/config.py:adjust_plasma_fineness"]}
{"id": "C45", "title": "A static magnetic field does not change a beam particle's energy", "statement": "When no electric field acts, completed substeps of the beam pusher leave the particle's momentum magnitude (and Lorentz factor) unchanged. [Deviations proved of this commit: True of the GPU pusher; the CPU 3D and the 2D pushers heat the particle by an exactly stated amount.]", "quantifier": "every magnetic field, particle and number of substeps", "why_tests_cant": "real-valued state, unbounded step counts", "anchors": ["lcode/beam3d/move.py", "lcode/beam/beam_calculate.py"]}
{"id": "C46", "title": "The Higuera-Cary rotation uses the Lorentz factor of its own midpoint", "statement": "The GPU beam pusher's magnetic rotation is the implicit-midpoint rotation whose relativistic factor equals that of the mean of the momenta before and after the rotation. [Deviations proved of this commit: True when |q/m| = 1; otherwise the defect is stated exactly.]", "quantifier": "every field, momentum and charge-to-mass ratio", "why_tests_cant": "real-valued state", "anchors": ["lcode/beam3d/move.py:get_move_beam_particles_kernel_cupy"]}
{"id": "C47", "title": "Without a beam the 3D plasma stays exactly as created", "statement": "With zero beam density, after any number of layers every plasma particle is where it was created, at rest, and all fields, charge densities and currents are zero, for any density profile, with and without mobile ions and the noise filter.", "quantifier": "every grid, profile, ion model, number of layers", "why_tests_cant": "any number of layers, all sizes", "anchors": ["lcode/plasma3d/solver.py", "lcode/plasma3d/initialization.py", "lcode/plasma3d/fields.py", "lcode/plasma3d/move.py", "lcode/plasma3d/noise_filter.py"]}
{"id": "C48", "title": "The created 3D plasma has exactly the requested density", "statement": "In every cell at least three cells from the plasma edge the deposited electron density of the created plasma equals minus the profile's value (locally constant), for every fineness, and ions cancel it exactly in every cell.", "quantifier": "every fineness, grid step, window, profile and cell", "why_tests_cant": "all finenesses and cells", "anchors": ["lcode/plasma3d/initialization.py:make_plasma_single", "lcode/plasma3d/weights.py"]}
{"id": "C49", "title": "Each diagnostics file holds exactly its own step's layers", "statement": "One file is written per output step (the steps due and the first step of rank 0); it contains, in order, the layers of that step that lie in the requested range and of no other step, with one value per layer for each requested quantity and nothing for others; particle files appear exactly at output steps and snapshots exactly at due times and layers. [Deviations proved of this commit: X_Y slices check the period once more, so the first file can be empty.]", "quantifier": "every run: any number of steps and layers, any period, any combination of quantities, any rank", "why_tests_cant": "history dependence over unbounded runs", "anchors": ["lcode/diagnostics/FXi/FXi.py:FXiDiag", "lcode/diagnostics/slice.py:SliceDiag", "lcode/diagnostics/particles.py:ParticlesDiag"]}
{"id": "C50", "title": "Diagnostics sample the place the user asked for", "statement": "Probe lines are read at the cell whose centre is nearest; slices contain exactly the cells whose centres are within the limits (up to half a cell), along the grid line at the offset, and the stored coordinates are the centres of those cells; by default the whole window is stored. [Deviations proved of this commit: Exceptions, each stated: a probe outside on the negative side wraps, the slice line is the floor not the nearest, an offset outside raises, default slices miss the last cells, in 2D a radius beyond the window raises, and an X_Y slice with different numbers of cells in x and y raises.]", "quantifier": "every grid, window, limits, offset and probe position", "why_tests_cant": "real positions and rounding ties", "anchors": ["lcode/diagnostics/slice.py", "lcode/diagnostics/FXi/Strategy3D.py", "lcode/diagnostics/FXi/StrategyCircular.py"]}
{"id": "C51", "title": "Outputs of different steps go to different files", "statement": "Two different time steps of a run never write to the same file, and two diagnostics do not overwrite each other. [Deviations proved of this commit: Fails for time steps below a hundredth, and for two slices of different planes in one directory.]", "quantifier": "every time step size and pair of steps", "why_tests_cant": "real times, unbounded run", "anchors": ["lcode/diagnostics/FXi/FXi.py:dump", "lcode/diagnostics/slice.py:dump"]}
{"id": "C52", "title": "The recorded energy flux is nonnegative and vanishes only for a quiet plasma", "statement": "The Sf diagnostic is never negative, and is zero exactly when no electron moves and the fields carry no flux; the recorded chaotic displacement is the largest absolute value, over the whole plasma or over its rows and columns from a sixth to five sixths.", "quantifier": "every plasma state and grid", "why_tests_cant": "real-valued state of any size", "anchors": ["lcode/diagnostics/FXi/Strategy3D.py:calculate_energy_fluxes"]}
{"id": "C53", "title": "Every beam particle has the attributes of its segment", "statement": "Each generated particle's momentum, spread, emittance, charge-to-mass ratio and charge are drawn with the parameters of the segment its xi lies in; the particle charge has the sign of the segment's current and |charge| is the same for all particles. [Deviations proved of this commit: The sign of the charge does not follow a segment with negative amplitude.]", "quantifier": "every list of segments, every random draw", "why_tests_cant": "unbounded segment lists and draws", "anchors": ["lcode/alt_beam_generator/beam_generator.py", "lcode/alt_beam_generator/beam_segment_shape.py"]}
{"id": "C54", "title": "The beam description dictionary means what it says", "statement": "Each segment of the description gets its own values, falling back to the description's defaults and then to the built-in ones; shapes are recognised by their documented names; an unknown parameter name is rejected. [Deviations proved of this commit: A misspelt parameter inside a segment is ignored silently.]", "quantifier": "every description dictionary", "why_tests_cant": "unbounded dictionaries, string domain", "anchors": ["lcode/alt_beam_generator/beam_generator.py:generate_beam", "lcode/alt_beam_generator/beam_shape.py"]}
{"id": "C55", "title": "The plasma profile scales charge and mass together", "statement": "Applying a longitudinal and radial profile multiplies each particle's charge and mass by the same nonnegative number, so the charge-to-mass ratio is unchanged; where a table of radial profiles is given, the one whose time interval contains the layer's time is in force.", "quantifier": "every particle, table, time", "why_tests_cant": "real-valued data of any size", "anchors": ["lcode/plasma3d/profile.py"]}
{"id": "C56", "title": "Beam particles move under the Lorentz force", "statement": "In each substep the momentum of a beam particle changes by charge times substep times (E + v x B), with the fields interpolated at the place reached after half a substep and the configured external longitudinal magnetic field included (2D); it is displaced by substep times the velocity of the mean momentum (2D and 3D CPU) or by half a substep at the old and half at the new velocity (3D GPU), relative to a window moving with the speed of light. In 2D without external field the angular momentum is constant. On the GPU the force is taken at the mean momentum.", "quantifier": "every particle (position, momentum, charge-to-mass ratio), every pair of field layers, every grid and substep, both geometries and processors", "why_tests_cant": "real-valued positions, momenta and fields", "anchors": ["lcode/beam/beam_calculate.py:push_particles", "lcode/beam/weights.py", "lcode/beam3d/move.py"]}
{"id": "C57", "title": "The wake is causal and does not depend on how the beam is listed", "statement": "The beam density, the plasma and its fields in a layer, and the motion of the beam particles there during a time step, depend only on the beam particles ahead of the end of that layer, and not on the order in which the particles are listed.", "quantifier": "every plasma solver, every pair of beams that agree ahead of a layer, every layer, both geometries", "why_tests_cant": "unbounded beams, real positions, every listing order", "anchors": ["lcode/push_solvers/push_solver.py", "lcode/beam/beam_io.py", "lcode/beam3d/beam_io.py", "lcode/beam/beam_calculate.py"]}
{"id": "C58", "title": "The two transverse axes are alike", "statement": "In 3D, exchanging x and y in the beam, in the plasma and in its density profile exchanges x and y in everything that comes out (fields, currents, densities, plasma particles, lost and drained beam particles); a beam and plasma that are the same with x and y exchanged make such a wake. [Deviations proved of this commit: The 3D CPU mover tests x in place of xi, so there the time step is not symmetric; the GPU one and the plasma are.]", "quantifier": "every grid, plasma state, beam, number of layers, both processors", "why_tests_cant": "real-valued states of any size, whole runs", "anchors": ["lcode/plasma3d/solver.py:step_dxi", "lcode/plasma3d/fields.py", "lcode/plasma3d/move.py", "lcode/plasma3d/weights.py", "lcode/plasma3d/noise_filter.py", "lcode/beam3d/move.py", "lcode/beam3d/weights.py", "lcode/push_solvers/push_solver.py"]}
{"id": "C59", "title": "Beam and plasma are coupled layer by layer", "statement": "During a time step the plasma of layer k is computed from the plasma of the layer ahead, the density of the charge clouds of the given beam in layer k and that of the layer ahead, whatever the order in which the beam lists its particles; a beam particle that starts in layer k gets its substep once and makes its substeps in the fields the plasma has at the two ends of each layer it passes through, going to the next layer when the middle of the next substep lies there, and is delivered after exactly one time step.", "quantifier": "all beams, all plasma solvers, all numbers of layers and starting layers, 2D and 3D (CPU and GPU), all field values", "why_tests_cant": "a wrong pairing of layers and fields (off by one layer, stale density, fields of the wrong side) gives plausible results on any single test; the statement is about every particle on every path through the layers", "anchors": ["lcode/push_solvers/push_solver.py:PusherAndSolver.step_dt", "lcode/push_solvers/push_solver.py:PusherAndSolver3D.step_dt", "lcode/beam/beam_calculate.py:BeamCalculator2D", "lcode/beam3d/beam_calculator.py:BeamCalculator"]}
{"id": "C60", "title": "A 3D plasma layer is one predictor-corrector step of the plasma equations", "statement": "One call of the 3D plasma solver takes the particles of the previous layer, guesses their arrival by free flight, pushes them from their old place in the previous fields, solves the field equations with the charge and current they carry there, pushes them again from the start in the fields half way, solves again, pushes a third time, smooths the momenta if the noise filter is on, and returns those particles, the fields of the second solve and the charge and currents of the returned particles. This determines the result completely.", "quantifier": "all grids, plasma states whose charged particles are between the walls and fly less than two window widths per layer, all beam densities, mobile or immobile ions, noise filter on or off", "why_tests_cant": "skipping or reordering a corrector pass, using stale fields or returning the currents of an earlier pass changes results by small amounts that no test with a tolerance can tell from a legitimate result", "anchors": ["lcode/plasma3d/solver.py:Plane2d3vPlasmaSolver.step_dxi", "lcode/plasma3d/move.py", "lcode/plasma3d/fields.py", "lcode/plasma3d/rhoj.py", "lcode/plasma3d/noise_filter.py"]}
{"id": "C61", "title": "A rigid beam drives the plasma with the density that was given", "statement": "With rigid-beam on, one time step is made whatever the number of steps asked for (by rank 0 alone), and in it the plasma of layer k is computed from the given distribution at xi = -k xi-step and from that of the layer ahead, evaluated at the grid nodes with x along the first array index. [Deviations proved of this commit: On this commit the arrays are transposed: the plasma sees the given density with x and y exchanged, which is right only for densities symmetric in x and y.]", "quantifier": "all distribution functions, grids, numbers of layers, plasma solvers, numbers of processes", "why_tests_cant": "the orientation of the arrays is invisible with the axially symmetric beams used in tests; the claim is about every distribution", "anchors": ["lcode/beam3d/beam_calculator.py:RigidBeamCalculator", "lcode/beam3d/beam_io.py:RigidBeamSource", "lcode/simulation.py:Simulation.step", "lcode/push_solvers/push_solver.py:PusherAndSolver3D.step_dt"]}
{"id": "C62", "title": "A saved plasma state can be loaded and the computation continued from it", "statement": "Loading a plasma file gives exactly the fields, species, currents, ion density and position written in it, and refuses files that lack any of them; the computation then continues with the layer after the stored position, and (with a beam source holding the particles behind and nobody in the two layers before) gives at every later layer the plasma of the uninterrupted computation, in which every beam particle makes the flight it would have made; a plasma saved by the package can be loaded. [Deviations proved of this commit: No file the package writes can be loaded (the loader wants one table per species); and with a beam particle in the layer just before the stop its charge is partly lost.]", "quantifier": "all archives, states, beams, plasma solvers, stopping layers, numbers of layers, both geometries", "why_tests_cant": "archives of any content, and wakes of any length; a test compares one restart with a tolerance", "anchors": ["lcode/plasma3d/initialization.py:load_plasma", "lcode/plasma/initialization.py:load_plasma", "lcode/plasma3d/data.py:Arrays.save", "lcode/simulation.py:Simulation.step", "lcode/push_solvers/push_solver.py:PusherAndSolver.step_dt"]}
{"id": "C63", "title": "A 2D plasma layer is a chain of predictor-corrector steps of the plasma equations", "statement": "One call of the 2D plasma solver covers the layer as follows. A step of length X moves the particles in the old fields (each in substeps halved while it would cross a cell), takes their charge and currents on the nodes, and then, as many times as corrector-steps says, solves the field equations with these and moves the particles again from the start in the average of the new and old fields. If the guess moves more charge than substepping-sensitivity, the step is replaced by ten steps of a tenth, at most substepping-depth times over. This determines particles, fields and currents after the layer uniquely, and particles stay between the axis and the wall.", "quantifier": "all grids whose window ends less than half a cell after the last node, all plasma states between the axis and the wall, all beam densities, background or mobile ions, declustering on or off, all depths, sensitivities and numbers of corrections", "why_tests_cant": "skipping a corrector pass, a stale field, or wrong counting of the nested tenths changes results by small amounts that no test with a tolerance can tell from a legitimate result", "anchors": ["lcode/plasma/solver.py:CylindricalPlasmaSolver.step_dxi", "lcode/plasma/move.py", "lcode/plasma/fields.py", "lcode/plasma/rhoj.py"]}
{"id": "C64", "title": "The 3D plasma and the beam density do not depend on the processing unit", "statement": "From the same state and beam, a run with processing-unit-type gpu gives the same plasma particles, fields, charge and current densities, and the same beam charge density, as one with cpu, up to rounding (equal in exact arithmetic): the FFT-based transforms equal the sine and cosine transforms, the kernels equal the CPU loops, and the order in which the threads' atomic additions happen does not matter.", "quantifier": "all grid sizes, particle states between the walls, beam densities, interleavings of the atomic additions in every launch, numbers of layers", "why_tests_cant": "GPU scheduling is nondeterministic, and no test can run every interleaving or every state; CI has no GPU", "anchors": ["lcode/plasma3d/weights.py:get_deposit_plasma_cupy", "lcode/plasma3d/move.py:get_move_smart_kernel_cupy", "lcode/plasma3d/fields.py", "lcode/plasma3d/noise_filter.py", "lcode/beam3d/weights.py:get_deposit_beam_cupy"]}
{"id": "C65", "title": "The 3D plasma wake does not know left from right", "statement": "Mirroring the transverse plane, x to -x (every beam and plasma particle, the fields and currents with the signs of polar and axial vectors, the density profile), mirrors the whole simulated wake: plasma particles, all field components, charge and current densities and beam density of every layer. A beam that is its own mirror image, in a plasma that is its own mirror image, makes a wake with Ey, Ez, Bx even and Ex, By, Bz odd in x: on the middle line there is no deflecting field and no net current crosses it. [Deviations proved of this commit: The proviso is needed: the right wall is tested first, so a particle that flies past the right wall by more than the window width is reflected twice and kept, and its mirror image is lost.]", "quantifier": "all odd grid sizes, plasma and beam states, profiles, numbers of layers, beams listed in any order; provided no charged particle flies farther than one window width beyond a wall within a layer", "why_tests_cant": "reflections, declustering, boundary copies and transforms all treat the first and last rows by separate code; an off-by-one in one of them spoils the symmetry by amounts that look like noise", "anchors": ["lcode/plasma3d/move.py:_correct_boundary_particles", "lcode/plasma3d/move.py:move_smart_kernel_numba", "lcode/plasma3d/noise_filter.py", "lcode/plasma3d/weights.py", "lcode/plasma3d/fields.py", "lcode/plasma3d/initialization.py:make_plasma_grid", "lcode/beam3d/weights.py:deposit_beam_numba"]}
{"id": "C66", "title": "Counts of cells, layers, steps and output times are right in floating point", "statement": "With options written as decimals, a length of n steps is simulated as n: the number of time steps, of layers and of cells is the written length divided by the written step, although neither is exactly representable. Running again with the settings written to runas.py uses the same grid. The clock, summed in floating point by any number of processes, triggers an output period of k time steps (or a saving period of k layers) at every k-th step (layer) and at no other. [Deviations proved of this commit: The 3D layers are counted right, but int() loses one time step, one 2D layer or one 2D cell for many pairs (0.3 by 0.1; a window of 5.1 with the default step 0.05), never more; in 2D the initial plasma then writes past the arrays. A rerun from runas.py can lose two cells (width 2.26, step 0.01: 451, then 449).]", "quantifier": "all decimal lengths and steps from 2^-900 to 2^900, all n up to 2^48 (grids to 2^40, clocks to 4 million steps), any rank and number of processes, binary64 rounding of every operation", "why_tests_cant": "truncation after a rounded division goes wrong only for particular pairs of decimals, and the error of a summed clock grows with the number of steps; a test tries a few pairs", "anchors": ["lcode/simulation.py:Simulation.step", "lcode/push_solvers/push_solver.py", "lcode/config/config.py:Config.adjust_window_width_and_steps_3d", "lcode/config/config.py:Config.dump", "lcode/plasma/initialization.py:_place_particles", "lcode/diagnostics/utils.py:absremainder"]}
{"id": "C67", "title": "runas.py records the settings of the run", "statement": "Each step() writes a file with the settings of the run, so that it can be repeated: every listed option stands in it exactly once with the value in use, names in quotes, tables row by row, and in 3D the width as the user gave it (half of the stored one, so that running the file again gives the same grid). No other option gets in, and writing fails only for values of the wrong type. [Deviations proved of this commit: A one-word plasma-rshape is never written (the file says uniform whatever the run used), and the developer settings are left out unless the file name contains extra.]", "quantifier": "all configurations whose names and values have no apostrophe or comma, in any dictionary order, both kinds of file, all table texts", "why_tests_cant": "the file is made by a chain of regular-expression substitutions, each over the whole text left by the others: an option name or value that occurs elsewhere corrupts another entry, for particular configurations only", "anchors": ["lcode/config/config.py:Config.dump", "lcode/config/default_config_values.py", "lcode/simulation.py:Simulation.step"]}
{"id": "C68", "title": "The named beam profiles and energy spectra have the shapes their names promise", "statement": "In a beam description, the current of a cos segment is zero at both ends and full in the middle; t and half-cos rise from zero at the head to the full amplitude at the tail, T and b are their mirror images, l is constant, a gaussian is a bell of the given amplitude; each is monotonic where it should be. A monoenergetic spectrum has one energy, uniform fills the interval between the two given energies, linear goes from one to the other along the segment, gaussian has the given mean and spread, and the spectra 2 to 9 have that many equally spaced levels. No other name is accepted, and short names mean the same as long ones. [Deviations proved of this commit: A gaussian segment starts at half the amplitude and only falls; and the spectra 2 to 9 draw one level for a whole layer, not for each particle.]", "quantifier": "all names, segment lengths, positions in the segment, energies, random draws and numbers of particles", "why_tests_cant": "a shape is a function of a real argument, a spectrum a function of the random stream: tests see a few points of them", "anchors": ["lcode/alt_beam_generator/xishape.py", "lcode/alt_beam_generator/eshape.py"]}
{"id": "C69", "title": "Without a beam the 3D plasma stays exactly quiet in floating point", "statement": "In 3D, when there is no beam, the plasma stays exactly as created in binary64 arithmetic (and in any arithmetic that keeps zero, treats signs alike and rounds a rounded number to itself): after every number of layers no particle has an offset or a momentum, all seven field arrays are exactly zero and the electron and ion charges cancel exactly in every cell, so rounding errors cannot seed noise ahead of the beam. The computed initial positions are strictly inside the computed walls and no division by zero occurs.", "quantifier": "all numbers of layers, grid sizes, steps, positions, charges, masses, density profiles, ion models, noise filter settings, and roundings with the three properties", "why_tests_cant": "floating-point noise could appear at any layer for any combination of options; tests look at a few", "anchors": ["lcode/plasma3d/solver.py: Plane2d3vPlasmaSolver.step_dxi", "lcode/plasma3d/weights.py: deposit_plasma_numba", "lcode/plasma3d/move.py: move_smart_kernel_numba", "lcode/plasma3d/initialization.py: init_plasma"]}
{"id": "C70", "title": "Without a beam the 2D plasma stays exactly quiet in floating point", "statement": "In 2D (cylindrical), when there is no beam, a plasma with background ions (or with ions of mass 2^k electron masses) and with the declustering off stays exactly as created in binary64 arithmetic: after every number of layers each particle has its radius, charge and mass and exactly no momentum, all five field arrays are exactly zero, and the electron and ion charge densities cancel exactly on every node. Every particle the program creates falls inside the arrays if the width is a whole number of cells (up to a quarter), and the field solver never divides by zero, whatever the plasma does. [Deviations proved of this commit: With mobile ions of the default mass 1836 it is false: the program deposits q/gamma_m*gamma_m, which rounds differently for an electron and its ion, so the charges do not cancel exactly.]", "quantifier": "all numbers of layers, widths, steps, particles per cell (up to 2^40 in all), density profiles, magnetic fields, substepping settings; for the solver all right-hand sides and densities, up to 2^22 cells", "why_tests_cant": "floating-point noise could appear at any layer for any combination of options; tests look at a few", "anchors": ["lcode/plasma/solver.py", "lcode/plasma/rhoj.py", "lcode/plasma/move.py", "lcode/plasma/ode.py: tridiagonal_solve", "lcode/plasma/initialization.py: init_plasma"]}
{"id": "C71", "title": "The cylindrical density profiles are what their names say", "statement": "lcode.plasma.profiles.get_plasma_profile accepts exactly the five words uniform, stepwise, gaussian, channel, sub-channel and the numbers 1, 2, 3, 5, 6 (fraction dropped) and raises on anything else. place_particles puts the particles into the middles of equal rings that fill the profile's band (whole window, up to plasma-width, from plasma-width on, up to five plasma-widths, or beyond plasma-width-2), the asked number per cell, and weigh_particles gives each the area of its ring times the density of the profile there; for the constant profiles the weights add up to exactly the area of the band; the sub-channel's density is plasma-density-2 inside, 1 outside and linear between. The uniform profile puts the particles exactly where the 2D run puts them. A band narrower than a cell raises. [Deviations proved of this commit: The numbers are not those of plasma-rshape: 3 is the gaussian here and the channel there.]", "quantifier": "all option values, numbers of particles, radii, and texts of the option", "why_tests_cant": "the claims are about every radius, every width and every text of the option; there is no test of the module", "anchors": ["lcode/plasma/profiles.py: get_plasma_profile, UniformPlacedCylindricalProfile.place_particles, weigh_particles of the five classes"]}
{"id": "C72", "title": "The generator for LCODE beam profiles makes the beam of the profile", "statement": "find_beam_profile_pars reads a profile text as exactly its entries name = value, in order and with whole numbers, however they are spaced. make_beam_from_c_beam_profile cuts the profile at every longitudinal shape into segments that follow one another from the head, parameters not given having their defaults; a profile that starts otherwise, is empty or has a bad number raises. Every layer of the window down to the end of the profile belongs to exactly one segment and holds as many particles as the segment's shape (half a cosine, or half a gaussian of a sixth of the length) times the number per layer, rounded down, so its charge is that of the profile to less than one particle. The beam is sorted from head to tail, inside the window, every particle with the charge and charge-to-mass ratio of its segment, and ends with the one stub particle of LCODE files. Inside any radius there are (N+1)(1-exp(-r^2/2 radius^2)) particles of a segment, rounded down; their mean longitudinal momentum is exactly the energy and the mean radial momentum zero, however numpy shuffles them. [Deviations proved of this commit: A profile without current still makes a charged beam (a zero amplitude counts as none given), the numbers of the particles start anew in every segment, only the geometries c and circ work, and entries like xi0=5 or rshape=G are skipped silently.]", "quantifier": "all profiles, segment lengths of any sign but negative, currents, numbers per layer, layer steps, windows up to 100000, random numbers in [0, 1) and shuffles", "why_tests_cant": "the sample is random and the claims are about every layer, radius and random stream; tests use one seed and one profile", "anchors": ["lcode/beam_generator/beam_generator.py: make_beam, make_beam_from_c_beam_profile", "lcode/beam_generator/beam_profiles.py: find_beam_profile_pars, split_into_segments, distrs_from_shapes, StepwiseXiDistr, SmoothDistr"]}
{"id": "C73", "title": "Rounding loses and duplicates no beam particle between layers", "statement": "In binary64 arithmetic, with the borders of the layers and all comparisons computed as the program computes them, the requests of the xi loop for consecutive layers never fail, hand out every beam particle that is not ahead of the first layer and not behind the last exactly once, and in the layer whose computed borders it lies between (a border belongs to the layer in front of it; at the very first border the 2D source also counts it in). The computed borders decrease strictly, each is within one relative rounding of -i dxi, and a particle farther than that from a border is on the side of it where exact arithmetic has it. The same holds in 3D, where what is not handed out stays in the source.", "quantifier": "all beams, steps between 2^-900 and 2^900, first layers and numbers of layers up to 2^51", "why_tests_cant": "a particle within a rounding error of a border could be lost or handed out twice for some step and some layer; tests use round steps", "anchors": ["lcode/beam/beam_io.py: find_sub_slice, MemoryBeamSource.get_beam_slice", "lcode/beam3d/beam_io.py: BeamSource.get_beam_slice", "lcode/push_solvers/push_solver.py"]}
{"id": "C74", "title": "Rounding does not lose charge on the grids", "statement": "In binary64 arithmetic, with every operation of the deposition rounded, the beam densities of any number of consecutive layers together with what is held for the next layer stand for the charge of the beam particles in those layers and the charge that was waiting, and the charge density minus the current along z of the plasma stands for the charge of the plasma particles, in 2D and in 3D: the difference is at most a number of roundings (1.1e-16) proportional to the number of particles, of the sum of the absolute charges (of the charge over 1 - v_z for the plasma), plus the underflow of one double per cell. In 2D the beam deposition of particles up to one cell from the wall stays in the arrays.", "quantifier": "all beams and plasmas with at most 2^44 particles, charges zero or above 2^-500, steps from 2^-100 to 2^100, grids up to 2^50 cells per side, any number of layers up to 2^49, plasma particles with 1 - v_z above 2^-40, particles off the edge of the grid; the 2D plasma's clouds short of the wall node", "why_tests_cant": "cancellation or a rounded cell index could drop a share for some position; the error of a sum is about every order and number of contributions, and tests compare a few sums with a tolerance", "anchors": ["lcode/beam/weights.py: add_at, beam_particle_weights, deposit_particles", "lcode/beam/beam_calculate.py: layout_beam_layer", "lcode/beam3d/weights.py: deposit_beam_numba", "lcode/beam3d/beam_calculator.py: layout_beam_layer", "lcode/plasma3d/weights.py: deposit_plasma_numba", "lcode/plasma/rhoj.py"]}
{"id": "C75", "title": "Rounding does not distort the densities", "statement": "In binary64 arithmetic every cell of the density arrays holds what it would hold with real numbers, up to rounding: the 3D beam density (times the area of a cell) is the sum of the longitudinal shares and quartic clouds of the particles of its layer at their true positions plus what was waiting there, and what is held for the next layer is the rest; the 2D beam density (times the volume of the node) is the same with linear clouds; each cell of the charge density and of the three currents of the 3D plasma is the sum over the particles of charge/(1 - v_z), times the velocity for a current, times the quartic cloud; each node of the 2D plasma is the same with the quadratic cloud reflected at the axis. The error is at most a number of roundings (1.1e-16) proportional to the cells per side, the number of the layer and the number of particles, of the sum of the absolute charges (of the charge over (1 - v_z)^2 for the plasma), plus the underflow of one double.", "quantifier": "all cells of all arrays; beams and plasmas with at most 2^51 particles in a layer, charges zero or above 2^-500, steps from 2^-100 to 2^100, grids up to 2^46 cells per side, layers up to 2^49, plasma particles with 1 - v_z above 2^-40, particles off the edge of the grid", "why_tests_cant": "a rounded cell index, a position just below a cell border or a cancelled weight could put a whole share in the wrong cell for some particle; the total charge would not show it and tests look at a few positions", "anchors": ["lcode/beam/weights.py: add_at, beam_particle_weights, deposit_particles", "lcode/beam/beam_calculate.py: layout_beam_layer", "lcode/beam3d/weights.py: deposit_beam_numba", "lcode/beam3d/beam_calculator.py: layout_beam_layer", "lcode/plasma3d/weights.py: deposit_plasma_numba", "lcode/plasma/rhoj.py"]}
{"id": "C76", "title": "Rounding does not distort the fields on a particle", "statement": "In binary64 arithmetic the field components that a particle is given are the interpolation of the grid values at its true position, up to rounding: for a 3D plasma particle with the quartic weights of a grid, for a 3D beam particle with those weights of the two layers and the program's longitudinal weights, for a 2D plasma particle with the quadratic weights mirrored at the axis and at the last node (the declustering term aside), and for a 2D beam particle, whose distance from the axis is a rounded square root, linear in xi and in the radius; the radial magnetic field is minus the azimuthal electric one. The error is at most a number of roundings (1.1e-16) proportional to the cells per side and the number of the layer, of the largest value on the grid.", "quantifier": "all positions off the edge of the grid, all grid values (up to M, M above 2^-500), steps from 2^-100 to 2^100, grids up to 2^46 cells per side, layers up to 2^49", "why_tests_cant": "a position just below a cell border is rounded into the next cell, and the weights of the wrong cell would be wrong by a whole weight unless the pieces of the spline meet there; tests look at a few positions", "anchors": ["lcode/plasma3d/move.py: move_smart_kernel_numba", "lcode/beam3d/move.py: move_beam_particles_kernel_numba", "lcode/plasma/move.py: _interpolate_fields", "lcode/beam/weights.py: interpolate_particle, beam_particle_weights, particle_fields"]}
{"id": "C77", "title": "The recording classes of the 3D diagnostics leave the files they promise", "statement": "DiagnosticsFXi: for every step within half a time step of a multiple of output_period, and for no other, a file is written each time the window passes a multiple of saving_xi_period (to half a xi step) and at the end of the step; each holds xi and one value per layer for every accepted name, for exactly the layers of that step passed so far, in order, and nothing else, so that a run stopped inside a step leaves everything up to the last such multiple. DiagnosticsColormaps: the same (with one more write when xi_to is passed) for the layers with xi_to <= xi <= xi_from, of the row at the centre the cells between r_from and r_to to half a cell, and the grid of the whole window. SaveRunState(save_beam) writes a beam file at exactly the due steps. [Deviations proved of this commit: Merging always raises (conv_2d calls ceil with two arguments); xi_from below zero makes the first due step raise; the names y_offt and y_plasma_particles are accepted and raise; the stored transverse_grid is not cut by r_from and r_to; r_to below the window leaves almost all cells; a repeated name gets two values per layer; DiagnosticsTransverse raises when asked for numbers and SaveRunState when asked for the plasma (they read attributes of a dictionary); SaveRunState(save_beam) raises with several processes.]", "quantifier": "all option strings, periods, limits, probe lines, numbers of steps and layers, and fields", "why_tests_cant": "which layers and which earlier steps a file mixes depends on the whole history of times and layers; tests look at one or two steps", "anchors": ["lcode/diagnostics/diagnostics_3d.py: DiagnosticsFXi, DiagnosticsColormaps, DiagnosticsTransverse, SaveRunState, conv_2d", "lcode/push_solver.py: PusherAndSolver3D.step_dt"]}
{"id": "C78", "title": "One substep of a beam particle in double precision", "statement": "In binary64 arithmetic one completed pass of the loop of the 3D beam mover (CPU) gives a particle the momentum and the place of the exact midpoint substep - half a step with the old velocity, the Lorentz force of the interpolated fields there, the full step with the velocity of the mean momentum - up to roundings (1.1e-16): for the momentum a few roundings of the momentum, plus a number of roundings of (length of the substep times largest field) that grows with the cells per side, the number of the layer and the length of the substep in cells and layers; for the place one rounding of the place, plus roundings of the length of the substep. A particle that passes the test for lost ones is off the edge of the grid, so no index leaves it. Number, charge, ratio and time step are kept. In 2D the same holds for one completed pass of the loop that pushes a particle, in the plane through the particle, with the fields of the two layers and the external one; turning the place and the momentum back into a radius, a momentum along it and (with an external field) an angular momentum adds a few roundings, and without an external field the angular momentum is kept to the bit.", "quantifier": "all particles with |q/m| from 2^-100 to 2^100, all momenta, fields up to M (M above 2^-500), steps from 2^-100 to 2^100 (cells at most 0.2), 100 to 2^46 cells per side (2D: cells at most 0.3, 40 to 2^46 nodes), layers up to 2^49", "why_tests_cant": "each operation may round either way, and the errors of the place, the cell, the fields and the two energies feed each other; tests look at a few particles", "anchors": ["lcode/beam3d/move.py: move_beam_particles_kernel_numba, not_in_layer, is_lost", "lcode/beam/beam_calculate.py: configure_beam_pusher (push_particles), beam_to_vec"]}
{"id": "C79", "title": "No rounding makes a 3D beam particle outrun the window", "statement": "In binary64 arithmetic, whatever the fields are, a 3D beam particle is never moved forward in xi, not by one unit in the last place: not by the half step, not by a substep, not by all substeps in a layer; in a substep it goes back by at most twice the substep, and sideways by at most the substep. The computed energy is never below a component of the momentum. In the 2D program a substep moves a particle forward by a few roundings at most. [Deviations proved of this commit: In the 2D program a fast particle at the front border of the window can be moved ahead of it, in free space: d*p/gamma can round to more than d; in the next time step no layer is then given any particle of the beam.]", "quantifier": "all particles with |q/m| from 2^-100 to 2^100, all momenta and places that are doubles, all fields, all numbers of substeps (3D: substeps of any length; 2D: from 2^-100 to 2^100)", "why_tests_cant": "needs that the rounded root of a rounded square is never below the number, for all 2^62 momenta", "anchors": ["lcode/beam3d/move.py: move_beam_particles_kernel_numba", "lcode/beam/beam_calculate.py: configure_beam_pusher (push_particles)"]}
{"id": "C80", "title": "beam_generator2.make_beam returns the beam that its distributions describe", "statement": "When beam_generator2.make_beam returns a table, its rows are particles followed by the stub particle; the coordinates xi are exactly the drawn values that lie in the window, largest first; the particles are numbered from zero, all have the given q_m and the charge 2 I / (17.033 kA) / partic_in_layer; p_z, and in 3D x, y, p_x, p_y, are the drawn values in some order, the distribution of x (p_x) standing in for a missing one of y (p_y). In 2D, from distributions of x, y, p_x, p_y, every row off the axis holds the radius, the radial momentum and the angular momentum (without its sign) of one particle with drawn coordinates and momenta, so the momentum across the beam is kept. With q_m = 1 and a positive current it returns nothing. [Deviations proved of this commit: Nothing can be saved (saveto and savehead raise), the geometry '2d' that the simulation wants (and '3D') is refused with an error, and beams that rotate in opposite senses give the same table.]", "quantifier": "all distributions, shufflings, windows, steps, currents and particle numbers; real arithmetic", "why_tests_cant": "the shuffles are random and the distributions are the user's functions", "anchors": ["lcode/beam_generator/beam_generator2.py: make_beam"]}
{"id": "C81", "title": "The values of Gauss and rGauss are spread as the distribution is", "statement": "Gauss(med, sigma, vmin, vmax)(N) returns N values in increasing order, and in every interval their number is, to within one, N + 1 times the share that the normal distribution of this median and width, cut at med + sigma vmin and med + sigma vmax, has there; likewise rGauss for the distribution 1 - exp(-r^2). With the number that make_beam asks for, and no limits, the layer in the middle of the beam gets at most partic_in_layer values (plus 1 + 1.5 xi_step f0), so the peak current is not exceeded by more. [Deviations proved of this commit: vmin and vmax are in units of sigma from med, not coordinates (Gauss(-5, 2, -1, 0) returns nothing in [-1, 0]); with limits the same number is asked for, so a layer gets more than its share; rGauss ignores sigma.]", "quantifier": "all medians, widths, limits, numbers and intervals, all pairs of a distribution and its quantile function (real arithmetic)", "why_tests_cant": "the intervals are infinitely many", "anchors": ["lcode/beam_generator/beam_generator2.py: Gauss, rGauss, make_beam"]}
{"id": "C82", "title": "The recorders of targets.py and diagnostics_list.py keep the time steps on time, whole and in order", "statement": "Over any run that shows every time step layer by layer from layer 0: FieldDiagnostics holds one entry for each time step that lies between t_start and t_end and is a whole number of periods after t_start, in their order and no other; the entry holds for each layer the whole row, or the value at the asked cell (counted from the end if negative); after the last layer of each of these steps a file with all that was recorded so far is written, if files were asked for. The two BeamDiagnostics hold for just these steps the particles of all layers in the order shown. PlasmaDiagnostics has an entry for every step of its window, filled for the steps on time and empty for the others. [Deviations proved of this commit: The solver does not call these recorders; run over its layers, which begin with 1, the field and beam recorders raise at the first step on time. An end at 0 counts as no end in diagnostics_list.py. In binary64 steps on time are missed (the third of 0.07 with period 0.21).]", "quantifier": "runs of any number of time steps and layers with any values; windows, periods, cells", "why_tests_cant": "The claim is about the whole dictionary and the whole sequence of files after any run; a test sees one period and one run.", "anchors": ["lcode/diagnostics/targets.py: FieldDiagnostics, BeamDiagnostics, PlasmaDiagnostics", "lcode/diagnostics/diagnostics_list.py: TDiagnostics, BeamDiagnostics"]}
{"id": "C83", "title": "SmoothDistr with a step and RejectSamplDistr return values spread as the distribution is", "statement": "SmoothDistr, asked for N values per layer with a step, returns increasing values between the limits rounded down to whole steps; every interval inside the limits gets N times its probability over that of the layer around xi_max, at most one value less and two more, so the layer around xi_max itself gets N. RejectSamplDistr returns, in the order drawn, the first int(N) draws that fall below the density (fewer if there are fewer), all of them between the limits, out of 2 int(N / ratio) draws, where ratio is the accepted part of 10000 trial draws; a value is accepted with a probability proportional to its density, cut at the density at xmax. When no trial draw is accepted the distribution raises. [Deviations proved of this commit: The lower limit is rounded down too, so up to a step of the beam lies below it; and fewer than N values may be returned by rejection.]", "quantifier": "every probability distribution and density, limits, step, numbers of values and random draws", "why_tests_cant": "The claims are about every distribution function and every sequence of random numbers; a test draws a few samples of one of them.", "anchors": ["lcode/beam_generator/beam_profiles.py: SmoothDistr, RejectSamplDistr"]}
