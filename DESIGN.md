# Formal model of lcodePy in Rocq (Coq 8.16.1)

## Approach
Shallow models: each Python function becomes a small total Gallina function, branch by branch, with
exceptions as values (`option`).  Files:

* `*_Model.v`: the code, each definition with the `/repo` lines it models and its simplifications;
* `*_Spec.v`: small specifications, written without the model's helpers, in which the theorems are stated;
* `Props_*.v`: the property theorems (`Cxx_...`), `Print Assumptions` for each, and `Example`s showing that
  the hypotheses are met by concrete, non-trivial cases;
* everything else: lemmas.

Conventions:

* Python ints are `Z` (indices and counters `nat`); floats are exact reals `R` (in the configuration exact
  rationals `Q`).  Rounding, overflow, inf and nan are not modelled.
* numpy arrays are lists, or functions of the index with the size kept beside; where the size matters,
  equality is claimed on the indices of the array only, and that reads and writes stay inside is a theorem of
  its own.  An in-place update is a returned value.
* `while` loops are recursion with fuel; theorems either hold for every fuel that suffices and are
  accompanied by one that some fuel suffices, or the fuel is a proved bound.
* `np.argsort` (unstable) is *any* sorting permutation, random generators are *any* streams, the order of GPU
  atomic additions is *any* permutation, MPI runs are *all* interleavings.
* numba `prange` over particles: every iteration writes its own particle (or row); the deposition loops are not parallel.
* Library functions (scipy dst/dct, numpy/cupy fft, fourier_gaussian, rfft2) are taken at their documented
  definition.

## Trusted base
* Coq's kernel (8.16.1, including `vm_compute`).
* The fidelity of the `*_Model.v` files to the Python text: by reading only, the code is never run.
* The axioms of the standard library listed per theorem in the last section: the reals
  (`sig_forall_dec`, `sig_not_dec`), functional extensionality, and `classic` where the standard library's
  analysis lemmas bring it in.  No axiom is added; there is no `Admitted`, no functor, no plugin.
* The English statements in properties.jsonl are tied to the theorems by reading the `*_Spec.v` files.
* Seeded wrong programs (`seeded/LOG.jsonl`) are the evidence that the theorems notice bugs.

## What is modelled
| code | model | theorems |
|---|---|---|
| config/config.py, config/default_config_values.py | Config_Model | C01-C05, C43, C44 |
| simulation.py (step, time loop, rigid mode), mpi/transport.py, mpi/beam_io.py | Mpi_Model, MpiBeam_Model, Rigid_Model | C06-C09, C61 |
| mpi/util.py | Dtype_Model | C41 |
| push_solvers/push_solver.py (2D and 3D xi loops) | Beam2D_Model, Beam3D_Model, Coupling_Spec | C13, C19, C57, C59, C62 |
| beam/{data,beam_io,weights,beam_calculate}.py | Beam2D_Model | C10-C17, C45, C56 |
| beam3d/{data,beam_io,beam_calculator,weights,move}.py, CPU and GPU kernels | Beam3D_Model, Shape_Model, Gpu_Model, Rigid_Model | C17-C21, C45, C46, C56, C58, C61, C64 |
| plasma/{ode,fields,rhoj,move,solver,initialization}.py | Plasma2D_Model | C22-C29, C63 |
| plasma3d/{weights,rhoj,move,fields,solver,initialization,noise_filter}.py, CPU | Plasma3D_Model, Shape_Model | C30-C32, C40, C42, C47, C48, C58, C60, C65 |
| the same, CUDA kernels and FFT transforms | Gpu_Model | C64 |
| plasma3d/profile.py | Profile_Model | C38, C39, C55 |
| beam_generator/{beam_generator,beam_profiles}.py (the generator for profiles of the C LCODE) | LegacyBeam_Model | C72 |
| beam_generator/beam_generator2.py (public, no caller in the package) | PyBeam_Model | C80, C81 |
| beam_generator/beam_profiles.py: RejectSamplDistr, SmoothDistr with a step (no caller in the package) | Distr_Model | C83 |
| diagnostics/targets.py, diagnostics/diagnostics_list.py (not called by the solver of this commit) | Targets_Model | C82 |
| plasma/profiles.py (public, no caller in the package) | CylProfile_Model | C71 |
| plasma{,3d}/data.py, load_plasma | State_Model | C62 |
| diagnostics/{utils,slice,particles}.py, diagnostics/FXi/* | Diag_Model | C33, C34, C49-C52 |
| diagnostics/diagnostics_3d.py | Diag_Model: names accepted and recorded by DiagnosticsFXi; Diag3D_Model: the classes | C34, C50, C77 |
| int(), round() and the clock in simulation.py, push_solver.py, config.py, plasma/initialization.py, in binary64 | Float_Model | C66 |
| plasma3d/{weights,rhoj,move,fields,solver,initialization,noise_filter}.py once more, with every operation rounded | Rounded3D_Model | C69 |
| plasma/{ode,fields,rhoj,move,solver,initialization}.py once more, with every operation rounded | Rounded2D_Model | C70 |
| beam/beam_io.py, beam3d/beam_io.py: sources and borders once more, with every operation rounded | RoundedBeam_Model | C73 |
| beam/weights.py, beam3d/weights.py and layout_beam_layer once more, with every operation rounded | RoundedDep_Model | C74, C75 |
| beam3d/move.py:66-93 and beam/weights.py:49-71 (field lookups) once more, with every operation rounded | RoundedField_Model | C76 |
| beam3d/move.py:14-25, 40-127, 283-285 (CPU mover) and beam/beam_calculate.py:53-95, 186-240 (2D substep) once more, with every operation rounded | RoundedPush_Model (the GPU kernel is not: its compiler may fuse multiplications and additions) | C78, C79 |
| config/config.py `dump` (86-147), the text of default_config_values.py | Dump_Model | C67 |
| beam_generator/beam_profiles.py `find_beam_profile_pars` (83-88) | ProfileText_Model (the pattern written as the scanner it denotes, characters below 128) | C72 |
| diagnostics/slice.py 318-320 (stored coordinates of X_Y slices) | SliceXY_Model | C50 |
| alt_beam_generator/* | BeamGen_Model | C35-C37, C53, C54, C68 |

## What is not modelled
* Floating-point rounding except where numbers become counts (C66) in the two plasmas (C69, C70) in the beam sources (C73) and in the depositions and field lookups (C74, C75, C76) and in the substep of a beam particle (C78, C79), overflow, nan and inf; performance; memory limits; 32-bit C ints.
* Pictures, directories, the byte format of files (archives are maps from keys to arrays), logging, printing,
  progress bars.
* `__main__.py`; `Simulation.__init__` apart from the choice of geometry and processing unit; the mpi4py wrappers below send/recv;
  `MyDiagnostics` in `diagnostics/targets.py` (its process and dump call methods its members do not have); the pictures of
  `targets.py` and `diagnostics_3d.py`; in `beam_generator/`:
  find_beam_profile, make_beam_from_c_config (calls methods that Config does not have: AttributeError).
* The dual plasma approach on the GPU (raises UnboundLocalError, weights.py:260-262).

## Findings in the code
Each is proved of the model (the theorem or property is named) or read off the text (no name).

* A beam particle ahead of the window blocks every later one in 2D (C11); a 3D particle exactly at the front is
  not delivered (C18).
* A particle that finishes its time step in a layer can be drained from another one (C08, C19); the CPU 3D mover
  tests `x` instead of `xi` when deciding which particles fell (C19_cpu_drains_only_right_of_window_depth); lost
  3D particles are drained too (C19).
* The longitudinal weights of the 3D beam give a particle at a layer the field of the layer behind (C21), and a particle on
  the next layer deposits into this one (C20).
* Saved 2D beams cannot be loaded (C17); saved plasma states cannot be loaded, and a restart loses the charge carried
  over to the next layer (C62).
* `Simulation.step` called twice restarts the clock and overwrites files (C09).
* Window adjustment raises for 18302 cells and other large grids (C05); it adjusts the subtraction coefficient only if it is written "1" (C04).
* The 2D and 3D CPU beam pushers heat a particle in a magnetic field; the Higuera-Cary factor is wrong unless the mass is 1 (C45, C46).
* A rigid beam's density array is transposed (C61).
* An X_Y slice whose ranges in x and y hold different numbers of cells raises when it is made: np.vstack (C50_xy_rectangle_refuted).
* Segment boundaries of the beam shape belong to no segment; the charge sign is wrong for segments of negative amplitude; misspelt
  keys are ignored; 'default' acts on later segments only (C35, C36, C53, C54).
* The profile's 'stepwise' edge particle keeps density 1, an empty ramp raises, the channel ramp formula is wrong (C39).
* `config.dump` lowercases `zshape` and never substitutes a one-word `rshape` (C67_one_word_rshape_recorded_refuted), leaves
  the developer settings out (C67_developer_options_recorded_refuted); `plasma-profile` is unused.
* On the GPU the dual plasma approach raises, and so does its initialisation (NameError pu_type); its dct2d has the opposite sign of
  scipy's, which cancels (C64_transforms).
* A 3D plasma particle that flies past the right wall by more than a window width is reflected twice and kept; to the left it
  is lost (C65).
* In 2D any non-zero `trapped-path-limit` makes the layer raise: the solver asks the dictionary of species for `.q` (C28).
* int(length / step) loses one time step, one 2D layer or one 2D cell for about a third of the whole multiples of 0.05 or 0.1
  (C66_count_is_exact_refuted); in 2D the initial plasma then writes past the arrays (C66_short_count_overruns_the_arrays; window
  5.1 with the default step). A rerun from runas.py can have two cells less (C66_rerun_keeps_the_grid_refuted).
* A gaussian beam segment starts at half its amplitude and falls (C68_gaussian_reaches_amplitude_refuted); the spectra 2-9
  draw one level for a whole layer (C68_levels_within_a_layer_refuted).
* `diagnostics_3d.py`: merging raises, a window with xi_from < 0 raises, two accepted names raise, the stored grid is not cut,
  DiagnosticsTransverse raises when asked for numbers, SaveRunState when asked for the plasma or, with several processes, the
  beam (C77 refutations).
* `beam_generator2.make_beam`: saving raises, geometry '2d' raises, the sense of rotation is lost (C80_saving_refuted, C80_geometry_2d_refuted,
  C80_rotation_sense_refuted); rGauss ignores its width, the limits of Gauss are neither coordinates nor used in the number of particles (C81).
* `targets.py`, `diagnostics_list.py`: the recorders wait for a layer 0 that the solver's loop does not have, the plasma recorder makes
  empty entries, an end at 0 is no end (C82 refutations).
* 2D beam pusher: a fast particle at the front border of the window can be moved ahead of it by a rounding, in free space
  (C79_2d_can_move_forward), and in the next time step no particle of the beam is delivered at all
  (C79_2d_rounding_stops_the_beam); the 3D pusher, which divides first, never does this (C79_3d_never_forward).
* make_beam_from_c_beam_profile: no current still gives charge, numbers repeat between segments, only 'c' and 'circ' work
  (C72 refutations); a profile entry whose name has a digit (xi0) or whose word has a capital is skipped
  silently (C72_every_entry_is_read_refuted); `make_beam_from_c_config` calls methods that Config does not have.
* The documented option `declustering-damping` is not read: the code asks for `damping-declustering`.
* `Config.c_config()` raises KeyError: the template wants `r-step`, `plasma-model` and others that no configuration has.


## Plan per property

For each property: what is modelled, how it is proved, and where. `refuted` in a theorem's name means that the plain English claim is false of this commit and the theorem is a proved counterexample; the statement in properties.jsonl then says what the code does instead.

- **C01** Configuration is last-writer-wins over the defaults. *Model*: Config_Model: the option table as an association list with the defaults, every access (get/getfloat/getint/getbool, set, update, copy). *Proof*: Refinement: a history of writes is folded and compared with the specification `last writer, else default`; induction on the history. The conversions are total functions with failure as a value. *In*: Props_Config.v (6 theorems, proved).
- **C02** factorize returns the prime factorisation. *Model*: Config_Model.factorize: the trial-division loop, run with fuel equal to the number. *Proof*: Loop invariant (product so far times rest = n, all collected factors prime, no smaller divisor left); primality from Znumtheory. *In*: Props_Config.v (3 theorems, proved).
- **C03** good_size accepts exactly the FFT-friendly odd sizes. *Model*: Config_Model.good_size on top of factorize. *Proof*: Equivalence with a statement about the prime factors of n-1 (2, 3, 5, 7 and at most one 11 or 13), through C02 and uniqueness of the prime factorisation. *In*: Props_Config.v (1 theorems, proved).
- **C04** 3D window adjustment picks the nearest FFT-friendly grid and keeps the cell size. *Model*: Config_Model.adjust_3d with exact rationals. *Proof*: The search list is characterised by its filter and the argmin by minimality; the other options changed by the adjustment are pinned down too (C04_adjust_3d_other_options). *In*: Props_Config.v (6 theorems, proved).
- **C05** 3D window adjustment never fails on practical grids, but is not total. *Model*: The same. *Proof*: The claim itself ranges over the finite interval 0..18301, decided there by kernel computation on a boolean search proved equivalent to the code's; 18302 is the explicit first failure. *In*: Props_Config.v (2 theorems, proved).
- **C06** Each time step is computed exactly once, by one process, at the right time. *Model*: Mpi_Model: steps_per_node, the time loop of Simulation.step. *Proof*: Counting argument: the intervals of the ranks are a permutation of 0..N-1 (schedule_perm). *In*: Props_Mpi.v (2 theorems, proved).
- **C07** MPI messages match and the pipeline never deadlocks. *Model*: Mpi_Model: each rank a list of send/receive actions over FIFO channels; small-step semantics over all interleavings, rendezvous and buffered. *Proof*: Global timestamps give a linear extension, hence progress; matching by induction on the layer number. No bound on ranks, steps or layers. *In*: Props_Mpi.v (3 theorems, proved).
- **C08** A multi-process run computes the same beam history as a single-process run. *Model*: Mpi_Model (transport and time loop) with the concrete 2D and 3D layer kernels of MpiBeam_Model (layout, plasma step, beam mover, split), any plasma solver; also with an abstract kernel (Props_Mpi). *Proof*: Induction on the time step: a time step is insensitive to the order of particles inside a layer (proved for both movers, including exceptions), and the layers cut from the sorted drain are the pushed layers, so every rank sees the layers of the single-process run; finished_results then transfers this to every schedule. Hypothesis: in the single-process run every pushed particle lies in its layer (in 2D only 'not ahead of it'); that this can fail is refuted concretely. The kernel is tied to xi_loop/run3 by separate theorems. *In*: Props_Beam2D.v, Props_Mpi.v, Props_MpiBeam.v (7 theorems, proved).
- **C09** Stepping in two calls equals stepping once. *Model*: Mpi_Model: Simulation.step called twice. *Proof*: Refutation by an execution; what holds (times reset) is proved. *In*: Props_Mpi.v (2 theorems, proved).
- **C10** 2D beam source delivers every in-window particle exactly once, in its layer. *Model*: Beam2D_Model: sort, slicing by xi, source state. *Proof*: Permutation/partition invariant along the layers; any sorting permutation. *In*: Props_Beam2D.v (2 theorems, proved).
- **C11** 2D beam source: a particle ahead of the window does not block the rest. *Model*: The same. *Proof*: Refutation of the wish and proof of what the code does (everything blocked). *In*: Props_Beam2D.v (2 theorems, proved).
- **C12** 2D splitting of a moved layer is an exact partition. *Model*: Beam2D_Model.split (masks). *Proof*: List partition lemmas. *In*: Props_Beam2D.v (1 theorems, proved).
- **C13** No beam particle is created, duplicated or silently dropped in a time step (2D). *Model*: Beam2D_Model.xi_iter and loop over all layers. *Proof*: Permutation invariant: in the source + in flight + drained + lost = initial, by induction on layers; fuelled substep loop shown to have enough fuel. *In*: Props_Beam2D.v (2 theorems, proved).
- **C14** 2D beam substepping splits the time step exactly. *Model*: Beam2D_Model.halve_loop / prepare. *Proof*: Powers of two: invariant dt * 2^k = 1; maximality of the step. *In*: Props_Beam2D.v (3 theorems, proved).
- **C15** 2D beam pusher: particles never drained outside the wall or past their layer. *Model*: Beam2D_Model.push_loop. *Proof*: Invariant of the substep loop; index range of the field look-up. *In*: Props_Beam2D.v (3 theorems, proved).
- **C16** 2D beam deposition conserves charge and is a convex combination inside the layer. *Model*: Beam2D_Model.deposit. *Proof*: Sum of the hat weights; linearity; convexity inside the layer. *In*: Props_Beam2D.v (4 theorems, proved).
- **C17** Saved beams can be loaded back unchanged. *Model*: Beam3D_Model: archives as key/column lists, save and load. *Proof*: Round trip by computation on arbitrary lists; refuted for 2D, where the two formats differ. *In*: Props_Beam3D.v (4 theorems, proved).
- **C18** 3D beam source delivers every in-window particle exactly once, in its layer. *Model*: Beam3D_Model.new_source3/get_layer3. *Proof*: As C10. *In*: Props_Beam3D.v (2 theorems, proved).
- **C19** 3D beam mover partitions particles into lost, moved and fallen. *Model*: Beam3D_Model.move_layer3 (CPU and GPU kernels). *Proof*: Classification lemma for the substep loop; refutations by exact evaluation of particular particles, with real-number bounds proved by lra/sqrt lemmas. *In*: Props_Beam3D.v (11 theorems, proved).
- **C20** 3D beam deposition conserves charge and assigns it to the right layers. *Model*: Beam3D_Model.deposit3/layout3 over Shape_Model. *Proof*: Spline identities; sums over the grid by induction on its size. *In*: Props_Beam3D.v (6 theorems, proved).
- **C21** 3D beam field interpolation interpolates between the enclosing layers. *Model*: Beam3D_Model.interp3. *Proof*: Exactness on uniform and linear fields; the longitudinal weights refuted. *In*: Props_Beam3D.v (4 theorems, proved).
- **C22** Tridiagonal sweep solves its linear system. *Model*: Plasma2D_Model: ode.py sweeps. *Proof*: Forward-elimination invariant; solution for every size, diagonal dominance for the pivots; uniqueness. *In*: Props_Plasma2D.v (4 theorems, proved).
- **C23** Cumulative trapezoid integrates exactly and backward differences invert it. *Model*: Plasma2D_Model: cumulative trapezoid, differences. *Proof*: Telescoping sums. *In*: Props_Plasma2D.v (6 theorems, proved).
- **C24** 2D fields satisfy their boundary conditions and discrete equations. *Model*: Plasma2D_Model: fields.py. *Proof*: The solver's matrix row equations through C22 plus boundary rows; algebra by field. *In*: Props_Plasma2D.v (6 theorems, proved).
- **C25** 2D plasma deposition conserves charge. *Model*: Plasma2D_Model: rhoj.py. *Proof*: Hat-function shares, volumes, sums over nodes; index range under the window condition; failure outside. *In*: Props_Plasma2D.v (7 theorems, proved).
- **C26** 2D plasma mover keeps every particle inside the window. *Model*: Plasma2D_Model: move.py. *Proof*: Reflection arithmetic (fold_r) for any number of substeps; momentum at the wall. *In*: Props_Plasma2D.v, Props_Plasma2D_Push.v (8 theorems, proved).
- **C27** 2D plasma particle substepping advances each particle by exactly one xi-step. *Model*: Plasma2D_Model: substep loop of move.py. *Proof*: Invariant: time spent + remaining = X, per particle; fuel from the minimum step. *In*: Props_Plasma2D.v, Props_Plasma2D_Push.v (4 theorems, proved).
- **C28** Plasma layer substepping covers the xi-step exactly and terminates. *Model*: Plasma2D_Model.step_dxi: tenth-substepping with depth. *Proof*: Induction on depth and on the list of remaining pieces. *In*: Props_Plasma2D.v (5 theorems, proved).
- **C29** 2D initial plasma is neutral and fills the window. *Model*: Plasma2D_Model: initialization.py. *Proof*: Exact sums of charges; positions of macroparticles; refutations of strict coverage where they fail. *In*: Props_Plasma2D.v (11 theorems, proved).
- **C30** 3D plasma mover absorbs particles at the wall. *Model*: Plasma3D_Model.move_smart1. *Proof*: Case analysis of both reflections; absorbed particle pinned at zero. *In*: Props_Plasma3D.v (9 theorems, proved).
- **C31** 3D shape functions form a partition of unity and deposition conserves charge. *Model*: Shape_Model. *Proof*: Fourth-order spline: partition of unity, first moment, nonnegativity, support; induction on grid size for sums. *In*: Props_Plasma3D.v (7 theorems, proved).
- **C32** 3D transverse solvers satisfy the discrete Poisson problems. *Model*: Plasma3D_Model: dst/dct solvers at the definition of the transforms. *Proof*: Discrete orthogonality of sines and cosines proved from scratch (Spectral, Fields3D_*): the solvers are exact inverses of the 5-point Laplacians with Dirichlet, Neumann and mixed conditions, for every grid size; uniqueness. *In*: Props_Plasma3D.v (10 theorems, proved).
- **C33** Diagnostics are produced once per output period. *Model*: Diag_Model: period logic. *Proof*: Arithmetic of rounding to even; history induction. *In*: Props_Diag.v (8 theorems, proved).
- **C34** Diagnostics accept every documented quantity. *Model*: Diag_Model: option parsing, key tables. *Proof*: Exhaustive over the tables, for arbitrary strings; refutations for the misspelt/crashing ones. *In*: Props_Diag.v, Props_Diag2.v (5 theorems, proved).
- **C35** Beam generator produces a consistent beam. *Model*: BeamGen_Model with arbitrary random streams. *Proof*: Invariants over the generating loops, for every stream. *In*: Props_BeamGen.v (7 theorems, proved).
- **C36** Beam shape covers the whole beam length. *Model*: BeamGen_Model: segment boundaries. *Proof*: Interval covering; boundary point refuted. *In*: Props_BeamGen.v (6 theorems, proved).
- **C37** Generated transverse radii respect the cut-off. *Model*: BeamGen_Model: rshape. *Proof*: Bounds for every draw. *In*: Props_BeamGen.v (5 theorems, proved).
- **C38** Longitudinal plasma profile is the piecewise-linear interpolation of the user's table. *Model*: Profile_Model: zshape table. *Proof*: Piecewise-linear interpolation against an independent definition. *In*: Props_Profile.v (4 theorems, proved).
- **C39** Radial plasma profiles give the documented density at every particle. *Model*: Profile_Model: rshape kinds. *Proof*: Each documented kind against its formula at every particle; wrong ones refuted. *In*: Props_Profile.v (15 theorems, proved).
- **C40** Declustering noise filter conserves momentum and is bounded. *Model*: Plasma3D_Model: noise_filter.py, FFT of numpy at its definition. *Proof*: Telescoping of the handed-over kicks; fade bound. *In*: Props_Plasma3D_Init.v (9 theorems, proved).
- **C41** The MPI datatype transfers exactly the record's bytes. *Model*: Dtype_Model: record flattening to MPI type maps. *Proof*: Structural induction on the dtype; the transferred bytes are exactly the record's. *In*: Props_Dtype.v (3 theorems, proved).
- **C42** Coarse/fine plasma interpolation preserves totals. *Model*: Plasma3D_Model: coarse-to-fine. *Proof*: Weights sum to one; bilinear exactness; sums over the fine grid. *In*: Props_Plasma3D_Init.v (4 theorems, proved).
- **C43** Geometry is recognised in any letter case. *Model*: Config_Model. *Proof*: Case-insensitivity for all strings. *In*: Props_Config.v (2 theorems, proved).
- **C44** 3D plasma fineness is the nearest integer (or integer fraction). *Model*: Config_Model. *Proof*: Nearest-integer lemmas. *In*: Props_Config.v (4 theorems, proved).
- **C45** A static magnetic field does not change a beam particle's energy. *Model*: Beam3D_Model, Beam2D_Model pushers. *Proof*: Energy identity for the Higuera-Cary step; growth formula for the others. *In*: Props_Beam3D.v (4 theorems, proved).
- **C46** The Higuera-Cary rotation uses the Lorentz factor of its own midpoint. *Model*: Beam3D_Model.hc_rotate. *Proof*: Algebraic identity for the implicit midpoint; defect of the factor computed exactly. *In*: Props_Beam3D.v (4 theorems, proved).
- **C47** Without a beam the 3D plasma stays exactly as created. *Model*: Plasma3D_Model.step_dxi3 on the initial state. *Proof*: The quiet state is a fixed point: charge cancels on each node, solvers give zero fields, any number of layers. *In*: Props_Plasma3D_Init.v (1 theorems, proved).
- **C48** The created 3D plasma has exactly the requested density. *Model*: Plasma3D_Model: initialization. *Proof*: Sums of charges and the spline; density at every inner node. *In*: Props_Plasma3D_Init.v (3 theorems, proved).
- **C49** Each diagnostics file holds exactly its own step's layers. *Model*: Diag_Model: what a file holds. *Proof*: Induction over steps and layers. *In*: Props_Diag.v, Props_Diag2.v (8 theorems, proved).
- **C50** Diagnostics sample the place the user asked for. *Model*: Diag_Model: probe positions. *Proof*: Rounding lemmas; refutations. *In*: Props_Diag2.v, Props_Diag4.v, Props_SliceXY.v (17 theorems, proved).
- **C51** Outputs of different steps go to different files. *Model*: Diag_Model: file names. *Proof*: Injectivity of the number format on the proved range; refutation beyond. *In*: Props_Diag2.v (4 theorems, proved).
- **C52** The recorded energy flux is nonnegative and vanishes only for a quiet plasma. *Model*: Diag_Model: energy flux. *Proof*: Sum of squares. *In*: Props_Diag2.v, Props_Diag4.v (4 theorems, proved).
- **C53** Every beam particle has the attributes of its segment. *Model*: BeamGen_Model. *Proof*: Per-segment invariant on the particle lists. *In*: Props_BeamGen.v (3 theorems, proved).
- **C54** The beam description dictionary means what it says. *Model*: BeamGen_Model: dictionary semantics. *Proof*: Fold over the dictionary against a declarative reading. *In*: Props_BeamGen.v (5 theorems, proved).
- **C55** The plasma profile scales charge and mass together. *Model*: Profile_Model. *Proof*: Pointwise algebra. *In*: Props_Profile.v (2 theorems, proved).
- **C56** Beam particles move under the Lorentz force. *Model*: Beam2D/3D substeps. *Proof*: Explicit solution of each substep against the Lorentz force (BeamPush_Spec), including energy and angular momentum consequences. *In*: Props_BeamPush.v (4 theorems, proved).
- **C57** The wake is causal and does not depend on how the beam is listed. *Model*: The full xi loop of 2D and 3D with an abstract plasma solver (Causal_Proofs). *Proof*: Induction on layers: two beams that agree ahead give the same wake; permutation invariance of deposition. *In*: Props_Causal.v (4 theorems, proved).
- **C58** The two transverse axes are alike. *Model*: Plasma3D_Model and Beam3D_Model. *Proof*: Swap of axes commutes with every stage (deposit, fields, push, filter, whole layer, whole loop). *In*: Props_Sym3D.v (6 theorems, proved).
- **C59** Beam and plasma are coupled layer by layer. *Model*: PusherAndSolver loops (Beam2D/Beam3D xi loops with plasma). *Proof*: The loop is equal to a recursive specification of layer-by-layer coupling (wake/flight); induction on the number of layers. *In*: Props_Coupling.v (6 theorems, proved).
- **C60** A 3D plasma layer is one predictor-corrector step of the plasma equations. *Model*: Plasma3D_Model.step_dxi3. *Proof*: Relational specification layer3 (Layer3D_Spec) proved of the code and proved deterministic. *In*: Props_Layer3D.v (3 theorems, proved).
- **C61** A rigid beam drives the plasma with the density that was given. *Model*: Rigid_Model. *Proof*: Direct evaluation for every distribution; the grid orientation and the step count refuted/proved. *In*: Props_Rigid.v (5 theorems, proved).
- **C62** A saved plasma state can be loaded and the computation continued from it. *Model*: State_Model. *Proof*: Equivalence `loads iff written`, then C59 shifted to start at the stored layer; refutation for the package's own files. *In*: Props_State.v (9 theorems, proved).
- **C63** A 2D plasma layer is a chain of predictor-corrector steps of the plasma equations. *Model*: Plasma2D_Model.step_dxi. *Proof*: Relational specification (Layer2D_Spec): induction on depth; uniqueness through fields_fun/layer_fun. *In*: Props_Layer2D.v (3 theorems, proved).
- **C64** The 3D plasma and the beam density do not depend on the processing unit. *Model*: Gpu_Model: CUDA texts, atomics in any order, FFT-based transforms. *Proof*: Permutation invariance of the fold of atomic additions; parity of the reflected arrays turns rfft2 into sine and cosine sums; then the GPU layer satisfies C60's specification, whose determinism gives equality with the CPU over any number of layers. *In*: Props_Gpu.v (7 theorems, proved).
- **C65** The 3D plasma wake does not know left from right. *Model*: The models of C58, C60 (step_dxi3, init_plasma3, run3) and Mirror3D_Spec: the mirror images of particles, fields, currents, densities. *Proof*: Each equation of C60's layer specification is invariant under the mirror (parity of gather, deposit, sine/cosine sums, smoothing); C60's determinism then gives equality; induction over layers. Refutation by a particle that crosses the window twice. *In*: Props_Mirror3D.v (5 theorems, proved).
- **C66** Counts of cells, layers, steps and output times are right in floating point. *Model*: Float_Model: binary64 rounding (Flocq) of the divisions and products behind int(), round(), the clock and the layer positions. *Proof*: Relative error of each rounding, summed along the computation; integers below 2^53 are doubles; concrete decimals rounded by bounds on their mantissas; the overrun reuses C25's deposit. *In*: Props_Float.v (11 theorems, proved).
- **C67** runas.py records the settings of the run. *Model*: Dump_Model: the default file as literal lines; re.sub for the two patterns used (shortest text up to a comma on the line, the empty table); the loop over the dictionary; strip, split and lower. *Proof*: The file is a list of raw pieces and entries; a key can only match at its own entry (automaton for what may follow an apostrophe); each substitution rewrites one entry, so by induction over the dictionary the text is the list of filled entries, in any order. says = the entry occurs, and nowhere else. Tables: rows are invariant under strip and indentation. *In*: Props_Dump.v (10 theorems, proved).
- **C68** The named beam profiles and energy spectra have the shapes their names promise. *Model*: BeamGen_Model: the registries of xishape.py and eshape.py as functions from names. *Proof*: Case analysis on names; monotonicity of cos and exp; the random generator is an arbitrary stream. *In*: Props_Shapes.v (10 theorems, proved).
- **C69** Without a beam the 3D plasma stays exactly quiet in floating point. *Model*: Rounded3D_Model: the whole layer of the 3D plasma with every operation followed by a rounding; the transforms are parameters that turn zeros into zeros. *Proof*: Oddness of the rounding: the two sorts' deposits are exact opposites cell by cell; induction over the layers; Rounded3D_Exact shows that without rounding the model is Plasma3D_Model; Flocq for binary64. *In*: Props_Rounded3D.v (7 theorems, proved).
- **C70** Without a beam the 2D plasma stays exactly quiet in floating point. *Model*: Rounded2D_Model: the whole layer of the 2D plasma and its creation with every operation followed by a rounding. *Proof*: As C69; in binary64 sqrt(x ** 2) is x and -m/m*m is -m; bounds by powers of two show the created particles are ordinary numbers inside the wall; the tridiagonal pivots stay above 1 because 1/i^2 outweighs the rounding for i up to 2^22; the mass 1836 case by computing the mantissas. *In*: Props_Rounded2D.v (7 theorems, proved).
- **C71** The cylindrical density profiles are what their names say. *Model*: CylProfile_Model: the classes as records of band and weigh function; texts read by an arbitrary float(). *Proof*: Truncation and the table of names by cases; ring areas telescope; CylProfile_Spec states rings, areas and the ramp. *In*: Props_CylProfile.v (9 theorems, proved).
- **C72** The generator for LCODE beam profiles makes the beam of the profile. *Model*: ProfileText_Model: the pattern of find_beam_profile_pars as a scanner over lists of characters. LegacyBeam_Model: the two files with the random numbers as arbitrary streams, the shuffles as arbitrary permutations and the normal quantiles as an arbitrary function (odd about 1/2 where means are claimed). *Proof*: Induction over the parameters gives the chain of segments; counting lemmas over sorted and joined lists; segments tile the layers because floor is monotonic; the Rayleigh quantile is inverted in closed form, symmetric quantiles cancel in pairs. *In*: Props_LegacyBeam.v, Props_ProfileText.v (14 theorems, proved).
- **C73** Rounding loses and duplicates no beam particle between layers. *Model*: RoundedBeam_Model: the two sources and the borders with every operation rounded to a double (Flocq's FLT format, nearest even). *Proof*: The sign of a rounded difference of doubles is the sign of the difference, so the scan decides as in exact arithmetic; the borders are strictly monotonic because a step outweighs two roundings up to 2^51 layers; then induction over the requests. *In*: Props_RoundedBeam.v (4 theorems, proved).
- **C74** Rounding does not lose charge on the grids. *Model*: RoundedDep_Model: both beam depositions with every operation rounded, layer after layer; the plasma depositions of Rounded3D_Model and Rounded2D_Model. *Proof*: A sum of doubles has a relative error only, so adding k numbers to the cells of an array one by one moves the total by their sum up to (1+u)^k - 1 of the absolute values; the rounded weights are within a few roundings of weights that add up to 1 exactly, at whatever rounded position; gamma and 1 - v_z by relative errors; the scales 2^-500 ... keep underflow below the roundings. *In*: Props_RoundedDep.v, Props_RoundedDep2.v, Props_RoundedPlasma.v, Props_RoundedPlasma2.v (4 theorems, proved).
- **C75** Rounding does not distort the densities. *Model*: RoundedDep_Model, Rounded3D_Model and Rounded2D_Model, as for C74; the right-hand sides are the exact formulas of C16, C20, C25 and C31. *Proof*: The clouds are Lipschitz functions of the position (the pieces of the splines meet continuously), so a rounded position or a neighbouring cell index changes every cell by roundings only: the weight a cell gets from the computed position, zero outside the cells around it, is compared with the spline of the true distance. One lemma then follows one cell of an array through any list of particles, each adding to it at most once. The plasma charge q/(1 - v_z) reacts to the rounding of v_z with q/(1 - v_z)^2, which the bound shows. Examples: particles on the axis. *In*: Props_RoundedCell.v, Props_RoundedCell2.v, Props_RoundedCell3.v, Props_RoundedCell4.v (5 theorems, proved).
- **C76** Rounding does not distort the fields on a particle. *Model*: gather_at_f of Rounded3D_Model, interpolate2_f of Rounded2D_Model (both as for C69, C70), RoundedField_Model: the field lookup of the CPU beam mover and of the 2D beam, every operation rounded. The right-hand sides are the exact interpolations of C38, C41 and C56. *Proof*: The rounded weights are within a few roundings of the exact weights at the rounded position (C74), the sum of 25 (3, 4) products adds a few more, and the interpolation is a Lipschitz function of the position (C75), so the rounded position, cell and radius cost a number of roundings proportional to the cells per side; the relative error of the square root of a sum of squares is four roundings unless it underflows. *In*: Props_RoundedField.v, Props_RoundedField2.v, Props_RoundedField3.v, Props_RoundedField4.v (5 theorems, proved).
- **C77** The recording classes of the 3D diagnostics leave the files they promise. *Model*: Diag3D_Model: after_step_dxi, conditions_check and dump of the four classes as a machine over steps and layers, numpy's reshape and slices, attributes of the objects the solver passes. Diag3D_Spec says which parts of which steps are written and what a file holds. *Proof*: Induction over layers and steps with the data after any part of a step as a function of that part; rows are split back from the flattened array; the cell limits from the nearest-integer bounds. The deviations are proved for every configuration they concern, with an example each. *In*: Props_Diag3D.v (14 theorems, proved).
- **C78** One substep of a beam particle in double precision. *Model*: RoundedPush_Model with RoundedField_Model: every operation rounded, in the order of the source. The right-hand side is the exact substep of C56. *Proof*: The computed velocity is within 13 roundings of p/gamma whatever the momentum (relative error of the energy, as for C74); the force, the half kick and the full kick add theirs; the velocity is a Lipschitz function of the momentum over gamma; the fields are those of C76 at the computed middle, moved to the exact middle by the Lipschitz bound of the splines. A particle that is not lost is 4.5 cells from the edge by monotonicity of rounding. Cases with a moving particle and with a field of 12 in Props_RoundedPush_Cases. 2D (RoundedPush2D_Proofs): the energy is computed in another order, and the coordinate along z is reached in two rounded additions; cases in Props_RoundedPush2D_Cases. The full pass is in Props_RoundedPush2DFull (the radius is a Lipschitz function of the place, the field between two layers one of radius and xi) and a run of it in Props_RoundedPush2DFull_Case. *In*: Props_RoundedPush.v, Props_RoundedPush2.v, Props_RoundedPush2D.v, Props_RoundedPush2DFull.v (6 theorems, proved).
- **C79** No rounding makes a 3D beam particle outrun the window. *Model*: RoundedPush_Model: the loop of the CPU beam mover and the substep of the 2D beam with every operation rounded. *Proof*: The root of the rounded square is at least the number, because the rounded square is above the square of the midpoint to the next lower double; the rounded sum under the root is at least each rounded square; so p/gamma rounds to at most 1, p/gamma - 1 to at most 0, and adding a negative number to a double does not increase it; induction over the substeps. The 2D program multiplies before it divides: an explicit particle. *In*: Props_RoundedLight.v, Props_RoundedLight2.v (5 theorems, proved).
- **C80** beam_generator2.make_beam returns the beam that its distributions describe. *Model*: PyBeam_Model: make_beam with distributions as arbitrary functions and every shuffle as an arbitrary permutation; None, an exception and the table are the three outcomes. *Proof*: A successful run is taken apart once (run_shape); sorting is a permutation (LegacyBeam_Proofs); the sum of squares identity gives the angular momentum. Cases: a beam of two particles in 3D, of one in 2D. *In*: Props_PyBeam.v (7 theorems, proved).
- **C81** The values of Gauss and rGauss are spread as the distribution is. *Model*: PyBeam_Model: linspace without its ends, quantile functions. The normal distribution enters as any pair (cdf, ppf) with ppf p <= x iff p <= cdf x (not denser than 1/sqrt(2 pi) for the middle layer); the Weibull one is explicit. *Proof*: The k-th value is at most x iff k is at most N + 1 times the share below x; counting such k by induction. Cases with the Cauchy distribution, which meets the hypotheses. *In*: Props_PyBeam2.v (7 theorems, proved).
- **C82** The recorders of targets.py and diagnostics_list.py keep the time steps on time, whole and in order. *Model*: Targets_Model: dictionaries as lists of entries in the order of insertion, numpy's row assignment and negative indices, x % y == 0 with the floor of the quotient. Targets_Spec says which time steps are on time and what a picked sublist is. *Proof*: Induction over the layers of one step with the record as a function of the layers shown so far, then over the steps; the last entry of the dictionary is the one being filled because times are distinct. The deviations: an explicit failing first step for every run that begins after layer 0, and small runs. *In*: Props_Targets.v, Props_TargetsFloat.v (8 theorems, proved).
- **C83** SmoothDistr with a step and RejectSamplDistr return values spread as the distribution is. *Model*: Distr_Model: the number of values from floor divisions, quantiles of evenly spread probabilities (inner_points of PyBeam_Model); the draws of the random generator as arbitrary functions. *Proof*: The counting lemma of C81 with the whole number of values bracketed by the floor; accepted draws as a picked sublist; counting evenly spread levels below a bound by induction. Cases with the uniform distribution and with the density x. *In*: Props_Distr.v (7 theorems, proved).

## Assumptions of each theorem

From `Print Assumptions` on every property theorem (the output also appears in the build log). Abbreviations: D = `ClassicalDedekindReals.sig_forall_dec`, N = `ClassicalDedekindReals.sig_not_dec`, F = `FunctionalExtensionality.functional_extensionality_dep`, C = `Classical_Prop.classic`. All four are axioms of Coq's standard library; nothing else occurs.

- **none (closed under the global context)** (58): C01_array_library_last_choice, C01_bool_round_trip, C01_config_last_writer_wins, C01_copy_keeps_array_library_refuted, C01_copy_same_options, C01_set_fails_only_without_cupy, C02_factorisation_unique, C02_factorize_correct, C02_factorize_trivial, C03_good_size_exact, C04_adjust_3d, C04_adjust_3d_other_options, C04_adjusted_window, C04_fails_only_if_none_in_range, C04_failure_stores_nothing, C04_nearest_friendly, C05_adjustment_not_total_refuted, C05_adjustment_total_up_to_18301, C06_every_step_run_once, C06_one_final_step, C07_always_terminates, C07_no_deadlock, C07_right_data, C08_same_as_single_process, C09_second_call_repeats_first_count, C09_step_twice_is_step_sum_refuted, C17_2d_save_then_load_refuted, C17_2d_saved_beam_never_loads, C34_accepted_names, C34_documented_names_refuted, C34_flag_means_recorded, C34_names_parsed, C41_built_iff_supported, C41_entries_are_the_fields, C41_message_round_trip, C43_geometry_case_insensitive_refuted, C43_geometry_lowercase_partial, C44_fineness_at_least_one, C44_fineness_below_one, C44_round_is_nearest, C44_round_keeps_integers, C61_one_time_step, C62_3d_load_gives_what_is_written, C66_adjusted_grid_is_kept, C67_developer_options_recorded_refuted, C67_dump_succeeds, C67_function_shape_by_name, C67_half_width_3d, C67_names_are_recorded, C67_one_word_rshape_recorded_refuted, C67_only_listed_options, C67_options_are_recorded, C67_rerun_keeps_the_grid, C67_tables_are_recorded, C72_every_entry_is_read_refuted, C72_profile_numbers_whole, C72_profile_text, C77_names.
- **D** (5): C17_3d_restart_resets_only_substeps, C17_3d_save_then_load, C62_2d_load_gives_what_is_written, C62_pickled_species_refused, C62_saved_states_load_refuted.
- **D F** (136): C10_delivered_exactly_once, C10_each_layer_gets_its_particles, C11_particle_ahead_blocks_everything, C11_particles_behind_still_delivered_refuted, C12_split_is_exact_partition, C15_field_lookup_in_range, C16_charge_conserved, C16_density_is_cloud_in_cell, C16_no_access_outside, C16_weights, C18_each_layer_gets_its_particles, C18_particle_at_the_front_refuted, C20_centre_of_charge_is_mirrored, C20_charge_conserved, C20_density_is_spline_cloud, C20_particle_on_next_layer_leaves_this_one_refuted, C20_writes_stay_on_any_grid_refuted, C20_writes_stay_on_grid, C21_field_at_a_layer_is_that_layers_field_refuted, C21_longitudinally_one_layer_behind, C21_transverse_interpolation_exact, C22_dirichlet_solves, C22_dirichlet_unique, C22_neumann_solves, C22_neumann_unique, C23_backward, C23_backward_exact_on_affine, C23_forward, C23_forward_exact_on_affine, C23_linear, C23_modes_differ_by_the_total, C25_shares_sum_to_one, C26_removed_particles_stay, C27_substeps_cover_the_step, C27_terminates, C28_substeps_cover_the_step, C28_terminates, C30_midpoint_always_brought_back_refuted, C30_midpoint_brought_back_iff, C31_interpolation_is_spline_sum, C31_interpolation_linear, C31_weights, C32_Bz_source_mean_free, C33_every_multiple_has_output, C33_exactly_once_refuted, C33_never, C33_once_outside_ties, C33_output_when_due, C33_same_output_for_any_ranks, C33_small_period_every_step, C33_whole_period, C34_unsupported_2d_refuted, C36_boundaries_uncovered, C36_each_point_in_one_segment, C36_every_point_refuted, C36_outside, C36_total_length, C38_between_ends, C38_continuous, C38_dumped_table_same_refuted, C38_table, C40_bounded, C40_momentum_conserved, C40_total_momentum, C40_touches_only_transverse_momentum, C42_initial_plasma, C42_linear_displacement, C42_total_of_coarse_refuted, C42_weights, C46_rotation_is_implicit_midpoint, C49_first_step_output, C49_fxi_files_2d, C49_particle_files, C49_slice_files, C49_slice_files_2d, C49_xy_first_step_refuted, C49_xy_slice_files, C50_default_2d, C50_default_layers, C50_default_window, C50_line_outside_refuted, C50_nearest_line_refuted, C50_probe_lines, C50_probe_outside_refuted, C50_probe_radius, C50_probe_values, C50_radius_outside_refuted, C50_radius_values, C50_slice_cells, C50_slice_line, C50_whole_window_refuted, C50_xy_last_cells_refuted, C50_xy_rectangle_refuted, C50_xy_slice_cells, C51_distinct_files, C51_distinct_files_whole, C51_short_step_refuted, C51_two_slices_refuted, C52_largest_central_displacement, C52_largest_displacement, C61_plasma_sees_the_exchanged_density, C61_plasma_sees_the_given_density_refuted, C61_symmetric_density, C62_continues_with_the_next_layer, C62_layers_of_a_continued_run, C64_beam_density_any_order, C68_energy_levels, C68_energy_spectra, C68_levels_within_a_layer_refuted, C71_positions, C71_subchannel_is_a_ramp, C72_layers, C72_segments_share_the_layers, C77_colormap_files, C77_grid_refuted, C77_late_window_refuted, C77_low_limit_refuted, C77_merging_refuted, C77_particle_maps_refuted, C77_save_beam, C77_save_beam_refuted, C77_save_plasma_refuted, C77_transverse_refuted, C82_beam, C82_end_at_0_refuted, C82_fields, C82_listed_beam, C82_plasma, C82_plasma_only_on_time_refuted, C82_without_layer_0_refuted, C83_acceptance, C83_number_refuted, C83_rejection, C83_smooth_counts, C83_smooth_lower_limit_refuted, C83_smooth_reference.
- **D N F** (191): C08_2d_same_as_single_process, C08_2d_step_is_the_xi_loop, C08_3d_cpu_same_as_single_refuted, C08_3d_same_as_single_process, C08_3d_step_is_the_xi_loop, C08_drained_in_its_layer_refuted, C13_loop_succeeds, C13_no_particle_created_or_dropped, C14_drained_means_one_time_step, C14_kept_between_layers, C14_substep_is_least_dyadic_fraction, C15_free_motion_is_straight, C15_substeps_stay_in_layer_and_wall, C19_cpu_drains_only_right_of_window_depth, C19_drained_made_one_time_step, C19_exact_without_losses, C19_exactly_one_of_three_refuted, C19_finished_in_layer_is_drained_refuted, C19_free_motion_is_straight, C19_loop_succeeds, C19_lost_particles_are_not_drained_refuted, C19_mover_classifies, C19_never_forward_and_inside, C19_nothing_vanishes, C21_uniform_field_exact, C24_azimuthal_electric_field, C24_azimuthal_magnetic_field, C24_longitudinal_electric_field, C24_longitudinal_magnetic_field, C24_radial_electric_field, C24_second_result_is_the_average, C25_every_node, C25_initial_plasma_stays_in_the_arrays_refuted, C25_initial_plasma_stays_when_narrow, C25_stays_in_the_arrays, C25_total_charge, C25_total_charge_minus_current, C26_declustering_field, C26_fields_on_the_particle, C26_free_particle_moves_straight, C26_layer_keeps_particles, C26_stays_in_the_window, C26_time_centred_push, C26_too_fast_is_removed, C27_every_particle, C27_path_bounds_the_motion, C28_any_configuration_terminates_refuted, C28_plasma_layer, C28_plasma_layer_terminates, C29_every_ring_has_a_particle, C29_mobile_ions_pair_up, C29_mobile_plasma_without_beam_stays, C29_neutral, C29_particles_fill_the_window, C29_plasma_without_beam_stays, C29_uniform_density_everywhere_refuted, C29_uniform_density_inside, C29_uniform_density_on_the_axis, C29_uniform_density_on_the_axis_odd_refuted, C30_absorbed_forever, C30_absorbed_in_the_layer, C30_charged_electrons_inside, C30_charged_ions_inside, C30_midpoint_motion, C30_run_inside, C30_wall_mirrors_and_stops, C31_cell_values, C31_indices_inside, C31_layer_charge, C31_total_charge, C32_Bz, C32_Ez, C32_Phi, C32_half_is_average, C32_outer_rings_empty, C32_transforms_invert, C32_transverse, C32_transverse_converged, C32_transverse_unique, C39_channel, C39_channel_becomes_uniform, C39_channel_ideal_refuted, C39_channel_negative, C39_channel_sharp, C39_empty_ramp_fails, C39_hollow_channel, C39_parabolic, C39_profile_of_distance, C39_stepwise_decreasing_refuted, C39_stepwise_outer_edge, C39_stepwise_ramp, C39_stepwise_sharp, C39_uniform, C40_absorbed_left_alone_refuted, C40_chaotic_part_has_no_mean, C40_linear_displacement_untouched, C40_momentum_conserved_with_damping_refuted, C40_strength, C45_magnetic_field_heats_2d, C45_magnetic_field_heats_cpu, C45_magnetic_field_keeps_energy_cpu_refuted, C45_magnetic_field_keeps_energy_gpu, C46_factor_defect, C46_midpoint_factor_for_unit_mass, C46_midpoint_factor_refuted, C47_quiet_plasma, C48_charge_to_mass, C48_initial_density, C48_neutral, C49_fxi_files_3d, C52_flux_nonnegative, C52_flux_zero, C54_no_segments, C54_segments, C54_shape_values, C54_unknown_parameter_rejected, C54_unknown_segment_parameter_rejected_refuted, C55_radial_table, C55_scaling, C56_2d_angular_momentum, C56_2d_substep, C56_3d_cpu_substep, C56_3d_gpu_substep, C57_2d_motion_ignores_what_is_behind, C57_2d_wake_ignores_what_is_behind, C57_3d_motion_ignores_what_is_behind, C57_3d_wake_ignores_what_is_behind, C58_cpu_time_step_does_not_know_the_axes_refuted, C58_gpu_time_step_does_not_know_the_axes, C58_initial_plasma_does_not_know_the_axes, C58_plasma_layer_does_not_know_the_axes, C58_symmetric_beam_makes_symmetric_wake, C58_wake_does_not_know_the_axes, C59_2d_flight_is_unique, C59_2d_particles_fly_in_the_wake, C59_2d_plasma_sees_the_beam_layer_by_layer, C59_3d_flight_is_unique, C59_3d_particles_fly_in_the_wake, C59_3d_plasma_sees_the_beam_layer_by_layer, C60_layer_is_predictor_corrector, C60_push_beyond_the_wall, C60_scheme_determines_the_layer, C61_result_is_exchanged, C62_2d_continuing_always_the_same_refuted, C62_2d_continuing_gives_the_same_wake, C62_3d_continuing_gives_the_same_wake, C63_every_layer_exists_and_is_unique, C63_layer_is_the_scheme, C63_scheme_determines_the_layer, C64_deposit_any_order, C64_fields, C64_gpu_runs_agree, C64_layer_follows_the_scheme, C64_run_on_gpu_is_run_on_cpu, C64_transforms, C65_far_flights_know_left_from_right_refuted, C65_initial_plasma_does_not_know_left_from_right, C68_linear_profiles, C68_names, C68_profile_mirrors, C68_profile_values, C68_short_names, C69_quiet_in_any_rounding, C69_transforms_keep_zeros, C69_without_rounding_it_is_the_exact_model, C70_quiet_in_any_rounding, C70_without_rounding_it_is_the_exact_model, C71_names, C71_narrow_bands_raise, C71_numbers_as_in_the_run_refuted, C71_total_is_the_area, C71_uniform_is_the_plasma_of_the_run, C71_weights, C72_bad_profiles_raise, C72_segments, C77_fxi_crash, C77_fxi_files, C77_repeated_name_refuted, C80_2d_momentum, C80_3d_columns, C80_geometry_2d_refuted, C80_positive_current, C80_rotation_sense_refuted, C80_saving_refuted, C80_table, C81_gauss_counts, C81_gauss_values, C81_limits_are_coordinates_refuted, C81_limits_raise_density, C81_middle_layer, C83_smooth_values.
- **D N F C** (82): C29_declustering_leaves_the_initial_plasma_alone_refuted, C35_fails_on_boundary, C35_half_step_from_segment, C35_ids_and_order, C35_layer_charge, C35_layers, C35_particles_inside_beam_refuted, C35_succeeds, C36_shapes_between_0_and_1, C37_draws_2d, C37_draws_3d, C37_inside_window, C37_radius_is_inverse_cdf, C37_shifted_inside_window_refuted, C39_gaussian, C53_charge_and_ratio, C53_charge_sign_refuted, C53_particles_follow_their_segment, C65_plasma_layer_does_not_know_left_from_right, C65_symmetric_beam_makes_symmetric_wake, C65_wake_does_not_know_left_from_right, C66_count_is_at_most_one_short, C66_count_is_exact_refuted, C66_count_of_broken_length, C66_count_of_exact_steps_is_exact, C66_every_kth_layer_is_saved, C66_every_kth_step_is_output, C66_rerun_keeps_the_grid_refuted, C66_rerun_loses_at_most_two_cells, C66_rounded_count_is_exact, C66_short_count_overruns_the_arrays, C68_gaussian_reaches_amplitude_refuted, C68_profile_slopes, C69_binary64_is_a_rounding, C69_no_division_by_zero, C69_positions_are_inside_the_walls, C69_quiet_in_binary64, C70_field_solver_never_divides_by_zero, C70_mobile_ions_cancel_exactly_refuted, C70_particles_stay_in_the_arrays, C70_quiet_in_binary64, C70_square_root_of_square, C71_bands, C72_beam, C72_current, C72_ids_tell_particles_apart_refuted, C72_mean_momenta, C72_no_current_no_charge_refuted, C72_only_circular, C72_radii, C73_2d_delivered_exactly_once, C73_2d_each_layer_gets_its_particles, C73_3d_each_layer_gets_its_particles, C73_borders, C74_2d_beam_charge, C74_2d_plasma_charge, C74_3d_beam_charge, C74_3d_plasma_charge, C75_2d_beam_density, C75_2d_plasma_densities, C75_3d_beam_density, C75_3d_beam_sheet, C75_3d_plasma_densities, C76_2d_beam_field, C76_2d_plasma_field, C76_3d_beam_field, C76_3d_beam_fields, C76_3d_plasma_field, C78_2d_half_step, C78_2d_substep, C78_2d_substep_in_fields, C78_3d_half_step, C78_3d_substep, C78_3d_substep_in_fields, C79_2d_can_move_forward, C79_2d_forward_by_roundings, C79_2d_rounding_stops_the_beam, C79_3d_never_forward, C79_3d_speed_limit, C81_rgauss_counts, C81_rgauss_width_refuted, C82_periods_in_binary64_refuted.
