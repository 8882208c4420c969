# Formal model of stokesian-dynamics in Rocq (Coq 8.16.1)

The source is the python code in `/repo`, which is never run here. The model is
a shallow embedding, function by function; each definition cites the file and
lines it models. Only the standard library is used.

## 1. Layout (`rocq/theories`)

* `Base.v` - finite real sums, vectors `nat -> R`, matrices `nat -> nat -> R`,
  inverse matrices, Kronecker symbol. `Py.v` - exceptions as values, slices,
  reshaping.
* `Model_*.v` - the model. No proofs.
* `Spec_*.v` - small specifications that do not refer to the model's helpers.
* `Proof_*.v` - lemmas.
* `Prop_*.v` - the property theorems `Cnn_...`, `Print Assumptions` below each,
  and an `Example` or instance that meets the hypotheses. A theorem whose name
  ends in `_refuted` proves that a claim one would expect is false of the code.

Build: `cd rocq && coq_makefile -f _CoqProject -o Makefile && make -j4`.

## 2. Modelling decisions

* Python floats are Coq's classical reals `R`. Rounding, overflow, NaN and inf are
  not modelled. Integer quantities are `nat` or `Z`.
* numpy arrays are functions of their indices, or lists; shapes are explicit
  numbers where the code depends on them. A block assignment `M[a:b, c:d] = B` is
  an explicit function update; loops are folds in the order of the code.
* `np.linalg.inv` / `np.linalg.solve` are arguments of the modelled functions. That
  they return an inverse is a hypothesis of the theorems that need it, not an
  axiom. `np.interp`, `np.mod`, `np.cross`, `np.where`, sorting and string
  functions are written out.
* `scipy.special.erfc` is an argument; that its derivative is
  -2/sqrt(pi) exp(-x^2) is a hypothesis where it matters (C49-C51, C54, C55).
* Exceptions (`TypeError`, `IndexError`, `ValueError`, `UnboundLocalError`,
  `sys.exit`) are values of type `res`.
* Random numbers are an arbitrary input stream; loops that may not end get fuel, and
  theorems hold for every amount of it. Wall-clock readings are arbitrary inputs.
* The tables of resistance scalars used by the simulation are arbitrary functions. The
  programs that compute them are modelled on their own (C42-C44, C67, C69, C71-C78, C90); the
  numbers in the supplied binary files are not read.
* Fortran double precision is `R`; arrays are functions of their indices; COMMON blocks
  and loops of the reflection program are written as functions of the pass number.
* Options imported from `settings.py` are arguments of the modelled functions.
* numba: the code is run through `@njit` decorators when numba is
  installed; it is modelled as plain python. (With numba, `condense_and_flatten` on
  the empty array of a run without spheres compiles differently; not modelled.)

## 3. What is modelled and what is not

`stokesian_dynamics/`

| file | modelled | not modelled |
|---|---|---|
| `functions/shared.py` | `norm`, `levi`, `contraction`, `submatrix_coords_tuple`, `submatrix_coords` and `posdata_data` (`Model_Index`), `is_*`, `add_sphere_rotations_to_positions`, `format_elapsed_time`, `shear_basis_vectors`, `close_particles` (`Model_Mob`, `Model_Pack`, `Model_Layout`, `Model_Frame`, `Model_Progress`, `Model_Close`), `same_setup_as`, `feed_particles_from_bottom` (`Model_Setups`, `Model_Feed`), `sizeof_fmt` (`Model_Banner`) | `save_matrix`, `tick`/`tock`, printing |
| `functions/simulation_tools.py` | all (`Model_Pack`, `Model_Convert`, `Model_Output`) | - |
| `functions/generate_Minfinity.py` | all (`Model_Mob`, `Model_Minf`) | printing |
| `functions/generate_Minfinity_periodic.py` | all (`Model_Ewald`, `Model_MinfP`) | printing |
| `functions/generate_R2Bexact.py` | all (`Model_R2B`, `Model_L`) | reading of the scalar files |
| `functions/generate_grand_resistance_matrix.py` | all (`Model_Grand`, `Model_GrandP`) | timing, printing |
| `functions/timestepping.py` | all numerical functions (`Model_Step`, `Model_Output`, `Model_Progress`), `do_we_have_all_size_ratios` (`Model_Startup`), `format_finish_time` (`Model_Banner`), `are_some_of_the_particles_too_close` (`Model_Separation`) | printed text around tables |
| `functions/graphics.py` | `rotation_matrix`, `pathpatch_2d_to_3d`, colour and length scaling of spheres, dumbbells and force lines (`Model_Graphics`) | matplotlib drawing |
| `functions/email.py` | - | sending mail |
| `run_simulation.py` | `generate_frame`, the loop over frames, saving, checkpointing, names of files (`Model_Frame`, `Model_Checkpoint`), the checks before the first frame (`Model_Startup`), the box of settings (`Model_Banner`) | graphics window, video, e-mail |
| `settings.py` | command-line override (`Model_Settings`) | constants |
| `setups/functions_inputs.py` | all (`Model_Repulsion`, `Model_Shear`) | printing |
| `setups/functions_positions.py` | `random_point_in_box`, `overlaps`, `randomise_spheres`, `randomise_dumbbells`, `randomise_beads_inside_quadrilateral`, `point_inside_polygon` (`Model_Place`, `Model_Polygon`), `simple_cubic_8` (`Model_Inputs`), `randomise_dumbbells_periodic` (`Model_PlaceP`), the printed reports of the three and `not_in_spheres` (`Model_Report`, `Model_ReportP`) | formatting of what is printed |
| `setups/positions.py` | the search for checkpoint files (`Model_Checkpoint`), all setups 1-8 (`Model_Setups`) | printing |
| `setups/inputs.py`, `setups/tests/*` | all inputs 1-7, test inputs -1 to -13, test setups (`Model_Inputs`, `Model_Setups`) | - |
| `resistance_scalars/data.py` | table of size ratios (`Model_Table`) | reading the numpy files |
| `plotting/make_video.py`, `plotting/plot_positions.py` | `Model_Video`: the numbers read from the name, which rows, copies, colours and box corners are drawn | matplotlib, titles, timings, newest file, encoder; `view_labels`, `trace_paths` |

`find_resistance_scalars/`

| file | modelled | not modelled |
|---|---|---|
| `generate_scalars_midfield.py` | conversion of mobility to resistance scalars, non-dimensionalisation, reading of the output of the two-sphere program, table of ratios, human-readable table (`Model_Scalars`, `Model_Table`, `Model_Lamb`) | starting the Fortran program, files |
| `functions_general.py` | `format_seconds` (`Model_Index`) | `save_human_table`, lists of names |
| `functions_nearfield.py`, `generate_scalars_nearfield.py` | all functions and the table (`Model_Nearfield`) | the Hurwitz zeta function is an argument; `@cache`; files |
| `combine_scalars.py`, `subtract_*.py` | all (`Model_Subtract`) | files |
| `helen_fortran/2sphere.f`, `reflect.f`, `base.f`, `parameters.f` | the tables, the boundary condition, the translation, the passes and their end, the values written (`Model_Reflect`) | reading and writing of files |

`tests/generate_lambs_solution.py` is in `Model_Lamb`, `tests/test_all.py` in `Model_Test`
(without what it prints); the composition of setups, inputs, matrices,
solution and time stepping into a whole run is `Model_Sim`. What
`examples/example-a.py`, `-b.py`, `-c.py` compute and plot is in `Model_Examples` (spheres only;
not their labels and the curves of published data). The figures in `tests/` are not modelled.

## 4. Properties

Full statements are in `properties.jsonl`; theorem names in `MANIFEST.json`. For each property: the files that hold its theorems and how they are proved.

| id | title | theorems in | how |
|---|---|---|---|
| C01 | Uncondensing a condensed stresslet gives the stresslet back | `Prop_Pack.v` (1) | algebra with sqrt 3, induction on the number of spheres |
| C02 | Uncondense always returns a symmetric traceless tensor and is inverted by condense | `Prop_Pack.v` (1) | algebra with sqrt 3 |
| C03 | Condensation preserves the double contraction S:E, so the packed dot product is the power | `Prop_Pack.v` (1) | algebra, finite sums |
| C04 | Packing then unpacking the grand vector loses nothing | `Prop_Pack.v` (2) | list lemmas on concatenation and slices |
| C05 | The block coordinates never collide, stay in the matrix and cover the upper triangle | `Prop_Layout.v` (4) | linear arithmetic over the layout |
| C06 | The Oseen-tensor helper functions are the derivatives they are named after | `Prop_Mob.v` (5) | derivatives from the definition, for all indices |
| C07 | The mobility pair functions describe an incompressible Stokes flow | `Prop_Mob.v` (2) | derivative lemmas, algebra |
| C08 | Two-particle mobility functions obey the reciprocal theorem under exchange of the particles | `Prop_Mob.v` (2) | parity of each tensor, algebra |
| C09 | The far-field grand mobility matrix is symmetric | `Prop_Minf.v` (1) | fold of block writes: every write is mirrored |
| C10 | Every block of the grand mobility matrix is the pair function of its own two particles, whatever the labelling | `Prop_Minf.v`, `Prop_Minf2.v` (4) | disjointness of regions, fold lemma, permutation of beads |
| C11 | The grand mobility matrix depends only on relative positions and scales inversely with viscosity | `Prop_Minf.v`, `Prop_R2B.v` (5) | each write depends on differences of positions; scaling |
| C12 | An isolated sphere gets the Stokes, torque and stresslet self-mobilities, and the drag-only matrix is 1/(6 pi) times the inverse of the mobility | `Prop_Minf.v` (3) | evaluation of the blocks at zero separation |
| C13 | Overlapping particles are treated as just touching | `Prop_Minf.v` (3) | case analysis on the separation |
| C14 | Dumbbell coordinates in mobility and resistance matrices are the same change of variables | `Prop_Minf.v` (5) | finite-sum algebra of the change of variables |
| C15 | The near-field resistance correction is symmetric, local and vanishes for separated particles | `Prop_R2B.v` (5) | fold over pairs, clamped tables |
| C16 | The near-field blocks do not depend on which particle of the pair has the lower label | `Prop_Close.v`, `Prop_R2B.v` (5) | exchange of the two particles in each block, permutation |
| C17 | The geometric tensors L1..L9 have the symmetries of the resistance functions | `Prop_R2B.v` (5) | algebra of unit vectors |
| C18 | Scalar lookup interpolates between tabulated separations and clamps outside | `Prop_R2B.v` (4) | induction on the table |
| C19 | close_particles finds exactly the pairs within the cutoff | `Prop_Close.v` (7) | characterisation of the list of pairs |
| C20 | Periodic close_particles reports lattice images | `Prop_Close.v` (6) | floor algebra, lattice coordinates |
| C21 | FTS to FTE conversion solves the same problem | `Prop_Convert.v` (2) | principal pivot transform |
| C22 | FTE to UFTE conversion solves the same problem | `Prop_Convert.v` (2) | principal pivot transform |
| C23 | UFTE to UFTEU conversion solves the same problem | `Prop_Convert.v` (2) | principal pivot transform |
| C24 | FTS to DUF conversion solves the same problem | `Prop_Convert.v` (1) | principal pivot transform |
| C25 | Solved outputs keep the prescribed inputs and satisfy the resistance relation | `Prop_Output.v` (9) | composition of the conversions, case analysis over forms |
| C26 | The far-field inverse in use is the most recently due one | `Prop_Frame.v` (3) | invariant over frames |
| C27 | Timestepping schemes are consistent | `Prop_Scheme.v` (9) | algebra, unfolding of the stages |
| C28 | Sphere orientation update is a rigid rotation | `Prop_Step.v` (7) | trigonometry of the rotation formula |
| C29 | Wrapping particles into the periodic box | `Prop_Step.v` (5) | floor algebra |
| C30 | Orientation vectors stay attached to their sphere | `Prop_Scheme.v` (3) | invariant over frames |
| C31 | Background flow is added consistently to spheres, dumbbells and beads | `Prop_Step.v` (4) | algebra |
| C32 | Shear input functions describe simple shear and its accumulated strain | `Prop_Shear.v` (7) | derivatives, case analysis over axes |
| C33 | A sheared periodic box stays a valid lattice that moves with the flow | `Prop_Shear.v` (6) | lattice algebra, invariant over frames |
| C34 | Repulsion forces are pairwise, repulsive and sum to zero | `Prop_Repulsion.v` (5) | induction over the list of pairs |
| C35 | What is saved is what was simulated | `Prop_Frame.v` (7) | invariant over frames |
| C36 | An error freezes the simulation | `Prop_Frame.v` (4) | invariant over frames |
| C37 | Stopping and resuming from a checkpoint gives the same run | `Prop_Scheme.v` (4) | simulation between resumed and uninterrupted runs |
| C38 | Command-line arguments override settings positionally | `Prop_Settings.v` (2) | case analysis on the argument list |
| C39 | Randomly placed spheres and dumbbells never overlap and lie in the box | `Prop_Place.v` (6) | loop invariants over the random stream |
| C40 | Progress estimate is sane | `Prop_Progress.v` (6) | arithmetic |
| C41 | Elapsed time formatting denotes the right duration | `Prop_Progress.v`, `Prop_Progress2.v` (5) | division with remainder |
| C42 | The size-ratio table is closed under reciprocals | `Prop_Table.v` (6) | list induction |
| C43 | Two-sphere mobility scalars are inverted into resistance scalars correctly | `Prop_Scalars.v`, `Prop_Scalars2.v` (5) | linear algebra of the 2x2 systems |
| C44 | Rows of the human-readable scalar table are a bijection | `Prop_Table.v` (3) | division with remainder |
| C45 | The plotting rotation is a proper rotation and outlines face the viewer | `Prop_Graphics.v` (6) | algebra, trigonometry |
| C46 | The nine pair mobility blocks are Faxen's laws applied to the singularity flows | `Prop_Mob.v` (1) | derivative operators applied to singularity flows |
| C47 | Table entries for reciprocal size ratios describe the same pairs | `Prop_Table.v` (4) | case analysis on the table, exchange of particles |
| C48 | Force arrows in the plots are drawn to one scale (refuted) | `Prop_Graphics.v` (2) | induction on the sphere number |
| C49 | The erfc helpers of the periodic code are the derivatives they are named after | `Prop_Ewald.v` (2) | derivatives |
| C50 | The real-space Green's tensor of the periodic code and its derivatives are right | `Prop_Ewald.v` (3) | derivatives |
| C51 | Unbounded, real-space and wave-space pair functions are the same operators on their Green's tensors | `Prop_Ewald.v` (3) | linearity of the operators |
| C52 | The periodic mobility matrix is symmetric, translation invariant and inversely proportional to viscosity | `Prop_MinfP.v` (4) | reflection of the truncated lattice, fold lemma |
| C53 | Every block of the periodic mobility matrix is the pair function of its two beads | `Prop_MinfP.v` (3) | layout, fold lemma, reciprocity |
| C54 | The periodic pair sums are the Faxen operators applied to the truncated Ewald sum | `Prop_MinfP.v` (2) | linearity over the lattice sums; positivity for the finding |
| C55 | The self terms of the periodic mobility are the limits of the periodic minus the unbounded pair functions | `Prop_MinfP.v` (2) | limits of removable singularities |
| C56 | The lattice vectors are reflection symmetric and reciprocal | `Prop_MinfP.v` (2) | vector algebra, enumeration of the lattice box |
| C57 | The grand resistance matrices are symmetric, depend on relative positions only and are proportional to viscosity | `Prop_Grand.v` (12) | C09/C15/C52 through the inverse |
| C58 | The polygon test is right for convex polygons | `Prop_Polygon.v` (4) | parity of crossings: at most one edge up and one down by convexity |
| C59 | Checkpoint files are recognised by their names | `Prop_Checkpoint.v` (5) | decimal printing and reading, splitting at dashes, sorted search |
| C60 | A run does not depend on the choice of origin | `Prop_Sim.v` (5) | change of variables through each matrix block, invariant over frames |
| C61 | The position setups contain the advertised particles and no overlaps | `Prop_Setups.v` (10) | case analysis over the setups, loop invariants over the random stream, lattice coordinates |
| C62 | Documented runs complete, and it is known which combinations do not | `Prop_Runs.v` (4) | case analysis over forms and inputs; the run never reaches a raising branch (invariant over frames) |
| C63 | Turning or reflecting the configuration turns or reflects the answer | `Prop_Rotate.v` (7) | equivariance of each tensor block under an orthogonal matrix, finite-sum algebra, uniqueness of inverses |
| C64 | A positive definite resistance makes every form uniquely solvable | `Prop_Posdef.v` (9) | positive definite matrices: injective hence invertible (elimination), principal pivot transform |
| C65 | A completed run solved the Stokes resistance problem in every frame | `Prop_Run.v` (2) | composition of C57, C64 and the output equations; invariant over frames |
| C66 | The unit of length does not matter | `Prop_Rescale.v` (6) | homogeneity of each block, fold lemmas, uniqueness of inverses |
| C67 | Subtracting the far field from the table makes pairs exact | `Prop_Subtract.v` (9) | the inverse of a pair mobility from C43, table lookup on the nodes, fold over pairs |
| C68 | Well separated particles: the far-field mobility is positive definite | `Prop_Renumber.v`, `Prop_Wide.v` (4) | diagonal dominance: explicit bounds on every pair block |
| C69 | Combining near-field and mid-field tables keeps rows and separations together | `Prop_Subtract.v` (3) | list induction; sortedness of the concatenation |
| C70 | The built-in inputs prescribe the motion they describe | `Prop_Prescribed.v` (7) | case analysis over inputs, derivatives, induction over pairs |
| C71 | Lubrication singularities cancel for spheres moving with the fluid | `Prop_Nearfield.v` (6) | expansion of the rational functions of the size ratio, `field` |
| C72 | The near-field resistance functions obey the reciprocal theorem | `Prop_Nearfield.v` (2) | symmetry of the recurrences (strong induction), algebra |
| C73 | The near-field table holds the functions its index says | `Prop_Nearfield.v` (4) | index arithmetic of the loops; telescoping sums |
| C74 | The solution by reflections is read into the right scalars and compared with the right problems | `Prop_Lamb.v` (4) | linear algebra of the mobility law in each test case, evaluation of the table indices |
| C75 | The method of reflections meets the boundary condition and keeps the forces | `Prop_Reflect.v` (5) | solid harmonics, finite sums over degrees, induction over the reflections |
| C76 | The translation of the reflected flow is the same flow | `Prop_Translate.v` (5) | binomial and geometric series, uniqueness of expansions along the axis |
| C77 | The near-field recurrences are the reflections between two spheres | `Prop_Recur.v` (7) | strong induction over the order of the recurrences and the number of reflections |
| C78 | The near-field functions are the limits of the series they replace | `Prop_Series.v` (11) | logarithm series with remainder (mean value theorem), telescoping sums |
| C79 | Dumbbells placed at random in a periodic box do not overlap in any image | `Prop_PlaceP.v` (5) | loop invariants over the random stream, floor algebra, far images by the triangle inequality along an axis |
| C80 | Feeding particles from below never happens, and what it would do | `Prop_Feed.v` (4) | list lemmas: filters, sorted prefix |
| C81 | No direction and no handedness is preferred by whole runs | `Prop_Turn.v`, `Prop_Turn4.v` (5) | the grand matrices commute with turning (C63), unique solutions of positive definite problems, induction over frames |
| C82 | Flat arrangements stay flat | `Prop_Turn.v`, `Prop_Turn4.v` (3) | C81 for the reflection in y = 0 of a run with itself |
| C83 | A completed Runge-Kutta run solved the resistance problem in each stage of every frame | `Prop_Run4.v` (2) | as C65, stage by stage; the conditions on a stage are asked only where the equations of the stages before lead |
| C84 | Videos and plots show the saved run | `Prop_Video.v` (13) | string lemmas of C59; lists of discs as maps over copies and spheres; C35 for what was saved |
| C85 | The example scripts show what they say | `Prop_Examples.v` (9) | C65 for the first frame, C12 self blocks and C15 for a lone sphere, C29 for the box, C82 for flatness |
| C86 | The order of the particles does not matter, and symmetric arrangements stay symmetric | `Prop_Renumber.v`, `Prop_Renumber4.v` (12) | the mobility, near-field and drag matrices of renumbered particles are the permuted matrices (C14, C16), then as C81; symmetric arrangements: a run compared with itself |
| C87 | Forces do positive work, and suspensions under gravity sink | `Prop_Work.v` (3) | C03 turns the product of the packed vectors into the power; positive definiteness (C64); C65 and C83 for the frames and stages; for Adams-Bashforth the increments sum to a positive combination of velocities |
| C88 | Two equal spheres pulled alike keep their separation | `Prop_Pair.v` (3) | inversion through the midpoint composed with exchange of the spheres maps the pair to itself (lemmas of C71, C86); answers of positive definite problems are unique; the far and near field do not depend on a translation (C09, C34), so the velocity is the same in all frames and stages |
| C89 | Units and origin do not matter | `Prop_Units.v` (9) | the drag, mobility and near-field matrices scale as C66 and C11 say; answers of positive definite problems are unique, so they scale too; the rotation of orientation points is a function of angle only; induction over frames and stages |
| C90 | The near-field series are the forces, torques and stresslets of two spheres | `Prop_Moments.v` (14) | the reflections of C77 are polynomials in a/d and b/d; each is cut at total degree K with a bounded rest, the sums over reflections and powers are exchanged, and the parity of the reflection fixes the parity of the power |
| C91 | The checks before the first frame | `Prop_Startup.v` (15) | case analysis of the checks; intervals of the two tolerances by linear arithmetic; the sorted table closed under reciprocals equals its reversed reciprocals; C62 for completion, C16 for the failing look-up |
| C92 | Particles that are not crowded, and any two spheres, move with the forces on them | `Prop_Two.v` (9) | for two beads on the z axis the mobility splits into small symmetric blocks, each bounded by the self terms by explicit polynomial inequalities in the radii over the distance; general directions by rotation (C63 lemmas); summed over pairs as a diagonally dominant matrix; for falling pairs C88 lemmas by strong induction over frames, with C62 for completion |
| C93 | The box of settings and the amount of memory | `Prop_Banner.v` (7) | the template is a concatenation of texts and keys; no key occurs across their borders (a check over all pairs of keys, and values without runs of X); the figures for memory by rounding bounds and a check of all mantissas |
| C94 | The time of finishing | `Prop_Finish.v` (3) | one day more in the calendar is one more in the ordinal; texts of the three kinds have different lengths; pairs of digits and names of days are injective by a check of all of them |
| C95 | The velocity of two equal spheres pulled alike, in closed form | `Prop_Drift.v` (4) | in the frame whose z axis is the line of centres (lemmas of C92) the equations of no strain split into single equations for the stresslets, solved in closed form; turned back; C88 lemmas for the runs |
| C96 | Forces, torques and no stresslets (form fts): the solution in closed form | `Prop_Push.v` (4) | each pair block of the mobility applied to a force, torque or stresslet is rewritten in vectors; the rows of the grand mobility are sums over particles (C17 lemmas); the answers of form fts are the product with the mobility because its inverse is inverted back; C65 for the runs, C62 for completion |
| C97 | One sphere in a linear flow | `Prop_Alone.v`, `Prop_Alone2.v` (8) | the self blocks (C12) diagonalise the grand mobility of one sphere; no pairs, so no near field (C15); C65 and C83 for frames and stages, C62 for completion; sums of cosines telescope after multiplication by a sine |
| C98 | Spheres and dumbbells with given forces (form fts), in closed form | `Prop_Tow.v`, `Prop_Tow2.v` (5) | the dumbbell blocks are sums and differences of pair blocks between beads (C14 lemmas), so every row is a sum over all spheres and beads of the vector forms of C96; the rest as in C96 |
| C99 | Three descriptions of the layout of grand matrices agree; the time in headings of tables | `Prop_Index.v` (5) | case distinction over kinds of particles with linear arithmetic over the indices; division with remainder for the inverse of the layout; the digits of C41 read back by induction |
| C100 | Runge-Kutta with one far field per frame is Euler's scheme | `Prop_Once.v` (4) | answers of two positive definite problems with the same data agree (C81 lemmas with the identity as turn); so all stages give the same velocities and their mean is each of them; runs by induction over frames as in C81 |
| C101 | Runs with the drag matrix: every particle on its own | `Prop_Drag.v` (5) | the drag matrix is diagonal in blocks, so the answers of the positive definite problem (C65) are one quotient per row; frames and stages as in C65 and C83, completion by C62; the shear is summed by induction over frames |
| C102 | The near field does nothing to particles that stay apart | `Prop_Apart.v` (2) | beyond the cutoff only self pairs are found (C19) and all their writes are zero, so the matrices are equal functions; the frames agree by induction, as every configuration met is in the file |
| C103 | The table of separations agrees with the near field, up to the names of beads | `Prop_Separation.v` (5) | case distinction over kinds of particles; the exact list of close pairs (C19) |
| C104 | Answers superpose and are reciprocal | `Prop_Linear.v` (5) | a positive definite problem has one answer (lemma of C81), and the combination of two answers answers the combined problem block by block; reciprocity from the symmetry of the matrix and the power of packed vectors (C08); first frames from C65 |
| C105 | Two spheres at a tabulated separation move exactly as tabulated; what the comparison with Lamb's solution shows | `Prop_Exact.v` (5) | the near field of the pair cancels its far-field resistance (C67), so the grand resistance is the matrix of the tabulated scalars, rescaled and read from either sphere; it is positive definite because moving costs power, so the answers of C65 apply; the test by induction over the lines, with the rows of C74 |
| C106 | With near field, two equal spheres pulled alike at a tabulated separation drift in every frame as tabulated | `Prop_Fall.v` (2) | far field and near field at any translate of the pair add up to the matrix of the tabulated scalars (lemmas of C105; translates by C15, sizes of absent beads do not enter), so the conditions of C92 hold with near field too; the runs are straight by C88 and the velocity is read off the mobility law |
| C107 | What random placement says about its result is true of the result | `Prop_Report.v`, `Prop_ReportP.v` (14) | np.min of the non-zero entries of the distance matrix is the smallest distance of two points that are not at the same place (C39 shows that they are not); the rows of np.where by counting; the sums by induction |

## 5. Trusted base

* Coq's kernel (8.16.1) and the standard library's axioms listed below, theorem by
  theorem. No axioms are added; no kernel check is switched off; there is no
  `Admitted`, no functor or module type, no plugin.
* That the definitions in `Model_*.v` say what the cited python lines do, under the
  decisions of section 2. This is checked by reading only.
* The specifications in `Spec_*.v` and the statements in `Prop_*.v`.
* Hypotheses of the theorems about library functions: `np.linalg.inv` inverts
  (C09-C13, C21-C28, C43, C52-C57, C62-C68 where an inverse occurs; in C64, C65, C68 only
  on positive definite matrices), erfc has its derivative (C49-C51, C54, C55). In C71 the
  values of the Hurwitz zeta function are arbitrary; C78 leaves out XC, which uses it.
* C65 assumes that the grand resistance matrix is positive definite in the configurations
  met (proved for well separated particles, C68, and for the drag matrix, C64).

### Assumptions of each theorem

Abbreviations: F = `ClassicalDedekindReals.sig_forall_dec`, N = `ClassicalDedekindReals.sig_not_dec`, X = `FunctionalExtensionality.functional_extensionality_dep`, C = `Classical_Prop.classic`. These four are axioms of the standard library (real numbers, functional extensionality, classical logic); nothing else is assumed.

* **closed under the global context (no axioms)** (22): C05_blocks_belong, C05_blocks_cover, C05_blocks_disjoint, C05_blocks_inside, C21_no_spheres_raises, C25_stokes_drag_form_refuted, C26_unique, C44_bijection, C59_continued_name, C61_replicate_frames, C67_table_choice, C67_table_choice_refuted, C85_paths, C93_box, C93_column_refuted, C93_memory, C93_memory_cell, C93_scheme, C93_straight, C93_straight_refuted, C99_kinds, C99_slices.
* **C + F + N + X** (197): C100_drag, C100_euler, C100_frames, C100_oscillating_refuted, C101_crossing_refuted, C101_euler, C101_rk4, C101_shear, C101_shear_rk4, C102_layer, C102_same, C104_first_frame, C104_reversed, C105_pair, C105_suite, C106_falling, C106_pulled, C107_overfull_refuted, C107_periodic, C107_periodic_images_refuted, C107_periodic_same, C107_pitch_given, C12_drag_refuted, C26_drag, C26_latest_inverse, C27_ab2_dumbbells_refuted, C27_ab2_first, C27_ab2_linear, C27_constant, C27_increments, C27_rk4_background, C27_rk4_background_refuted, C27_rk4_classical, C27_rk4_cubic, C28_axis, C28_compose, C28_derivative, C28_no_spin, C28_rigid, C28_rotation, C28_rotation_ab2, C30_attached, C30_periodic_refuted, C30_rigid, C33_oscillatory_euler_refuted, C33_wrapping_box_refuted, C34_decreasing, C35_backup, C35_forces, C35_offset_refuted, C35_only_one_refuted, C35_output, C35_positions, C35_too_short_refuted, C36_flagged, C36_freeze, C36_unflagged, C36_unprotected, C37_lost_timestep, C37_resumed_state, C37_same_run_refuted, C37_saved_fewer, C49_erfc_derivatives, C49_helpers_are_derivatives, C50_derivatives, C50_no_splitting_is_unbounded, C50_real_space_greens_tensor, C51_real_space_pair_functions, C52_stale_erfcs_harmless, C52_symmetric, C52_translation, C52_viscosity, C53_every_block, C53_mixed_radii_refuted, C53_relabelling, C54_pair_sums, C54_wave_part_omitted_refuted, C55_rotation_self_term_refuted, C55_self_terms, C56_images, C56_wave_part_periodic, C57_periodic_drag_refuted, C57_periodic_forces, C57_periodic_symmetric, C57_periodic_translation, C57_periodic_viscosity, C60_builtin_inputs, C60_form_fts_refuted, C60_no_background_flow, C60_shear, C60_translation, C62_complete, C62_examples, C62_readme, C62_velocities_ignored_refuted, C65_drag, C65_run, C67_drag_pair_refuted, C68_far_field, C68_grand, C68_run, C68_solvable, C71_across, C71_correction, C71_force_and_torque, C71_stresslet, C71_stresslet_refuted, C71_stresslet_regular, C72_reciprocal_theorem, C72_scalars, C73_sums, C73_table, C73_table_reciprocal, C75_program, C78_XA, C78_XG, C78_XM, C78_YA, C78_YB, C78_YC, C78_YG, C78_YH, C78_YM, C78_ZM, C81_drag, C81_rk4, C81_rk4_drag, C81_turned_runs, C82_flat, C82_rk4, C82_shipped, C83_drag, C83_run, C84_dumbbells_refuted, C84_every, C84_every_refuted, C84_pictures, C84_repulsion_refuted, C84_run, C84_start_refuted, C85_coefficients, C85_drag_refuted, C85_paths_flat, C85_sedimentation, C85_stokes, C86_centred, C86_drag, C86_numbering_refuted, C86_relisted, C86_renumbered_runs, C86_rk4, C86_rk4_centred, C86_rk4_drag, C86_rk4_relisted, C86_rk4_symmetric, C86_symmetric, C87_sinks, C87_work, C88_alone, C88_falling, C88_pair, C89_drag, C89_gravity, C89_moved, C89_paths, C89_shear, C89_units, C89_units_rk4, C91_dumbbells_unchecked_refuted, C91_forms, C91_missing_ratio, C91_readme, C91_then_completes, C91_tolerances_refuted, C91_unknown_forms_refuted, C91_unneeded_refuted, C92_fall, C92_falling_pair, C92_far_field, C92_pair_speed, C92_run, C95_falling, C95_pulled, C95_speed, C96_gravity, C96_origin_refuted, C96_run, C97_alone, C97_order_refuted, C97_period, C97_rk4, C97_shear, C97_shear_rk4, C98_far_refuted, C98_gravity, C98_rk4, C98_run.
* **F** (4): C44_full, C44_rows, C61_replicate, C99_layout.
* **F + N + X** (212): C01_uncondense_condense, C02_condense_uncondense, C03_packed_dot_is_power, C04_pack_unpack, C04_short_vector_rejected, C06_K_is_strain, C06_derivatives_of_R_and_K, C06_first_and_second_derivatives, C06_rotlet_is_curl, C07_stokes_flow, C07_strain_blocks_symmetric_traceless, C08_exchange, C09_symmetric, C103_close, C103_example, C103_flag, C103_labels_refuted, C103_tables, C104_forces, C104_reciprocal, C104_superposition, C105_compare, C105_truncated_refuted, C105_verdict, C107_dumbbells, C107_dumbbells_fraction, C107_dumbbells_own_length_refuted, C107_dumbbells_same, C107_not_in_spheres, C107_spheres, C107_spheres_equal, C107_spheres_fraction, C107_spheres_same, C10_dumbbell_dumbbell, C10_dumbbell_sphere, C10_every_block, C10_relabelling, C11_near_field_translation, C11_near_field_translation_periodic, C11_near_field_viscosity, C11_translation, C11_viscosity, C12_drag_is_inverse_up_to_6pi, C12_self_blocks, C13_closer_than_1e8_refuted, C13_pair_geometry, C13_repaired_separation, C14_generate_Minfinity_transforms, C15_local, C15_local_free, C15_no_contact_zero_periodic, C15_separated_particles_zero, C15_symmetric, C16_bead_interactions_off_refuted, C16_every_block, C16_every_block_pairs, C16_fails_iff_ratio_missing, C16_relabelling, C19_distance_is_length, C19_each_pair_once, C19_exactly_the_close_pairs, C19_periodic_each_pair_once, C19_periodic_large_particles_refuted, C19_periodic_pairs, C19_periodic_simple_shear, C20_lattice_shift_invariant, C20_nearest_image_sheared_refuted, C20_nearest_image_unsheared, C25_duf, C25_extract_force_refuted, C25_fte, C25_fts, C25_nothing_given_raises, C25_ufte, C25_ufte_accepts_only_first, C25_ufteu, C32_oscillatory_flow, C32_oscillatory_rate, C32_oscillatory_strain, C32_oscillatory_total, C33_oscillatory, C34_balance, C34_forces, C34_pair, C34_total, C39_dumbbells, C39_single_sphere_refuted, C39_spheres, C39_spheres_first_free, C39_spheres_return, C39_tries_in_vain, C43_alone, C43_scales, C43_tables, C45_angle, C45_argument, C45_circle, C45_downward_refuted, C45_dumbbell, C45_rotation, C46_faxen, C47_resistance, C51_unbounded_pair_functions, C51_wave_space_pair_functions, C57_debug_output_refuted, C57_forces, C57_relabelling, C57_stored, C57_symmetric, C57_translation, C57_viscosity, C58_beads, C58_quadrilateral_refuted, C61_cubic_lattice, C61_orientation, C61_random, C61_replicate_refuted, C61_setups, C61_tests, C61_unknown, C61_walls, C63_far_field, C63_grand_resistance, C63_invertible, C63_near_field, C63_planar_far_field, C63_planar_grand_resistance, C63_turned_parts, C64_drag, C64_duf, C64_fte, C64_fts, C64_ufte, C64_ufteu, C66_far_field, C66_grand_resistance, C66_invertible, C66_motion, C66_near_field, C66_threshold_refuted, C67_drag_near_field, C67_extract_round_trip, C67_grand_resistance, C67_isolated_pair, C67_near_field, C67_pair_resistance, C70_gravity, C70_repulsion, C70_shear, C70_spring, C70_tests, C70_velocities, C70_walls, C74_rows, C74_scalars, C74_table, C74_written, C75_alone, C75_boundary, C75_moments, C75_sign, C76_pressure, C76_rotation, C76_velocity, C77_exist, C77_first, C77_moments, C77_x, C77_y, C77_z, C79_apart, C79_flat_box_refuted, C79_placed, C79_returns, C79_tries_in_vain, C80_between, C80_never_feeds_refuted, C80_new_beads, C80_reference_high_refuted, C81_inputs, C84_flow, C84_plot, C84_plot_refuted, C85_chains_refuted, C85_plot, C85_sedimentation_step, C86_inputs, C87_inputs, C89_inputs, C89_inputs_fixed, C90_XA, C90_XG, C90_XM, C90_YA, C90_YB, C90_YC, C90_YG, C90_YH, C90_YM, C90_ZM, C90_axes, C90_exist, C90_motions, C90_strengths, C92_close_pair_refuted, C92_driven, C92_power, C92_room, C96_solution, C97_simpson, C97_strain, C98_solution.
* **F + X** (98): C06_rotlet_closed_form, C08_M12_radius_independent, C14_mobility_transform, C14_power_preserved, C14_resistance_transform, C14_transforms_inverse, C17_L3_cross_product, C17_L4_L5_L6, C17_L7_L8_L9_orthogonal_projections, C17_L7_L8_L9_symmetric_traceless, C17_axial_transverse_projections, C18_between_neighbours, C18_clamped, C18_linear_in_between, C18_tabulated_values, C20_centred_cell, C20_lattice_image, C20_unique_image, C21_fts_to_fte, C22_fte_to_ufte, C22_fts_to_ufte, C23_fts_to_ufteu, C23_ufte_to_ufteu, C24_fts_to_duf, C29_idempotent, C29_in_cell, C29_lattice_image, C29_lattice_invariant, C29_unique, C31_dumbbell, C31_reversible, C31_sphere, C31_superposition, C32_constant_flow, C32_constant_rate, C32_constant_strain, C33_constant, C33_euler_images, C33_wrapping_box, C38_extract_refuted, C38_settings, C40_bounds, C40_exact, C40_flag, C40_last, C40_succeeds, C40_zero_interval, C41_fields, C41_left, C41_reads, C41_seconds, C41_sixty_refuted, C42_closed, C42_members, C42_once, C42_repeated_ratio_refuted, C42_same_as_generator, C42_sorted, C43_equivalent, C43_resistance, C47_direct, C47_mobility, C47_reciprocal_theorem, C48_common_scale_refuted, C48_forces, C58_convex_polygon, C58_returns, C59_latest_refuted, C59_recognised, C59_search, C59_startup_refuted, C64_invertible, C64_sum, C64_unique, C69_overlap_refuted, C69_readable_refuted, C69_rows, C73_coefficient, C76_fields, C76_lamb, C77_orders, C78_order_0, C84_box_refuted, C84_name, C84_name_refuted, C91_checks, C91_element_check, C91_element_names_refuted, C91_mirrored, C91_otherwise, C91_then_found, C91_unique, C94_century_refuted, C94_text, C94_unambiguous, C95_gains, C99_elements, C99_seconds.

## 6. Findings: where the code does not do what one would expect

Each is proved of the model by a theorem in the property named; line numbers refer
to `stokesian_dynamics/`.

* C12: the drag-only matrix (`use_drag_Minfinity`) is smaller than the inverse of the
  self-mobility by the factor 6 pi (and uses no viscosity for the stresslet alike).
* C13: positions closer than 1e-8 are not repaired to touching.
* C16: with `bead_bead_interactions` off the sums on the diagonal of bead-bead pairs
  remain.
* C19: the periodic search for close pairs misses pairs of large particles beyond half
  a box.
* C20: in a sheared box the image reported is not always the nearest.
* C25: asking for the force on the wall in `ufte` form, and the form
  `stokes_drag_dumbbells_only`, always raise TypeError.
* C27: in a background flow RK4 is an Euler step; AB2 with dumbbells raises TypeError
  (`frameno - checkpoint_filename`, run_simulation.py 282).
* C30: Euler in a periodic box leaves orientation points behind when a sphere is wrapped.
* C32: `opposite_direction` is ignored for axis 1.
* C33: in a sheared periodic box wrapped positions need not be images; Euler does not
  follow an oscillating box.
* C34: ValueError when all spheres are in the lids.
* C35: saving only positions or only forces, or too short a run, ends in an exception
  without output.
* C37: resuming from a checkpoint loses one timestep.
* C38: the sixth command-line argument has no effect.
* C39: placing one sphere raises ValueError; after one overlap the further tries for a
  second bead are in vain.
* C41: durations just below a minute are shown as 60.0s.
* C42: repeated size ratios give lists of different lengths.
* C45: outlines with downward normals are tilted wrongly.
* C48: force arrows grow by a factor of six from sphere to sphere.
* C53: periodic mobility, sphere against dumbbell bead: the radii are interchanged in
  the rotation and strain blocks.
* C54: periodic M12 and M13 omit the wave-space sum.
* C55: the periodic rotational self-mobility lacks the term 40 lambda^3/(3 sqrt pi).
* C57: the periodic drag-only matrix raises IndexError; `printout > 1` raises
  UnboundLocalError.
* C58: `randomise_beads_inside_quadrilateral` always ends in TypeError.
* C59: of several checkpoint files the oldest is continued; a file of a negative setup
  number stops every later run.
* C60: in form `fts` the strain solved for each particle is applied as a background
  flow about the centre, so a single sphere with a given stresslet drifts by an amount
  that depends on its distance from the origin.
* C61: radii are not in the saved file; `same_setup_as` makes them 1 (and 0.1 for
  dumbbells), so replicated configurations may overlap.
* C62: inputs 3, 4, 7 raise in form `ufte`, all inputs in forms `ufteu` and `duf`; in
  forms `fts` and `fte` the velocities prescribed by input 5 are silently ignored.
* C66: the threshold 1e-8 for the repair of overlaps is an absolute length.
* C67: `use_drag_R2Binfinity` selects the opposite of the documented table; the drag-only
  combination leaves the drags of two spheres too small.
* C69: `combine_scalars.py` sorts the separations but not the rows, and always stops with
  AttributeError after saving.
* C71: the coefficient 728 in `G6ym` (functions_nearfield.py) leaves a term
  xi log(1/xi) in the stresslets of spheres moving with the fluid; 748 would cancel it.
* C79: `randomise_dumbbells_periodic` puts dumbbells that point to negative y in a flat box
  at y + 1e6; tries after an overlap are in vain (as in C39).
* C80: `feed_particles_from_bottom` raises in every frame in which feeding is due.
* C84: `make_video` raises for timesteps below 0.0001, for dumbbells and for input 4; colours
  a subsampled video by the wrong rows of forces; draws the sheared periodic box with rows and
  columns exchanged. `plot_positions` raises for dumbbells and for the last row.
* C85: `example-a.py` raises ValueError unless there are 15 spheres, contrary to its docstring;
  `example-c.py` reads a wrong speed if the first sphere crossed the box in the step.
* C86: dumbbells are moved with the strain of sphere 0 (`Ea_out[0]`), so with dumbbells the
  numbering of the spheres matters when their strains differ.
* C91: radii of dumbbell beads are not checked before the run (IndexError in the first frame);
  the check of size ratios and the look-up have different tolerances; the check is made even
  with `use_Minfinity_only`; misspelt forms, `RPY_dumbbells_only` and
  `stokes_drag_dumbbells_only` pass and never run; `do_we_have_all_size_ratios` (disabled)
  names the rows of two entries instead of the row and column of one.
* C92: centres between 1e-10 and 1e-8 apart are not treated as touching; the mobility matrix of
  two unit spheres is then indefinite (C13 for single entries).
* C93: a timestep whose decimal text is longer than 8 characters (say 1/1024) bends the printed
  box of settings; `sizeof_fmt` writes 8 instead of 7 characters between 999.5 and 999.95 units.
* C94: `format_finish_time` writes two digits of the year, so finishes a century apart look alike.
* C96: in form `fts` the computed strains of the spheres are added by
  `add_background_flow_spheres` as if they were those of the background flow, so the motion
  depends on the position of the origin (as C60 for one sphere with a given stresslet).
* C97: all four Runge-Kutta stages take the background flow at the positions of the start of the
  frame (C27), so for a lone sphere in a steady straining flow RK4 is Euler's method (factor
  1 + e dt per frame).
* C98: `add_background_flow_dumbbells` uses `Ea_out_k1[0]`, the strain computed for sphere 0 (which
  in form `fts` is that of the disturbance), at every dumbbell, so a force-free dumbbell beside two
  falling spheres falls at a speed growing with its distance.
* C100: settings.py says that without near field `rk4_generate_minfinity_for_each_stage = False` makes
  RK4 equivalent to Euler. True for steady forces and flows only: the stages ask for the inputs at
  their own times, so in the oscillating shear (input 3) the schemes differ after one step.
* C101: in Runge-Kutta frames `add_background_flow_dumbbells` of the second stage is given `Ea_out_k1`
  instead of `Ea_out_k2` (run_simulation.py 416). In an unsteady shear the strain and the rotation of
  that stage then belong to different times, so dumbbells move across the streamlines.
* C103: the table of separations of `are_some_of_the_particles_too_close` (timestepping.py 199-202)
  lists the beads at plus half the extension before those at minus, opposite to shared.py and the
  matrices, so the numbers of offending beads read off it name the other bead of the dumbbell.
* C105: `test_against_lamb` compares the lines that are there; with a file cut short, or with the header
  only, it passes.
* C107: the fraction printed by `randomise_spheres` can exceed 100% (spheres stick out of the box; those already
  there do not count); the minimum printed by `randomise_dumbbells` counts the two beads of one dumbbell as a pair,
  so for short dumbbells it is always dx over the radius; that of `randomise_dumbbells_periodic` ignores the copies of
  the box.
Observed but without a theorem of their own: the real-space sum of the periodic mobility
is truncated relative to the home image only; the wave vectors exchange the indices l
and m (harmless, the set is the same).

## 7. Tests against wrong programs

`seeded/LOG.jsonl` records edits of the model in a scratch copy, with the theorems
that stopped proving and those tightened because of the attempt.

