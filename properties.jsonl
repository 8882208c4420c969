{"id": "C01", "title": "Uncondensing a condensed stresslet gives the stresslet back", "statement": "For every list of symmetric traceless 3x3 tensors, uncondense(condense(S)) returns exactly S, and condense_and_flatten(S) is the concatenation of the rows of condense(S).", "quantifier": "every number of particles and every real symmetric traceless 3x3 tensor for each of them", "why_tests_cant": "The tensors range over a five-dimensional real space per particle; a unit test samples finitely many tensors and usually ones with zeros that hide a wrong coefficient.", "anchors": ["stokesian_dynamics/functions/simulation_tools.py:condense", "stokesian_dynamics/functions/simulation_tools.py:condense_and_flatten", "stokesian_dynamics/functions/simulation_tools.py:uncondense", "stokesian_dynamics/functions/shared.py:contraction"]}
{"id": "C02", "title": "Uncondense always returns a symmetric traceless tensor and is inverted by condense", "statement": "For every vector of 5N reals, uncondense returns N symmetric traceless tensors, and condensing these gives back the 5N reals.", "quantifier": "every N and every vector of 5N reals", "why_tests_cant": "Infinite real input space; the identity depends on exact algebra of sqrt(3) coefficients.", "anchors": ["stokesian_dynamics/functions/simulation_tools.py:condense", "stokesian_dynamics/functions/simulation_tools.py:uncondense"]}
{"id": "C03", "title": "Condensation preserves the double contraction S:E, so the packed dot product is the power", "statement": "For symmetric traceless S and E, the dot product of the condensed 5-vectors equals the full sum over i,j of S_ij E_ij; hence the dot product of the packed grand force and velocity vectors equals the sum over particles of F.U + T.O + S:E (+ dumbbell terms).", "quantifier": "every number of spheres and dumbbells and all real forces, torques, stresslets and velocities", "why_tests_cant": "Quantifies over all pairs of tensors; only algebra establishes that the 5x5 form is an isometry.", "anchors": ["stokesian_dynamics/functions/simulation_tools.py:condense", "stokesian_dynamics/functions/simulation_tools.py:construct_force_vector_from_fts", "stokesian_dynamics/functions/shared.py:contraction"]}
{"id": "C04", "title": "Packing then unpacking the grand vector loses nothing", "statement": "construct_force_vector_from_fts(F,T,S,Fb,DFb) followed by deconstruct_velocity_vector_for_fts returns F,T,S,Fb,DFb unchanged, with length 11*Ns+6*Nd, for any Ns and Nd, including Ns=0 or Nd=0.", "quantifier": "every number of spheres and dumbbells (including zero of either) and every real value with traceless symmetric S", "why_tests_cant": "Slice arithmetic must be right for every pair of counts, and tests fix a few.", "anchors": ["stokesian_dynamics/functions/simulation_tools.py:construct_force_vector_from_fts", "stokesian_dynamics/functions/simulation_tools.py:deconstruct_velocity_vector_for_fts"]}
{"id": "C05", "title": "The block coordinates never collide, stay in the matrix and cover the upper triangle", "statement": "For all particle counts and all bead pairs a1<=a2, every block the assembly writes for the pair lies inside the square matrix of side 11*Ns+6*Nd and on or above the diagonal blocks; blocks of two different (pair, block name) combinations are disjoint (apart from a self pair's own 21-blocks); and each upper-triangular entry belongs to a block of exactly one pair.", "quantifier": "every number of spheres and dumbbells and every pair of bead indices", "why_tests_cant": "Index arithmetic over unbounded counts; overwriting an entry from another pair is silent.", "anchors": ["stokesian_dynamics/functions/shared.py:submatrix_coords_tuple", "stokesian_dynamics/functions/generate_Minfinity.py:generate_Minfinity", "stokesian_dynamics/functions/generate_R2Bexact.py:generate_R2Bexact"]}
{"id": "C06", "title": "The Oseen-tensor helper functions are the derivatives they are named after", "statement": "For every nonzero separation vector r, D_J is the partial derivative of J, DD_J the second derivative, Lap_J the Laplacian of J, DLap_J the derivative of the Laplacian, and R, K, D_R, D_K, Lap_R, Lap_K, DLap_K are the antisymmetric / symmetric combinations of these derivatives.", "quantifier": "every nonzero real vector r and all index values 0,1,2", "why_tests_cant": "A statement about limits at every point of R^3 minus the origin; tests can only take finite differences at some points.", "anchors": ["stokesian_dynamics/functions/generate_Minfinity.py:J", "stokesian_dynamics/functions/generate_Minfinity.py:D_J", "stokesian_dynamics/functions/generate_Minfinity.py:DD_J", "stokesian_dynamics/functions/generate_Minfinity.py:Lap_J", "stokesian_dynamics/functions/generate_Minfinity.py:DLap_J", "stokesian_dynamics/functions/generate_Minfinity.py:Lap_R", "stokesian_dynamics/functions/generate_Minfinity.py:Lap_K", "stokesian_dynamics/functions/generate_Minfinity.py:DLap_K"]}
{"id": "C07", "title": "The mobility pair functions describe an incompressible Stokes flow", "statement": "For every nonzero r the Stokeslet J is divergence free, its Laplacian is divergence free and harmonic, J is biharmonic, the rotlet R has zero Laplacian, and as a result the mobility blocks M13, M23 and M33 are traceless and symmetric in their strain indices, so that condensing them loses nothing.", "quantifier": "every nonzero separation vector, all radii, all indices", "why_tests_cant": "Identities between real functions at all points.", "anchors": ["stokesian_dynamics/functions/generate_Minfinity.py:J", "stokesian_dynamics/functions/generate_Minfinity.py:M13", "stokesian_dynamics/functions/generate_Minfinity.py:M23", "stokesian_dynamics/functions/generate_Minfinity.py:M33", "stokesian_dynamics/functions/generate_Minfinity.py:Lap_R"]}
{"id": "C08", "title": "Two-particle mobility functions obey the reciprocal theorem under exchange of the particles", "statement": "M11, M22 and M33 evaluated with separation -r and radii swapped and indices transposed equal the originals; M12 does not depend on which radius belongs to which particle; M12 and M13 are odd and M23 even in r, so the equal-radius shortcut in the assembly gives the same blocks as the general branch.", "quantifier": "every nonzero separation vector and every pair of positive radii", "why_tests_cant": "Real identities for all r, a1, a2.", "anchors": ["stokesian_dynamics/functions/generate_Minfinity.py:M11", "stokesian_dynamics/functions/generate_Minfinity.py:M12", "stokesian_dynamics/functions/generate_Minfinity.py:M13", "stokesian_dynamics/functions/generate_Minfinity.py:M22", "stokesian_dynamics/functions/generate_Minfinity.py:M23", "stokesian_dynamics/functions/generate_Minfinity.py:M33", "stokesian_dynamics/functions/generate_Minfinity.py:generate_Minfinity"]}
{"id": "C09", "title": "The far-field grand mobility matrix is symmetric", "statement": "generate_Minfinity returns a symmetric matrix for every configuration, with and without dumbbells and whatever the bead_bead_interactions flag.", "quantifier": "every number of particles, all positions, sizes, dumbbell vectors, viscosities and flag values", "why_tests_cant": "Assembly loop over an unbounded number of pairs followed by sparse transforms.", "anchors": ["stokesian_dynamics/functions/generate_Minfinity.py:generate_Minfinity"]}
{"id": "C10", "title": "Every block of the grand mobility matrix is the pair function of its own two particles, whatever the labelling", "statement": "For spheres p and q (p<q, p=q or p>q), the velocity/torque, velocity/stresslet, rotation/stresslet and other blocks of generate_Minfinity equal the documented pair mobility of particle p's motion due to particle q's force moment, evaluated at x_p-x_q with radii a_p,a_q; for a dumbbell, the rows of its centre's velocity and of half its beads' velocity difference are half the sum and half the difference of the pair mobilities of its two beads, which sit half the displacement vector either side of the centre (with bead-bead interactions switched off, of a bead with itself only); so relabelling the particles permutes the matrix consistently.", "quantifier": "every number of spheres and dumbbells, every ordered pair, all positions and sizes", "why_tests_cant": "The assembly visits pairs once with p<=q and fills four triangles by separate formulas; correctness must hold for each unordered pair for every N.", "anchors": ["stokesian_dynamics/functions/generate_Minfinity.py:generate_Minfinity", "stokesian_dynamics/functions/shared.py:submatrix_coords_tuple"]}
{"id": "C11", "title": "The grand mobility matrix depends only on relative positions and scales inversely with viscosity", "statement": "Translating all particles by one vector leaves generate_Minfinity unchanged; multiplying mu by k>0 divides every entry by k. Likewise generate_R2Bexact is unchanged by translation and multiplied by k.", "quantifier": "every configuration, every translation vector and every positive viscosity", "why_tests_cant": "All real translations and viscosities.", "anchors": ["stokesian_dynamics/functions/generate_Minfinity.py:generate_Minfinity", "stokesian_dynamics/functions/generate_R2Bexact.py:generate_R2Bexact"]}
{"id": "C12", "title": "An isolated sphere gets the Stokes, torque and stresslet self-mobilities, and the drag-only matrix is 1/(6 pi) times the inverse of the mobility", "statement": "The self blocks of generate_Minfinity are I/(6 pi mu a), I/(8 pi mu a^3), I/(20/3 pi mu a^3) with zero coupling; the matrix used instead of the inverse under use_drag_Minfinity is, for a lone sphere, exactly 1/(6 pi) times the inverse of the mobility, hence not its inverse (finding).", "quantifier": "every configuration, every sphere in it, all sizes and viscosities", "why_tests_cant": "All configurations; and the mismatch is a constant factor which a regression test against the code's own output does not reveal.", "anchors": ["stokesian_dynamics/functions/generate_Minfinity.py:M11", "stokesian_dynamics/functions/generate_Minfinity.py:M22", "stokesian_dynamics/functions/generate_Minfinity.py:generate_Minfinity", "stokesian_dynamics/functions/generate_grand_resistance_matrix.py:generate_grand_resistance_matrix"]}
{"id": "C13", "title": "Overlapping particles are treated as just touching", "statement": "For two particles more than 1e-8 apart the mobility is evaluated at a separation never below 2.001 times their mean radius, in the unchanged direction, and at the true separation when that is larger. For distinct particles closer than that no repair takes place and the claim fails (finding).", "quantifier": "every pair of positions and radii", "why_tests_cant": "Threshold behaviour over all real separations.", "anchors": ["stokesian_dynamics/functions/generate_Minfinity.py:generate_Minfinity"]}
{"id": "C14", "title": "Dumbbell coordinates in mobility and resistance matrices are the same change of variables", "statement": "The mobility transform sends bead forces/velocities to (U1+U2)/2, (U2-U1)/2 and the resistance transform to F1+F2, F2-F1: the two sparse matrices are inverse-transposes of each other, so that transforming the bead-level resistance matrix of an invertible mobility gives the inverse of the transformed mobility, and power F.U is unchanged.", "quantifier": "every number of spheres and dumbbells and every bead-level matrix", "why_tests_cant": "Unbounded matrix dimensions; factor-of-two slips are consistent within one file and appear only in the pair.", "anchors": ["stokesian_dynamics/functions/generate_Minfinity.py:generate_Minfinity", "stokesian_dynamics/functions/generate_R2Bexact.py:generate_R2Bexact"]}
{"id": "C15", "title": "The near-field resistance correction is symmetric, local and vanishes for separated particles", "statement": "generate_R2Bexact is symmetric; every block belonging to a pair of distinct beads that is not within the cutoff is zero; with no close pair the matrix is zero.", "quantifier": "every configuration, cutoff, scalar table and size-ratio table", "why_tests_cant": "Loop over unbounded pair set with an unbounded table.", "anchors": ["stokesian_dynamics/functions/generate_R2Bexact.py:generate_R2Bexact", "stokesian_dynamics/functions/shared.py:close_particles"]}
{"id": "C16", "title": "The near-field blocks do not depend on which particle of the pair has the lower label", "statement": "The off-diagonal force/rotation, force/strain and torque/strain blocks written for a pair equal the two-body resistance function seen from the second index, for both orders of the labels, and the lam==1 shortcut agrees with the general branch; if the scalar table satisfies the two-sphere reciprocity relations, A, C and M blocks are label independent too. The assembly fails exactly when the size ratio of two close beads or its reciprocal is missing from the table; with bead_bead_interactions off the diagonal blocks of dumbbell beads still contain other beads (finding).", "quantifier": "every pair, direction, size ratio and scalar table", "why_tests_cant": "All directions, separations and tables.", "anchors": ["stokesian_dynamics/functions/generate_R2Bexact.py:generate_R2Bexact", "stokesian_dynamics/functions/generate_R2Bexact.py:Bf", "stokesian_dynamics/functions/generate_R2Bexact.py:Gf", "stokesian_dynamics/functions/generate_R2Bexact.py:Hf"]}
{"id": "C17", "title": "The geometric tensors L1..L9 have the symmetries of the resistance functions", "statement": "For unit d: L1 and L2 are complementary projections, L3 and L6 antisymmetric/axial, L4..L9 are symmetric and traceless in each strain pair, and L7, L8, L9 are mutually orthogonal projections adding up to the identity on symmetric traceless tensors.", "quantifier": "every unit vector d", "why_tests_cant": "All points of the sphere; high-rank tensor identities.", "anchors": ["stokesian_dynamics/functions/generate_R2Bexact.py:L1", "stokesian_dynamics/functions/generate_R2Bexact.py:L7", "stokesian_dynamics/functions/generate_R2Bexact.py:L8", "stokesian_dynamics/functions/generate_R2Bexact.py:L9"]}
{"id": "C18", "title": "Scalar lookup interpolates between tabulated separations and clamps outside", "statement": "XYZ returns the tabulated scalar at a tabulated separation, a value between the two neighbouring entries in between, and the end values outside the table, for every increasing table.", "quantifier": "every strictly increasing list of separations, every value column, every real separation", "why_tests_cant": "All tables and all reals.", "anchors": ["stokesian_dynamics/functions/generate_R2Bexact.py:XYZ"]}
{"id": "C19", "title": "close_particles finds exactly the pairs within the cutoff", "statement": "Without a periodic box, close_particles returns each unordered pair (i<=j, self pairs included) once, exactly when 2|x_i-x_j|/(a_i+a_j) < 2*cutoff_factor, with the scaled displacement, its length and the size ratio a_j/a_i. In a periodic simple-shear box with cutoff below a quarter of the box a pair of mean radius at most 1 is reported exactly when some image is within the cutoff; pairs of larger particles within the cutoff can be missed (finding).", "quantifier": "every list of particles, positions, sizes and every cutoff", "why_tests_cant": "Unbounded lists of reals; missing a pair is silent.", "anchors": ["stokesian_dynamics/functions/shared.py:close_particles"]}
{"id": "C20", "title": "Periodic close_particles reports lattice images", "statement": "With a periodic box, the displacement reported for a pair differs from x_j-x_i by an integer combination of the (sheared) lattice vectors, scaled by the mean size, its fractional coordinates lie in [-1/2,1/2), and adding lattice vectors to particles leaves the reported pairs and displacements unchanged. Without shear it is a nearest image; in a sheared box it need not be, so that a pair within the cutoff can be missed (finding).", "quantifier": "every configuration, box size and shear state, every integer lattice shift", "why_tests_cant": "All integers and reals.", "anchors": ["stokesian_dynamics/functions/shared.py:close_particles", "stokesian_dynamics/functions/shared.py:shear_basis_vectors"]}
{"id": "C21", "title": "FTS to FTE conversion solves the same problem", "statement": "For a symmetric resistance matrix R with invertible strain-strain block, the matrix returned by fts_to_fte_matrix maps (U,O,S,...) to (F,T,E,...) exactly when R maps (U,O,E,...) to (F,T,S,...).", "quantifier": "every Ns>=1, Nd>=0, every symmetric matrix with invertible block, all vectors", "why_tests_cant": "Unbounded dimension linear algebra.", "anchors": ["stokesian_dynamics/functions/simulation_tools.py:fts_to_fte_matrix", "stokesian_dynamics/functions/simulation_tools.py:vecmat_mat_vecmat", "stokesian_dynamics/functions/simulation_tools.py:vec_mat_cross"]}
{"id": "C22", "title": "FTE to UFTE conversion solves the same problem", "statement": "The matrix returned by fte_to_ufte_matrix relates prescribed velocities of the first k spheres and forces of the rest to the unknown forces and velocities exactly as the input matrix does.", "quantifier": "every number k of fixed-velocity spheres, every Ns>=1, Nd>=0, every matrix with the sign-symmetry of an fte matrix and invertible block", "why_tests_cant": "Unbounded dimensions and split positions.", "anchors": ["stokesian_dynamics/functions/simulation_tools.py:fte_to_ufte_matrix"]}
{"id": "C23", "title": "UFTE to UFTEU conversion solves the same problem", "statement": "Same as C22 for prescribed dumbbell velocities (two successive partial inversions, centre of mass then half difference).", "quantifier": "every number of fixed-velocity dumbbells and spheres", "why_tests_cant": "Unbounded dimensions, two chained sign-sensitive partial inversions.", "anchors": ["stokesian_dynamics/functions/simulation_tools.py:ufte_to_ufteu_matrix"]}
{"id": "C24", "title": "FTS to DUF conversion solves the same problem", "statement": "Same for the dumbbell-only conversion used in duf form.", "quantifier": "every number of dumbbells, and of fixed-velocity dumbbells", "why_tests_cant": "Unbounded dimensions.", "anchors": ["stokesian_dynamics/functions/simulation_tools.py:fts_to_duf_matrix"]}
{"id": "C25", "title": "Solved outputs keep the prescribed inputs and satisfy the resistance relation", "statement": "In each of the forms fts, fte, ufte, ufteu and duf, whenever the inverses and the linear solve it asks for exist, generate_output_FTSUOE returns the values the user prescribed unchanged, and forces and velocities which together satisfy grand-force = R * grand-velocity for the original resistance matrix; input in which prescribed values are missing, or velocities are prescribed for particles other than the first ones, raises an exception. (Findings: asking for the force on the wall in ufte form, and the form stokes_drag_dumbbells_only, always raise TypeError.)", "quantifier": "every input form, all counts of fixed particles, every configuration", "why_tests_cant": "Combination of unbounded linear algebra with slicing of inputs and outputs.", "anchors": ["stokesian_dynamics/functions/timestepping.py:generate_output_FTSUOE"]}
{"id": "C26", "title": "The far-field inverse in use is the most recently due one", "statement": "In frame f the far-field resistance used is the inverse of the mobility at the latest frame g<=f with g divisible by invert_m_every or equal to the starting frame; never older, for any schedule.", "quantifier": "every starting frame, every invert_m_every>=1, every number of frames and any trajectory", "why_tests_cant": "All histories.", "anchors": ["stokesian_dynamics/run_simulation.py:generate_frame", "stokesian_dynamics/functions/generate_grand_resistance_matrix.py:generate_grand_resistance_matrix"]}
{"id": "C27", "title": "Timestepping schemes are consistent", "statement": "For velocities depending on time only, the displacement over any number of frames is the sum of each scheme's increments; hence all schemes are exact for constant velocity, AB2 after its first frame (which equals Euler's) for velocities linear in time, RK4 for velocities cubic in time; without background flow a frame of RK4 is the classical Runge-Kutta step for any velocity field, for spheres and dumbbells. (Findings: in a steady linear background flow a frame of RK4 is only an Euler step, since the flow is evaluated at the old positions in every stage; AB2 with dumbbells always raises TypeError.)", "quantifier": "all positions, velocities, timesteps and numbers of frames", "why_tests_cant": "Identities over all reals and all numbers of steps.", "anchors": ["stokesian_dynamics/functions/timestepping.py:euler_timestep", "stokesian_dynamics/functions/timestepping.py:ab2_timestep", "stokesian_dynamics/run_simulation.py:generate_frame"]}
{"id": "C28", "title": "Sphere orientation update is a rigid rotation", "statement": "After a step, each orientation vector relative to the new centre is the old one rotated about the angular velocity by angle |O| dt: lengths, angles between the two vectors and components along the axis are preserved; zero angular velocity translates it.", "quantifier": "every position, every pair of orientation vectors, every angular velocity and timestep", "why_tests_cant": "All reals, with special-cased axes.", "anchors": ["stokesian_dynamics/functions/timestepping.py:euler_timestep_rotation"]}
{"id": "C29", "title": "Wrapping particles into the periodic box", "statement": "wrap_around returns positions whose fractional coordinates are in [-1/2,1/2), moved by an integer combination of the (sheared) lattice vectors; it is idempotent and unaffected by integer lattice shifts of its input.", "quantifier": "every position, every invertible lattice basis, all integer shifts", "why_tests_cant": "All reals and integers.", "anchors": ["stokesian_dynamics/functions/timestepping.py:wrap_around", "stokesian_dynamics/functions/shared.py:shear_basis_vectors"]}
{"id": "C30", "title": "Orientation vectors stay attached to their sphere", "statement": "Starting at the radius along two axes, in a run of any length the two orientation points of each sphere stay at distance equal to the radius and at right angles, when there is no periodic box or the scheme is RK4. (Finding: with Euler in a periodic box they are left behind when the sphere is wrapped.)", "quantifier": "every trajectory, scheme, and box", "why_tests_cant": "Needs a particle crossing the boundary at the right time; quantifies over histories.", "anchors": ["stokesian_dynamics/run_simulation.py:generate_frame", "stokesian_dynamics/functions/timestepping.py:euler_timestep_rotation"]}
{"id": "C31", "title": "Background flow is added consistently to spheres, dumbbells and beads", "statement": "The velocity added to a dumbbell's centre and half-difference equals the mean and half-difference of the background velocity at its two beads; the velocity added to a sphere is the background velocity at its centre; angular velocity gets O_infinity; the flow is linear and reversible.", "quantifier": "all flows, centres, positions and dumbbell vectors", "why_tests_cant": "All reals.", "anchors": ["stokesian_dynamics/functions/timestepping.py:add_background_flow_spheres", "stokesian_dynamics/functions/timestepping.py:add_background_flow_dumbbells"]}
{"id": "C32", "title": "Shear input functions describe simple shear and its accumulated strain", "statement": "constant_shear adds, through the background flow of the frame, exactly the simple shear gammadot*(z-zc) e_x about its centre, and Ot, Et are the time integrals of O and E from time zero; oscillatory_shear adds the simple shear with rate a w cos(w t + phase) along the axes its flags select and Ot, Et have time derivatives O, E at every time, with shear strain a sin(w t + phase); it raises for period 0 and for axes other than 1, 2. (Findings: opposite_direction is ignored for axis 1; the strain at time zero is a sin(phase), not zero.)", "quantifier": "all shear rates, amplitudes, periods, phases, times, axes and flags", "why_tests_cant": "Derivatives at all times.", "anchors": ["stokesian_dynamics/setups/functions_inputs.py:oscillatory_shear", "stokesian_dynamics/setups/functions_inputs.py:constant_shear"]}
{"id": "C33", "title": "A sheared periodic box stays a valid lattice that moves with the flow", "statement": "For constant and oscillatory shear the box of shear_basis_vectors has the same volume at all times and spans the same lattice as the exactly advected box; in constant shear a particle and its periodic image, advected by one Euler step, are images of each other in the next box. (Findings: in oscillatory shear Euler's step does not follow the box; a wrapped position is an image in the box of the next frame exactly when the number of boxes it was moved by in the gradient direction, times the shift of the box in that frame, is a whole number of box lengths, so a run in a sheared box can move particles to places that are not images.)", "quantifier": "all shear rates, times, box sizes and positions", "why_tests_cant": "All times and integer image shifts.", "anchors": ["stokesian_dynamics/functions/shared.py:shear_basis_vectors", "stokesian_dynamics/setups/functions_inputs.py:constant_shear"]}
{"id": "C34", "title": "Repulsion forces are pairwise, repulsive and sum to zero", "statement": "When some sphere is not in a lid (or there are no spheres) repulsion_forces adds to each non-lid sphere the sum of pair repulsions from all beads, and to each dumbbell the sum and difference of those on its beads; pair repulsions are equal and opposite, along the line of centres, pointing apart, of size strength*2ab/(a+b)*exp(-tau*max(0,gap)) (non-increasing in the gap), and zero beyond the cutoff; without lids neither net force nor net torque is added. Otherwise it raises ValueError.", "quantifier": "every configuration, every strength and decay constant", "why_tests_cant": "Loop over unbounded pair sets of reals.", "anchors": ["stokesian_dynamics/setups/functions_inputs.py:repulsion_forces"]}
{"id": "C35", "title": "What is saved is what was simulated", "statement": "After a run of any number of frames, saving intervals dividing start_saving_after_timestep, the saved positions are exactly the positions at the start of the frames due for saving, in order, followed by the final position exactly when the last frame is due; the saved forces have one entry per due frame, being the forces of that frame; the backup file holds data saved up to an earlier frame. (Findings: the run ends in an exception without output if only one of positions and forces is saved, if it is shorter than start_saving_after_timestep, or if start_saving_after_timestep is not a multiple of the position saving interval.)", "quantifier": "every number of frames, saving intervals and start offset, any trajectory", "why_tests_cant": "All histories and all interval combinations (some combinations fail: recorded).", "anchors": ["stokesian_dynamics/run_simulation.py:generate_frame"]}
{"id": "C36", "title": "An error freezes the simulation", "statement": "Once a frame reports an error, any number of later frames changes neither positions nor saved data nor the backup; with Euler and AB2 a frame reports an error exactly when explosion protection is on and it leaves a dumbbell longer than 5; a frame of any scheme reporting none leaves all dumbbells at most 5 long.", "quantifier": "every history of frames and error point", "why_tests_cant": "Arbitrary fault point.", "anchors": ["stokesian_dynamics/run_simulation.py:generate_frame"]}
{"id": "C37", "title": "Stopping and resuming from a checkpoint gives the same run", "statement": "Resuming from a backup written in frame m (saving every frame) restores the positions and dumbbell vectors of the start of frame m, and all saved data, and continues at frame number m+1. (Finding: so the displacement of frame m is lost: the resumed run ends exactly one increment short of the uninterrupted run and saves one position fewer, for every m and number of frames.)", "quantifier": "every crash point, number of frames and trajectory", "why_tests_cant": "Arbitrary crash point.", "anchors": ["stokesian_dynamics/setups/positions.py:checkpoint_start_from_frame", "stokesian_dynamics/run_simulation.py:generate_frame"]}
{"id": "C38", "title": "Command-line arguments override settings positionally", "statement": "For any argument list the program stops with an error exactly when one of the first four arguments given is not a number; otherwise setup number, input number, timestep, number of frames and input form are the first five arguments, as far as given, and the defaults otherwise. (Finding: the sixth argument, the extract-force flag, has no effect, since the settings file resets it afterwards.)", "quantifier": "every argument list", "why_tests_cant": "All lists; the clobbering assignment is far from the parser.", "anchors": ["stokesian_dynamics/settings.py:args"]}
{"id": "C39", "title": "Randomly placed spheres and dumbbells never overlap and lie in the box", "statement": "Whatever the random numbers, when randomise_spheres returns, every new centre lies in the box, no new sphere overlaps another new or existing one, and each sphere got the first random point that was free; when randomise_dumbbells returns, all beads lie in the box, no bead overlaps an existing sphere or a bead of another dumbbell, and the two beads of a dumbbell are |dx| apart in the direction of the given angles. (Findings: randomise_spheres raises ValueError for a single new sphere or none; after one try for a second bead that overlaps, the rest of the hundred tries cannot succeed.)", "quantifier": "every random sequence, box, list of sizes and pre-existing spheres", "why_tests_cant": "All random histories.", "anchors": ["stokesian_dynamics/setups/functions_positions.py:randomise_spheres", "stokesian_dynamics/setups/functions_positions.py:randomise_dumbbells"]}
{"id": "C40", "title": "Progress estimate is sane", "statement": "Once the current frame has been timed, calculate_time_left succeeds for every nonzero interval; the estimate lies between zero and 1.03 times the frames left at the longest time so far; it is zero in the last frame; if all generating frames took L and all others S it is exactly 1.03 times (frames due for generation * L + other frames left * S); the flag marks an estimate made before any short frame.", "quantifier": "every frame number, number of frames, interval and history of timings", "why_tests_cant": "All histories.", "anchors": ["stokesian_dynamics/functions/timestepping.py:calculate_time_left"]}
{"id": "C41", "title": "Elapsed time formatting denotes the right duration", "statement": "The text of a duration of at least a minute reads back as the whole number of seconds elapsed, with hours, minutes and seconds in range and zero leading fields omitted; below a minute it shows the nearest tenth of a second. The time left is shown as the flags and that text, in a colour that never belongs to a shorter time and changes just after 10 minutes, one hour, five hours and one day. (Finding: just below a minute it shows 60.0s.)", "quantifier": "every nonnegative duration", "why_tests_cant": "All durations.", "anchors": ["stokesian_dynamics/functions/shared.py:format_elapsed_time"]}
{"id": "C42", "title": "The size-ratio table is closed under reciprocals", "statement": "lam_range_with_reciprocals consists exactly of the tabulated ratios and their reciprocals, sorted, each once if the tabulated ones are distinct, and is closed under reciprocals; for distinct ratios it is the list with which the tables were generated. (Finding: with a repeated ratio the two lists have different lengths.)", "quantifier": "every table of nonzero ratios", "why_tests_cant": "All tables.", "anchors": ["stokesian_dynamics/resistance_scalars/data.py:lam_range_with_reciprocals"]}
{"id": "C43", "title": "Two-sphere mobility scalars are inverted into resistance scalars correctly", "statement": "Whenever velocities, rotations, stresslets and forces, torques, strains of two spheres are related by the mobility problem with the given mobility scalars (whose three blocks are invertible and which are symmetric as the reciprocal theorem demands), they are related by the resistance problem with the scalars convert_dim_kim_mobility_to_dim_resistance returns; after division by the scales these are the scalars the run-time resistance formulae expect for a first sphere of unit radius. Conversely, whatever the resistance problem with the returned scalars allows, the mobility problem allows. For two equal spheres that do not interact (each moving with force/6pi, torque/8pi and having stresslet 20/3 pi times the strain) the mobility scalars divided by the mobility scales, and the converted ones divided by the resistance scales, are 1 for each sphere itself and 0 for all couplings. For any pair, the two tables of scalars, each divided by its scales, are related by pure numbers only (e.g. the couplings of stresslet and velocity are 3 times those of the mobility table times the resistances).", "quantifier": "all mobility scalars with invertible blocks, all unit vectors, all motions and moments", "why_tests_cant": "All reals.", "anchors": ["find_resistance_scalars/generate_scalars_midfield.py:convert_dim_kim_mobility_to_dim_resistance"]}
{"id": "C44", "title": "Rows of the human-readable scalar table are a bijection", "statement": "Each (separation, size ratio, gamma) has its own row in the human-readable table, which holds that separation, ratio, gamma and the eleven scalars for them; every row of the table is used and none lies outside.", "quantifier": "all table sizes and all index triples", "why_tests_cant": "All sizes.", "anchors": ["find_resistance_scalars/generate_scalars_midfield.py:XYZ_general_human"]}
{"id": "C45", "title": "The plotting rotation is a proper rotation and outlines face the viewer", "statement": "graphics.rotation_matrix(d) for a vector with 0<|d|<=1 returns an orthogonal matrix with determinant 1 which fixes d and turns vectors across d by the angle with sine |d|, clockwise about d (the identity for d=0); the argument is normalised in place. The outline drawn for a sphere lies in the plane through its centre perpendicular to the viewing direction, undistorted, for every elevation within half a turn and every azimuth. The two outlines of a dumbbell are those of circles centred on its two beads, half the extension before and behind its centre. (Finding: pathpatch_2d_to_3d tilts outlines wrongly for a normal with negative z component.)", "quantifier": "all vectors of length at most 1; all view angles, positions and outlines", "why_tests_cant": "All reals.", "anchors": ["stokesian_dynamics/functions/graphics.py:rotation_matrix", "stokesian_dynamics/functions/graphics.py:pathpatch_2d_to_3d", "stokesian_dynamics/functions/graphics.py:normal"]}
{"id": "C46", "title": "The nine pair mobility blocks are Faxen's laws applied to the singularity flows", "statement": "For two separated spheres each of M11, M12, M13, M22, M23, M33 and the transposed blocks the assembly derives from them (M21, M31, M32) equals the velocity, angular velocity or strain that Faxen's laws give for sphere 1 placed in the flow due to a unit force, torque or stresslet on sphere 2 (including the finite-size Laplacian terms of both spheres).", "quantifier": "every separation vector, all radii, all tensor indices", "why_tests_cant": "Existence and value of derivatives at every point of space; a wrong finite-size coefficient or sign is a small quantitative error.", "anchors": ["stokesian_dynamics/functions/generate_Minfinity.py:M11", "stokesian_dynamics/functions/generate_Minfinity.py:M12", "stokesian_dynamics/functions/generate_Minfinity.py:M13", "stokesian_dynamics/functions/generate_Minfinity.py:M22", "stokesian_dynamics/functions/generate_Minfinity.py:M23", "stokesian_dynamics/functions/generate_Minfinity.py:M33"]}
{"id": "C47", "title": "Table entries for reciprocal size ratios describe the same pairs", "statement": "For a ratio whose reciprocal lam is tabulated (and which is not itself), the entries of the general resistance table give, for the sphere of radius lam*a seen as the first one with the opposite unit vector, exactly the blocks of the resistance matrix that the tabulated pair's _22 and _21 scalars give for it as the second one; likewise the mobility table. If the tabulated pairs obey the reciprocal theorem, the table satisfies the condition under which the near-field matrix is symmetric.", "quantifier": "every pair table, ratio list, radius, direction, block and tensor index", "why_tests_cant": "A wrong sign or power of the ratio only shows in pairs of unequal spheres, by comparison of two table entries for all radii.", "anchors": ["find_resistance_scalars/generate_scalars_midfield.py:XYZ_general_table", "find_resistance_scalars/generate_scalars_midfield.py:xyz_general_table"]}
{"id": "C48", "title": "Force arrows in the plots are drawn to one scale (refuted)", "statement": "plot_all_force_lines draws an arrow for exactly the spheres that have a non-zero force and are visible, in order, from their centres; the k-th arrow drawn (k=0,1,...) is 6^(k+1) times the force. (Finding: so the arrows are not to a common scale: of two spheres under the same force the second gets an arrow six times as long.)", "quantifier": "any number of spheres, all positions and forces", "why_tests_cant": "The factor depends on how many arrows were drawn before, so single-sphere tests pass.", "anchors": ["stokesian_dynamics/functions/graphics.py:plot_all_force_lines"]}
{"id": "C49", "title": "The erfc helpers of the periodic code are the derivatives they are named after", "statement": "generate_erfcs returns erfc(lambda s) and its first six derivatives in s; each of the eleven closed forms DD_, Lap_, DDD_, DLap_, DDDD_, DDLap_, LapLap_, DDDLap_, DLapLap_, DDDDLap_, DDLapLap_rerfclr is the stated derivative of |r| erfc(lambda |r|), at every point other than the origin.", "quantifier": "every splitting parameter lambda (including 0), every r != 0, all tensor indices", "why_tests_cant": "Closed forms with up to forty terms; a wrong coefficient in a sixth derivative is a small quantitative change of a matrix nobody has another source for.", "anchors": ["stokesian_dynamics/functions/generate_Minfinity_periodic.py:generate_erfcs", "stokesian_dynamics/functions/generate_Minfinity_periodic.py:DD_rerfclr", "stokesian_dynamics/functions/generate_Minfinity_periodic.py:Lap_rerfclr", "stokesian_dynamics/functions/generate_Minfinity_periodic.py:DDD_rerfclr", "stokesian_dynamics/functions/generate_Minfinity_periodic.py:DLap_rerfclr", "stokesian_dynamics/functions/generate_Minfinity_periodic.py:DDDD_rerfclr", "stokesian_dynamics/functions/generate_Minfinity_periodic.py:DDLap_rerfclr", "stokesian_dynamics/functions/generate_Minfinity_periodic.py:LapLap_rerfclr", "stokesian_dynamics/functions/generate_Minfinity_periodic.py:DDDLap_rerfclr", "stokesian_dynamics/functions/generate_Minfinity_periodic.py:DLapLap_rerfclr", "stokesian_dynamics/functions/generate_Minfinity_periodic.py:DDDDLap_rerfclr", "stokesian_dynamics/functions/generate_Minfinity_periodic.py:DDLapLap_rerfclr"]}
{"id": "C50", "title": "The real-space Green's tensor of the periodic code and its derivatives are right", "statement": "J is (delta lap - grad grad) applied to |r| erfc(lambda |r|), symmetric and divergence free; D_J, DD_J, Lap_J, DLap_J, DDLap_J, R, K, D_R, D_K, Lap_R, Lap_K, DLap_K are its derivatives, curls and symmetric gradients as named; for lambda = 0 they coincide with the tensors of the non-periodic code.", "quantifier": "every lambda, every r != 0, all tensor indices", "why_tests_cant": "Existence and value of derivatives at every point of space, and an identity between two modules for all arguments.", "anchors": ["stokesian_dynamics/functions/generate_Minfinity_periodic.py:J", "stokesian_dynamics/functions/generate_Minfinity_periodic.py:D_J", "stokesian_dynamics/functions/generate_Minfinity_periodic.py:R", "stokesian_dynamics/functions/generate_Minfinity_periodic.py:K", "stokesian_dynamics/functions/generate_Minfinity_periodic.py:DD_J", "stokesian_dynamics/functions/generate_Minfinity_periodic.py:D_R", "stokesian_dynamics/functions/generate_Minfinity_periodic.py:D_K", "stokesian_dynamics/functions/generate_Minfinity_periodic.py:Lap_J", "stokesian_dynamics/functions/generate_Minfinity_periodic.py:DLap_J", "stokesian_dynamics/functions/generate_Minfinity_periodic.py:Lap_R", "stokesian_dynamics/functions/generate_Minfinity_periodic.py:Lap_K", "stokesian_dynamics/functions/generate_Minfinity_periodic.py:DDLap_J", "stokesian_dynamics/functions/generate_Minfinity_periodic.py:DLap_K"]}
{"id": "C51", "title": "Unbounded, real-space and wave-space pair functions are the same operators on their Green's tensors", "statement": "One set of six differential operators (with the Faxen weights in the radii) gives M11, M12, M22, M13, M23, M33 of the non-periodic code when applied to the Oseen tensor, ar, btr, cr, gtr, htr, mr when applied to the real-space tensor, and aktilde, cktilde, htktilde, mktilde times cos(k.r) when applied to the single wave Jtilde(k) cos(k.r), which is itself (delta lap - grad grad) of RR cos(k.r).", "quantifier": "every separation, wave vector, amplitude, radii, all tensor indices", "why_tests_cant": "A wrong weight or sign in one of the three copies of a formula makes the split inconsistent by a few percent and is invisible without a converged reference.", "anchors": ["stokesian_dynamics/functions/generate_Minfinity_periodic.py:ar", "stokesian_dynamics/functions/generate_Minfinity_periodic.py:btr", "stokesian_dynamics/functions/generate_Minfinity_periodic.py:cr", "stokesian_dynamics/functions/generate_Minfinity_periodic.py:gtr", "stokesian_dynamics/functions/generate_Minfinity_periodic.py:htr", "stokesian_dynamics/functions/generate_Minfinity_periodic.py:mr", "stokesian_dynamics/functions/generate_Minfinity_periodic.py:aktilde", "stokesian_dynamics/functions/generate_Minfinity_periodic.py:cktilde", "stokesian_dynamics/functions/generate_Minfinity_periodic.py:htktilde", "stokesian_dynamics/functions/generate_Minfinity_periodic.py:mktilde"]}
{"id": "C52", "title": "The periodic mobility matrix is symmetric, translation invariant and inversely proportional to viscosity", "statement": "generate_Minfinity_periodic returns a symmetric matrix; moving all particles by the same vector does not change it; multiplying the viscosity by k divides it by k; the values of erfcs left over from the previous pair (it is only recomputed for s>1e-8) have no effect on it.", "quantifier": "any numbers of spheres and dumbbells, any sizes, positions (also coincident ones), box, shear, number of images, both settings of bead_bead_interactions", "why_tests_cant": "Symmetry holds because of reflection symmetry of the truncated image sets, for every configuration and every truncation.", "anchors": ["stokesian_dynamics/functions/generate_Minfinity_periodic.py:generate_Minfinity_periodic", "stokesian_dynamics/functions/generate_Minfinity_periodic.py:generate_Minfinity_loop"]}
{"id": "C53", "title": "Every block of the periodic mobility matrix is the pair function of its two beads", "statement": "For every ordered pair of beads and every kind of motion and moment, the block of the assembled matrix at the place given by the layout is the corresponding pair sum (transposed via the reciprocal theorem below the diagonal, contracted to five strain components), zero between beads of different dumbbells without bead-bead interactions; renumbering spheres and dumbbells permutes rows and columns. (Finding: for rotation or strain of a sphere against a dumbbell bead the two radii are interchanged, so that for unequal radii the entry differs from the pair function.)", "quantifier": "all configurations in which beads of unequal size do not coincide with one another or with images; all boxes, shears and numbers of images", "why_tests_cant": "Needs all index pairs of all block types, with unequal radii in mixed suspensions of spheres and dumbbells.", "anchors": ["stokesian_dynamics/functions/generate_Minfinity_periodic.py:generate_Minfinity_loop", "stokesian_dynamics/functions/generate_Minfinity_periodic.py:con_M13_row", "stokesian_dynamics/functions/generate_Minfinity_periodic.py:con_M23_row"]}
{"id": "C54", "title": "The periodic pair sums are the Faxen operators applied to the truncated Ewald sum", "statement": "Off the lattice points, M11, M22, M23, M33 of the periodic code are the same differential operators as in C51 applied to one tensor, the truncated Ewald sum (real-space sum over X_lmn plus 1/L^3 times the wave sum over K_lmn), whose derivatives exist there. M12 and M13 are these operators applied to the real-space sum only. (Finding: M12 and M13 omit the wave part: in every cubic box of side L with radii up to L/12, two particles at distance L/4 get entries strictly smaller than those of the full sum.)", "quantifier": "every lattice, separation, radii, viscosity, all tensor indices; finding: every L>=1", "why_tests_cant": "An omitted contribution is a few percent of some entries and there is no independent implementation to compare with.", "anchors": ["stokesian_dynamics/functions/generate_Minfinity_periodic.py:M11", "stokesian_dynamics/functions/generate_Minfinity_periodic.py:M12", "stokesian_dynamics/functions/generate_Minfinity_periodic.py:M13", "stokesian_dynamics/functions/generate_Minfinity_periodic.py:M22", "stokesian_dynamics/functions/generate_Minfinity_periodic.py:M23", "stokesian_dynamics/functions/generate_Minfinity_periodic.py:M33"]}
{"id": "C55", "title": "The self terms of the periodic mobility are the limits of the periodic minus the unbounded pair functions", "statement": "For coinciding positions (a particle and its own images), M11, M12, M13, M23 and M33 equal the isolated sphere's self-mobility (1/(6 pi mu a), 0, 0, 0, half the traceless tensor over 20/3 pi mu a^3) plus the limit, for separation tending to zero, of the operators on the truncated Ewald sum minus the same operators on the Oseen tensor. (Finding: for M22 this fails: the torque-rotation self term lacks the correction 40 lambda^3/(3 sqrt pi)/(8 pi mu), for every box.)", "quantifier": "every box and shear of non-zero volume whose other lattice points are further than 1e-10 away, every radius, all tensor indices", "why_tests_cant": "A limit statement about removable singularities; the constant only shows up as a small box-size dependent error of the rotational self-mobility.", "anchors": ["stokesian_dynamics/functions/generate_Minfinity_periodic.py:M11", "stokesian_dynamics/functions/generate_Minfinity_periodic.py:M22", "stokesian_dynamics/functions/generate_Minfinity_periodic.py:M33", "stokesian_dynamics/functions/generate_Minfinity_periodic.py:generate_Minfinity_periodic"]}
{"id": "C56", "title": "The lattice vectors are reflection symmetric and reciprocal", "statement": "X_lmn consists of exactly the integer combinations, with coefficients up to how_far_to_reproduce_gridpoints, of the sheared box vectors that are at most 1.4142*h*L long, each once; Xdash_lmn is that without the origin; both and K_lmn contain with each vector its opposite. Every wave vector is in phase with every lattice translation (K.X is a multiple of 2 pi) if the sheared box has the volume of the box, so the wave part of the truncated sum is exactly periodic.", "quantifier": "every box, shear, number of images, every lattice translation", "why_tests_cant": "Reciprocity must hold for every shear and not only for the cubic box, where wrong cross products go unnoticed.", "anchors": ["stokesian_dynamics/functions/generate_Minfinity_periodic.py:generate_Minfinity_periodic", "stokesian_dynamics/functions/shared.py:shear_basis_vectors"]}
{"id": "C57", "title": "The grand resistance matrices are symmetric, depend on relative positions only and are proportional to viscosity", "statement": "generate_grand_resistance_matrix and generate_grand_resistance_matrix_periodic return (given that np.linalg.inv inverts) the matrix which assigns to velocities the far-field forces producing them plus the near-field forces; it is symmetric, the same for translated particles, multiplied by k when viscosity is (including the stored inverse), and permuted when particles are renumbered. (Findings: with use_drag_Minfinity the periodic function raises IndexError for any particles at all, as it indexes with i/3; with printout>1 the free-space function raises UnboundLocalError whenever the mobility was not regenerated in that call.)", "quantifier": "all configurations, options, cutoffs, tables, stored inverses, numbers of images", "why_tests_cant": "Combines the far-field inverse with the near-field sum for arbitrary configurations; the option combinations that fail are not run by the examples.", "anchors": ["stokesian_dynamics/functions/generate_grand_resistance_matrix.py:generate_grand_resistance_matrix", "stokesian_dynamics/functions/generate_grand_resistance_matrix.py:generate_grand_resistance_matrix_periodic"]}
{"id": "C58", "title": "The polygon test is right for convex polygons", "statement": "For every strictly convex polygon with any number of vertices, listed in either direction, point_inside_polygon returns True for every point strictly inside and False for every point strictly outside some edge; it returns for every polygon with a vertex. The beads placed by randomise_beads_inside_quadrilateral, its only caller, are one per size, each in the polygon by this test, none overlapping a sphere present before or another bead. (Finding: that function never returns: once all beads are placed it raises TypeError for all arguments and random numbers.)", "quantifier": "all convex polygons, all points strictly inside or outside, all random numbers", "why_tests_cant": "Crossing tests go wrong at particular heights of the vertices and edges (horizontal edges, a ray through a vertex), which have measure zero among random tests.", "anchors": ["stokesian_dynamics/setups/functions_positions.py:point_inside_polygon", "stokesian_dynamics/setups/functions_positions.py:randomise_beads_inside_quadrilateral"]}
{"id": "C59", "title": "Checkpoint files are recognised by their names", "statement": "A temporary file is recognised by a later run exactly when setup number, input number, number of frames and timestep agree, for all non-negative numbers, all decimal timesteps (printed with or without an exponent) and whatever the rest of the name; a continued run writes to the same file name; the search ends with a recognised, readable file if there is one and starts from frame 0 otherwise. (Findings: among several such files the alphabetically first, that is the oldest, is continued; a single temporary file of a run with a negative setup number, such as the test setups, or without dashes in its name stops every later run at start.)", "quantifier": "all parameters, timestamps, descriptions, directory listings and sets of corrupt files", "why_tests_cant": "The name is split at dashes, which also occur in small timesteps (1e-05), negative numbers and descriptions; the outcome depends on all files present.", "anchors": ["stokesian_dynamics/setups/positions.py", "stokesian_dynamics/run_simulation.py"]}
{"id": "C60", "title": "A run does not depend on the choice of origin", "statement": "Without a periodic box, displacing all particles, orientation points and the centre of the background flow by the same vector displaces every saved position and orientation of the run by that vector and leaves all saved forces and stresslets, and any exception, unchanged: for every time stepping scheme, form, solver, option and number of frames. Without background rotation and strain the centre need not move (all forms but fts); this covers the built-in inputs for gravity, repulsion, prescribed velocities, mixed, and the test forces and torques. (Finding: in form fts the strain solved for each particle is applied as a background flow about the centre, so that the run of one sphere with a given stresslet in a fluid at rest depends on its distance from the origin.)", "quantifier": "all configurations, displacements, inputs, schemes, numbers of frames, solvers and options without a box", "why_tests_cant": "The whole run is involved; an absolute coordinate slipping into any matrix, input or update would be seen only by comparing two displaced runs, which no test does.", "anchors": ["stokesian_dynamics/run_simulation.py:generate_frame", "stokesian_dynamics/functions/timestepping.py:generate_output_FTSUOE", "stokesian_dynamics/setups/inputs.py:input_ftsuoe", "stokesian_dynamics/setups/functions_inputs.py:repulsion_forces"]}
{"id": "C61", "title": "The position setups contain the advertised particles and no overlaps", "statement": "Setups 1 to 7 never raise; for all random numbers, whenever they return, they contain the advertised numbers of spheres and dumbbells, positive radii and no overlapping pair among all spheres and dumbbell beads (walls and random dumbbells included), in the plane y=0 except for the cubic array; the walls of setups 6 and 7 are two rows of 45 unit spheres with neighbours exactly 2.00001 apart; the spheres of setup 5 lie, surfaces included, in a box of width 16.2, and the dumbbells of setup 6 in the gap between the walls, with beads 2 apart; the test setups are two spheres of the stated radii on the x axis at scaled separations 2.1 and 3.9; other numbers stop the program. The periodic images of simple_cubic_8 are exactly the points of the simple cubic lattice of half the box side, each once, none closer than that. The two orientation points of every sphere are on its surface. same_setup_as gives back the arrangement of any saved frame, negative numbers counting from the end. (Finding: radii are not in the file and become 1 and 0.1: setup 8 replicates a frame of the non-overlapping test setup -3 with overlapping spheres.)", "quantifier": "all setup numbers, random numbers in [0,1), box sides, saved files and frame numbers", "why_tests_cant": "Random arrangements have hundreds of beads and differ from run to run; overlap is only noticed when a later matrix lookup goes wrong.", "anchors": ["stokesian_dynamics/setups/positions.py:pos_setup", "stokesian_dynamics/setups/tests/positions.py:pos_setup_tests", "stokesian_dynamics/setups/functions_positions.py:simple_cubic_8", "stokesian_dynamics/functions/shared.py:same_setup_as"]}
{"id": "C62", "title": "Documented runs complete, and it is known which combinations do not", "statement": "With a table containing the ratios of the radii in use and a linear solver returning vectors of the right length, every run whose inputs prescribe what the form asks for ends without exception (Euler, RK4, or AB2 without dumbbells; positive intervals), and with every frame saved holds one more entry of positions than frames and one of forces per frame. For the built-in inputs 1 to 7 a run completes exactly for: forms fts and fte with any spheres (input 6: 99 spheres), form ufte for inputs 1, 2, 5 and for input 6 with 90 to 99 spheres, and without spheres only inputs 3 and 7 in form fts. Every example command of README.md is among them, for every timestep, number of frames and all random numbers. (Findings: inputs 3, 4, 7 raise in form ufte, all of them in forms ufteu and duf; dumbbells alone run only with shear in form fts; in forms fts and fte the velocities prescribed by input 5 are silently ignored.)", "quantifier": "all numbers of spheres, dumbbells, frames, all configurations, timesteps, random numbers, solvers", "why_tests_cant": "That no exception occurs in any frame for any configuration reached is a statement about whole runs of any length; the failing combinations are not among the documented examples.", "anchors": ["stokesian_dynamics/run_simulation.py", "stokesian_dynamics/functions/timestepping.py:generate_output_FTSUOE", "stokesian_dynamics/setups/inputs.py:input_ftsuoe", "stokesian_dynamics/setups/positions.py:pos_setup", "stokesian_dynamics/functions/generate_R2Bexact.py:generate_R2Bexact"]}
{"id": "C63", "title": "Turning or reflecting the configuration turns or reflects the answer", "statement": "In free space, for every rotation and reflection: if particles (spheres and dumbbells of any radii, no two beads within 1e-10), forces, torques and stresslets are turned, generate_Minfinity gives the turned velocities, angular velocities and rates of strain (pseudovectors change sign under reflection); generate_R2Bexact, where it returns for one it returns for the other, and gives the turned forces; so do both matrices returned by generate_grand_resistance_matrix, for all its options, with the same exceptions. The turned far-field matrix is invertible if the original is. Particles in a plane with forces in the plane and torques normal to it get velocities in the plane.", "quantifier": "all orthogonal matrices, configurations, radii, moments, tables of resistance scalars, options", "why_tests_cant": "Eleven components per particle mix under a general rotation and no fixed case distinguishes a wrong off-diagonal factor; the stored reference outputs are for axis-aligned configurations.", "anchors": ["stokesian_dynamics/functions/generate_Minfinity.py:generate_Minfinity", "stokesian_dynamics/functions/generate_R2Bexact.py:generate_R2Bexact", "stokesian_dynamics/functions/generate_grand_resistance_matrix.py:generate_grand_resistance_matrix"]}
{"id": "C64", "title": "A positive definite resistance makes every form uniquely solvable", "statement": "If the grand resistance matrix is symmetric positive definite (forces do positive work at every nonzero velocity), then every matrix handed to np.linalg.inv or np.linalg.solve in forms fts, fte, ufte, ufteu and duf is invertible: its diagonal blocks, its inverse and each exchanged form of the problem are again positive definite or invertible; for inputs prescribing what the form asks for the code returns a result which keeps all prescribed values and satisfies forces = R times velocities, and this solution is the only one, whichever components are prescribed. The drag matrix for positive radii and viscosity is positive definite, and so is the sum of a positive definite far field and a near field doing no negative work.", "quantifier": "all numbers of spheres and dumbbells, positive definite symmetric matrices, inputs, and all inversion and solution routines correct on positive definite matrices", "why_tests_cant": "Each form inverts other blocks of matrices of other sizes; that none of them is singular is a statement about all configurations.", "anchors": ["stokesian_dynamics/functions/simulation_tools.py:fts_to_fte_matrix", "stokesian_dynamics/functions/simulation_tools.py:fte_to_ufte_matrix", "stokesian_dynamics/functions/simulation_tools.py:ufte_to_ufteu_matrix", "stokesian_dynamics/functions/simulation_tools.py:fts_to_duf_matrix", "stokesian_dynamics/functions/timestepping.py:generate_output_FTSUOE"]}
{"id": "C65", "title": "A completed run solved the Stokes resistance problem in every frame", "statement": "If a run (Euler or Adams-Bashforth; forms fts, fte, ufte, ufteu; unbounded or periodic) writes an output file, then there is a trajectory starting at the initial configuration such that in every frame: the inputs at that configuration are answered by velocities and forces keeping every prescribed value and related by the sum of the near field of that configuration and the inverse of the far-field mobility of the latest configuration due for inversion (or its drag matrix); the particles move with these velocities plus the background flow at their positions (Adams-Bashforth: 3/2 of these minus 1/2 of those of the frame before, Euler in the first frame), put back into the periodic box; the orientation points of each sphere turn about its new centre (before it is put back) around its angular velocity plus that of the background by the angle |angular velocity| times the timestep; all outputs have the right shape, the computed tensors being symmetric and traceless; and the file holds exactly the positions and forces of the due frames. Needed: matrices positive definite in the configurations met (nothing for runs with the drag matrix alone), inversion and solution routines correct on positive definite matrices, no broken dumbbell reported before the last frame.", "quantifier": "all configurations, inputs, numbers of particles and frames, timesteps, settings, solvers", "why_tests_cant": "It links the input file to the output file through every function of the program; tests compare two short runs with stored numbers.", "anchors": ["stokesian_dynamics/run_simulation.py", "stokesian_dynamics/run_simulation.py:generate_frame", "stokesian_dynamics/functions/timestepping.py:generate_output_FTSUOE", "stokesian_dynamics/functions/generate_grand_resistance_matrix.py:generate_grand_resistance_matrix"]}
{"id": "C66", "title": "The unit of length does not matter", "statement": "If all radii, positions and dumbbell vectors are multiplied by any h > 0 (beads more than 1e-8 apart before and after), every entry of generate_Minfinity is divided by h, h^2 or h^3 according to whether it relates velocities to forces, velocities to torques or stresslets (and vice versa), or angular velocities and strains to torques and stresslets; generate_R2Bexact finds the same pairs and table entries (or raises in both cases) and its entries are multiplied by h, h^2, h^3; the same holds for the drag matrix and both matrices returned by generate_grand_resistance_matrix, with the same exceptions; invertibility is preserved. So forces F, torques hT, stresslets hS on the enlarged configuration give velocities U/h and angular velocities O/h^2. (Finding: the threshold 1e-8 for the repair of overlaps is an absolute length: two unit spheres 1e-9 apart are not repaired, but are after enlarging 100 times.)", "quantifier": "all scale factors, configurations, radii, moments, tables of resistance scalars, options", "why_tests_cant": "Tests use radii of order one; a wrong power of a radius in a correction term shows only for other radii and separations.", "anchors": ["stokesian_dynamics/functions/generate_Minfinity.py:generate_Minfinity", "stokesian_dynamics/functions/generate_R2Bexact.py:generate_R2Bexact", "stokesian_dynamics/functions/generate_grand_resistance_matrix.py:generate_grand_resistance_matrix", "stokesian_dynamics/functions/shared.py:close_particles"]}
{"id": "C67", "title": "Subtracting the far field from the table makes pairs exact", "statement": "For two spheres of any radii, positions and viscosity, the inverse of their far-field mobility consists of the two-body resistance functions of 22 numbers, which are those subtract_R2Binfinity_from_scalars.py reads out of the inverse for radii 1 and lambda on the x axis; out of a near-field matrix made from a table it reads the numbers in the table. For any number of spheres and dumbbells with each close pair at a tabulated separation and ratio, the near field on spheres with the subtracted table is that with the original table minus the far-field resistances of the close pairs taken alone; so generate_grand_resistance_matrix returns inverse far-field mobility plus pair resistances of the original table minus their far-field part, and for two spheres alone within the cutoff exactly the resistance matrix of the original table. With the drag-only script the near field is reduced by the drag of the lone sphere once per close neighbour, at every separation. (Findings: as the drag matrix lacks the factor 6 pi, use_drag_Minfinity with the drag-only table leaves the drags of two spheres too small by (1 - 1/(6 pi)) of the lone drag; use_drag_R2Binfinity selects the opposite of the documented table: False, the default, selects the drag-only table, which is not supplied.)", "quantifier": "all positions, radii, viscosities, tables, cutoffs; separations and ratios in the table; inversion routines correct on the matrices met", "why_tests_cant": "The claim connects the table-making scripts, the far-field and the near-field code over 22x22 matrices in arbitrary directions; tests only compare whole runs with stored numbers.", "anchors": ["find_resistance_scalars/subtract_R2Binfinity_from_scalars.py", "find_resistance_scalars/subtract_R2Binfinitydrag_from_scalars.py", "stokesian_dynamics/resistance_scalars/data.py", "stokesian_dynamics/functions/generate_R2Bexact.py:generate_R2Bexact", "stokesian_dynamics/functions/generate_grand_resistance_matrix.py:generate_grand_resistance_matrix"]}
{"id": "C68", "title": "Well separated particles: the far-field mobility is positive definite", "statement": "For any numbers of spheres and dumbbells with radii between a0 and A a0 and any two beads more than 500 n A^3 a0 apart (n = 11 spheres + 6 dumbbells, the number of rows), generate_Minfinity returns a symmetric positive definite matrix, which therefore has an inverse, again symmetric positive definite; if moreover all beads are outside the near-field cutoff and the table contains the ratio 1, generate_grand_resistance_matrix raises no exception and returns that inverse, and prescribed forces, torques and stresslets (or strains) are answered by a solution which keeps them, the only one. A completed run of one frame from such an arrangement, with well-posed inputs in unbounded fluid, solved the equations of C65.", "quantifier": "all configurations of that spacing, radii, viscosities, cutoffs, tables, both bead-bead settings, all inversion and solution routines correct on positive definite matrices", "why_tests_cant": "Positive definiteness for every number of particles is a statement about matrices of every size.", "anchors": ["stokesian_dynamics/functions/generate_Minfinity.py:generate_Minfinity", "stokesian_dynamics/functions/generate_grand_resistance_matrix.py:generate_grand_resistance_matrix", "stokesian_dynamics/functions/timestepping.py:generate_output_FTSUOE"]}
{"id": "C69", "title": "Combining near-field and mid-field tables keeps rows and separations together", "statement": "If the near-field and the mid-field separations are each ascending and none of the near-field ones exceeds a mid-field one (as in the supplied files), the table written by combine_scalars.py has one row per separation of the list it writes, and the row at each separation is the one computed for it. (Findings: the list of separations is sorted but the rows are not, so with overlapping ranges rows are filed under wrong separations; after saving the table the script always stops with AttributeError, as it takes the shape of a list, so the readable table is never written.)", "quantifier": "all lists of separations and tables", "why_tests_cant": "A misfiled row changes the physics silently; it depends on the order of all separations.", "anchors": ["find_resistance_scalars/combine_scalars.py"]}
{"id": "C70", "title": "The built-in inputs prescribe the motion they describe", "statement": "For every configuration, frame and timestep and any numbers of particles: inputs 1 and 2 put the force (0,0,-1) on every sphere and nothing else, 2 in a periodic cube of side 8 about the origin; input 3 puts into each dumbbell of length L > 0 the force which is minus the gradient of the energy (L-2)^2/2, of size |L-2|, in a fluid shearing along x with rate (1/3)(2 pi/10) cos(2 pi t/10) about (9/4,0,9/4); input 4 puts on each sphere and dumbbell the sum of the pairwise repulsions on its beads, adding to zero; input 5 moves the first half of the spheres with (-1,0,0) and the rest with (1,0,0); input 6 with 99 spheres in form ufte does so with 90 of them and puts (10,0,0) on the other nine; input 7 gives the fluid velocity (z,0,0); the test inputs -1 to -13 prescribe the unit force, torque or rate of strain, or pair of opposite ones, named in their comments and zero otherwise (forms fte and fts; those which set the rate of strain, -9 to -11, in fte).", "quantifier": "all configurations, forms listed, frame numbers, timesteps, numbers of spheres and dumbbells", "why_tests_cant": "The inputs are functions of configuration and time; stored runs sample a few frames.", "anchors": ["stokesian_dynamics/setups/inputs.py:input_ftsuoe", "stokesian_dynamics/setups/tests/inputs.py:input_ftsuoe_tests", "stokesian_dynamics/setups/functions_inputs.py:oscillatory_shear"]}
{"id": "C71", "title": "Lubrication singularities cancel for spheres moving with the fluid", "statement": "For two spheres of any radii a, b > 0 in any direction, moving and rotating as any linear flow (velocity, rotation and strain) carries their centres, the near-field resistance functions X11A ... Z12M give forces and torques with none of the singular terms 1/xi, log(1/xi), xi log(1/xi) as the gap xi closes: each is c0 + c1 xi + c2 xi^2 + (c3 + c4 xi) xi^2 log(1/xi) for all xi > 0, whatever the generalised zeta values. The stresslets are so up to exactly (4/25) pi a^2 b^2 (a^2+b^2)/(a+b)^3 (d_i s_j + d_j s_i) xi log(1/xi), s the part of E d across the line of centres d: regular if d is a principal axis of the strain. (Finding: for a strain across the line of centres the term xi log(1/xi) is present for all radii; the coefficient 728 in G6ym, where the cancellation requires 748, causes it.)", "quantifier": "all radii, directions, linear flows, gaps xi > 0, values of the zeta functions", "why_tests_cant": "The cancellation relates eleven families of coefficient formulas for all radius ratios; stored numbers at a few gaps cannot show the absence of a weak singularity.", "anchors": ["find_resistance_scalars/functions_nearfield.py:G1xa", "find_resistance_scalars/functions_nearfield.py:G6ym", "find_resistance_scalars/functions_nearfield.py:X11A", "find_resistance_scalars/functions_nearfield.py:Z12M"]}
{"id": "C72", "title": "The near-field resistance functions obey the reciprocal theorem", "statement": "For every size ratio lambda > 0 and gap, the mutual functions X12A, Y12A, X12C, Y12C, X12M, Y12M, Z12M at lambda are lambda (for A) or lambda^3 (for C, M) times those at 1/lambda; with the units of generate_R2Bexact, for two spheres of any radii and any two sets of velocities, angular velocities and strains, the moments of the first do the same work on the motion of the second as the other way round.", "quantifier": "all size ratios, gaps, directions, motions, values of the zeta functions", "why_tests_cant": "The functions are sums of 100 terms, each from recurrences over many indices; symmetry under inversion of lambda holds for every coefficient only by a reversal of all paths in the recurrence.", "anchors": ["find_resistance_scalars/functions_nearfield.py:Pxa", "find_resistance_scalars/functions_nearfield.py:Fxa", "find_resistance_scalars/functions_nearfield.py:X12A", "find_resistance_scalars/functions_nearfield.py:Z12M"]}
{"id": "C73", "title": "The near-field table holds the functions its index says", "statement": "In the table made by generate_scalars_nearfield.py, the entry at scalar family n, particle gamma, separation i and ratio j is that function at gap s_i - 2 and ratio lambda_j, for any lists; entries at inverse ratios are reciprocal. AX11, AY11 and AY12, whose sums leave out the m1 terms and correct for the truncation, are for every ratio exactly the sums to 100 of the published formula with its m1 terms; Fzm with the coefficient folded in is the coefficient times Fzm.", "quantifier": "all lists of separations and ratios, all table positions, all size ratios", "why_tests_cant": "Index arithmetic over four indices; and an identity of truncated sums for every real ratio.", "anchors": ["find_resistance_scalars/generate_scalars_nearfield.py", "find_resistance_scalars/functions_nearfield.py:AX11", "find_resistance_scalars/functions_nearfield.py:AY12", "find_resistance_scalars/functions_nearfield.py:Fzm_with_sum_coeff"]}
{"id": "C74", "title": "The solution by reflections is read into the right scalars and compared with the right problems", "statement": "If the two-sphere program solves, in each of its cases, the mobility problem of a pair with the scalars x, then find_dim_kim_mobility_scalars returns exactly those 44 scalars; converted, scaled and looked up through the general table, they are the resistance of that pair for every orientation, seen from the first sphere (ratio lambda) and, when 1/lambda is not tabulated, from the second (ratio 1/lambda). Each of the 88 rows written for test_all.py holds velocities, angular velocities and stresslets in the order and condensed form of the simulation, and is compared with the test setup and input that pose the same problem: same radii, separation, forces, torques and strains.", "quantifier": "all outputs of the program, scalars, ratios, orientations, separations; all rows", "why_tests_cant": "Forty-four numbers are picked out of 14 runs with 22 outputs by hand-written indices, signs and factors; a wrong one for a scalar that is zero or small in the runs looked at goes unnoticed.", "anchors": ["find_resistance_scalars/generate_scalars_midfield.py:find_dim_kim_mobility_scalars", "tests/generate_lambs_solution.py", "tests/test_all.py:test_against_lamb", "find_resistance_scalars/helen_fortran/2sphere.f"]}
{"id": "C75", "title": "The method of reflections meets the boundary condition and keeps the forces", "statement": "In helen_fortran/2sphere.f, after any number of reflections, on the surface of either sphere the sphere's outgoing Lamb field of degrees 1..N plus the program's translation of the other sphere's outgoing field of one pass before equals exactly U + Omega x x + E.x with the velocity U and angular velocity Omega the program computes and the strain E it is given; the outgoing field always carries exactly the given force (Stokeslet) and torque (rotlet), and the computed stresslet is the stresslet of that field; before any reflection the values are the exact ones of a lone sphere (F/6 pi a, T/8 pi a^3, (20/3) pi a^3 E); the imaginary parts are zero, so the program never stops because they are not; when it stops, the last pass changed the velocities and angular velocities by no more than 1e-8 in all; and xg_sign = -1 is the only sign for which the imposed strain is right.", "quantifier": "For all positive radii and all separations s with r1 + r2 < s (and 2 s <= 10^8 (r1 + r2)), all forces, torques and symmetric traceless strains, all points of the surface, every number of passes, and every family of solid harmonics with the program's harmonics of degree 1 and 2 in their first degrees.", "why_tests_cant": "No test runs the Fortran; its results are stored in tables. The boundary condition is a statement about all surface points and all numbers of reflections.", "anchors": ["find_resistance_scalars/helen_fortran/2sphere.f:90-520", "find_resistance_scalars/helen_fortran/reflect.f:3-137", "find_resistance_scalars/helen_fortran/base.f:10-280"]}
{"id": "C76", "title": "The translation of the reflected flow is the same flow", "statement": "In helen_fortran, Translate_field re-expands the outgoing flow of one sphere about the centre of the other: for every order m and each part (real, imaginary), with the program's tables g and FracH and its factors H, the series over all degrees nu of the coefficients D, E, F it computes, evaluated along the line of centres at the leading power of the distance from the line, converges for every point nearer than the other centre to the outgoing flow's pressure (up to a constant), to its x.u and to its x.vorticity, x measured from the new centre - for centres on either side. The functions compared are those of Lamb's solution, which for any harmonic has no divergence and that x.u and vorticity. So the velocity at the other centre of a force along the line is F/(4 pi r).", "quantifier": "For all separations of either sign, all truncations N, all outgoing coefficients, all orders m, both parts, and all points of the line nearer to the new centre than the old centre is.", "why_tests_cant": "A hand-coded triple-index formula with binomial tables, used inside a truncated iteration; an error in one coefficient changes the tables slightly and no test runs the Fortran. The claim is about an infinite series.", "anchors": ["find_resistance_scalars/helen_fortran/reflect.f:55-137", "find_resistance_scalars/helen_fortran/base.f:18-112"]}
{"id": "C77", "title": "The near-field recurrences are the reflections between two spheres", "statement": "The recurrences of functions_nearfield.py for P, V, Q (X family from any start, Y family from any starts of opposite parity, Z family) are, at every degree n >= 1 and all powers p + q up to any order N, the sum over all reflections of the flow that leaves one sphere, is re-expanded about the other (as the Fortran program does) and cancelled there on its surface, and back: with coefficients that do not depend on the geometry, the k-th reflected flow leaves its sphere with the polynomials in own radius / d and other radius / d made of them; no reflection after the (p+q)-th contributes, and only those that reach the same sphere. Such reflections exist and are unique. The starts are exactly the flows of a sphere that moves, turns or strains alone; the k-th flow has force 4 pi kappa b P1, torque (16/3) pi kappa b^2 Q1 and stresslet (4/3) pi kappa b^2 P2 (with the mirror sign of sphere 2); and the coefficients f_k(lambda)/((1+lambda) s')^k are the terms of order k in 1/d.", "quantifier": "For all orders N, degrees n, powers p, q, starts, orders m = 0, +-1, +-2, radii a, b, distances d, and every chain of reflections.", "why_tests_cant": "The recurrences have eleven hand-typed rational coefficients in four indices and are only ever compared through the finished tables; that they are right at all indices is a statement about infinitely many coefficients.", "anchors": ["find_resistance_scalars/functions_nearfield.py:110-133", "find_resistance_scalars/functions_nearfield.py:214-258", "find_resistance_scalars/functions_nearfield.py:400-440", "find_resistance_scalars/functions_nearfield.py:708-731", "find_resistance_scalars/functions_nearfield.py:825-868", "find_resistance_scalars/functions_nearfield.py:940-983", "find_resistance_scalars/functions_nearfield.py:139-143"]}
{"id": "C78", "title": "The near-field functions are the limits of the series they replace", "statement": "For every size ratio lambda > 0, each of X11A, X12A, Y11A, Y12A, Y11B, Y12B, Y11C, Y12C, X11G, X12G, Y11G, Y12G, Y11H, Y12H, X11M, X12M, Y11M, Y12M, Z11M, Z12M of functions_nearfield.py differs by at most a constant times the gap xi from the sum of the power series in 2/s', s' = 2 + xi, whose coefficients are f_m/(2(1+lambda))^m up to the order at which the source stops (100, 130, 150 or 200) and their asymptotic form g1 + 2 g2/m - 4 g3/(m(m+2)) beyond (m(m-2) for X11A, Y11A, Y12A); the series converges for every gap, its odd powers give one and its even powers, with the term of order 0, the other function, with signs + or - as in the mirror. So all constants (logarithms of 2, quarters of g1, multiples of g3, truncated sums) of the O(1) terms are right, and the singular terms have the coefficients the asymptotic form says.", "quantifier": "For all size ratios lambda > 0 and all gaps 0 < xi <= 1 (convergence: all gaps).", "why_tests_cant": "The O(1) constants are sums of 100 to 200 terms plus closed-form corrections; a wrong correction shifts the tables by a small amount at every gap, which no stored value would show.", "anchors": ["find_resistance_scalars/functions_nearfield.py:49-104", "find_resistance_scalars/functions_nearfield.py:138-207", "find_resistance_scalars/functions_nearfield.py:258-375", "find_resistance_scalars/functions_nearfield.py:443-701", "find_resistance_scalars/functions_nearfield.py:736-818", "find_resistance_scalars/functions_nearfield.py:869-934", "find_resistance_scalars/functions_nearfield.py:984-1048"]}
{"id": "C79", "title": "Dumbbells placed at random in a periodic box do not overlap in any image", "statement": "For all random numbers, whenever randomise_dumbbells_periodic returns: there is one dumbbell per size, its centre in the periodic box along x and z, its beads dx apart in the direction of the given angles; if the box is wider than two radii plus two dumbbell lengths and no dumbbell has been displaced in y, no bead overlaps any periodic image, however far, of a bead of another dumbbell or of its own dumbbell, or of a sphere present in the box, although the function looks at the neighbouring images only; no interactive shell is opened unless a radius is below 0.1. With at least one dumbbell of nonzero length it returns when its loops end. (Findings: y is taken modulo 1e6, so that in a flat box every dumbbell pointing to negative y is put a million above the plane; after one overlapping second bead the rest of the hundred tries are in vain; without dumbbells it raises ValueError.)", "quantifier": "all box corners, sizes, angles given or random, spheres present, streams of random numbers and any number of loop iterations", "why_tests_cant": "a test draws a few random configurations and checks a few neighbouring images; overlaps of distant images and the dependence on all random numbers are out of reach", "anchors": ["stokesian_dynamics/setups/functions_positions.py:randomise_dumbbells_periodic", "stokesian_dynamics/setups/functions_positions.py:overlaps_periodic"]}
{"id": "C80", "title": "Feeding particles from below never happens, and what it would do", "statement": "feed_particles_from_bottom returns the particles unchanged in every frame in which feeding is not due. The list of beads it forms has exactly as many beads as before: those not higher above the reference particle than half the height of the whole, unmoved; then beads of the file shifted down together to below the lowest bead, none touching a bead kept, the lowest of the file apart from those that would touch; then, only if these are too few, some of those removed. (Findings: in every frame in which feeding is due it raises, TypeError once the list is complete, as it slices with a float; if the reference particle is not below the middle of the beads nothing is to be removed and it raises ValueError before that.)", "quantifier": "all particles, files, feeding intervals, frames and reference particles", "why_tests_cant": "the function is not called by any test or example; the equality of numbers and the absence of contacts are claims for all configurations", "anchors": ["stokesian_dynamics/functions/shared.py:feed_particles_from_bottom"]}
{"id": "C81", "title": "No direction and no handedness is preferred by whole runs", "statement": "Two completed runs without periodic box (Euler, Adams-Bashforth or Runge-Kutta), the second started from the first's configuration turned by any rotation or reflection Q and given correspondingly turned inputs, save correspondingly turned files: in every saved frame the positions, orientation points and dumbbell vectors, the forces, and the stresslets Q S Q^T, whatever the form of the inputs, with or without drag matrix, near field and bead-bead interactions. Input 1 (gravity) corresponds to itself under every Q that keeps the vertical, input 4 (repulsion) under every Q, and inputs 1, 3, 4, 5, 6, 7 under reflection in the plane y = 0.", "quantifier": "For all rotations and reflections, numbers of particles, radii, frames, timesteps and inputs with which the runs solve positive definite problems of beads apart from each other (with drag matrix and no near field: for all).", "why_tests_cant": "A test can turn one configuration by one angle and compare within tolerance for a few frames.", "anchors": ["stokesian_dynamics/run_simulation.py", "stokesian_dynamics/functions/timestepping.py:generate_frame", "stokesian_dynamics/functions/timestepping.py:generate_output_FTSUOE", "stokesian_dynamics/setups/inputs.py:input_ftsuoe"]}
{"id": "C82", "title": "Flat arrangements stay flat", "statement": "In a completed run (any scheme) without periodic box whose spheres, orientation points and dumbbells start in the plane y = 0, with one of the inputs 1, 3, 4, 5, 6, 7 or any inputs symmetric about the plane, in every saved frame all positions, orientation points, dumbbell vectors and forces lie in the plane and no stresslet has an xy or yz component - so the setting fully_2d, which sets the y velocities to zero, is not needed to keep such runs in the plane.", "quantifier": "For all numbers of particles, frames and timesteps and all symmetric inputs, under the conditions of C81.", "why_tests_cant": "The examples of the repository look flat to the eye; exact flatness after any number of frames is a statement about all runs.", "anchors": ["stokesian_dynamics/run_simulation.py", "stokesian_dynamics/functions/timestepping.py:generate_frame", "stokesian_dynamics/setups/inputs.py:input_ftsuoe", "stokesian_dynamics/settings.py"]}
{"id": "C83", "title": "A completed Runge-Kutta run solved the resistance problem in each stage of every frame", "statement": "If a run with scheme rk4 (forms fts, fte, ufte, ufteu; unbounded or periodic) writes an output file, then there is a trajectory starting at the initial configuration and in every frame four stages, the first in the configuration of the frame, the others in that moved from there over half a timestep, half a timestep and a whole timestep with the velocities of the stage before; in each stage the inputs for its configuration and time (frame, frame + 1/2 twice, frame + 1) are answered by velocities and forces keeping every prescribed value and related by the near field of the stage's configuration plus the far-field resistance: that of the latest configuration due for inversion in the first stage, and kept in the others unless the drag matrix is used or the frame is due and rk4_generate_minfinity_for_each_stage is set, when it is that of the stage's own configuration. The frame moves the particles with the means of weights 1, 2, 2, 1 of the stage velocities, put back into the box of the first stage, turning orientation points about the centre put back; the saved forces are the means with the same weights; the file holds exactly the due frames. Needed: as for C65, in the configurations of the stages. (Findings: every stage adds the background flow at the positions at the start of the frame, not at its own; the second stage adds to dumbbells the strain of the first; the restriction to two dimensions applies only to the mean velocity of the spheres, so stages may leave the plane.)", "quantifier": "all configurations, inputs, numbers of particles and frames, timesteps, settings, solvers", "why_tests_cant": "Each stage depends on the ones before through the whole program; a test sees only the final positions of a few short runs.", "anchors": ["stokesian_dynamics/run_simulation.py", "stokesian_dynamics/functions/timestepping.py:generate_output_FTSUOE", "stokesian_dynamics/functions/timestepping.py:add_background_flow_spheres", "stokesian_dynamics/functions/timestepping.py:add_background_flow_dumbbells", "stokesian_dynamics/functions/generate_grand_resistance_matrix.py:generate_grand_resistance_matrix"]}
{"id": "C84", "title": "Videos and plots show the saved run", "statement": "make_video, applied to the file of a run of spheres that saved every frame, reads timestep, input and setup number back from the name of the file and makes one picture per saved configuration: picture k shows the spheres and orientation points where they were at frame k, each once, reddened by the size of its force at frame k (at most 1; the last picture by the forces of the last frame), and for a periodic run also their images one box to the left, right, above and below in the lattice carried by the strain the run had at frame k, within 1.4142 box lengths, and, when there is no strain, the outline of the periodic box. plot_positions shows the spheres of one saved row with the forces of that row. (Findings: timesteps below 0.0001 and negative setup numbers cannot be read from the name (ValueError); files with dumbbells and runs with input 4 cannot be shown (TypeError); if only some frames are shown, the forces are those of row k instead of the row shown; a first frame given without a last one always raises; in a sheared periodic box the red outline is not a cell of the lattice, as rows and columns are exchanged; plot_positions cannot show the final configuration.)", "quantifier": "all runs, numbers of spheres and frames, names, timesteps, inputs, boxes and strains", "why_tests_cant": "There are no tests of the plotting scripts, and a picture is checked by eye; which row and which forces a picture shows cannot be seen.", "anchors": ["stokesian_dynamics/plotting/make_video.py", "stokesian_dynamics/plotting/plot_positions.py", "stokesian_dynamics/functions/graphics.py:plot_all_spheres", "stokesian_dynamics/functions/graphics.py:plot_sphere"]}
{"id": "C85", "title": "The example scripts show what they say", "statement": "Applied to the file of a completed run (Euler or the first frame of Adams-Bashforth, saving every frame) under gravity: example-a.py computes for every sphere -1/(6 pi dt U) where U is its vertical velocity in the solution of the resistance problem of the initial configuration under unit gravity, that is, for unit spheres and timestep 1, the drag coefficient F/(6 pi mu a U); for a lone sphere of any radius, with the mobility matrix and near field of the code, this is its radius over the timestep (Stokes' law); and plots the coefficients from the middle of the chain of 15 to its end. example-b.py draws for each sphere the x and z coordinates of the saved frames in order, and as y is zero in every frame of the run of the example the curve determines the positions. example-c.py draws the volume fraction of the periodic cubic array and the speed of the first sphere, in units of its velocity alone, in the solution of the resistance problem in the box. (Findings: example-a.py stops with ValueError for any number of spheres other than 15, though it is said to be for chains of 5, 9 and 15; with the drag matrix option its coefficients are too small by 6 pi; in example-c.py the speed is wrong by a multiple of the side of the box over the unit of speed if the first sphere was put back into the box, which cannot happen if it moved by less than a quarter of the side.)", "quantifier": "all numbers of spheres, radii, runs, timesteps, side lengths of the array and settings", "why_tests_cant": "The scripts have no tests; their graphs are compared with published ones by eye for one setup each.", "anchors": ["examples/example-a.py", "examples/example-b.py", "examples/example-c.py", "stokesian_dynamics/setups/functions_positions.py:simple_cubic_8", "stokesian_dynamics/setups/inputs.py:input_ftsuoe", "stokesian_dynamics/run_simulation.py"]}
{"id": "C86", "title": "The order of the particles does not matter, and symmetric arrangements stay symmetric", "statement": "Two completed runs without periodic box (Euler, Adams-Bashforth or Runge-Kutta), the second started from the same spheres and dumbbells listed in any other order, optionally turned by a rotation or reflection, with correspondingly reordered and turned inputs, save in every frame correspondingly reordered and turned positions, orientation points, dumbbell vectors, forces and stresslets. Inputs 1, 3, 4 and 7 treat all particles alike and so correspond to themselves under any reordering. Hence an arrangement that a reflection or rotation maps to itself while exchanging particles stays so if the inputs are so symmetric: under steady shear about the origin (input 7) and under repulsion (input 4) opposite particles stay opposite, with opposite forces and equal stresslets. With the near field the tabulated scalars must be reciprocal for the pairs met (C16). (Finding: dumbbells are moved with the strain of sphere 0, so with dumbbells the order of the spheres matters if their strains differ - given differently, or computed in form fts: exchanging two spheres moves the dumbbell elsewhere.)", "quantifier": "all numbers of spheres and dumbbells, permutations, rotations and reflections, radii, frames, timesteps and inputs with which the runs solve positive definite problems (with drag matrix and no near field: all)", "why_tests_cant": "Permutations of many particles are too many to try, and equality up to rounding for a few frames does not show that a symmetric arrangement stays symmetric.", "anchors": ["stokesian_dynamics/run_simulation.py", "stokesian_dynamics/functions/generate_Minfinity.py", "stokesian_dynamics/functions/generate_R2Bexact.py", "stokesian_dynamics/functions/timestepping.py:generate_output_FTSUOE", "stokesian_dynamics/setups/inputs.py:input_ftsuoe"]}
{"id": "C87", "title": "Forces do positive work, and suspensions under gravity sink", "statement": "In a completed Euler run without box, flow, torques and strain (forms fte, ufte, ufteu; in particular inputs 1, 4, 5, 6: gravity, repulsion, moving walls), saving every frame, the work of the saved forces - given ones and those solved for - along the displacements to the next saved frame, summed over spheres and dumbbell beads, is never negative, and is zero only if nothing moves and all forces and stresslets are zero. So if spheres of any sizes, with any dumbbells between them, fall under gravity (input 1, forms fte and ufte), the sum of their heights is less in every later saved frame with the Euler and Runge-Kutta schemes, and less than at the start in every saved frame after it with Adams-Bashforth. (Form fts is excluded because of the finding of C60.)", "quantifier": "all numbers of spheres and dumbbells, radii, frames, timesteps, save intervals and inputs with which the runs solve positive definite problems (with drag matrix and no near field: all)", "why_tests_cant": "That energy is dissipated in every frame of every run cannot be seen from a few; a wrong sign or a wrong block of a matrix may show only in some arrangements.", "anchors": ["stokesian_dynamics/run_simulation.py", "stokesian_dynamics/functions/timestepping.py:generate_output_FTSUOE", "stokesian_dynamics/functions/generate_grand_resistance_matrix.py:generate_grand_resistance_matrix", "stokesian_dynamics/setups/inputs.py:input_ftsuoe"]}
{"id": "C88", "title": "Two equal spheres pulled alike keep their separation", "statement": "In a completed run without box, flow, torques and strain (forms fte and ufte), two spheres of equal radius that are always given the same force - in particular under gravity, input 1 - translate together: there is one velocity U such that in the frame m both are displaced by m times dt times U, so the vector between them is the same in every saved frame, and their saved stresslets are opposite and the same in all frames. This holds with Euler, Adams-Bashforth and Runge-Kutta, with the far field and the near field (any table of scalars), the far field alone or the drag matrix. Equal radii are needed: with the drag matrix and no near field each of any number of spheres falls straight down at the speed 1 / radius, whatever the others do.", "quantifier": "all positions, radii, forces, viscosities, tables of scalars, numbers of frames, timesteps and save intervals with which the runs solve positive definite problems (with drag matrix and no near field: all)", "why_tests_cant": "That nothing drifts in any frame for any separation and orientation is not shown by runs; entries of a matrix that break the symmetry of the pair may be tiny or matter only for oblique pairs.", "anchors": ["stokesian_dynamics/run_simulation.py", "stokesian_dynamics/functions/timestepping.py:generate_output_FTSUOE", "stokesian_dynamics/functions/generate_grand_resistance_matrix.py:generate_grand_resistance_matrix", "stokesian_dynamics/functions/generate_R2Bexact.py:generate_R2Bexact", "stokesian_dynamics/setups/inputs.py:input_ftsuoe"]}
{"id": "C89", "title": "Units and origin do not matter", "statement": "Two completed runs without periodic box (Euler, Adams-Bashforth or Runge-Kutta). In the second, radii and positions are lam times, given velocities ups times and the viscosity kap times those of the first, given forces are kap*ups*lam times, torques and stresslets kap*ups*lam^2 times and strain and rotation ups/lam times as large, the origin is moved to org (with the centre of the flow, if there is rotation or strain), and the timestep is lam/ups times as long. Then every saved position and orientation point is lam x + org, every dumbbell vector is lam times, saved forces are kap*ups*lam times and stresslets kap*ups*lam^2 times those of the first. So: falling spheres (input 1) lam times as large, the forces unchanged, do in lam^2 times the time what the small ones do, wherever the origin is; in steady shear (input 7) and the same timestep size does not matter; repulsion (input 4) and moving walls (input 5) keep velocities; particles moved by org in a fluid at rest stay moved by org and save the same forces; with viscosity and forces twice as large the paths are the same, with the forces alone twice as large the same path takes half the time. With the mobility matrix or the near field, beads must stay more than 1e-8 apart before and after (C66); in form fts the origin must stay (C60).", "quantifier": "all scale factors and origins, numbers of spheres and dumbbells, radii, frames, timesteps and inputs with which the runs solve positive definite problems (with drag matrix and no near field: all)", "why_tests_cant": "A dimensionally wrong term is invisible as long as tests use unit spheres and unit viscosity about the origin; over many frames rounding hides small differences.", "anchors": ["stokesian_dynamics/run_simulation.py", "stokesian_dynamics/functions/timestepping.py:generate_output_FTSUOE", "stokesian_dynamics/functions/timestepping.py:euler_timestep_rotation", "stokesian_dynamics/functions/generate_Minfinity.py", "stokesian_dynamics/functions/generate_R2Bexact.py", "stokesian_dynamics/setups/inputs.py:input_ftsuoe"]}
{"id": "C90", "title": "The near-field series are the forces, torques and stresslets of two spheres", "statement": "Two spheres of radii a and b, at any distance d >= a + b, one of which moves with velocity U along or across the line of centres, turns about an axis across it or strains (all three kinds), the other one held fixed. The flow it makes is reflected between the spheres (re-expanded about the other sphere, as the Fortran program does, and cancelled on its surface). Then the total force, torque and stresslet of the sphere of radius a over any number T >= K of reflections is, up to an error of order K + 1 in (a+b)/d and uniformly in radii, distance and U, the normalisation of the literature (6 pi a, 4 pi a^2, 8 pi a^3, 20/3 pi a^3) times U times the sum of f_l(lambda)/((1+lambda)s')^l over l <= K, with lambda = b/a, s' = 2d/(a+b) and f_l the functions of functions_nearfield.py for XA, YA, YB, YC, XG, YG, YH, XM, YM, ZM: over the l of one parity if a moves, of the other parity if b does, with the signs of X11A..Z12M. So each of these series (C78) has the right factor, sign, parity and power of lambda, to all orders.", "quantifier": "For all orders K <= N, numbers of reflections T >= K, radii a, b, distances d >= a + b, speeds U, directions across the line of centres, and every chain of reflections truncated at degree N.", "why_tests_cant": "Published coefficients cover the first dozen orders of some functions; a wrong sign or power of lambda in one family shows only for unequal spheres or for pairs that turn, and not at order 0.", "anchors": ["find_resistance_scalars/functions_nearfield.py:Fxa", "find_resistance_scalars/functions_nearfield.py:Fyh", "find_resistance_scalars/functions_nearfield.py:Fzm"]}
{"id": "C91", "title": "The checks before the first frame", "statement": "A run begins exactly if the form suits the particles (without spheres one of fts, duf and the two dumbbell forms, with spheres none of the dumbbell forms), the inputs can be evaluated and for any two sphere radii the table has an entry within 1e-8 + 1e-5 times the entry of their ratio; otherwise the program exits or the inputs raise. No simulation that could complete a frame is turned away for its form. Once begun, every look-up of a ratio of sphere radii or its reciprocal succeeds, except in a sliver of relative width 1e-10 at the lower edge of the tolerance, finds the only close entry of the table, and the two look-ups for a pair find entries in mirrored places whose product is 1. With spheres only (off that edge) and complete inputs the program then completes; every example command of README.md passes without warning and completes. Two beads within the cutoff whose ratio is not tabulated make the first frame raise IndexError. The check of all elements that is switched off would flag exactly the missing ratios. (Findings: radii of dumbbell beads are not checked; the check measures the deviation against the table but the look-up against the ratio; the check is also made when nothing is looked up; misspelt forms and two documented dumbbell forms pass and never run; the switched-off check may name the same element twice.)", "quantifier": "all forms (any string), radii, tables, numbers of particles, inputs, settings, numerical routines and random numbers", "why_tests_cant": "Whether a check is exactly as strict as what it protects cannot be seen from runs: the cases in between are slivers or combinations nobody tries.", "anchors": ["stokesian_dynamics/run_simulation.py", "stokesian_dynamics/functions/generate_R2Bexact.py:generate_R2Bexact_loop", "stokesian_dynamics/functions/timestepping.py:do_we_have_all_size_ratios", "stokesian_dynamics/resistance_scalars/data.py"]}
{"id": "C92", "title": "Particles that are not crowded, and any two spheres, move with the forces on them", "statement": "Call twice the geometric mean of two radii over the distance of the centres (overlapping beads counted as touching) the influence of the beads on each other. If for no bead the influences of the others add up to more than 1, and no two are closer than 1e-8, the far-field mobility matrix of the code is positive definite, hence so is its inverse; this includes any two spheres, of any sizes and at any distance, even overlapping, and n beads of radii up to A at distances from 2(n-1)A. For spheres the power spent by any forces, torques and stresslets is then between 1/10 of and 1.9 times that of the spheres alone in the fluid, also, counting forces and torques only, for spheres that are not strained and whose stresslets are unknown. Far-field runs staying in such configurations solve the equations in every frame without any assumption about matrices; with Euler steps falling spheres sink on average in every frame at between 1/10 of and 1.9 times the speed they would have alone. Two equal spheres falling under gravity need no assumption at all: for every scheme and number of frames the run completes, and they move along a straight line at constant velocity (within the same bounds for Euler and Adams-Bashforth) without changing their separation. (Finding: centres closer than 1e-8 but further than 1e-10 are not treated as touching; for unit spheres the matrix is then indefinite, and equal forces along the line of centres move both spheres backwards.)", "quantifier": "all numbers of spheres and dumbbells with room, radii, positions, viscosities, forces, schemes, timesteps, numbers of frames and numerical routines correct on positive definite matrices", "why_tests_cant": "Positive definiteness is a statement about all vectors and all positions at once; a sign error in a minor block shows only for particular directions and separations, and runs only sample a few configurations.", "anchors": ["stokesian_dynamics/functions/generate_Minfinity.py:generate_Minfinity", "stokesian_dynamics/functions/generate_Minfinity.py:generate_Minfinity_loop", "stokesian_dynamics/run_simulation.py:generate_frame", "stokesian_dynamics/run_simulation.py"]}
{"id": "C93", "title": "The box of settings and the amount of memory", "statement": "For every known timestepping scheme, timestep that Python can write and names of form and machine without control characters and runs of XXX, the box printed before the first frame consists of the same eight lines, with every setting in its own cell and no other, ON and OFF according to the switches, and exactly the cells marked in which Minfinity, R2Bexact or bead-bead interactions are off, the scheme is Euler or the first timesteps are not saved. Its frame is straight exactly if every value fits its cell; the amount of memory always does. An unknown scheme ends the program with NameError before the first frame. sizeof_fmt writes every number of bytes below 1024^8 with an error of at most half a percent and in seven characters, except between 999.5 and 999.95 units. (Findings: a timestep such as 0.0009765625 bends the frame; 1023488 bytes are written as '999.5 KB', one character more than the column has.)", "quantifier": "all settings, texts of values, numbers of particles, machines' names and numbers of bytes below 1024^8", "why_tests_cant": "Whether a replacement hits another value or the rest of a key depends on the texts; the memory column overflows for 0.04% of the sizes.", "anchors": ["stokesian_dynamics/run_simulation.py", "stokesian_dynamics/functions/shared.py:sizeof_fmt"]}
{"id": "C94", "title": "The time of finishing", "statement": "For every moment and every time left of at least 0 seconds, format_finish_time writes the flags followed by the hour and minute of the moment that is the time left (to the nearest microsecond) later, preceded by nothing if it is on the same day, by the right day of the week if it is one to six days later, and else by day, month and the last two digits of the year; it fails only if that moment is after the year 9999. Two finishes with the same text are in the same minute if their years are less than 100 after the present one. (Finding: beyond that the text is ambiguous.)", "quantifier": "all moments in the Gregorian calendar, times left and flags", "why_tests_cant": "Ends of months, leap years and the limit of a week are hit on few days; no test can run at every date.", "anchors": ["stokesian_dynamics/functions/timestepping.py:format_finish_time"]}
{"id": "C95", "title": "The velocity of two equal spheres pulled alike, in closed form", "statement": "Two equal spheres of radius a, overlapping or not (centres further than 1e-8 apart), both always given the force F and nothing else, with the near field switched off or the distance not below the cutoff: in every completed run, for every scheme, with or without the planar mode, both are displaced in m frames by m dt (A(u) F_across + B(u) F_along) / (6 pi mu a), where F_along and F_across are the parts of F along and across the line of centres, u is a over the distance of the centres (at most 1/2.001), B(u) = 1 + 3/2 u - u^3 - 15/4 u^4 (1 - 8/5 u^2)^2 / (1 + 5 u^3 - 12 u^5) and A(u) = 1 + 3/4 u + 1/2 u^3 - 16/5 u^8 / (1 - 5/2 u^3 + 8 u^5); the saved stresslets are opposite and given by a formula of the same kind. B lies between 1 + u and 1 + 3/2 u, A between 1 + 3/4 u and 1 + 3/4 u + u^3/2, and A < B. Hence under gravity, where the run always completes, the pair falls at least 1 + 3/4 u and at most 1 + 3/2 u times as fast as one sphere alone, and drifts sideways towards the side on which the line of centres descends, straight down exactly if that line is vertical or horizontal.", "quantifier": "all radii, positions, forces, viscosities, schemes, timesteps, numbers of frames, arrangements of the inversions and numerical routines correct on positive definite matrices", "why_tests_cant": "A wrong coefficient in one block of the mobility changes the velocity by a small fraction that depends on distance and direction and that no invariant of the run reveals.", "anchors": ["stokesian_dynamics/functions/generate_Minfinity.py:generate_Minfinity", "stokesian_dynamics/functions/generate_Minfinity.py:M11", "stokesian_dynamics/functions/generate_Minfinity.py:M13", "stokesian_dynamics/functions/generate_Minfinity.py:M33", "stokesian_dynamics/run_simulation.py:generate_frame", "stokesian_dynamics/run_simulation.py"]}
{"id": "C96", "title": "Forces, torques and no stresslets (form fts): the solution in closed form", "statement": "For any number of spheres of any radii, overlapping or not (centres further than 1e-8 apart), far field only, with prescribed forces and torques and no stresslets: the velocity, angular velocity and rate of strain that the frame computes for each sphere are Stokes' drag on itself plus the sum over the other spheres of the flow, half its curl and its strain that the force and torque on that sphere cause at this one, as given by Faxen's laws (with the distance not below 1.001 times the sum of the radii), and the forces, torques and zero stresslets are saved as prescribed. Every completed Euler or Adams-Bashforth run without box or dumbbells, whose spheres keep having room, saves the positions obtained with these velocities plus the background flow with this strain; under gravity the run completes. (Finding: the strain just computed is added as if it were that of the background flow about its centre, so the motion depends on where the origin is: two spheres falling side by side at height z drift apart at a rate proportional to z and fall at different speeds, and a sphere beside a rotating one is moved against the flow.)", "quantifier": "all numbers of spheres, radii, positions, forces, torques, viscosities, settings, arrangements of inversions and numerical routines correct on positive definite matrices", "why_tests_cant": "A wrong coefficient of one block changes velocities by a small fraction; runs only sample a few configurations, and by default setups are centred at the origin, where the finding vanishes for symmetric arrangements.", "anchors": ["stokesian_dynamics/functions/generate_Minfinity.py:generate_Minfinity", "stokesian_dynamics/functions/generate_Minfinity.py:M11", "stokesian_dynamics/functions/generate_Minfinity.py:M12", "stokesian_dynamics/functions/generate_Minfinity.py:M13", "stokesian_dynamics/functions/generate_Minfinity.py:M22", "stokesian_dynamics/functions/generate_Minfinity.py:M23", "stokesian_dynamics/run_simulation.py:generate_frame", "stokesian_dynamics/functions/timestepping.py:add_background_flow_spheres", "stokesian_dynamics/run_simulation.py"]}
{"id": "C97", "title": "One sphere in a linear flow", "statement": "For one sphere of any radius in form fte, with or without near field, in every completed run without box: in each frame (Euler, Adams-Bashforth) or stage (Runge-Kutta) the sphere has Stokes' velocity F / (6 pi mu a) and spin T / (8 pi mu a^3) for the given force and torque, plus the velocity and the rotation of the background flow at its place; the stresslet saved is Einstein's 20/3 pi mu a^3 E, and the force saved is the given one. In the constant (input 7) and oscillating (input 3) shear the run completes; the sphere moves in x only, by the accumulated strain times its height above the layer at rest, its orientation points turn about y by half that strain, and the stresslet is 10/3 pi a^3 times the shear rate. The accumulated strain is exact in constant shear; in oscillating shear it is a closed sum for Euler, zero after every whole period of 2 or more timesteps, and for Runge-Kutta (Simpson's rule) a fixed multiple of the exact one. (Findings: all Runge-Kutta stages use the flow at the position at the start of the frame, so in a steady straining flow a sphere moves by the factor 1 + e dt per frame, as with Euler, and falls short of a fourth order method; with Adams-Bashforth the strain after whole periods is the same negative number instead of zero.)", "quantifier": "all radii, positions, orientations, forces, torques, symmetric traceless strains and flows, which may change in time, viscosities, settings, arrangements of inversions and numerical routines correct on positive definite matrices", "why_tests_cant": "A wrong factor or sign in one of the ten self blocks, the flow or the rotation changes one component only; the order of the method is not visible in shear flows, which are those the repository comes with.", "anchors": ["stokesian_dynamics/functions/generate_Minfinity.py:generate_Minfinity", "stokesian_dynamics/functions/generate_Minfinity.py:M11", "stokesian_dynamics/functions/generate_Minfinity.py:M22", "stokesian_dynamics/functions/generate_Minfinity.py:M33", "stokesian_dynamics/run_simulation.py:generate_frame", "stokesian_dynamics/functions/timestepping.py:add_background_flow_spheres", "stokesian_dynamics/functions/timestepping.py:euler_timestep_rotation", "stokesian_dynamics/functions/timestepping.py:euler_timestep", "stokesian_dynamics/setups/inputs.py:input_ftsuoe", "stokesian_dynamics/setups/functions_inputs.py:constant_shear", "stokesian_dynamics/setups/functions_inputs.py:oscillatory_shear"]}
{"id": "C98", "title": "Spheres and dumbbells with given forces (form fts), in closed form", "statement": "For any numbers of spheres and dumbbells of any radii, overlapping or not (centres further than 1e-8 apart), far field only, with prescribed forces on spheres and beads, torques on spheres and no stresslets: each sphere and each bead has Stokes' velocity under the force on itself plus the sum over the others of the flow (averaged as in Faxen's law) that the forces and torques on them cause at its place; with bead-bead interactions switched off the beads do not feel beads. The force on a dumbbell is the sum, and its second force the difference, of the forces on its beads, shared half and half; the velocity computed for a dumbbell is the mean and its half difference half the difference of the velocities of its beads; prescribed forces are kept and saved. Every completed run without box in which spheres and beads keep having room moves spheres and dumbbells with these velocities plus the background flow; spheres falling past force-free dumbbells complete their run. In Runge-Kutta runs the same closed form gives the velocities of all spheres and beads in each of the four stages, for the configuration whose far field the stage uses (its own, if that setting is on and the frame is due, otherwise that of the latest inversion); each stage starts from the start of the frame and the frame ends with the weighted mean of the four velocities. (Finding: at every dumbbell the background flow is taken with the rate of strain computed for sphere 0, however far away: a force-free dumbbell beside two falling spheres falls at a speed growing in proportion to its distance from them, and is stretched alike.)", "quantifier": "all numbers of spheres (at least one for runs) and dumbbells, radii, positions, extensions, forces, torques, viscosities, both settings of bead-bead interactions, settings, arrangements of inversions and numerical routines correct on positive definite matrices", "why_tests_cant": "The blocks of dumbbells are sums and differences of four pair matrices; a wrong sign or a missing half in one of them changes single components of the motion of dumbbells slightly, and a test would have to invert the matrix by other means.", "anchors": ["stokesian_dynamics/functions/generate_Minfinity.py:generate_Minfinity", "stokesian_dynamics/functions/generate_Minfinity.py:M11", "stokesian_dynamics/functions/generate_Minfinity.py:M12", "stokesian_dynamics/functions/generate_Minfinity.py:M13", "stokesian_dynamics/run_simulation.py:generate_frame", "stokesian_dynamics/functions/timestepping.py:add_background_flow_dumbbells", "stokesian_dynamics/functions/timestepping.py:euler_timestep", "stokesian_dynamics/run_simulation.py"]}
{"id": "C99", "title": "Three descriptions of the layout of grand matrices agree; the time in headings of tables", "statement": "For any numbers of spheres and dumbbells: the slices `submatrix_coords` returns for a pair of spheres or beads are, place for place in its result, the rows and columns of the blocks that the assembly writes for that pair with `submatrix_coords_tuple` (C05). The starts, sizes, types and counts that `posdata_data` returns describe the same layout: starting at the start of a quantity and counting elements of its type with its size, the place found for a component is that of the grand vectors, and every entry of a grand vector of 11 Ns + 6 Nd is the place of exactly one component of one quantity of one element. Its element positions, sizes and extensions are those of spheres (extension zero) and then dumbbells, and the beads used for the mobility lie half an extension before and behind. `format_seconds` writes whole hours, and minutes and seconds below 60 in two digits; read back the text gives the whole seconds, so two elapsed times with the same text differ by less than a second. Every particle number below Ns + 2 Nd is a sphere, a first bead or a second bead, and only one of these, at its place.", "quantifier": "all numbers of spheres and dumbbells, pairs, quantities, entries, positions, sizes, extensions and nonnegative elapsed times", "why_tests_cant": "Three places spell out the layout independently; a change in one of them (a 5 for a 3, a missing term for the dumbbells) shows only for mixtures of spheres and dumbbells, and nothing in the repository compares them.", "anchors": ["stokesian_dynamics/functions/shared.py:submatrix_coords", "stokesian_dynamics/functions/shared.py:submatrix_coords_tuple", "stokesian_dynamics/functions/shared.py:posdata_data", "stokesian_dynamics/functions/generate_Minfinity.py:generate_Minfinity", "find_resistance_scalars/functions_general.py:format_seconds"]}
{"id": "C100", "title": "Runge-Kutta with one far field per frame is Euler's scheme", "statement": "The settings file says that without near field, choosing `rk4_generate_minfinity_for_each_stage = False` makes the timestep equivalent to Euler's. For all numbers of spheres and dumbbells, forms, and forces and flows that depend neither on positions nor on time, without near field and without a periodic box: in every frame of a completed Runge-Kutta run whose stages do not compute far fields of their own (that setting, the drag matrix, or a frame not due for an inversion), the solution of the first stage is one of Euler's frame, the particles move and turn by Euler's formula with it, and the forces and stresslets saved (the weighted means over the stages) are those of the first stage. If all frames are such, the Runge-Kutta run and the Euler run from the same start save the same positions, orientations, dumbbell extensions, forces and stresslets throughout; with the drag matrix nothing has to be assumed of the matrices. (Finding: for forces or flows that change in time the note is false: in the oscillating shear of input 3, for every timestep below the period, a sphere of any radius anywhere but at the height of no flow is in different places after the first step of the two schemes.)", "quantifier": "all numbers of spheres and dumbbells, radii, positions, orientations, forms, steady inputs, settings, arrangements of inversions and saving, numbers of frames and numerical routines correct on positive definite matrices; the finding for all timesteps below the period and all positions and radii of one sphere", "why_tests_cant": "Equality of two runs is a claim about all configurations the runs pass through; a stage that used a stale position, flow or matrix, or wrong weights of the mean, would change later digits only, and comparing single runs cannot tell rounding from an error of the scheme.", "anchors": ["stokesian_dynamics/run_simulation.py:generate_frame", "stokesian_dynamics/functions/timestepping.py:euler_timestep", "stokesian_dynamics/functions/timestepping.py:euler_timestep_rotation", "stokesian_dynamics/settings.py"]}
{"id": "C101", "title": "Runs with the drag matrix: every particle on its own", "statement": "With `use_drag_Minfinity` and without near field and box, particles do not notice each other. For all numbers of spheres and dumbbells, radii, positions, and given forces, torques, strains and flows (form fte), in every completed run: every sphere and every bead of a dumbbell moves with its force divided by viscosity and radius plus the background flow at its place, every sphere turns with its torque divided by 4/3 viscosity radius^3 plus the flow's rotation, the stresslets saved are 10/9 viscosity radius^3 times the strain, the forces those given; Euler's frames use these velocities, Adams' and Bashforth's (spheres only) their combination 3/2, -1/2, Runge-Kutta's the weighted mean of four stages. In the constant and the oscillating shear of inputs 7 and 3 the run completes and is known in closed form: all centres move along x by the accumulated strain times their height over the height of no flow and keep y and z, sphere orientations turn about y by half the strain, dumbbells stretch by their spring and the shear, and no forces act on spheres. With Runge-Kutta steps this holds of spheres, and of dumbbells in the constant shear. (Finding: the second stage gives dumbbells the strain of the first stage, so in the oscillating shear every dumbbell whose centre is not at x = 9/4 leaves its height in the first Runge-Kutta step, by pi dt/90 (1 - cos(pi dt/10)) (x - 9/4), though the flow is along x everywhere and always.)", "quantifier": "all numbers of spheres and dumbbells, radii, positions, orientations, inputs of form fte, settings, arrangements of saving, numbers of frames and numerical routines correct on positive definite matrices; the finding for all timesteps below the period", "why_tests_cant": "Closed forms after any number of frames for any number of particles cannot be covered by runs; a strain, spin or velocity taken from a wrong stage is an error of second or third order in the timestep in each step, which no tolerance separates from discretisation.", "anchors": ["stokesian_dynamics/run_simulation.py:generate_frame", "stokesian_dynamics/functions/generate_Minfinity.py:generate_Minfinity", "stokesian_dynamics/functions/timestepping.py:euler_timestep", "stokesian_dynamics/functions/timestepping.py:ab2_timestep", "stokesian_dynamics/functions/timestepping.py:euler_timestep_rotation", "stokesian_dynamics/functions/timestepping.py:add_background_flow_dumbbells"]}
{"id": "C102", "title": "The near field does nothing to particles that stay apart", "statement": "For all numbers of spheres and dumbbells of any radii, all forms of input, forces and flows in unbounded fluid, and Euler or Adams-Bashforth steps: if the output file of a run (saving every frame) shows no two spheres or beads closer than the cutoff factor times the sum of their radii, then switching `use_Minfinity_only` on or off gives the same file, positions, orientations, forces and stresslets alike, whatever the numerical routines return and whatever the table of scalars holds (it needs the ratio 1, looked up for each particle itself, but not the ratios of the pairs). In particular a layer of spheres at one height in the constant or oscillating shear, far enough apart and with the drag matrix, completes with the near field on and moves as in C101.", "quantifier": "all numbers and radii of particles, forms, inputs in unbounded fluid, settings that save every frame, numbers of frames, cutoff factors, tables of scalars and numerical routines", "why_tests_cant": "That a whole file is the same with and without a large part of the computation, for every configuration beyond the cutoff, is not covered by comparing single runs; a self term left over, a cutoff on distances instead of scaled distances, or a raised look-up would show for particular radii only.", "anchors": ["stokesian_dynamics/functions/generate_grand_resistance_matrix.py:generate_grand_resistance_matrix", "stokesian_dynamics/functions/generate_R2Bexact.py:generate_R2Bexact", "stokesian_dynamics/functions/shared.py:close_particles", "stokesian_dynamics/run_simulation.py:generate_frame"]}
{"id": "C103", "title": "The table of separations agrees with the near field, up to the names of beads", "statement": "`are_some_of_the_particles_too_close` (to be put back by users, as run_simulation.py says) prints tables of separations of all spheres and beads and scaled separations. For all numbers, positions and radii: both tables are symmetric with zeros on the diagonal; after exchanging the two beads of every dumbbell they hold the distances between the particles as all matrices number them, bare and over the mean of the radii, so that a pair is given a near field exactly if its scaled entry so read is below twice the cutoff factor, and then with that distance. The function returns the error flag it was given, whatever the tables show, and prints exactly if printout is positive. (Finding: the table lists first the beads ahead and then the beads behind the centre, the matrices the other way round; read with the same numbers the entry of a sphere and a bead is right only if the sphere is equally far from both beads.)", "quantifier": "all numbers of spheres and dumbbells, positions, extensions, radii, cutoff factors, printout levels and flags", "why_tests_cant": "That the table means the same as the pair search, for every configuration, is a relation between two pieces of code that no test runs together; for symmetric configurations the exchanged beads do not show.", "anchors": ["stokesian_dynamics/functions/timestepping.py:are_some_of_the_particles_too_close", "stokesian_dynamics/functions/shared.py:close_particles", "stokesian_dynamics/run_simulation.py"]}
{"id": "C104", "title": "Answers superpose and are reciprocal", "statement": "For one symmetric positive definite grand resistance matrix, in the forms fts, fte, ufte and ufteu: if all that is prescribed in a third problem (forces or velocities, torques, stresslets or strains, with the same kind prescribed for each particle) is al times that of a first plus be times that of a second, so are all forces, torques, stresslets, velocities, angular velocities and strains returned by `generate_output_FTSUOE`. For any two problems, also of different forms, the forces of the first do the same power along the motion of the second as those of the second along the motion of the first (reciprocal theorem); so a force F on sphere j moves sphere k along G as much as the force G on sphere k moves sphere j along F. In whole Euler or Adams-Bashforth runs from one configuration, with near field or without, whose inputs and background flows combine at the start, the displacements of the first frame (spheres, dumbbells and their extensions) and the saved forces combine; reversed inputs and flow reverse the displacements.", "quantifier": "all numbers of particles, symmetric positive definite matrices, real coefficients al and be, prescribed values, flows, settings, initial configurations and scalar functions", "why_tests_cant": "Superposition over all coefficients and problems, and a relation between two different problems of different forms, cannot be tested by examples; the test suite compares single runs with stored results.", "anchors": ["stokesian_dynamics/functions/timestepping.py:generate_output_FTSUOE", "stokesian_dynamics/functions/generate_grand_resistance_matrix.py:generate_grand_resistance_matrix", "stokesian_dynamics/run_simulation.py"]}
{"id": "C105", "title": "Two spheres at a tabulated separation move exactly as tabulated; what the comparison with Lamb's solution shows", "statement": "Let mobility and resistance scalars of two spheres of any radii and separations be given that describe the same pair, scale with the unit of length, do not depend on the naming of the spheres, are reciprocal and dissipate energy, and let the table hold the resistance scalars of a unit sphere beside others, with the script's subtraction of the far field. For two spheres anywhere, of any radii of tabulated ratio, at a tabulated scaled separation inside the cutoff, in a fluid of any viscosity, and for every well-posed problem in the forms fts, fte, ufte and ufteu (with symmetric traceless tensors): the grand resistance matrix is built, the problem solved, all that is prescribed kept, and forces, torques, stresslets, velocities, angular velocities and strains obey the mobility law and the resistance law of exactly that pair. `uos_compare` of tests/test_all.py counts 0 differences exactly if all 22 numbers of the line are within 1e-8 + 1e-3 |simulated| of the simulated ones, and at most 3. `test_against_lamb` passes exactly if that holds of each line, and raises IndexError if there are more than 88 lines. If the file is that of generate_lambs_solution.py with a program solving the mobility problem with the same scalars, each of the 88 x 22 numbers equals the simulated one and the test passes. (Finding: a file cut short passes as well, even one without lines.)", "quantifier": "all pairs of scalar functions with these properties, tables, positions, radii, viscosities, cutoffs, prescribed values and forms; all files of numbers", "why_tests_cant": "The stored scalars are one solution at a few separations and radii; the test compares 88 problems to a tolerance, so it neither shows exactness nor what a passing test implies about any other pair.", "anchors": ["tests/test_all.py:uos_compare", "tests/test_all.py:test_against_lamb", "stokesian_dynamics/functions/generate_grand_resistance_matrix.py:generate_grand_resistance_matrix", "stokesian_dynamics/functions/generate_R2Bexact.py:generate_R2Bexact", "stokesian_dynamics/functions/timestepping.py:generate_output_FTSUOE"]}
{"id": "C106", "title": "With near field, two equal spheres pulled alike at a tabulated separation drift in every frame as tabulated", "statement": "Take scalars and table as in C105, with the script's subtraction of the far field. Two spheres of equal radius, both always given the same force and nothing else, near field included, start at a tabulated scaled separation inside the cutoff. In every completed run of Euler, Adams-Bashforth or Runge-Kutta steps, however rarely the far field is inverted, both spheres are displaced up to frame m by m dt times one velocity: the force along the line of centres times (x11a + x12a) plus the force across it times (y11a + y12a), over the viscosity, of the mobility scalars of exactly that pair (in the planar mode without its y component). So they stay at that separation and in that direction. The stresslets saved in every frame are those the scalars x^g, y^g give for that force, opposite for the two. With gravity as input and usable settings the run completes.", "quantifier": "all pairs of scalar functions with the properties of C105, tables, radii, positions, forces, viscosities, cutoffs, schemes, time steps and numbers of frames", "why_tests_cant": "Tests compare single frames at a tolerance; that no frame moves the pair off the tabulated separation, whatever the scheme, is a statement about all frames.", "anchors": ["stokesian_dynamics/run_simulation.py:generate_frame", "stokesian_dynamics/functions/generate_grand_resistance_matrix.py:generate_grand_resistance_matrix", "stokesian_dynamics/functions/generate_R2Bexact.py:generate_R2Bexact", "stokesian_dynamics/functions/timestepping.py:euler_timestep", "stokesian_dynamics/functions/timestepping.py:ab2_timestep"]}
{"id": "C107", "title": "What random placement says about its result is true of the result", "statement": "When `randomise_spheres` returns, the printed minimum s' is the smallest distance between two of the new spheres over the first new radius, attained by a pair; it is at least 2 for spheres of equal radius; the printed numbers of the closest spheres are exactly those that have another at that distance, and if one pair alone is closest they are its two numbers in order. The printed fraction is the total volume of the new spheres over that of the box, for a box flat in y the total area of discs over its area, and inf if it is flat in x or z. `randomise_dumbbells` says the same of all beads (two per dumbbell), and for a flat box also the volume in a layer as thick as the first bead. `randomise_dumbbells_periodic` prints the smallest non-zero distance of beads as placed (at most dx) and as mean pitch the mean of the angles, between 0 and 90 degrees, of the dumbbells to the x axis; with both angles given, cos(pitch) = |sin(theta) cos(phi)|. Printing changes neither the result nor whether an error is raised. `not_in_spheres` returns True exactly when the bead overlaps none of the spheres of the given radius (touching allowed), as the loops of the placement functions do. (Findings: spheres may stick out of the box, and the fraction can exceed 100%, more than 700% in an example; the two beads of one dumbbell count as a pair, so the distance said for dumbbells never exceeds dx, and if dx is no more than the sum of any two radii the number is dx over the first radius whatever the positions. The spheres already there count in neither number. In the periodic box copies are not looked at: the number said is 5 in an example with dumbbells 3 apart across the boundary.)", "quantifier": "all streams of random numbers, boxes, radii, current spheres, angles and numbers of tries", "why_tests_cant": "What is printed is never read by a test, and positions are random; the findings depend on the shape of the box and the length of the dumbbells.", "anchors": ["stokesian_dynamics/setups/functions_positions.py:randomise_spheres", "stokesian_dynamics/setups/functions_positions.py:randomise_dumbbells", "stokesian_dynamics/setups/functions_positions.py:randomise_dumbbells_periodic", "stokesian_dynamics/setups/functions_positions.py:not_in_spheres"]}
