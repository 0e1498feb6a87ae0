{"id": "C01", "title": "Material constants are always consistent", "statement": "Material(name, rho, E, G_s, Poisson) succeeds exactly when the name has no space and exactly two of E, G_s, Poisson are given; the object then keeps the two given values and its three constants satisfy E = 2*G_s*(1+Poisson).", "quantifier": "every name, density and every choice of the three optional elastic constants", "why_tests_cant": "three of eight argument patterns are accepted, each over a continuum of real values", "anchors": ["ross/materials.py:Material.__init__"]}
{"id": "C02", "title": "Material library behaves as a key-value store", "statement": "After any sequence of save_material / remove_material on the library file, load_material(x) returns the last material saved under x if it was not removed since, and raises KeyError otherwise; operations on other names never change the answer; the loaded material has the same E, G_s, rho and a Poisson ratio consistent with them.", "quantifier": "every history of save/remove/load operations", "why_tests_cant": "the claim ranges over unbounded operation histories", "anchors": ["ross/materials.py:Material.load_material", "ross/materials.py:Material.save_material", "ross/materials.py:Material.remove_material"]}
{"id": "C03", "title": "Shaft element geometry is that of the tapered hollow cylinder", "statement": "For every ShaftElement the attributes volume, m, beam_cg and Im equal the integrals over the length of the area, density*area, the first moment (divided by the mass) and the polar mass inertia of the linearly tapered hollow section, and A, Ie are the mid-section values.", "quantifier": "all lengths and left/right inner/outer diameters with non-empty sections", "why_tests_cant": "continuum of geometries", "anchors": ["ross/shaft_element.py:ShaftElement.__init__"]}
{"id": "C04", "title": "Shaft mass matrix is the kinetic energy of the Timoshenko interpolation", "statement": "For every nodal velocity vector v, v^T M v equals the integral over the element of rho*A(z)*(|u|^2) plus (with rotary inertia) rho*I(z)*(|theta|^2), where u and theta are the Timoshenko interpolation of v and A, I are the tapered section properties.", "quantifier": "every geometry, material, option flag and every nodal vector", "why_tests_cant": "identity of two real functions of 16+ variables", "anchors": ["ross/shaft_element.py:ShaftElement.M"]}
{"id": "C05", "title": "Shaft stiffness matrix is the strain energy of the Timoshenko interpolation", "statement": "For every nodal displacement vector x and zero torque, x^T K x equals the bending energy integral of E*I(z)*|theta'|^2 plus the shear energy integral of kappa*G_s*A(z)*|u'-theta|^2 plus the axial-load term axial_force * integral |u'|^2.", "quantifier": "every geometry, material, axial force and nodal vector", "why_tests_cant": "identity of real functions", "anchors": ["ross/shaft_element.py:ShaftElement.K"]}
{"id": "C06", "title": "Shaft mass matrix is symmetric positive definite", "statement": "For every element with positive length, density and non-empty section everywhere, M is symmetric and v^T M v > 0 for every nonzero v.", "quantifier": "all valid elements, all vectors", "why_tests_cant": "infinitely many elements and directions", "anchors": ["ross/shaft_element.py:ShaftElement.M", "ross/shaft_element.py:ShaftElement6DoF.M"]}
{"id": "C07", "title": "Shaft stiffness is symmetric, positive semidefinite, and exactly the rigid motions cost nothing", "statement": "With no torque and no axial force K is symmetric and x^T K x >= 0, with equality exactly for the rigid-body translations and rotations of the element.", "quantifier": "all valid elements, all vectors", "why_tests_cant": "infinitely many elements and directions", "anchors": ["ross/shaft_element.py:ShaftElement.K"]}
{"id": "C08", "title": "Gyroscopic effects do no work and match the rotary inertia", "statement": "G of every shaft element (4 and 6 dof), disk and assembled rotor is skew-symmetric, so v^T G v = 0; for shaft and disk the gyroscopic coupling is the polar inertia (twice the section rotary inertia) coupling the two rotations.", "quantifier": "all elements, rotors and velocity vectors", "why_tests_cant": "unbounded rotors, continuum of vectors", "anchors": ["ross/shaft_element.py:ShaftElement.G", "ross/disk_element.py:DiskElement.G", "ross/rotor_assembly.py:Rotor.G"]}
{"id": "C09", "title": "The 6-dof shaft element restricted to lateral dofs is the 4-dof element (M and K)", "statement": "Deleting the axial and torsional rows/columns of M and K of ShaftElement6DoF gives the matrices of ShaftElement built with the same arguments.", "quantifier": "all element arguments", "why_tests_cant": "continuum of parameters", "anchors": ["ross/shaft_element.py:ShaftElement6DoF.M", "ross/shaft_element.py:ShaftElement6DoF.K"]}
{"id": "C10", "title": "The 6-dof gyroscopic matrix restricted to lateral dofs is the 4-dof one", "statement": "Deleting axial and torsional rows/columns of G of ShaftElement6DoF gives G of ShaftElement with the same arguments (false for tapered elements; true for every element whose cubic taper coefficient vanishes).", "quantifier": "all element arguments", "why_tests_cant": "the failure needs a tapered element with shear, none is tested", "anchors": ["ross/shaft_element.py:ShaftElement6DoF.G"]}
{"id": "C11", "title": "Disk built from geometry carries the inertia of the hollow cylinder", "statement": "DiskElement.from_geometry yields mass, polar and diametral inertia equal to the volume integrals of the hollow cylinder, and M/G (and Kdt for 6 dof) place exactly these values.", "quantifier": "all materials, widths, inner and outer diameters", "why_tests_cant": "continuum", "anchors": ["ross/disk_element.py:DiskElement.from_geometry", "ross/disk_element.py:DiskElement.M", "ross/disk_element.py:DiskElement6DoF"]}
{"id": "C12", "title": "Unit handling", "statement": "A decorated call receives, for every argument carrying a unit, the magnitude converted to the expected unit of that argument name, and receives plain numbers, strings and None unchanged; so a quantity expressed in any compatible unit gives the same result as the plain SI number. Every name of the unit table stands for a unit of the physical quantity the name announces, so with units that mean what their symbols say the call receives the value in SI.", "quantifier": "every argument name and value", "why_tests_cant": "unbounded set of argument names/units", "anchors": ["ross/units.py:check_units"]}
{"id": "C13", "title": "Bearing coefficients reproduce what the user supplied", "statement": "A scalar coefficient yields that value at every frequency; a table of one to four points yields exactly the table values at the table frequencies, a longer table yields them too (false: the default smoothing of the spline only bounds the error), coefficient lists whose length differs from the frequency list raise an error, and a bearing that was constructed can be evaluated (false for unordered frequencies).", "quantifier": "all frequencies and coefficient lists", "why_tests_cant": "continuum of frequencies", "anchors": ["ross/bearing_seal_element.py:BearingElement.__init__", "ross/bearing_seal_element.py:BearingElement._process_coefficient"]}
{"id": "C14", "title": "Linked bearings exert equal and opposite forces", "statement": "For a bearing with n_link the force on the linked node is minus the force on the shaft node, and equal displacements of both nodes give no force; without n_link the matrix is the 2x2 (3x3) coefficient matrix.", "quantifier": "all coefficient values and displacements", "why_tests_cant": "continuum", "anchors": ["ross/bearing_seal_element.py:BearingElement.K", "ross/bearing_seal_element.py:BearingElement.C", "ross/bearing_seal_element.py:BearingElement6DoF.K"]}
{"id": "C15", "title": "6-dof bearing validates the length of axial coefficient tables", "statement": "BearingElement6DoF raises when the length of kzz, czz or mzz differs from the frequency list (false: the check is computed on an empty dictionary).", "quantifier": "all lists", "why_tests_cant": "needs mismatching axial tables", "anchors": ["ross/bearing_seal_element.py:BearingElement6DoF.__init__"]}
{"id": "C16", "title": "Seal element survives save/load", "statement": "Loading a saved SealElement gives an element with the same attributes (false: the plot scale factor is halved at every construction).", "quantifier": "all seals", "why_tests_cant": "the tests compare only coefficients", "anchors": ["ross/bearing_seal_element.py:SealElement.__init__"]}
{"id": "C17", "title": "Every bearing class can be saved", "statement": "save() succeeds for every bearing object (false for BallBearingElement/RollerBearingElement, whose constructor arguments are never stored).", "quantifier": "all bearing objects", "why_tests_cant": "not exercised", "anchors": ["ross/bearing_seal_element.py:BearingElement.save", "ross/bearing_seal_element.py:BallBearingElement", "ross/bearing_seal_element.py:RollerBearingElement"]}
{"id": "C18", "title": "Global dof numbering is a bijection", "statement": "In every rotor the global dofs of distinct nodes are distinct, lie in [0, ndof) and together cover [0, ndof) exactly, including the half-size blocks of support (point mass) nodes.", "quantifier": "every number of shaft nodes and support nodes, 4 and 6 dof", "why_tests_cant": "unbounded rotor sizes", "anchors": ["ross/rotor_assembly.py:Rotor.__init__"]}
{"id": "C19", "title": "Global matrices are the sum of the element contributions", "statement": "Every entry of M, K, C, G of a rotor is the sum over elements of the local entries mapped there; the result does not depend on the order of element lists; symmetric (skew) element matrices give a symmetric (skew) global matrix; ignoring an element removes exactly its contribution.", "quantifier": "all rotors", "why_tests_cant": "unbounded element lists", "anchors": ["ross/rotor_assembly.py:Rotor.M", "ross/rotor_assembly.py:Rotor.K", "ross/rotor_assembly.py:Rotor.C", "ross/rotor_assembly.py:Rotor.G"]}
{"id": "C20", "title": "Assembled mass is the total mass and the mass matrix is positive definite", "statement": "A unit rigid translation gives r^T M r = m (sum of shaft and disk masses) plus the support masses and grounded bearing masses, and M is positive definite for every valid rotor, so the state-space matrix always exists.", "quantifier": "all rotors", "why_tests_cant": "unbounded rotors", "anchors": ["ross/rotor_assembly.py:Rotor.M", "ross/rotor_assembly.py:Rotor.A"]}
{"id": "C21", "title": "A bare shaft line has exactly the rigid-body motions in the kernel of K; supports remove them", "statement": "Without bearings, K x = 0 for rigid translations and rotations of the whole rotor and only for those; with bearings of positive stiffness holding two distinct shaft nodes and every support to the ground, K is positive definite for 4 dofs, and for 6 dofs exactly the rotation about the axis stays free.", "quantifier": "all rotors, all vectors", "why_tests_cant": "unbounded rotors", "anchors": ["ross/rotor_assembly.py:Rotor.K"]}
{"id": "C22", "title": "Invalid models are rejected at construction", "statement": "Whatever Rotor(...) accepts has distinct explicit tags, one kind of dofs for shaft, disks and bearings, disks inside the node range, every bearing connected to the shaft (directly or through linked bearings) and a bearing at every point mass; every well-formed model is accepted. The stronger claim that every invalid model is rejected is false: gaps in the shaft, links to missing nodes, point masses of the other dof kind or on shaft nodes are accepted; and a bearing plus a seal on the last node is wrongly rejected.", "quantifier": "all element lists", "why_tests_cant": "unbounded lists", "anchors": ["ross/rotor_assembly.py:Rotor.__init__", "ross/rotor_assembly.py:Rotor._check_number_dof"]}
{"id": "C23", "title": "Node positions and centre of gravity", "statement": "Node positions start at 0 and increase by the length of each shaft element; total mass and centre of gravity are those of the element masses at their positions.", "quantifier": "all rotors", "why_tests_cant": "unbounded rotors", "anchors": ["ross/rotor_assembly.py:Rotor.__init__"]}
{"id": "C24", "title": "State-space form is equivalent to the equations of motion", "statement": "(lambda, (q, p)) is an eigenpair of the state matrix A(speed, frequency) exactly when p = lambda q, q is nonzero and (lambda^2 M + lambda (C + speed G) + K) q = 0 with the matrices at that frequency; A maps (q, v) to (v, a) with M a + (C + speed G) v + K q = 0; A exists for every regular rotor with positive inertia.", "quantifier": "all rotors of any number of elements, all speeds and frequencies, all eigenpairs and states", "why_tests_cant": "a test can compare eigenvalues of a few rotors only; the equivalence is over all rotors and all complex eigenpairs", "anchors": ["ross/rotor_assembly.py:Rotor.A"]}
{"id": "C25", "title": "Passive rotors are stable at every speed", "statement": "For a rotor with positive masses, shafts without compression or torque and with non-negative damping factors, and bearings with symmetric positive semidefinite matrices, every eigenvalue of A has non-positive real part at every speed; an eigenvalue on the imaginary axis other than 0 has an undamped mode (C q = 0); if C and K are positive definite all real parts are negative.", "quantifier": "all passive rotors, all speeds, all eigenvalues", "why_tests_cant": "stability is claimed for every speed and every rotor in the class; a test samples both", "anchors": ["ross/rotor_assembly.py:Rotor.A", "ross/rotor_assembly.py:Rotor.run_modal"]}
{"id": "C26", "title": "Forced response solves the dynamic stiffness equation", "statement": "transfer_matrix(speed) without mode selection is the inverse of K - w^2 M + i w (C + w G) at w = speed whenever that matrix is nonsingular; run_forced_response returns for every speed the solution of that equation for the given force, velocity i w u and acceleration -w^2 u, and is linear in the force. (The frequency argument is not the excitation frequency: the result is never the response at a different frequency. Selecting modes keeps modes together with their conjugates exactly when the selection is 0..m-1.)", "quantifier": "all rotors, speeds, forces, eigen-decompositions, mode lists", "why_tests_cant": "identity between matrices over a continuum of frequencies and all rotors; needs algebra", "anchors": ["ross/rotor_assembly.py:Rotor.transfer_matrix", "ross/rotor_assembly.py:Rotor.run_freq_response", "ross/rotor_assembly.py:Rotor.run_forced_response"]}
{"id": "C27", "title": "Unbalance excitation", "statement": "run_unbalance_response applies at every listed shaft node the force whose x and y components are m w^2 cos(w t + phase) and m w^2 sin(w t + phase), nothing elsewhere; several unbalances superpose, in any order; lists of different length are rejected. (False for support nodes: the force is rejected or lands on other dofs.)", "quantifier": "all rotors, lists of nodes, magnitudes, phases, frequencies, times", "why_tests_cant": "lists are unbounded and values continuous; node arithmetic differs for support nodes", "anchors": ["ross/rotor_assembly.py:Rotor._unbalance_force", "ross/rotor_assembly.py:Rotor.run_unbalance_response"]}
{"id": "C28", "title": "Newmark integrator satisfies the equation of motion", "statement": "newmark returns one row per time instant, the first one zero. Every later state is related to the previous one by Newmark's formulas (gamma, beta) and satisfies M a + C v + K u = F up to the tolerance; when the iteration matrix is nonsingular it succeeds after at most one correction per step. Forces with norm below the tolerance are ignored completely. The force at the first instant is never used and the initial acceleration is 0, so constant acceleration is not reproduced (false: the first step of a free mass moves half of what it should). With the default parameters and symmetric M, K the energy changes exactly by the work of the forces minus the dissipation of C.", "quantifier": "all systems, sizes, time grids, options", "why_tests_cant": "the relations must hold at every step of runs of any length and for every system; a test run checks one recorded trajectory", "anchors": ["ross/utils.py:newmark"]}
{"id": "C29", "title": "Runge-Kutta integrator", "statement": "The fault integrators return the initial state plus one column per whole step in the interval; each column is one rk4 (or Cash-Karp) step from the previous one. On linear systems rk4 reproduces the Taylor polynomial of degree 4 and Cash-Karp that of degree 5 plus (hA)^6/800; polynomial right-hand sides of degree 3 (4) are integrated exactly over the whole run. Running the same integrator twice returns only the initial state the second time.", "quantifier": "all right-hand sides, step sizes, intervals, linear systems of any size", "why_tests_cant": "orders of accuracy and step counts are statements about all step sizes and all systems", "anchors": ["ross/faults/integrate_solver.py:Integrator"]}
{"id": "C30", "title": "Fault analyses return as many time stamps as samples", "statement": "The time vector of a fault analysis (arange(tI, tF+dt, dt)) has as many entries as the response has samples exactly when tF - tI is a whole multiple of dt; otherwise it has one more (so equal length in general is false).", "quantifier": "all tI <= tF, dt > 0", "why_tests_cant": "depends on divisibility of real numbers; every shipped test uses a step that divides the interval", "anchors": ["ross/faults/rubbing.py:Rubbing.run", "ross/faults/crack.py:Crack.run", "ross/faults/misalignment.py:MisalignmentFlex.run"]}
{"id": "C31", "title": "Intersection of curves", "statement": "The points returned by intersection are exactly the common points of a segment of one polyline and a non-parallel segment of the other; the set does not depend on the order of the curves. False: every common point is returned (overlaps of parallel segments are missed) and every point is returned once (a crossing at a vertex is returned twice).", "quantifier": "all pairs of polylines of any length", "why_tests_cant": "a continuum of polylines of unbounded length; the test curves of the repository are generic and never meet a vertex or an overlap", "anchors": ["ross/utils.py:intersection"]}
{"id": "C32", "title": "Reading tables of elements from a sheet", "statement": "read_table_file takes the first row with the key word as header and the first unbroken run of rows with a number in the key column as data, and returns one entry per data row for every parameter: entry i is the cell of the parameter's column in row i (found by any accepted name, ignoring case), with node numbers counted from 0 and English units converted to SI with factors that are right to 2 parts in ten million, or the documented default when the column is absent. It succeeds whenever the required columns are there and the converted ones hold numbers. Rows outside header and data do not matter as long as they do not change the units. False as one would expect it: any text with the letters 'lb' anywhere in the sheet (a note with 'album') switches the units; 'rpm' is overlooked once the header and an English unit have been seen; the torque is never converted; optional columns are not optional in an English sheet; a sheet of whole numbers only has 'no data'; a shaft table without element numbers fails. from_table builds one disk per row, and gives every shaft the last material listed with its number.", "quantifier": "all sheets of any size and content, the four kinds of table", "why_tests_cant": "Sheets of any length, with arbitrary text and numbers around the table; tests read three sample files.", "anchors": ["ross/utils.py:read_table_file", "ross/disk_element.py:DiskElement.from_table", "ross/shaft_element.py:ShaftElement.from_table"]}
{"id": "C33", "title": "Sectioning a shaft preserves geometry", "statement": "ShaftElement.section(L, ne, ...) returns ne elements; element i is the part of the piece from i*L/ne to (i+1)*L/ne with linearly interpolated diameters, neighbours join, lengths add up to L and total mass, polar inertia and first moment of mass are those of one element with the same ends; all elements carry the node number that was given. Rotor.from_section with nel elements per section puts node nel*k+j at distance j*length/nel from the left end of section k, disks and bearings unchanged at the ends of the sections they were given on, and its mass, polar inertia, centre of gravity and length do not depend on nel; meaningful input is accepted, lists of different length, nel = 0 and zero lengths are refused. False: disk_data and brg_seal_data can be left out (TypeError); a linked bearing stays linked to the same place (n_link is not multiplied).", "quantifier": "all lengths, diameters, numbers of sections and of elements per section, all disks and bearings", "why_tests_cant": "unbounded numbers of sections and elements; equality of masses for all meshes", "anchors": ["ross/shaft_element.py:ShaftElement.section", "ross/rotor_assembly.py:Rotor.from_section"]}
{"id": "C34", "title": "Convergence analysis refines the same rotor", "statement": "When Rotor.convergence returns after k passes on a rotor of cylindrical elements, one between every two nodes, pass i built the original rotor with every element cut into 2^i equal ones: same diameters, material, disks, bearings, mass, centre of gravity, polar inertia and node positions; the result lists element numbers, frequencies and relative changes of the passes, all changes but the last exceed the limit and the last does not; the rotor object has become the last refined one. False: geometry is kept for tapered elements (the mass always changes) and for layered ones (layers are put one behind the other); axial force, torque and proportional damping are kept; rotors on supports can be refined; a mode of zero frequency is refined until converged.", "quantifier": "all rotors, error limits, frequency functions and numbers of passes", "why_tests_cant": "the number of passes is unbounded and the refined rotors are compared with all original rotors", "anchors": ["ross/rotor_assembly.py:Rotor.convergence"]}
{"id": "C35", "title": "Removing dofs and 6-to-4 dof conversion select the right rows", "statement": "remove_dofs keeps exactly the complementary rows and columns in increasing order and rejects exactly the lists with an index outside the matrix; by default two of three dofs stay, in place. convert_6dof_to_4dof gives, for every 6-dof rotor with 6-dof point masses, the size and the mass, stiffness and damping matrices of the 4-dof rotor made of the same elements, at every frequency and with every list of ignored elements; also the gyroscopic matrix when the shaft elements are cylinders. False: the gyroscopic matrix agrees for conical elements.", "quantifier": "all matrix sizes and index lists; all 6-dof rotors of any number of elements, all frequencies, all ignore lists", "why_tests_cant": "the agreement is between two assembly paths over unbounded element lists; a recorded matrix checks one rotor", "anchors": ["ross/utils.py:remove_dofs", "ross/utils.py:convert_6dof_to_4dof"]}
{"id": "C36", "title": "Orbit axes and whirl direction", "statement": "For every pair of complex amplitudes the minor and major axes of an Orbit are the minimum and maximum distance of the orbit from its centre and are both reached; |kappa| = minor/major, kappa lies in [-1,1], is positive exactly for forward precession, negative exactly for backward precession, 0 exactly on a line and +-1 exactly on a circle; kappa and the label do not change when the mode is scaled by a nonzero complex number; the reported point of the major axis lies on the orbit and is short of the tip by a factor cos(pi/359) at most; the forward/backward decomposition of the response results has the same axes. False: an orbit labelled Backward turns backwards (motion on a straight line and no motion are labelled Backward too).", "quantifier": "all pairs of complex amplitudes, all nonzero complex factors, all eigen-solvers of symmetric 2x2 matrices", "why_tests_cant": "extremal over a continuum of instants, for a continuum of amplitudes; labels flip on a measure-zero set no sample hits", "anchors": ["ross/results.py:Orbit"]}
{"id": "C37", "title": "Whirl classification is total and exclusive", "statement": "Every kappa list is classified as exactly one of Forward (no entry below -0.001), Backward (some entry below -0.001, none above 0.001) or Mixed, in any order of the nodes. A Shape is Forward when all its orbits are, Backward when all are, else Mixed; both labels agree when every |kappa| > 0.001. A 6-dof mode is axial (torsional) exactly when only axial (torsional) dofs exceed 5e-7. False: the two labels always agree (a mode in one plane is Backward for Shape and Forward for ModalResults); the kind of a mode does not depend on its scaling.", "quantifier": "all kappa lists, all lists of orbits, all vectors of any size", "why_tests_cant": "unbounded lists and a continuum of values around the tolerances", "anchors": ["ross/results.py:ModalResults.whirl"]}
{"id": "C38", "title": "Mode shape interpolation passes through the nodal values", "statement": "Between two nodes the plotted mode shape is the cubic with the displacements and slopes of the two nodes, at the axial position of the element; it passes through the nodal values; rigid motions are drawn as straight lines. Normalizing divides by a nonzero entry so that one lateral dof is 1 and no lateral dof of a shaft node exceeds 1 in modulus; it raises ValueError exactly when no lateral dof moves. False: no lateral dof of any node exceeds 1 (every second support is left out of the search).", "quantifier": "all rotors with a connected shaft, all vectors", "why_tests_cant": "all rotors and all complex vectors; the support layout decides which dofs the search sees", "anchors": ["ross/results.py:Shape"]}
{"id": "C39", "title": "Probe readings", "statement": "A probe is accepted exactly when it is axial, or radial with an angle. A time response read by a probe at angle theta is x cos(theta) + y sin(theta) of the node (axial: the z displacement, or no column in a 4-dof rotor), for support nodes and shaft nodes no bearing is linked to. A forced response is read between the minor and major axis, so correctly in amplitude for circular orbits; a forward circular orbit is read with the phase of a probe at -theta. False: shaft nodes which a bearing is linked to are read at their own dofs; amplitudes of non-circular orbits and phases are those along theta; a support node can be read in a forced response (it raises).", "quantifier": "all rotors, responses, angles, nodes", "why_tests_cant": "all orbits and angles; shipped tests compare against recorded values of the same code", "anchors": ["ross/results.py:TimeResponseResults.data_time_response", "ross/probe.py:Probe"]}
{"id": "C40", "title": "Rubbing force acts only in contact", "statement": "While the node is inside the gap the rubbing force is zero in every dof. In contact the elastic part points to the centre with magnitude k (r - delta), continuously from zero, the damping part is -c times the velocity and never feeds energy, and no dof except the lateral ones (and the torsional one, when torque is on) of the rubbing node is loaded. The force is undefined (nan) exactly when the node touches and does not move, or touches at the centre. That a contact only pushes is false: while the node moves away the damping can pull it outwards.", "quantifier": "all parameters, displacement and velocity vectors, radii and speeds", "why_tests_cant": "the contact boundary, the zero-velocity singularity and the sign of the sum are statements about a continuum of states; the shipped test integrates one run", "anchors": ["ross/faults/rubbing.py:Rubbing._rub"]}
{"id": "C41", "title": "Friction force of rubbing is tangential and opposes sliding", "statement": "The lateral friction force has magnitude mu times the normal force or is zero. It is tangential to the contact only when the node touches on the line x = y (false in general), it does not always oppose the sliding of the surface, whichever sense a positive speed stands for (false), and the friction torque changes sign with the X displacement, so it does not always oppose the rotation (false).", "quantifier": "all states and parameters, both conventions for the sense of rotation", "why_tests_cant": "depends on the sign combination of four state variables; must hold in each region", "anchors": ["ross/faults/rubbing.py:Rubbing._rub"]}
{"id": "C42", "title": "Misalignment forces are self-equilibrated and periodic", "statement": "Flexible coupling: the lateral forces on the two coupling nodes cancel and only lateral and torsional dofs of these nodes are loaded; the angular force has period a third of a turn and vanishes when aligned; the combined force is the sum of the other two. False: combined misalignment applies each torque once (it applies it twice); the parallel force has period a third of a turn (the third arm has the opposite sign); opposite offsets give opposite forces (they give the same force). Rigid coupling: the forces on the two nodes cancel dof by dof and vanish without offset and with equal torques; false: the force is a function of time and state (it also depends on the previous evaluation).", "quantifier": "all angles, offsets, stiffnesses, torques, nodes and misalignment types", "why_tests_cant": "equilibrium and periodicity are identities over a continuum of angles; a recorded response cannot show them", "anchors": ["ross/faults/misalignment.py:MisalignmentFlex", "ross/faults/misalignment.py:MisalignmentRigid"]}
{"id": "C43", "title": "Crack stiffness varies between the closed and open values", "statement": "Depths above half the diameter are rejected; below, the coefficients are positive and do not decrease with the depth. For cylindrical elements at least two diameters long every crack lowers both lateral stiffnesses and keeps them positive. With Mayes' law the stiffness is symmetric, lies in every direction between the open and the uncracked value, equals them at pi and 0, and repeats every turn. At zero depth neither law breathes. A lateral translation gives no force. False: the extra compliance is positive (it is indefinite at every depth); every crack softens (a short element gets stiffer); Gasch's law stays below the uncracked stiffness (the truncated series overshoots); a rigid tilt gives no force (rotations enter with the opposite sign, so even zero depth gives one); an axial displacement gives no force (the axial stiffness is removed at any depth); the open stiffness is positive (a half-depth crack makes it indefinite).", "quantifier": "all elements, depths, angles, displacements, pseudo-inverse routines meeting the Moore-Penrose equations", "why_tests_cant": "a continuum of depths, angles and geometries; the bounds depend on every row of the coefficient table", "anchors": ["ross/faults/crack.py:Crack"]}
{"id": "C44", "title": "Journal bearing: load, Sommerfeld number, eccentricity and attitude angle", "statement": "For a short bearing turning forwards, the eccentricity ratio computed from a load is the only one, and the attitude angle the only direction, at which the film of Reynolds' equation (half film, stator radius) carries exactly this load; rotor_load and calculate_eccentricity_ratio are inverse to each other; a heavier load means a larger eccentricity; at rest the ratio is 1. False: for a shaft turning backwards the load changes sign; a FluidFlow built from a load reports a force smaller by the ratio of the radii; when load and eccentricity are both given, the ratio belongs to the load and the eccentricity to the argument.", "quantifier": "all positive radii, speeds, viscosities, lengths, loads, clearances; all root finders that return the roots of the quartic", "why_tests_cant": "existence and uniqueness over a continuum of loads, including the choice among complex roots that pass for real within numpy's tolerance", "anchors": ["ross/fluid_flow/fluid_flow_geometry.py:calculate_eccentricity_ratio", "ross/fluid_flow/fluid_flow_geometry.py:calculate_rotor_load", "ross/fluid_flow/fluid_flow_geometry.py:modified_sommerfeld_number", "ross/fluid_flow/fluid_flow_geometry.py:calculate_attitude_angle", "ross/fluid_flow/fluid_flow.py:FluidFlow.__init__"]}
{"id": "C45", "title": "Fluid film geometry and analytical pressure", "statement": "The internal radius at every angle is the positive distance at which the ray from the stator centre meets the rotor circle (for eccentricities up to the rotor radius); the film thickness of a cylindrical bearing is positive and the coefficients are accepted exactly when it is inside the clearance at the grid points (false that a rotor overlapping the stator between grid points is rejected). An elliptical bore is two arcs whose centres are moved towards each other. A worn bore is deeper by max(0, depth - clearance (1 + cos)) while the start of the worn arc falls within one turn (false when it is displaced further: the bore is then moved inwards). Both analytical short bearing pressures agree, are non-negative, vanish at the ends and on the diverging half. Moving the rotor centre there and back restores the state on the lower right quadrant (false on the left: the film is built for the mirrored position).", "quantifier": "all angles, eccentricities, attitude angles, wear depths and displacements, grids of any size, moves", "why_tests_cant": "geometric identities over a continuum of positions and angles; the branch structure of the wear function is only reached by special displacements", "anchors": ["ross/fluid_flow/fluid_flow_geometry.py:internal_radius_function", "ross/fluid_flow/fluid_flow_geometry.py:external_radius_function", "ross/fluid_flow/fluid_flow_geometry.py:move_rotor_center", "ross/fluid_flow/fluid_flow_geometry.py:move_rotor_center_abs", "ross/fluid_flow/fluid_flow.py:FluidFlow.geometry_description", "ross/fluid_flow/fluid_flow.py:FluidFlow.calculate_pressure_matrix_analytical"]}
{"id": "C46", "title": "Discretised Reynolds equation", "statement": "A vector of pressures solves the assembled linear system exactly when it has the given pressures at the two ends, is periodic and every cell is in balance with the flow through its faces. The coefficients are the flows of a viscous fluid between the rotor and stator surfaces, per unit pressure gradient around and along the bearing, and dragged by the rotor. Whenever the film is thicker than zero at the grid points (always for a cylindrical bearing with the rotor inside) the system has exactly one solution and its positive part is stored; raising an end pressure raises the pressure everywhere; without drag the pressure stays between the end pressures; a concentric rotor or one at rest gives the straight pressure drop. False: fluid is conserved on each ring of cells (the flow across the seam is computed with the coefficients of two different columns).", "quantifier": "all grids of at least 2 by 4 points, radii, viscosities, speeds, perturbations, all linear solvers that meet their contract", "why_tests_cant": "the size of the system is unbounded and its solvability depends on the sign of transcendental coefficients over a continuum of film thicknesses", "anchors": ["ross/fluid_flow/fluid_flow.py:FluidFlow.calculate_coefficients", "ross/fluid_flow/fluid_flow.py:FluidFlow.mounting_matrix", "ross/fluid_flow/fluid_flow.py:FluidFlow.resolves_matrix", "ross/fluid_flow/fluid_flow.py:FluidFlow.calculate_pressure_matrix_numerical"]}
{"id": "C47", "title": "Stochastic objects are the list of their deterministic samples", "statement": "Iterating a stochastic material, point mass, shaft element, disk or bearing yields, for sample i, exactly the deterministic object built by keyword from entry i of each random argument and the fixed value of every other; the number of samples is the length of the first argument declared random, a shorter random argument raises IndexError, and coefficient tables (one row per frequency) are sampled by column. A stochastic rotor is accepted exactly when it has a random element, all random elements have the same number of samples and the first sample is a valid rotor; iterating it gives the rotors of the samples in order, and the Monte Carlo frequency, unbalance (one node) and time responses are the responses of those rotors. What is false: longer random arguments are cut silently; a disk's colour is never used: it is passed on as the scale factor; an assigned left diameter does not change the right one it defaulted to; a shared is_random list leaks names from one element to another; plotting a shaft's variables removes its material from the random ones; a material given as a list is refused by from_geometry; a coefficient table mixed with a random constant is read by row; the element lists handed to ST_Rotor are changed, so that using them again fails; node positions are those of the first sample and not the documented mean; with fewer magnitudes than rotors the remaining responses are zero; modes is ignored when no unbalance is random; unbalances on several nodes are indexed by the wrong axis; a random force is read along its first axis and not its documented third.", "quantifier": "all attribute values and random names, all later assignments, all numbers of samples, all element lists, all responses and arguments", "why_tests_cant": "The claim ranges over every set of random arguments, every number of samples and every combination of random and fixed elements. A test draws one sample size and compares a few numbers, and the layouts that are read along the wrong axis give plausible numbers when the sizes agree.", "anchors": ["ross/stochastic/st_disk_element.py:ST_DiskElement", "ross/stochastic/st_shaft_element.py:ST_ShaftElement", "ross/stochastic/st_bearing_seal_element.py:ST_BearingElement", "ross/stochastic/st_point_mass.py:ST_PointMass", "ross/stochastic/st_materials.py:ST_Material", "ross/stochastic/st_rotor_assembly.py:ST_Rotor"]}
{"id": "C48", "title": "Static analysis is in equilibrium", "statement": "Rotor.run_static either raises or returns a deflection in equilibrium: for every virtual lateral displacement, the work of the elastic forces of the shaft plus the work of stiff supports (10^20 N/m) under the bearings that carry the shaft equals the work of the weights of shaft elements and disks; bearing_forces_nodal holds exactly the forces of those supports, their sum is the weight of the rotor and their moment is that of the weight at the centre of gravity. For a shaft of two or more cylindrical elements every row of the shearing force and bending moment diagrams is the resultant and the moment of all loads to the right of the two ends of an element. w_shaft and disk_forces_tag are weights. It succeeds as soon as two distinct nodes carry the shaft, raises LinAlgError with fewer, and ValueError when every bearing is a seal. It is false that the diagrams are right for a single-element shaft, that disk_forces_nodal adds the disks of one node (the last overwrites the others), and that bearing_forces_tag uses the tags of the bearings (its keys are 'Bearing 0', 'Bearing 1', ...). For conical elements it is false that the shearing force is the resultant of the loads to the right: each cone changes it by density*L*(A_right-A_left)/(60*(1+phi)) times gravity, and the bending moment accumulates these shifts and the error of the trapezoid rule, exactly.", "quantifier": "all rotors built by the constructor whose bearings do not link shaft nodes with one another, 4 and 6 dof elements, any linear solver that meets its contract, all virtual displacements, all elements of the diagrams", "why_tests_cant": "equilibrium and the diagrams must hold for unboundedly many elements, masses and support positions; an example checks one deflection curve against stored numbers", "anchors": ["ross/rotor_assembly.py:Rotor.run_static"]}
{"id": "C49", "title": "Acceleration stiffness is the companion of the gyroscopic matrix", "statement": "For a rotor whose speed varies, the matrix multiplying the angular acceleration (Kst of the 6-dof shaft, Kdt of the 6-dof disk) and the gyroscopic matrix come from the same kinetic energy, so Kst - Kst^T = G (false: the code has the opposite sign, proved for disks and Euler-Bernoulli cylinders).", "quantifier": "all elements", "why_tests_cant": "the identity relates matrices for every geometry; a test compares stored numbers", "anchors": ["ross/shaft_element.py:ShaftElement6DoF.Kst", "ross/disk_element.py:DiskElement6DoF.Kdt"]}
{"id": "C50", "title": "The axial inertia of the 6-dof shaft element is its mass", "statement": "A unit axial translation of a ShaftElement6DoF gives r^T M r = m (true for cylinders, false for tapered elements, where the mean of the end areas is used).", "quantifier": "all elements", "why_tests_cant": "all geometries", "anchors": ["ross/shaft_element.py:ShaftElement6DoF.M"]}
{"id": "C51", "title": "Material equality is an equivalence", "statement": "a == b for two materials holds exactly when each of the density, Young's modulus, shear modulus and Poisson ratio of a is within 1e-8 + 1e-5*|value of b| of the value of b; names and colours are not compared. The relation is reflexive, but neither symmetric nor transitive (the tolerance is relative to the right operand), so it is not an equivalence.", "quantifier": "all pairs (and triples) of materials", "why_tests_cant": "all pairs of real attributes", "anchors": ["ross/materials.py:Material.__eq__"]}
{"id": "C52", "title": "Saving a material is crash safe", "statement": "Whatever the point at which a process dies while saving, and whatever loads other processes do meanwhile, the library holds either the old or the new table (false: there is a window where the file is truncated; outside that window the claim holds, and a completed save always left the new table).", "quantifier": "all libraries, materials, numbers of concurrent loaders, schedules and crash points", "why_tests_cant": "crash points and schedules cannot be enumerated by tests", "anchors": ["ross/materials.py:Material.save_material", "ross/materials.py:Material.dump_data"]}
{"id": "C53", "title": "Concurrent saves", "statement": "Saves executed one after the other by any number of processes give the same library as the sequential history; interleaved saves all persist (false: lost update).", "quantifier": "all libraries, lists of processes, schedules", "why_tests_cant": "schedules", "anchors": ["ross/materials.py:Material.save_material"]}
{"id": "C54", "title": "Point masses", "statement": "PointMass(m) uses m in every direction; PointMass(mx, my) (and mz for 6 dof) uses the directional masses; every incomplete combination is rejected; the mass matrix gives the kinetic energy of these masses.", "quantifier": "all combinations of given and omitted masses, all velocities", "why_tests_cant": "every combination of optional arguments over a continuum of values", "anchors": ["ross/point_mass.py:PointMass.__init__", "ross/point_mass.py:PointMass6DoF.__init__"]}
{"id": "C55", "title": "Rolling bearings have positive stiffness", "statement": "BallBearingElement and RollerBearingElement give K = diag(kxx, kyy) with kxx > 0 and kyy > 0 and damping 1.25e-5 times the stiffness unless given (false: kxx is positive exactly for 2 to 34 balls, 2 to 33 rollers, because the quadratic fit of the ratio is extrapolated).", "quantifier": "all numbers of balls or rollers, sizes, loads and angles", "why_tests_cant": "unbounded number of rolling elements", "anchors": ["ross/bearing_seal_element.py:BallBearingElement.__init__", "ross/bearing_seal_element.py:RollerBearingElement.__init__"]}
{"id": "C56", "title": "Magnetic bearing closed loop", "statement": "MagneticBearingElement has stiffness ki*k_amp*k_sense*kp + ks and damping ki*k_amp*k_sense*kd, positive stiffness exactly when k_amp*k_sense*kp > i0/g0; parameter lists longer than two are rejected (false: the type test is always true).", "quantifier": "all parameters", "why_tests_cant": "continuum of parameters", "anchors": ["ross/bearing_seal_element.py:MagneticBearingElement.__init__"]}
{"id": "C61", "title": "Modes are returned in a documented order", "statement": "Eigenvalues and eigenvectors of run_modal / transfer_matrix are a permutation of the solver's eigenpairs; the first half is sorted by damped frequency, then magnitude, and no entry of the second half has a larger damped frequency than one of the first; for conjugate pairs with distinct frequencies position 2n-1-k holds the conjugate of position k and the first half has positive frequencies.", "quantifier": "all rotors and all eigenvalue lists of even length", "why_tests_cant": "all orders in which the solver may return eigenvalues, all sizes", "anchors": ["ross/rotor_assembly.py:Rotor._index", "ross/rotor_assembly.py:Rotor._eigen"]}
{"id": "C62", "title": "Time integration uses the rotor matrices at the instantaneous speed", "statement": "integrate_system solves M(0) a + (C(w) + w G) v + (K(w) + alpha Ksdt) u = F at every step, with w the speed given for that step and alpha its numerical derivative; bearings with frequency tables follow the speed even though the rest is assembled once at the mean speed. It succeeds for every passive rotor at constant speed, and alpha is exact for linear speed profiles.", "quantifier": "all rotors, speed profiles, force arrays, time grids", "why_tests_cant": "the split assembly must agree with the full assembly for every element list and every speed", "anchors": ["ross/rotor_assembly.py:Rotor.integrate_system", "ross/utils.py:assemble_C_K_matrices"]}
{"id": "C63", "title": "Unbalance force of the fault analyses", "statement": "The speed law takes the given speeds at both ends and is the derivative of the shaft angle; the force of a disk is the inertia force of a mass turning with the shaft, also while the speed changes; at constant speed the forces of all disks add up on the lateral dofs of their nodes and nothing else is loaded. False: it rotates in the same sense as the force of run_unbalance_response.", "quantifier": "all speeds, times, magnitudes, phases and numbers of unbalances", "why_tests_cant": "derivative identities over all times; unbounded number of disks", "anchors": ["ross/faults/rubbing.py:Rubbing.run", "ross/faults/misalignment.py:MisalignmentFlex.run", "ross/faults/crack.py:Crack.run"]}
{"id": "C64", "title": "Reduced motion of the fault analyses", "statement": "For a passive rotor with independent modes the reduced right-hand side returns the velocities and an acceleration for which the residual of the equation of motion is orthogonal to the 12 kept modes, with no residual when the rotor has 12 dofs. Responses start at rest and are combinations of the kept modes; a crack without unbalance never starts to vibrate. False: each stage of a step uses the forces of its own time (all use those of the end of the step).", "quantifier": "all passive rotors, states, times, faults and runs of any length", "why_tests_cant": "needs the projection identity for every rotor and an induction over the steps of the run", "anchors": ["ross/faults/crack.py:Crack.run", "ross/faults/crack.py:Crack._equation_of_movement", "ross/faults/rubbing.py:Rubbing.run", "ross/faults/misalignment.py:MisalignmentFlex.run"]}
{"id": "C65", "title": "Bending moment of a deflected shape", "statement": "The bending moment reported at a node is the sum, over the elements which end there, of -E I times the second derivative of the cubic through the displacements and slopes of the element. False: it is the moment of the shape (a node between two elements gets both sides added, twice the moment of a parabola).", "quantifier": "all rotors and responses", "why_tests_cant": "a recorded value cannot tell the sum of both sides from the moment", "anchors": ["ross/results.py:ForcedResponseResults._calculate_bending_moment"]}
{"id": "C66", "title": "Modal quantities of an eigenvalue", "statement": "For a nonzero eigenvalue s: wn = |s| > 0, the damping ratio lies in [-1,1], Re s = -ratio*wn, wd^2 + (ratio*wn)^2 = wn^2, the ratio is positive exactly for decaying modes, and for an oscillating mode exp(-log_dec) is the decay of the amplitude over one period; the lists hold the values of the first num_modes/2 eigenvalues in order.", "quantifier": "all eigenvalues, any number of modes", "why_tests_cant": "a continuum of eigenvalues", "anchors": ["ross/rotor_assembly.py:Rotor.run_modal"]}
{"id": "C57", "title": "CylindricalBearing stores the linearised coefficients of the equilibrium of its weight", "statement": "For positive speeds there is exactly one column per speed and its eight coefficients are the stiffness and damping of the short bearing film at the equilibrium of the weight. False at zero speed (the column is lost and the others are shifted), for backward rotation (all damping terms become negative), and the reported attitude angle is wrong.", "quantifier": "all weights, sizes, clearances, viscosities and lists of speeds of any length", "why_tests_cant": "all lists of speeds and a continuum of parameters; the roots of a quartic with symbolic coefficients", "anchors": ["ross/bearing_seal_element.py:CylindricalBearing.__init__"]}
{"id": "C67", "title": "Analytical film pressures and forces solve Reynolds' equation", "statement": "Both analytical methods give at every grid point the positive part of the unique solution of Reynolds' equation for a short bearing (zero pressure at the ends), the long bearing pressure is the positive part of the unique solution with the supply pressure at the thickest and thinnest film, and the reported forces are the integrals of these pressures over the converging half of the film (for the long bearing, of the pressure above supply).", "quantifier": "all eccentricities below the clearance, attitude angles, grids and bearing data", "why_tests_cant": "a partial differential equation and integrals over a continuum", "anchors": ["ross/fluid_flow/fluid_flow.py:FluidFlow.calculate_pressure_matrix_analytical", "ross/fluid_flow/fluid_flow_coefficients.py:calculate_oil_film_force"]}
{"id": "C68", "title": "Short bearing coefficients are the linearisation of the film force", "statement": "Along every differentiable motion of the rotor centre through the equilibrium of a load, the film force changes by minus the stiffness matrix times the motion; for every velocity of the centre it changes by exactly minus the damping matrix times the velocity; the damping matrix is symmetric positive definite, the direct stiffnesses are positive and kxy > kyx.", "quantifier": "all equilibria, all motions and velocities", "why_tests_cant": "derivatives along all paths", "anchors": ["ross/fluid_flow/fluid_flow_coefficients.py:calculate_short_stiffness_matrix", "ross/fluid_flow/fluid_flow_coefficients.py:calculate_short_damping_matrix"]}
{"id": "C69", "title": "Numerical film force and numerical bearing coefficients", "statement": "The numerical film force is minus the integral over the grid of the pressure times the unit vector from the rotor centre to the stator, whatever linear quadrature rule is used. calculate_stiffness_and_damping_coefficients measures the film forces at six instants of a harmonic motion about the given position and returns the coefficients of the only best affine fit (least squares) of minus the force to displacement and velocity, in the order xx, xy, yx, yy; it succeeds for every cylindrical bearing whose rotor stays inside the clearance.", "quantifier": "all pressures, grids, positions, quadrature rules and linear solvers that meet their contracts", "why_tests_cant": "an optimisation statement against all other coefficients, for a continuum of films and unbounded grids", "anchors": ["ross/fluid_flow/fluid_flow_coefficients.py:calculate_oil_film_force", "ross/fluid_flow/fluid_flow_coefficients.py:calculate_stiffness_and_damping_coefficients"]}
{"id": "C60", "title": "Rotors may share elements", "statement": "Rotor(...) given distinct element objects behaves as the rotor made of their values: it raises exactly when that one does, and otherwise has its matrices and attributes. It never writes to the shaft elements it is given. To the disks, bearings and point masses it is given it writes only a default tag, when there is none (the place of the element in this call), and the numbers of its degrees of freedom, even if the call raises in the end. Naming the same disk, bearing or point mass twice in a call always raises ValueError. Through any sequence of later constructions an earlier rotor keeps all its matrices as long as the bearings and point masses it shares with a later rotor sit on nodes up to the first one after the shorter shaft, or the two shafts end at the same node. Elements that have tags can be reused without end: what a call returns does not depend on earlier calls; and a repeated call returns the same. It is false that elements without tags can be reused at another place in the list (ValueError), and that an earlier rotor always keeps its matrices: building a shorter rotor on the same flexible support moves the support mass inside the longer one to other degrees of freedom.", "quantifier": "all histories of constructions, successful or not, all elements, with or without tags, all sharing patterns", "why_tests_cant": "The effect needs two rotors that live at the same time and depends on the order of constructions, on failures in between and on aliasing. Unit tests build one rotor from new elements.", "anchors": ["ross/rotor_assembly.py:Rotor.__init__", "ross/rotor_assembly.py:Rotor.M", "ross/rotor_assembly.py:Rotor.K", "ross/rotor_assembly.py:Rotor.C", "ross/rotor_assembly.py:Rotor.G"]}
{"id": "C58", "title": "Saving and loading elements and rotors", "statement": "element.save(file) writes the section named after the class and the tag of the element, leaves every other section of the file as it was, and reading that section again gives an element equal in every constructor parameter and coefficient, except that a seal comes back with half its scale factor. It raises for rolling-element and fluid-flow bearings (KeyError) and for PointMass6DoF (AttributeError), and then the file is untouched. cls.load(file) returns the element of the first section, so it is false that it returns the element saved last. rotor.save(file) followed by Rotor.load(file) gives a rotor with the same elements, parameters, attributes and matrices at every speed, whatever the file held before, but it is false that it keeps its tag. A rotor with a CylindricalBearing is saved but cannot be loaded. It is false that a failed rotor.save leaves the file alone: the file then holds the parameters and the elements before the one that cannot be saved, and may load as another rotor, without its bearings. Excluded: materials with zero shear modulus, bearings whose tag or colour is the empty string (an empty tag is written as an empty list, and the bearing cannot be read back).", "quantifier": "all elements of all classes made by their constructors, all files, all rotors of any number of elements, all crash points of the save at an element that cannot be saved", "why_tests_cant": "A round trip must hold for every combination of classes, optional arguments and earlier file content, and a failed save must be judged by what it leaves behind. Tests save one rotor to a new file and compare it on success.", "anchors": ["ross/element.py:Element.save", "ross/element.py:Element.load", "ross/bearing_seal_element.py:BearingElement.save", "ross/shaft_element.py:ShaftElement.save", "ross/rotor_assembly.py:Rotor.save", "ross/rotor_assembly.py:Rotor.load"]}
{"id": "C59", "title": "The synchronous mass matrix carries the gyroscopic effect of a synchronous whirl", "statement": "Rotor.M(synchronous=True) of a rotor with 4 degrees of freedom per node: for every motion in which all nodes run on circles about the axis with the shaft, at its speed w, M_sync times the acceleration is M times the acceleration plus w G times the velocity. So i w with a forward circular shape is an eigenvalue of the synchronous system at speed 0 exactly when the rotor turning at w has this mode: w is a critical speed; with another speed w0 in the call the mode is the one of the rotor turning at w0 + w. It is false for circles against the rotation (the gyroscopic term has the wrong sign) and for rotors with 6 degrees of freedom per node, where the gyroscopic effect of disks is lost.", "quantifier": "all 4-dof rotors, with or without supports, all whirl speeds, starting positions and times", "why_tests_cant": "The claim quantifies over all rotors and all circular motions. Tests compare a few natural frequencies of one 4-dof rotor with stored numbers.", "anchors": ["ross/rotor_assembly.py:Rotor.M", "ross/rotor_assembly.py:Rotor.A", "ross/rotor_assembly.py:Rotor._eigen"]}
{"id": "C70", "title": "Modal analyses with the iterative solver report modes, and the same ones whatever was run before", "statement": "Every pair run_modal reports is an eigenvalue with its eigenvector of the state matrix at that speed; the eigenvalues come in two halves of equal length, each sorted by damped frequency and then modulus (ten decimals), the second half not above the first; wn, wd, damping_ratio, log_dec and the shapes are those of the first num_modes // 2. The dense solver gives the whole spectrum; the synchronous analysis exactly the eigenvalues that are not real and whose real part is below 1000 times the imaginary one; the iterative solver the 2 * num_modes eigenvalues nearest to 1 without those of modulus at most 0.1; if ARPACK fails the whole spectrum, rigid body modes included. Every call leaves a start vector for the next one: when the nearest eigenvalues are well defined and different eigenvalues differ in the sort keys, the eigenvalues and numbers do not depend on it. An odd number of eigenvalues left after dropping rigid body modes raises ValueError, and the start vector has been replaced.", "quantifier": "all rotors, speeds, numbers of modes, solvers that meet their contract and all histories of earlier analyses", "why_tests_cant": "The hidden start vector makes the result a function of every earlier call on the rotor, and the solver may return its answers in any order. Tests look at fresh rotors.", "anchors": ["ross/rotor_assembly.py:Rotor.run_modal", "ross/rotor_assembly.py:Rotor._eigen", "ross/rotor_assembly.py:Rotor._index", "ross/results.py:ModalResults"]}
{"id": "C71", "title": "Critical speeds are critical", "statement": "The five arrays of run_critical_speed have the same length, and position k of log_dec, damping_ratio and whirl_direction belongs to one eigenpair of the state matrix at the damped critical speed wd[k]. If the root search finds roots up to a tolerance and analyses do not depend on the history, that eigenvalue's imaginary part is wd[k] up to the tolerance, and at wn[k] some eigenvalue has modulus wn[k] up to the tolerance. With speed_range the argument num_modes is ignored: all five arrays are those for (ndof - 4) * 2 modes at exactly the positions with vmin <= wd <= vmax, in order; errors are the same.", "quantifier": "all rotors, numbers of modes, ranges, histories, root searches that ask for any number of values", "why_tests_cant": "The search may evaluate the rotor at any number of speeds and every evaluation changes the hidden solver state. Tests compare a few critical speeds of two rotors.", "anchors": ["ross/rotor_assembly.py:Rotor.run_critical_speed"]}
{"id": "C72", "title": "Rows of a Campbell diagram are analyses at their speeds", "statement": "Row i of run_campbell belongs to speed_range[i]: frequency, log_dec, damping ratio and whirl value in a column belong to one mode of an analysis at that speed with 2 * frequencies modes, in the order of the analysis for frequency_type wd and in increasing order for wn. Each entry of a diagram by wd comes from one eigenpair of the state matrix at that speed. An analysis with a single mode is repeated in all columns; with any other wrong number of modes ValueError is raised. When analyses do not depend on the history, the row of a speed does not depend on the other speeds.", "quantifier": "all rotors, speed ranges of any length, numbers of frequencies, both frequency types and all histories", "why_tests_cant": "Rows are computed in sequence with hidden solver state; a mix-up between columns or rows needs particular orders of modes to show.", "anchors": ["ross/rotor_assembly.py:Rotor.run_campbell", "ross/results.py:CampbellResults"]}
{"id": "C73", "title": "Clustered frequencies surround every critical speed", "statement": "With positive critical speeds, the frequencies used by cluster_points are 0 followed by an increasing list of num_points points below and num_points above each chosen critical speed, in pairs whose product is the square of the critical speed; num_points above 12 counts as 10 and below 2 as 4; damping ratios below 0.005 count as 0.005.", "quantifier": "all critical speeds, damping ratios, numbers of points and choices of modes", "why_tests_cant": "Real powers of arbitrary damping ratios; tests compare one array.", "anchors": ["ross/rotor_assembly.py:Rotor._clustering_points"]}
{"id": "C74", "title": "The undamped critical speed map", "statement": "run_ucs analyses, for every stiffness of the map, the rotor with the same shaft and disks on springs of that stiffness to ground, in x and y, at every bearing that is not a seal: no damping, no seals, no point masses. The stiffnesses are num values evenly spaced in the exponent over stiffness_range, which by default is 10^6 to 10^11 without a rated speed and otherwise six decades around the stiffness kxx of the first bearing. Curve j shows at each stiffness the modulus of the eigenvalue of mode 2 j at rest; there are num_modes // 4 curves. The marked points are exactly the crossings of a curve with the bearing's kxx over frequency, or with kyy if it is different, and the analysis stored with a point is the one of the rotor on that stiffness at that speed. It is false that every rotor can be analysed: with a bearing on a support ValueError is raised, and so it is if num_modes // 2 is odd and at least 3.", "quantifier": "all rotors with 4 degrees of freedom per node, ranges, numbers of points and modes", "why_tests_cant": "The matrices at every stiffness, and every crossing, for rotors of any size. Tests compare stored numbers of one rotor.", "anchors": ["ross/rotor_assembly.py:Rotor.run_ucs", "ross/utils.py:intersection"]}
{"id": "C75", "title": "The level 1 stability analysis", "statement": "run_level1 with a range analyses at rated speed, for num cross-couplings Q evenly spaced over the range, the rotor whose stiffness matrix has Q added between x and y and -Q between y and x of the given node and whose other matrices are the same, and returns for each the logarithmic decrement of the first mode that is not backward. It is false that the range is optional: without it the call always raises. It raises also without a rated speed, when the first bearing is not a plain bearing or seal, and when a bearing is on a support.", "quantifier": "all rotors with 4 degrees of freedom per node and no point masses, nodes, ranges and numbers of points", "why_tests_cant": "Every cross-coupling and every order of forward and backward modes. The test compares the decrements of one rotor for one range.", "anchors": ["ross/rotor_assembly.py:Rotor.run_level1"]}
{"id": "C76", "title": "Numbering, elements and matrices of co-axial rotors", "statement": "CoAxialRotor numbers the nodes of the shafts one after the other: element k of shaft j gets the node k places behind the first node of its shaft, which follows all nodes of the earlier shafts, and default tags count through all shafts; the numbers are written into the caller's elements and later calls keep them. M, K, C and G are the sums of the element matrices at four degrees of freedom per node (two for supports), mass and polar inertia the sums over all elements; entries between nodes of different shafts are zero unless a bearing leads from one to the other. With one shaft of two or more elements the rotor equals the Rotor with the same elements. It is false that [element] * n is a shaft of n elements (as for Rotor), that the given tag is kept, that elements with six degrees of freedom or a rotor without plain bearings are accepted, that tags must differ, and that a support nobody is linked to is refused: the call does not return.", "quantifier": "all lists of shafts of any length, all disks, bearings, point masses, all entries of the matrices, all sequences of calls with shared elements", "why_tests_cant": "Numbering and coupling for any number and size of shafts, and effects of one call on the elements of the next. Tests build one rotor with two shafts.", "anchors": ["ross/rotor_assembly.py:CoAxialRotor", "ross/rotor_assembly.py:Rotor.M", "ross/rotor_assembly.py:Rotor.K"]}
{"id": "C77", "title": "Axial positions and centre of gravity of co-axial rotors", "statement": "Shafts that no bearing connects are laid end to end (not at zero, as documented). With two shafts and one bearing from node a of the first to node b of the second, where the elements next to the connection have the same lengths in both shafts, nodes_pos and the ends of every element are those of the first shaft from zero and of the second shaft moved so that its node b is at node a. The centre of gravity is then the weighted mean of the places of all parts if b is 0 or 1; it is false in every other case: elements of the second shaft that lie more than one element before the connection count at the place they had before the shaft was moved, which makes CG too large by the shift times their share of the mass (the documented example included). It is also false that L is the length of the rotor (it is the place of the last node of the last shaft), that positions are right for different element lengths at the connection, for the end of the second of three shafts, and for a single shaft of one element.", "quantifier": "all pairs of shafts of any length, all connections, masses, lengths, disks", "why_tests_cant": "Positions result from a loop that moves slices of arrays, for any number of elements and any connected nodes. No test looks at the positions or CG of a co-axial rotor.", "anchors": ["ross/rotor_assembly.py:CoAxialRotor.__init__"]}
{"id": "C78", "title": "What == means for elements and rotors", "statement": "Comparing elements of different kinds, or bearings of different classes, gives False. Bearings, seals, six-degree-of-freedom and magnetic bearings with tables that fit are equal exactly if they are identical; point masses if they are identical and at the same place; shaft elements of a class exactly if they have the same arguments, place, colour, density and ratio of the elastic moduli and moduli that agree to numpy's tolerance, and then they have the same mass and gyroscopic matrices. Disks are compared with a tolerance in every number. Equal elements have equal tags and so equal hashes. Rotors are equal exactly if their elements are, in order, and the three speeds. A rotor without seals equals the one read back from its file. It is false that == never raises (two ball, roller or fluid-flow bearings, even one with itself: AttributeError; tables of different lengths), that it is symmetric or transitive for disks, that equal shaft elements have equal stiffness, that elements of the 4 and 6 degree-of-freedom classes differ, that equal CylindricalBearings have equal hashes, and that a rotor with a seal equals the one read back from its file.", "quantifier": "all elements that constructors can make, with tables of any length, all rotors, both behaviours of numpy for arrays that do not fit", "why_tests_cant": "Equality of every pair of objects, including tolerances and arrays of different lengths. Tests compare a few equal and unequal pairs.", "anchors": ["ross/shaft_element.py:ShaftElement.__eq__", "ross/disk_element.py:DiskElement.__eq__", "ross/point_mass.py:PointMass.__eq__", "ross/bearing_seal_element.py:BearingElement.__eq__", "ross/bearing_seal_element.py:BearingElement6DoF.__eq__", "ross/rotor_assembly.py:Rotor.__eq__", "ross/materials.py:Material.__eq__"]}
{"id": "C79", "title": "Which rotors have stiffness and damping matrices", "statement": "Rotor.K and Rotor.C pick their elements with a set difference and list.index, so they compare elements. If the bearings of the rotor can be compared pairwise (and CylindricalBearings stand at different nodes), K and C are the sums over all elements whose tags are not ignored, whatever order the set is walked in. It is false that every rotor has these matrices: with two ball bearings, two roller bearings or two fluid-flow bearings, or two bearings of one class whose tables have different lengths above one, K and C raise at every frequency.", "quantifier": "all rotors, frequencies, lists of ignored elements, orders of iteration over sets, both behaviours of numpy", "why_tests_cant": "The iteration order of a set depends on hashes that change from process to process; failures depend on the classes and table lengths of pairs of bearings.", "anchors": ["ross/rotor_assembly.py:Rotor.K", "ross/rotor_assembly.py:Rotor.C", "ross/shaft_element.py:ShaftElement.__hash__", "ross/bearing_seal_element.py:BearingElement.__eq__", "ross/bearing_seal_element.py:BearingElement.__hash__"]}
{"id": "C80", "title": "The pseudo-modal method and given matrices in integrate_system", "statement": "integrate_system with num_modes = m > 0 returns displacements of a motion that starts at rest, follows Newmark's formulas and stays in the span of the first min(m, ndof) vectors of a basis that is orthonormal for the mass matrix, sorted by stiffness, and made of the modes of the rotor at the (mean) speed without the x-y coupling stiffness of its bearings; what this motion leaves of the equation of motion of the whole rotor, coupling, damping, gyroscopic effect and changing speed included, does no work beyond the tolerance on any displacement of the span, so with all modes on any displacement. Directions left out are stiffer than those kept; more modes than degrees of freedom change nothing; without num_modes, or with zero or a negative number, the result is that of the direct method. For passive rotors the modes exist and the run succeeds. M, C, K, G and Ksdt given by the caller replace the rotor's own. It is false that the method works for bearings on supports (it raises) and that C and K can be given when tabulated bearings follow a changing speed (it raises).", "quantifier": "all rotors, speeds, forces, numbers of modes, time steps and numbers of steps", "why_tests_cant": "Every number of modes for rotors of any size, and every instant of any run. Tests compare the reduced and the direct solution of one rotor.", "anchors": ["ross/rotor_assembly.py:Rotor._pseudo_modal", "ross/rotor_assembly.py:Rotor.integrate_system", "ross/utils.py:newmark"]}
{"id": "C81", "title": "The default time response is the exact motion under forces joined linearly between the samples", "statement": "With one numeric speed and a method other than 'newmark' (in any case), the time response at equally spaced times returns exactly the displacements (and, in the state output, the displacements and velocities) of the motion M q'' + (C + speed G) q' + K q = f, where f joins the given force samples linearly and the motion starts from the given initial state (zero by default) at time 0 and is free until the first sampling time. Such a motion exists and is unique. Responses superpose in forces and initial states, free responses of a rotor with symmetric M and K and dissipative C never gain energy, and a rotor at rest without force stays at rest. A negative first time, a wrong number of force samples (unless all are zero) and steps that differ from the first by more than 1e-8 + 1e-5 |step| are refused. It is NOT true that every sampling time is used as given (only the first two are), so steps of unequal lengths below about 1e-8 s are accepted and give a wrong response; nor that an initial state is used, or a state output returned, by the Newmark method or with an array of speeds; nor that keywords of the Newmark method have any effect on the default method.", "quantifier": "every rotor with an invertible mass matrix, speed, force history, list of sampling times and initial state", "why_tests_cant": "a test compares one response at some samples with another approximate integrator, within a tolerance; exactness at every step size, superposition and the energy bound range over all rotors, all force histories and any number of steps", "anchors": ["ross/rotor_assembly.py:Rotor.time_response", "ross/rotor_assembly.py:Rotor.run_time_response", "ross/rotor_assembly.py:Rotor._lti"]}
{"id": "C82", "title": "Saved results are loaded as they were saved, where they are", "statement": "Results saved into a new file and loaded by their class have the same arguments when these are numbers, truth values, arrays of numbers or of texts, or arrays of complex numbers whose longest text has 40 to 49 characters; a rotor among them is the one Rotor.load reads from its own file, whose name is never the name of the results file and is different for different results files. A save replaces or adds the section of its class and leaves the other sections of the file, and other files, as they were, after any history of saves. It is NOT true that every result comes back: complex arrays with shorter or longer texts (a zero response) come back as texts, and modal results with them cannot be loaded; empty arrays of other types come back as empty arrays of floats; single texts, dictionaries and objects become arrays without dimension, with which the loaded object cannot be saved again, and the attempt empties the file (so do loaded Campbell diagrams, which also lose their modal results); a saved undamped critical speed map makes its file unreadable; of two classes in one file only the first can be loaded; two results in one file share one rotor, the last; and the rotor file replaces results stored under its name.", "quantifier": "every results class, every value of its arguments, every file content and every sequence of saves", "why_tests_cant": "the tests save and load one example of some classes and compare .all() with .all(); which values survive, and what a save does to the rest of a file, ranges over all values, lengths of texts and histories of saves", "anchors": ["ross/results.py:Results.save", "ross/results.py:Results.load", "ross/results.py:Results.read_toml_data", "ross/results.py:CampbellResults.save", "ross/results.py:CampbellResults.load"]}
{"id": "C83", "title": "The element of a thermo-hydrodynamic bearing does not hold the coefficients it computed", "statement": "A THDCylindrical bearing with a list of one speed w whose method returns kxx, kxy, kyx, kyy, cxx, cxy, cyx, cyy is a bearing element at the given node with, at every frequency, stiffness [[kxx, kyx], [cyy, kxy]], damping [[cxx, cyx], [w, cxy]] and mass [[kyy, 0], [0, kyy]]. These are the computed coefficients with zero mass only if all of kxy, kyx, kyy, cxy, cyx, cyy and w are zero. It is NOT true that an element can be made for several speeds (ValueError, or coefficients that are not numbers), for no speed, for a speed given as a number (IndexError), or with the default oil_flow (TypeError); nor that arguments with units are read as documented: a pad_arc_length in degrees is turned into radians and used as degrees, a reference_temperature in degrees Celsius is turned into kelvins and used as degrees Celsius.", "quantifier": "every bearing, both methods, all coefficients, speeds, lists of speeds and frequencies", "why_tests_cant": "The constructor takes minutes and its test compares the attributes kxx ... cyy before they are handed to the element; that the matrices are wrong for all coefficients, and when they could be right, ranges over all real coefficients.", "anchors": ["ross/fluid_flow/cylindrical.py:THDCylindrical.__init__", "ross/bearing_seal_element.py:BearingElement.__init__"]}
{"id": "C84", "title": "The oil film of a flooded thermo-hydrodynamic bearing", "statement": "For every position of the journal inside the clearance the film is that of a circular, two-lobed or elliptical bearing in metres, and at least the clearance less the eccentricity. In flooded operation the pressure of a pad is computed without an error for every viscosity field that is positive; there is exactly one pressure field for which what flows out of every cell, less what flows in, plus the growth of the gap is zero, with zero pressure at the edges of the pad, and the result is this field where it is positive and zero elsewhere. So a film that nowhere converges and does not get thinner has no pressure, and a viscosity that is symmetric along the axis gives a symmetric pressure. With a number of pads that divides 360 and a list of groove factors the force is computed without an error at every position and velocity; it is minus the trapezoidal sum, along the axis and around all pads, of the pressure times the cosine and sine of the angle; it is zero for a circular bearing with the journal at rest in its centre; and the score of the search for the equilibrium is zero exactly where the force balances the load. It is NOT true that other numbers of pads work (no force is ever returned), nor lobed bearings with three pads or more, nor a groove factor given as one number, nor reference temperatures below 2.5 degrees.", "quantifier": "every geometry, clearance, length, radius, arc, preload below one, number of pads and cells, position, velocity, speed and viscosity field", "why_tests_cant": "Existence and uniqueness of the pressure, and its balance in every cell, range over grids of any size and all positions; tests compare forces for one bearing to recorded values.", "anchors": ["ross/fluid_flow/cylindrical.py:THDCylindrical._flooded", "ross/fluid_flow/cylindrical.py:THDCylindrical._forces", "ross/fluid_flow/cylindrical.py:THDCylindrical._score"]}
{"id": "C85", "title": "What the perturbation method returns", "statement": "Whatever the force of the film as a function of position and velocity: with the second Sommerfeld number every returned coefficient is the central difference quotient of the force times load / ((L/D)^2 |(a, b)|), where a and b are force components at two different perturbed positions (for kyx and kyy both along y); with the first Sommerfeld number it is the quotient times 2 mu R^3 L w / (pi c^2). So it is NOT true that the stiffness and damping of the film are returned: for a force that is affine, with the load along y carried by the film, 2 (L/D)^4 kyy_returned^2 <= kyy^2; with the load along x, kyx and kyy are returned with their sign but a size that does not depend on them. If the equilibrium lies straight below or beside the centre, coefficients are not numbers, whatever the film.", "quantifier": "every film force, bearing, speed, load and equilibrium position", "why_tests_cant": "Tests compare the coefficients of one bearing to recorded values, which cannot show that they are not the derivatives of the force; the scale factors hold for every force.", "anchors": ["ross/fluid_flow/cylindrical.py:THDCylindrical._perturbation_method", "ross/fluid_flow/cylindrical.py:THDCylindrical.sommerfeld", "ross/fluid_flow/cylindrical.py:THDCylindrical.coefficients"]}
{"id": "C86", "title": "The temperature of the oil that enters the pads", "statement": "In starved operation, for positive flows, the shares of the supplied oil add up to one; the heat that enters a pad is that of its share and of the oil carried over from the pad upstream; its temperature lies between the reference temperature and that of the oil leaving the pad upstream; a groove is never more than full. In flooded operation with factors between 0 and 1 the temperature lies between the reference temperature and that of the oil leaving a pad; with one or two pads that is the pad upstream. It is NOT true for three pads or more: there it is the pad downstream.", "quantifier": "every number of pads, all flows, temperatures and factors", "why_tests_cant": "Energy balance and bounds hold for any number of pads and all flows; tests use two pads, where upstream and downstream are the same.", "anchors": ["ross/fluid_flow/cylindrical.py:THDCylindrical._forces"]}
{"id": "C87", "title": "Converting a rotor to plain elements", "statement": "to_ross_only of a 4-dof rotor always succeeds. The new rotor has the same shaft elements, disks, point masses, speeds and tag; every bearing becomes a BearingElement and every seal a SealElement at the same node and link, with the same tag, colour, table of frequencies, stiffness and damping coefficients and, for seals, leakage. So the stiffness, damping and gyroscopic matrices, the positions and the inertia properties are the same at every frequency; if no bearing has mass coefficients so is the mass matrix. Mass coefficients are dropped: the new mass matrix is that of the rotor without bearings. The size on drawings is reset. A 6-dof rotor with a bearing is never converted: the constructor raises RuntimeError, because the new bearings have two degrees of freedom.", "quantifier": "every rotor the constructor accepts, bearings of every class with any coefficients, all frequencies", "why_tests_cant": "The matrices must agree for every rotor and every frequency, and the failure for 6-dof rotors holds for each of them; a test compares a few attributes of one rotor.", "anchors": ["ross/rotor_assembly.py:Rotor.to_ross_only"]}
{"id": "C88", "title": "A bearing computed from the fluid film holds the coefficients of the film", "statement": "BearingFluidFlow with an increasing list of speeds builds a bearing element at the given node, link, tag, scale and colour that holds, for every speed, the eight coefficients FluidFlow gives for the same data at that speed, and has no mass. With up to four speeds its stiffness and damping matrices at each of them are exactly these coefficients; with five or more they are within the smoothing of the table; with one speed they are the same at every frequency. For a bearing no longer than a quarter of its diameter, with an eccentricity, or a load that leaves the rotor inside the clearance, at non-zero speeds, the element is always built. If the film fails at a speed, the first failure is that of the constructor. It is NOT true that an eccentricity without a load is enough: for a longer bearing the interpreter is left (SystemExit), as it is with neither; an empty list of speeds raises IndexError; four or more speeds out of order give an element whose matrices cannot be evaluated.", "quantifier": "every film, node, link and list of speeds; every library for linear systems that is correct and every spline that keeps its contract", "why_tests_cant": "The correspondence of columns and success must hold for any number of speeds and all geometries; the test builds one bearing at one speed and compares recorded numbers.", "anchors": ["ross/bearing_seal_element.py:BearingFluidFlow.__init__", "ross/fluid_flow/fluid_flow.py:FluidFlow.__init__", "ross/fluid_flow/fluid_flow_coefficients.py:calculate_stiffness_and_damping_coefficients"]}
{"id": "C89", "title": "A bearing read from a table has the numbers of the table", "statement": "BearingElement.from_table builds, from every sheet that has a table with numbers in its columns kxx, kyy, cxx, cyy and frequency (or speed) and, if they are there, kxy, kyx, cxy, cyx, with increasing speeds, a bearing at the given node, link and tag whose frequencies and coefficients are these numbers row by row in SI units; cross-coupled coefficients without a column are 0 and all mass coefficients are 0. With up to four rows the matrices at the speed of a row consist of the numbers of the row, with more they are within the smoothing of the table. table_to_toml gives a dictionary from which the constructor builds the same bearing, without link and tag.", "quantifier": "every sheet, node, link, tag, and number of rows", "why_tests_cant": "Which cell ends up where must hold for every layout of a sheet and any number of rows; tests read two files and compare some entries.", "anchors": ["ross/bearing_seal_element.py:BearingElement.from_table", "ross/bearing_seal_element.py:BearingElement.table_to_toml", "ross/utils.py:read_table_file"]}
{"id": "C90", "title": "Bearing coefficients are not extrapolated without a warning", "statement": "run_freq_response and run_campbell warn that bearing coefficients are extrapolated exactly when some speed of the range lies outside the table of speeds of some bearing or seal. Without the warning their results, and those of run_forced_response and run_unbalance_response over the same range, are the same for any two interpolations that agree inside the tables. Rotors without tables never give the warning; with a table an empty range raises ValueError. It is NOT true that the warning is only given when something is extrapolated: with one speed in the table the coefficients are constants and every other speed warns.", "quantifier": "every rotor the constructor accepts, every range of speeds, all tables, and every pair of interpolations that agree inside the tables", "why_tests_cant": "That results cannot depend on values outside the tables is a statement about all interpolations and all ranges; a test can only see that a warning appears for one range.", "anchors": ["ross/rotor_assembly.py:Rotor._check_frequency_array", "ross/rotor_assembly.py:Rotor.run_freq_response", "ross/rotor_assembly.py:Rotor.run_campbell"]}
{"id": "C91", "title": "What a summary lists, and what happens when it is asked for again", "statement": "The first summary of a rotor with a disk and a bearing that is not a seal lists every disk, in order, at the position of its node, every bearing that is not a seal at a position (in a well-formed rotor that of its node of the shaft or, on a support, that of a bearing linked to its node), and the forces of the static analysis. It is NOT true that asking again gives the same: the second summary cannot be shown (KeyError). Before pandas 2.0 this alternates for ever; from pandas 2.0 on the third summary is as the first and every later call raises ValueError. A call whose static analysis fails counts as a call. Without disks, or with no bearing but seals, the first call raises KeyError.", "quantifier": "every rotor the constructor accepts, every number of calls, every outcome of the static analysis, both behaviours of pandas about repeated labels", "why_tests_cant": "The result depends on how many times the method was called before; a test makes one call. The documentation shows one call only.", "anchors": ["ross/rotor_assembly.py:Rotor.summary", "ross/results.py:SummaryResults.plot", "ross/results.py:SummaryResults"]}
{"id": "C92", "title": "What the matrices saved to a .mat file determine", "statement": "save_mat writes M, K and C at the frequency given (or at the speed when none is given), G, and the positions of the nodes, for every regular rotor whose bearings can be evaluated there. The state matrix of the rotor at any speed of rotation and that frequency is the one and only state matrix of M a + (C + speed G) v + K q = 0 with the matrices of the file, so whoever rebuilds it from the file gets A, and two rotors with the same numbers in their files have the same A at every speed. It is NOT true that the file is that of a rotor spinning at the speed given: with a frequency the speed is not used, while the state matrices of a rotor with gyroscopic effect differ at any two speeds.", "quantifier": "every rotor, every speed and frequency, every speed of rotation at which the state matrix is formed, every matrix rebuilt from the file", "why_tests_cant": "That a file determines the dynamics ranges over all rotors and all speeds; a test compares the numbers of one file.", "anchors": ["ross/rotor_assembly.py:Rotor.save_mat", "ross/rotor_assembly.py:Rotor.A"]}
{"id": "C93", "title": "CamelCase names become underscore_case names", "statement": "convert turns every name made of words, each a capital followed by small letters, into the words in small letters joined by underscores, whatever the number and length of the words; several capitals before a word are taken as one word. For every name the result has no capitals and is the name written small with nothing but underscores put in; a name without capitals stays as it is, so converting twice is converting once. It is NOT true that different names get different results, or that words of one capital are kept apart.", "quantifier": "every name and every list of words, of any length (8-bit characters)", "why_tests_cant": "The result comes from two regular expressions whose matches depend on where the previous one ended: the first misses every other boundary between words, the second must put in exactly those. Examples cannot show this for all lists of words.", "anchors": ["ross/utils.py:convert"]}
