# Formal model of petrobras/ross in Rocq (Coq 8.16.1)

## Layout

* `rocq/theories/PyBase.v`, `PyDict.v`, `MatBase.v`, `CMat.v`: shared vocabulary. Exceptions as values, Python dictionaries,
  finite sums, real and complex matrices.
* `rocq/theories/M*.v`: the model, no proofs. Every definition cites the file and lines in `/repo` it models and says what it simplifies.
* `rocq/theories/Spec*.v`: what the properties mean, written without the model's helpers (interpolation functions, energies as
  integrals, kinematics, key-value stores, equations of motion, Reynolds' equation ...).
* `rocq/theories/L*.v`: lemmas.
* `rocq/theories/Prop*.v`: the theorems named in `MANIFEST.json`. Their names start with the id of the property. Next to them are
  `Example`s showing a concrete, non-trivial case that meets the hypotheses, and `Print Assumptions` at the end.
* A theorem whose name ends in `_refuted` proves that a reading of the property one could expect is false of the code, by a
  concrete witness. The statement of the property in `properties.jsonl` says which part is true and which is false.
* `seeded/LOG.jsonl`: wrong programs tried against the theorems.

## Modelling decisions

* Floating point numbers are the real numbers `R` of the standard library. Rounding, overflow, NaN and infinities are not modelled.
  A Python division by zero raises `ZeroDivision` in the model where the code uses Python floats. Where the code uses numpy
  arrays (which give inf or nan) theorems carry the hypothesis that the denominator is not zero.
* Comparison of two reals (`Req_EM_T`, `Rle_dec`) is a decidable test in the model.
* Python exceptions are values (`Err e`), dictionaries are association lists in insertion order, lists are lists. State that survives
  an exception (files, objects given by the caller) is returned next to the outcome.
* Nodes and indices are natural numbers. Negative node numbers are not modelled.
* numpy matrices are functions `nat -> nat -> R` with a size given separately (or literal tables read by `nth`). Element matrices
  are transcribed entry by entry. Index errors of `M[np.ix_(dofs, dofs)]` are modelled.
* Objects are values, except in `MShare.v`, where constructions of rotors act on a heap of shared elements.
* `rotor_K` and `rotor_C`, used by most theorems, choose elements by tag. The code compares elements with `==`; C79 proves that this is the
  same when the bearings can be compared, and that otherwise both matrices raise an exception.
* Library kernels are parameters of the model, and theorems assume only their mathematical specification:
  * `linalg_ok`: `la.solve`, `la.inv` and `la.eig` of numpy/scipy (solutions solve, inverses invert, eigenpairs satisfy A v = l v).
  * `eigh_ok`: `scipy.linalg.eigh(A, B)` with B positive definite, if it returns (increasing eigenvalues, B-orthonormal eigenvectors, lower triangle of A).
  * `pinv_ok`: `np.linalg.pinv` of a nonsingular matrix is its inverse.
  * `eig2_ok`: eigenvalues of a 2 by 2 symmetric matrix.
  * `are_roots`, `refine_ok`, `linear_rule` (fluid film): roots of the quartic, `fsolve`-like refinement, Simpson's rule is linear.
  * the spline of scipy (`UnivariateSpline`, 4 and more points): only that it interpolates. Up to 4 points the polynomial is explicit.
  * `eigs_ok`: `scipy.sparse.linalg.eigs` returns eigenpairs, the nearest to 1, in any order, depending on the start vector.
  * `newton` is any tree of questions to the function; `finds_root` says what it found.
  * `expm_ok`: `scipy.linalg.expm` is the sum of the exponential series; `scipy.signal.lsim` is modelled on top of it, statement by statement.
  * `solve_ivp`, `curve_fit`, `minimize`: only their inputs and outputs appear.
* pint is a table of units with scale and offset; pandas is the rectangle of cells it hands over; toml is
  "what is written is read, without the entries that are None"; the text of complex numbers and of other objects (`repr`) is a parameter, and
  theorems say where they need that it is read exactly.

## What is modelled

* `materials.py`: all but `__repr__`/`__str__` and the list of available materials as text.
* `units.py`: unit table and `check_units`.
* `shaft_element.py`: `ShaftElement` and `ShaftElement6DoF` constructors, M, K, C, G, Kst, `section`, `from_table`, `save`/`load`.
* `disk_element.py`, `point_mass.py`: all but plotting and text.
* `bearing_seal_element.py`: `BearingElement`, `SealElement`, `BallBearingElement`, `RollerBearingElement`, `MagneticBearingElement`,
  `CylindricalBearing`, `BearingElement6DoF`, with coefficients, interpolation, matrices, `save`/`load`.
* `rotor_assembly.py`, class `Rotor`: constructor, matrices, state matrix, `_index`, `_eigen` (all branches), `run_modal`, `run_critical_speed`,
  `_clustering_points`, `run_campbell`, `run_ucs` and `run_level1` (4-dof), `convergence`, frequency, forced and
  unbalance response, `integrate_system`, `run_static`, `from_section`, `save`, `load`, `to_ross_only`, and the further analyses listed in the table below.
* `CoAxialRotor`: numbering, checks, positions, mass, centre of gravity, matrices (not: diameters and drawing heights).
* `results.py`: orbits, shapes, modal quantities, probes, bending moments, `save` and `load` of all result classes.
* `utils.py`: `newmark`, `assemble_C_K_matrices`, `intersection`, `read_table_file`, `remove_dofs`, `convert_6dof_to_4dof`, `convert`.
* `faults/`: rubbing, misalignment (flexible and rigid), crack, `integrate_solver.py`.
* `fluid_flow/`: geometry, analytical and numerical pressure, forces and coefficients of `FluidFlow`; of `cylindrical.py` (class `THDCylindrical`) the constructor, film, flooded pressure,
  force, score, perturbation method, Sommerfeld numbers and the mixing of oil.
* `stochastic/`: `ST_` elements, `ST_Rotor`, the Monte Carlo loops.

## What is not modelled

* Plots, figures, data frames other than those of C91, text output, warnings other than that of C90.
* of `fluid_flow/cylindrical.py` (thermo-hydrodynamic bearing): the temperature field (the viscosity it gives is an arbitrary positive field), the starved pressure field, Lund's method (its results are arbitrary), the viscosity fit, plots.
* Bearing tables with entries that are not numbers (text, empty cells, or a missing kyy, cyy or frequency column): what numpy and scipy do with them.
* `stochastic/st_results.py` except the data passed on, `st_results_elements.py`, `st_fluid_flow.py`.
* What `scipy.io.savemat` does with the dictionary of `save_mat`.
* Rounding errors and the convergence of iterative kernels.

## Plan per property

| id | property | modelled | proof | file |
|----|----------|----------|-------|------|
| C01 | Material constants are always consistent | `Material.__init__` | case analysis on the options, field | `PropMaterial` |
| C02 | Material library behaves as a key-value store | library file as an association list, operations as steps | refinement to a finite map by induction on histories | `PropMaterial` |
| C03 | Shaft element geometry is that of the tapered hollow cylinder | geometric part of `ShaftElement.__init__` | integrals by antiderivatives (Coquelicot `RInt`) | `PropShaft` |
| C04 | Shaft mass matrix is the kinetic energy of the Timoshenko interpolation | mass tables entry by entry | energy integrals by antiderivative, field | `PropShaft` |
| C05 | Shaft stiffness matrix is the strain energy of the Timoshenko interpolation | stiffness tables entry by entry, axial force included | energy integrals by antiderivative, field | `PropShaft` |
| C06 | Shaft mass matrix is symmetric positive definite | mass tables | exact Newton-Cotes quadrature as weighted sums of squares | `PropShaft` |
| C07 | Shaft stiffness is symmetric, positive semidefinite, and exactly the rigid motions cost nothing | stiffness tables | sums of squares; kernel by solving the interpolation | `PropShaft` |
| C08 | Gyroscopic effects do no work and match the rotary inertia | G tables of shaft and disk, assembly | ring; induction over elements | `PropDisk`, `PropRotor`, `PropShaft` |
| C09 | The 6-dof shaft element restricted to lateral dofs is the 4-dof element (M and K) | 4 and 6 dof tables | entrywise ring | `PropDisk`, `PropShaft` |
| C10 | The 6-dof gyroscopic matrix restricted to lateral dofs is the 4-dof one | 4 and 6 dof G tables | entrywise ring; refutation by a tapered element | `PropShaft` |
| C11 | Disk built from geometry carries the inertia of the hollow cylinder | disk formulas | `RInt` in polar coordinates | `PropDisk` |
| C12 | Unit handling | `check_units` with an abstract registry, the unit table | induction over the parts of a name; dimension of each entry | `PropUnits`, `PropUnits2` |
| C13 | Bearing coefficients reproduce what the user supplied | coefficient processing: constants, polynomials, splines | Lagrange algebra; contract of the spline | `PropBearing` |
| C14 | Linked bearings exert equal and opposite forces | bearing matrices | ring on the linked blocks | `PropBearing` |
| C15 | 6-dof bearing validates the length of axial coefficient tables | length check of `BearingElement6DoF` | computation; refutation | `PropBearing` |
| C16 | Seal element survives save/load | attributes written and read by `save`/`load` | computation | `PropBearing` |
| C17 | Every bearing class can be saved | parameters and attributes per class | computation; refutations | `PropBearing` |
| C18 | Global dof numbering is a bijection | index arithmetic of `Rotor.__init__` | lia, induction | `PropRotor` |
| C19 | Global matrices are the sum of the element contributions | assembly loops | induction over element lists | `PropRotor` |
| C20 | Assembled mass is the total mass and the mass matrix is positive definite | assembled M | quadratic forms, kinetic energy | `PropRotor` |
| C21 | A bare shaft line has exactly the rigid-body motions in the kernel of K; supports remove them | assembled K | kernel of sums of semidefinite forms along the shaft | `PropRotor` |
| C22 | Invalid models are rejected at construction | validation in `Rotor.__init__` | induction; characterisation of acceptance | `PropRotor` |
| C23 | Node positions and centre of gravity | node tables of `Rotor.__init__` | induction over sorted lists | `PropRotor` |
| C24 | State-space form is equivalent to the equations of motion | state matrix | block algebra | `PropDynamics` |
| C25 | Passive rotors are stable at every speed | eigenpairs of the state matrix | energy argument over the complex numbers | `PropDynamics` |
| C26 | Forced response solves the dynamic stiffness equation | transfer matrix, responses | block algebra over C with `linalg_ok` | `PropDynamics` |
| C27 | Unbalance excitation | unbalance force and response | complex algebra | `PropDynamics` |
| C28 | Newmark integrator satisfies the equation of motion | `newmark` as a step function | algebra, induction on steps | `PropTime` |
| C29 | Runge-Kutta integrator | Runge-Kutta step | Taylor conditions by polynomial exactness; induction | `PropTime` |
| C30 | Fault analyses return as many time stamps as samples | sizes of arange and int() | floor arithmetic; refutation | `PropTime` |
| C31 | Intersection of curves | segment intersection | 2 by 2 linear algebra over all pairs of segments | `PropUtils` |
| C32 | Reading tables of elements from a sheet | `read_table_file` on any sheet | induction over rows and columns | `PropTable` |
| C33 | Sectioning a shaft preserves geometry | `section`, `from_section` | induction on the number of elements | `PropSection` |
| C34 | Convergence analysis refines the same rotor | `convergence` | induction on the iterations | `PropSection` |
| C35 | Removing dofs and 6-to-4 dof conversion select the right rows | index selection | induction | `PropUtils` |
| C36 | Orbit axes and whirl direction | `Orbit` | quadratic forms, trigonometry | `PropOrbit` |
| C37 | Whirl classification is total and exclusive | whirl labels | case analysis | `PropOrbit` |
| C38 | Mode shape interpolation passes through the nodal values | `Shape` | interpolation algebra | `PropShape` |
| C39 | Probe readings | probes | trigonometry, linear interpolation | `PropProbe` |
| C40 | Rubbing force acts only in contact | rubbing force | case analysis | `PropFault` |
| C41 | Friction force of rubbing is tangential and opposes sliding | friction force | algebra | `PropFault` |
| C42 | Misalignment forces are self-equilibrated and periodic | misalignment forces | trigonometry; refutations | `PropFault` |
| C43 | Crack stiffness varies between the closed and open values | crack stiffness and force | quadratic forms; refutations | `PropCrack` |
| C44 | Journal bearing: load, Sommerfeld number, eccentricity and attitude angle | load and eccentricity formulas | monotonicity and intermediate values | `PropFluid` |
| C45 | Fluid film geometry and analytical pressure | grids, radii | trigonometry, analysis | `PropFluid2` |
| C46 | Discretised Reynolds equation | finite difference matrix and solution | induction over the grid | `PropFluid3` |
| C47 | Stochastic objects are the list of their deterministic samples | `ST_` objects | induction on lists | `PropStoch`, `PropStoch2` |
| C48 | Static analysis is in equilibrium | `run_static` | linear algebra, sums along the shaft | `PropStatic`, `PropStatic2` |
| C49 | Acceleration stiffness is the companion of the gyroscopic matrix | Kst and Kdt tables | ring | `PropDisk`, `PropShaft` |
| C50 | The axial inertia of the 6-dof shaft element is its mass | axial part of M | integral; refutation for cones | `PropShaft` |
| C51 | Material equality is an equivalence | `Material.__eq__` | properties of the test; refutations | `PropMaterial` |
| C52 | Saving a material is crash safe | save as read, write, crash points | induction over the steps | `PropMaterial` |
| C53 | Concurrent saves | two processes saving | interleavings of steps | `PropMaterial` |
| C54 | Point masses | point masses | computation | `PropDisk` |
| C55 | Rolling bearings have positive stiffness | rolling bearing formulas | positivity of powers | `PropBearing` |
| C56 | Magnetic bearing closed loop | magnetic bearing | algebra of the closed loop | `PropBearing` |
| C57 | CylindricalBearing stores the linearised coefficients of the equilibrium of its weight | `CylindricalBearing.__init__` | derivatives of the film force | `PropFluid` |
| C58 | Saving and loading elements and rotors | `save`/`load` of elements and rotors on files | round trip per class; induction over the elements, with the failing element as crash point | `PropSave` |
| C59 | The synchronous mass matrix carries the gyroscopic effect of a synchronous whirl | `M(synchronous=True)`, entry by entry, and the state matrix made of it | structure of the gyroscopic tables per element, assembly by bilinear forms, derivatives of the motion | `PropSync` |
| C60 | Rotors may share elements | constructions as steps on a heap of elements | induction over histories | `PropShare` |
| C61 | Modes are returned in a documented order | `_index`, `_eigen` | sorting lemmas | `PropDynamics` |
| C62 | Time integration uses the rotor matrices at the instantaneous speed | `integrate_system` | induction on steps | `PropTime` |
| C63 | Unbalance force of the fault analyses | unbalance force of the faults | derivatives of the motion of the unbalance | `PropFault` |
| C64 | Reduced motion of the fault analyses | modal reduction | linear algebra with eigenvectors | `PropFault` |
| C65 | Bending moment of a deflected shape | bending moment | derivatives of the interpolation | `PropShape` |
| C66 | Modal quantities of an eigenvalue | `run_modal` formulas | complex algebra | `PropShape` |
| C67 | Analytical film pressures and forces solve Reynolds' equation | analytical pressures | derivatives and integrals | `PropFluid` |
| C68 | Short bearing coefficients are the linearisation of the film force | short bearing coefficients | derivatives of the force | `PropFluid` |
| C69 | Numerical film force and numerical bearing coefficients | numerical force and coefficients | linear quadrature; algebra | `PropFluid4` |
| C70 | Modal analyses with the iterative solver report modes, and the same ones whatever was run before | `_eigen` (iterative, dense and synchronous) with the hidden start vector as state, `run_modal` with its shapes | sorted permutations are unique; the nearest eigenvalues are unique when a circle separates them | `PropModal` |
| C71 | Critical speeds are critical | `run_critical_speed`, the root search as a tree of questions | inversion of the state monad; a search over a steady function is a pure search | `PropModal` |
| C72 | Rows of a Campbell diagram are analyses at their speeds | `run_campbell` | inversion of the loop over speeds; uniqueness of the columns | `PropModal` |
| C73 | Clustered frequencies surround every critical speed | `_clustering_points` | sorting; signs of real powers | `PropModal` |
| C74 | The undamped critical speed map | `run_ucs` (4 degrees of freedom per node) with the rotors it builds | assembled matrices as sums over elements; inversion of the loops; intersections of C31 | `PropUcs` |
| C75 | The level 1 stability analysis | `run_level1` | assembled matrices; inversion of the loop | `PropUcs` |
| C76 | Numbering, elements and matrices of co-axial rotors | `CoAxialRotor.__init__`: numbering in place on a store of elements, checks, assembly | induction over shafts and elements; inversion of the constructor; sum of contributions | `PropCoax` |
| C77 | Axial positions and centre of gravity of co-axial rotors | the placing loop of `CoAxialRotor.__init__` with its slices | loop invariants for the first and the second shaft; sums of moments | `PropCoax` |
| C78 | What == means for elements and rotors | `__eq__` of materials, shaft elements, disks, point masses, bearings (two versions of numpy) and rotors, with the class dispatch of Python (`MEq.v`) | inversion of the constructors: what a class keeps determines the rest of the object; counterexamples for the false readings | `PropEq` |
| C79 | Which rotors have stiffness and damping matrices | `sorted(set(elements) - set(ignore), key=elements.index)` in `Rotor.K` and `Rotor.C` with an arbitrary iteration order of the set | `index` finds an element at its own position when no earlier one is equal, so sorting undoes the order of the set; otherwise the comparison raises | `PropEq` |
| C80 | The pseudo-modal method and given matrices in integrate_system | `_pseudo_modal`, `integrate_system` with `num_modes` and with matrices given | the reduced run is lifted to a motion of the whole rotor; Cauchy's inequality in the basis; the generalised spectral theorem (proved here by minimising Rayleigh quotients) shows that the contract of `eigh` can be met | `PropPseudo` |
| C81 | The default time response is the exact motion under forces joined linearly between the samples | `time_response`, `run_time_response` and the steps of `lsim`: augmented matrix, exponential, loop | matrix exponential as a power series, derivative, existence and uniqueness of the motion, induction on the samples | `PropLsim` |
| C82 | Saved results are loaded as they were saved, where they are | `Results.save` and `load` on a file system, what toml writes and numpy reads for each kind of argument, constructors | case analysis on the values, induction on arguments and on histories of saves | `PropRes` |
| C83 | The element of a thermo-hydrodynamic bearing does not hold the coefficients it computed | `THDCylindrical.__init__` up to the positional call of `BearingElement.__init__`, with the coefficients of either method | computation of the bearing element from the columns; case analysis on the number of speeds | `PropThd` |
| C84 | The oil film of a flooded thermo-hydrodynamic bearing | the pads, the film of the three geometries, the linear system of a flooded pad and its solution, the force and the score; the viscosity field is an input | the matrix row of every cell is the balance of oil of the cell times a positive number; a maximum principle gives that the system is regular and has one solution; induction over the pads | `PropThdFilm` |
| C85 | What the perturbation method returns | `coefficients`, `_perturbation_method` and `sommerfeld` for an arbitrary film force | algebra over the reals; corollaries for affine forces | `PropThd` |
| C86 | The temperature of the oil that enters the pads | the mixing of oil between pads in both kinds of operation, with flows and temperatures as inputs | induction over the pads of the pass that writes the temperatures; convex combinations | `PropThd` |
| C87 | Converting a rotor to plain elements | `Rotor.to_ross_only` on rotor objects, with the bearing and seal constructors it calls | the constructor commutes with a map of the elements that keeps what it reads; the matrices are then compared element by element; induction over the assembly | `PropRossOnly` |
| C88 | A bearing computed from the fluid film holds the coefficients of the film | `BearingFluidFlow.__init__`: one `FluidFlow` object for every speed, the columns of coefficients, the bearing constructor | the loop by induction over the speeds; interpolation at the nodes as in C13; for short bearings success by C46 and C69 | `PropFluidBrg` |
| C89 | A bearing read from a table has the numbers of the table | `BearingElement.from_table` and `table_to_toml` on the sheet model of C32 | the lists read are those of C32; uniqueness of the table and of the columns; the constructor on equal arguments | `PropBrgTable` |
| C90 | Bearing coefficients are not extrapolated without a warning | `_check_frequency_array` and the analyses that call it | maxima and minima of lists; every coefficient of a constructed bearing is interpolated over its own table, so the matrices, and with them the results, agree; induction over bearings and speeds | `PropWarn` |
| C91 | What a summary lists, and what happens when it is asked for again | `Rotor.summary`, the two data frames it replaces, `pandas.merge` on tags, the tables of `SummaryResults.plot` | the frames after 2j and 2j+1 calls in closed form, by induction over the calls; positions from the pass of the constructor over the bearings | `PropSummary` |
| C92 | What the matrices saved to a .mat file determine | `Rotor.save_mat` (the dictionary it writes) and `Rotor.A` | the first-order form of C24, uniqueness from the nonsingular mass matrix, unit vectors for the entries | `PropSaveMat` |
| C93 | CamelCase names become underscore_case names | `utils.convert`: both substitutions as scanners over characters | induction over the words with the state of the scanner; the second pass over any mixture of plain and underscored boundaries | `PropConvert` |

## Trusted base

Coq's kernel (`coqchk` re-checks the compiled files), and that the model files say what the code does (by reading; each definition
cites its lines). No axiom is added. `Print Assumptions` lists, per theorem, some of these axioms of the standard library and no other:

* A1 `ClassicalDedekindReals.sig_forall_dec` (real numbers)
* A2 `ClassicalDedekindReals.sig_not_dec` (real numbers)
* A3 `Classical_Prop.classic` (through Coquelicot's analysis)
* A4 `FunctionalExtensionality.functional_extensionality_dep` (real numbers; equality of matrices as functions)

The theorems, grouped by what `Print Assumptions` lists for them:

**none (closed under the global context)** (34 theorems): C02_other_names_irrelevant, C12_key_unique, C12_meaning_unique, C12_table_meaning, C17_rolling_save_refuted, C17_saveable_classes, C26_mode_selection, C35_remove_default, C35_remove_dofs, C35_remove_rejected_iff, C37_shape_labels, C39_probe_accepted_iff, C39_probe_contents, C47_geometry_material_list_refuted, C47_material_random, C47_short_list, C54_point_mass6_init, C58_unsaveable, C76_in_place, C76_nodes_apart, C76_numbering, C76_tags, C82_rotor_file, C82_zero_dim, C84_pads, C88_no_speeds, C93_acronym, C93_distinct_refuted, C93_idempotent, C93_letters_refuted, C93_no_capitals, C93_only_underscores, C93_small_unchanged, C93_words.

**A1** (11 theorems): C09_disk_six_dof_lateral, C13_defaults, C47_bearing_init, C47_disk_colour_refuted, C47_disk_samples, C47_disk_samples_converse, C47_equal_lengths_refuted, C47_point_mass_samples, C54_point_mass_init, C66_list_length, C86_flooded_two.

**A1, A4** (196 theorems): C01_material_consistent, C01_material_constructor_iff, C02_available_names, C02_library_is_a_map, C08_disk_gyro, C08_rotor_gyroscopic_no_work, C08_shaft_gyro_skew, C09_six_dof_lateral, C11_disk_kinetic_energy, C12_call, C12_call_fails_only_on_dimension, C12_mz_refuted, C12_no_unit_name_unchanged, C12_plain_number_is_table_unit, C12_plain_unchanged, C12_quantity_converted, C12_same_quantity_same_value, C12_si_value, C13_lengths_checked, C13_long_table_close, C13_long_table_refuted, C13_scalar_is_constant, C13_short_table_exact, C13_unordered_refuted, C14_damping, C14_damping_6dof, C14_linked_action_reaction, C14_linked_energy, C14_mass, C14_mass_6dof, C14_stiffness, C14_stiffness_6dof, C15_axial_length_refuted, C15_no_frequency_checked, C15_short_tables_checked, C16_bearing_round_trip, C16_seal_round_trip_halves_scale, C16_seal_round_trip_refuted, C18_element_dofs, C18_numbering_bijective, C19_ignored_contribution, C19_matrices_exist, C19_order_irrelevant, C19_sum_of_elements, C19_symmetry, C22_accepted_is_sane, C22_duplicate_tags_rejected, C22_well_formed_accepted, C23_mass_and_centre_of_gravity, C23_node_positions, C24_first_order_form, C24_state_space, C28_energy_balance, C28_energy_decay, C28_solvable, C29_columns, C29_linear_systems, C29_second_run, C30_same_length_refuted, C30_time_stamps, C31_complete, C31_intersection_iff, C31_once_refuted, C31_overlap_refuted, C31_sound, C31_symmetric, C32_disks, C32_factors, C32_local, C32_materials, C32_model_returns, C32_no_data, C32_no_header, C32_note_refuted, C32_optional_refuted, C32_read, C32_returns, C32_rpm_refuted, C32_shaft_number_refuted, C32_shafts, C32_simple, C32_torque_refuted, C32_whole_refuted, C37_colours_distinct, C37_modal_labels, C37_order_irrelevant, C43_coefficients, C43_compliance_refuted, C46_conservation_refuted, C46_monotone, C46_no_drag_bounds, C46_ring_balance, C46_system, C47_bearing_mixed_refuted, C47_bearing_samples, C47_bearing_tables, C47_material_samples, C47_rotor_accepted, C47_rotor_init, C47_rotor_iteration, C47_rotor_not_random, C47_rotor_reuse_refuted, C47_rotor_sizes, C47_time_axis_refuted, C47_time_response, C48_disks_overwritten_refuted, C48_equilibrium, C48_no_bearing, C48_reaction_tags, C48_weights, C49_disk_accel_opposite_sign, C49_disk_accel_refuted, C51_equal_means_close, C51_material_eq_refl, C51_material_eq_symmetric_refuted, C51_name_not_compared, C51_transitive_refuted, C52_crash_safe_refuted, C52_save_states, C53_concurrent_saves_refuted, C53_serial_saves, C54_point_mass_energy, C58_failed_save, C59_critical_speed, C59_exists, C60_again, C60_construction, C60_default_tag_sticks, C60_earlier_rotors, C60_effects, C60_named_twice, C60_tagged_reuse, C62_acceleration, C62_system_matrices, C64_modes_independent, C74_rotor, C75_raises, C75_rotor, C76_attached, C76_blocks, C76_elements, C76_matrices, C76_no_bearing_refuted, C76_one_shaft, C76_repeated_refuted, C76_six_refuted, C76_tag_refuted, C77_centre, C77_centre_near, C77_centre_refuted, C77_length_refuted, C77_positions, C77_single_element_refuted, C77_start_refuted, C77_three_shafts_refuted, C77_unlinked, C78_bearings_raise, C78_cylindrical, C78_disk_symmetry_refuted, C78_disk_transitivity_refuted, C78_disks, C78_kinds, C78_point_masses, C78_reflexive, C78_rotors, C78_rotors_raise, C78_tables_raise, C80_given, C86_flooded, C86_flooded_upstream_refuted, C86_starved, C86_supply_shared, C89_builds, C89_from_table, C89_long_matrices, C89_matrices, C89_toml, C89_toml_drops_link, C90_no_tables, C90_one_speed_refuted, C90_rotor, C91_again_refuted, C91_bearings, C91_calls_new, C91_calls_old, C91_first, C91_static_fails, C91_without, C91_without_disks, C92_determines, C92_holds, C92_rebuild, C92_saved, C92_speed_unused, C92_spinning_refuted, C92_state_matrix.

**A1, A2, A4** (192 theorems): C03_constructor_succeeds, C06_mass_spd, C07_stiffness_kernel, C07_stiffness_psd, C07_stiffness_symmetric_iff_no_torque, C08_shaft_gyro_off, C10_six_dof_gyro_cylinder, C10_six_dof_gyro_iff, C10_six_dof_gyro_refuted, C11_disk_mass_pd, C20_mass_positive_definite, C21_free_rotor_kernel, C21_supported_rotor_definite, C22_bearing_and_seal_at_end_refuted, C22_gap_refuted, C22_link_refuted, C22_mixed_point_mass_refuted, C22_point_mass_on_shaft_refuted, C24_state_matrix_exists, C25_passive_stable, C26_superposition, C27_length_mismatch, C27_order_irrelevant, C27_shaft_nodes_accepted, C27_superposition, C27_support_node_refuted, C27_unbalance_force, C28_constant_acceleration_refuted, C28_first_instant_unused, C28_linear_solution, C28_small_forces_ignored, C28_step_equations, C33_defaults_refuted, C33_from_section, C33_from_section_accepts, C33_from_section_rejects, C33_link_refuted, C33_mesh_independent, C33_section, C33_section_errors, C33_section_mass, C34_convergence, C34_layers_refuted, C34_loads_dropped_refuted, C34_refine_accepts, C34_supports_refuted, C34_tapered_refuted, C34_zero_frequency_refuted, C35_conversion, C35_conversion_gyro_refuted, C37_kind_scaling_refuted, C37_mode_kind, C39_linked_shaft_node_refuted, C39_time_probe, C42_rigid_equilibrium, C42_rigid_history_refuted, C43_axial_refuted, C43_depth_limit, C43_mayes_bounds, C43_softening, C43_stiffening_refuted, C43_tilt_refuted, C43_translation_no_force, C43_zero_depth_no_breathing, C44_rest, C45_film_thickness, C45_pressure, C45_rotor_surface, C47_assigned_diameter_refuted, C47_disk_geometry, C47_freq_response, C47_plot_refuted, C47_shaft_right_default, C47_shaft_samples, C47_shared_list_refuted, C47_unbalance_fixed, C47_unbalance_modes_refuted, C47_unbalance_one_node, C47_unbalance_rows_per_node_refuted, C47_unbalance_rows_per_sample_refuted, C47_unbalance_short_refuted, C48_cone_shear_refuted, C48_diagrams, C48_diagrams_cones, C48_reactions, C48_single_element_refuted, C48_solvable, C49_accel_stiffness_opposite_sign, C49_accel_stiffness_refuted, C50_axial_mass_cylinder, C50_axial_mass_refuted, C56_closed_loop_stiffness, C56_stable_gain, C56_validation_refuted, C58_cylindrical_not_loadable, C58_element_round_trip, C58_empty_tag_refuted, C58_failed_save_refuted, C58_load_last_saved_refuted, C58_load_takes_first, C58_rotor_round_trip, C58_tag_lost_refuted, C60_earlier_rotors_refuted, C60_reuse_refuted, C61_conjugate_pairs, C61_eigen_order, C62_integrate_system, C62_integration_succeeds, C63_inertia_force, C63_same_sense_refuted, C64_crack_rest, C64_exact_when_12, C64_projected_motion, C64_stage_time_refuted, C66_modal_relations, C76_loops_refuted, C76_same_tag_refuted, C77_mesh_refuted, C78_bearings, C78_bearings_end, C78_class_refuted, C78_hash, C78_hash_refuted, C78_loaded, C78_loaded_refuted, C78_rotor_reflexivity_refuted, C78_shaft_matrices, C78_shafts, C78_stiffness_refuted, C79_matrices, C79_raises, C79_two_ball_bearings_refuted, C80_all_modes, C80_basis, C80_direct, C80_given_refused, C80_more_modes, C80_motion, C80_succeeds, C80_support_raises, C81_keywords_ignored, C81_newmark, C81_only_first_step, C81_refused, C81_succeeds, C82_campbell, C82_complex_refuted, C82_loaded, C82_modal_refuted, C82_other_sections, C82_rotor_file_overwrites_refuted, C82_round_trip, C82_second_class, C82_shared_rotor_refuted, C82_spoiled, C82_ucs_refuted, C83_default_oil_flow_refuted, C83_element, C83_matches_iff, C83_no_speeds_refuted, C83_number_as_speed_refuted, C83_several_speeds_refuted, C83_units_refuted, C84_centred, C84_cold_refuted, C84_equilibrium, C84_film, C84_flooded, C84_force_value, C84_forces, C84_groove_number_refuted, C84_no_wedge, C84_pads_refuted, C84_symmetric, C84_three_lobes_refuted, C85_affine, C85_differences, C85_first_number, C85_kyy_refuted, C85_load_along_x_refuted, C85_straight_refuted, C87_always_refuted, C87_bearing, C87_mass_gone, C87_mass_kept_refuted, C87_massless_same, C87_rotor, C87_six_dof_fails, C90_empty_range, C90_forced, C90_freq_response, C90_warns_iff.

**A1, A2, A3, A4** (143 theorems): C03_shaft_geometry, C04_interpolation_ends, C04_mass_is_kinetic_energy, C05_stiffness_is_strain_energy, C08_shaft_gyro_is_polar_inertia, C11_disk_from_geometry, C20_total_mass, C26_forced_response, C26_frequency_refuted, C26_transfer_matrix, C27_unbalance_response, C29_exact_for_polynomials, C32_rpm_factor, C36_axes, C36_axis_vectors, C36_backward_label_refuted, C36_circle, C36_kappa, C36_major_point, C36_scaling, C36_whirl_label, C37_labels_agree, C37_labels_agree_refuted, C38_element_cubics, C38_normalize_fails_iff, C38_normalize_supports_refuted, C38_normalized, C38_rigid_straight, C38_through_nodes, C39_axis_at_angle, C39_axis_at_angle_refuted, C39_forced_amplitude_bound, C39_forced_amplitude_refuted, C39_forced_circular, C39_forced_phase_refuted, C39_forced_support_refuted, C40_contact, C40_defined_iff, C40_elastic_and_damping, C40_no_contact, C40_push_only_refuted, C41_magnitude, C41_opposes_sliding_refuted, C41_tangential_iff, C41_torque_refuted, C42_aligned_no_force, C42_angular_periodic, C42_combined_is_sum, C42_combined_torque_refuted, C42_flex_equilibrium, C42_opposite_offset_same_force, C42_parallel_arms, C42_parallel_periodic_refuted, C42_torques, C43_gasch_refuted, C43_open_definite_refuted, C44_backward_refuted, C44_both_given_refuted, C44_equilibrium, C44_force_refuted, C44_load, C44_load_monotone, C44_object, C44_roots_exist, C44_round_trips, C45_elliptical, C45_move, C45_move_back, C45_move_refuted, C45_rotor_inside, C45_rotor_outside_refuted, C45_wear, C45_wear_refuted, C46_cylindrical, C46_flow_along, C46_flow_around, C46_flow_sign, C46_linear, C46_pressure, C55_ball_bearing, C55_ball_stiffness_positive_iff, C55_positive_stiffness_refuted, C55_roller_stiffness_positive_iff, C57_attitude_refuted, C57_backward_refuted, C57_coefficients, C57_zero_speed_refuted, C59_backward_refuted, C59_backward_whirl, C59_forward_whirl, C59_six_dof_refuted, C63_constant_speed, C63_kinematics, C64_response, C65_interior_moment_refuted, C65_moment_sum, C67_long_force, C67_long_pressure, C67_short_force, C67_short_pressure, C68_damping, C68_dissipates, C68_stiffness, C69_best_fit, C69_force, C69_succeeds, C70_history_free, C70_modes, C70_odd_raises, C70_steady, C71_critical, C71_one_mode, C71_range, C72_entries, C72_rows, C72_rows_independent, C72_wrong_count, C73_clustering, C73_damping_floor, C74_default_range, C74_map, C74_odd_modes_refuted, C74_points, C74_support_refuted, C75_default_refuted, C75_entries, C80_eigenvectors_exist, C80_modes_exist, C81_energy, C81_equilibrium, C81_exact, C81_motion_exists, C81_superposition, C88_element, C88_exit_refuted, C88_first_failure, C88_from_eccentricity, C88_from_load, C88_long, C88_one_speed, C88_short, C88_unordered_refuted, C90_campbell.
