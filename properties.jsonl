{"id": "C01", "title": "scan hands every link exactly its own coordinates", "statement": "For every system and every call of System.scan with a 'q' or 'd' argument, the slices handed to the callback are contiguous, in link order, each as wide as the joint type prescribes, and concatenating them gives back the whole argument: no coordinate is skipped, duplicated or given to another link. The index map handed to the callback points to exactly that slice.", "quantifier": "all trees, all joint types (built-in and registered), all argument vectors", "why_tests_cant": "Tests fix a handful of systems; an off-by-one in the running offset only shows for particular joint-type sequences.", "anchors": ["src/ring/base.py: System.scan, _scan_sys, System.idx_map, Q_WIDTHS, QD_WIDTHS"]}
{"id": "C02", "title": "scan visits in tree order and reports in link order", "statement": "System.scan calls the callback once per link, in increasing link order (decreasing if reverse=True), and the outputs it returns are stacked in increasing link order in both directions. A wrongly sized 'q', 'd' or 'l' argument is rejected before any callback runs.", "quantifier": "all systems, both directions, all callbacks including stateful ones", "why_tests_cant": "The order matters only for stateful callbacks on particular trees; a finite set of systems cannot exclude an ordering bug.", "anchors": ["src/ring/base.py: _scan_sys"]}
{"id": "C03", "title": "Deleting a link removes exactly that link and its descendants", "statement": "System.delete_system(names) removes every named link and every link whose ancestor chain contains a named link, and nothing else; surviving links keep their relative order.", "quantifier": "all topologically ordered systems, all sets of names", "why_tests_cant": "Depends on the shape of the whole tree; the number of trees and of sets is infinite.", "anchors": ["src/ring/sys_composer/delete_sys.py: delete_subsystem, _find_subsystem_indices, _idx_map_and_keepers"]}
{"id": "C04", "title": "Deleting leaves what remains unchanged", "statement": "After System.delete_system every surviving link keeps its name, joint type, link data, parent (by name), its damping/armature/stiffness/zeropoint entries and its geometries; geometries attached to the world also remain.", "quantifier": "all systems, all sets of names", "why_tests_cant": "Every field has its own re-indexing; tests compare whole systems only for a few examples.", "anchors": ["src/ring/sys_composer/delete_sys.py: delete_subsystem, _reindex_parent_array"]}
{"id": "C05", "title": "Injecting appends a re-indexed copy below the chosen link", "statement": "System.inject_system(sub, at) yields the links of the host, unchanged and in order, followed by the links of sub in order; roots of sub hang below 'at' (or the world), other links of sub keep their parent; all per-link and per-coordinate data are those of the two inputs; a name clash is rejected.", "quantifier": "all pairs of systems, all attachment points", "why_tests_cant": "Re-indexing errors appear only for sizes and attachment points not in the test-suite.", "anchors": ["src/ring/sys_composer/inject_sys.py: inject_system"]}
{"id": "C06", "title": "Delete undoes inject", "statement": "Injecting a system and then deleting the injected roots returns the host system.", "quantifier": "all pairs of systems with disjoint names, all attachment points", "why_tests_cant": "A round trip over an unbounded family of systems.", "anchors": ["src/ring/sys_composer/inject_sys.py: inject_system", "src/ring/sys_composer/delete_sys.py: delete_subsystem"]}
{"id": "C07", "title": "System edits keep systems well formed", "statement": "Starting from a well-formed system (unique names, every parent before its child, all per-link and per-coordinate arrays sized to match), any sequence of successful delete, inject, morph, freeze, unfreeze, change_joint_type, rename and prefix/suffix operations ends in a well-formed system.", "quantifier": "all finite histories of edits", "why_tests_cant": "Histories are unbounded; only an invariant covers them.", "anchors": ["src/ring/base.py: System.parse, freeze, unfreeze, change_joint_type, change_link_name, add_prefix_suffix", "src/ring/sys_composer/*.py"]}
{"id": "C08", "title": "Removing IMUs", "statement": "System.make_sys_noimu returns the system without any link whose name marks it as an IMU (and without their descendants), together with a dictionary mapping each IMU to the link it was attached to; it works for every system.", "quantifier": "all systems", "why_tests_cant": "IMU placement patterns (nested, on the world, several per segment) are unbounded.", "anchors": ["src/ring/sys_composer/delete_sys.py: make_sys_noimu", "src/ring/base.py: findall_imus"]}
{"id": "C09", "title": "Re-anchoring computes the re-rooted tree", "statement": "morph_system(new_anchor) makes the anchor a root, reverses exactly the edges on the path from the anchor to its old root, and keeps every other parent relation.", "quantifier": "all trees, all anchors", "why_tests_cant": "Infinitely many trees and anchors.", "anchors": ["src/ring/sys_composer/morph_sys.py: _autodetermine_new_parents, morph_system"]}
{"id": "C10", "title": "Morphing permutes links and rejects invalid trees", "statement": "morph_system with explicit new parents yields a permutation of the old links in which each link's parent is the requested one and parents precede children; requests with cycles or unknown parents, or that connect links not connected before, are rejected.", "quantifier": "all systems, all lists of new parents", "why_tests_cant": "The space of parent lists is exponential and mostly invalid.", "anchors": ["src/ring/sys_composer/morph_sys.py: identify_system, morph_system, _new_to_old_indices, _old_to_new_indices"]}
{"id": "C11", "title": "Morphing does not move bodies in the default configuration", "statement": "For a system with one connection to the world, morphing re-expresses link frames so that, with all joints at their zero configuration, the relative pose of any two geometries is unchanged.", "quantifier": "all trees, all transforms, all anchors", "why_tests_cant": "Continuous data and unbounded tree depth.", "anchors": ["src/ring/sys_composer/morph_sys.py: _new_transform1, _permute_modify_geoms"]}
{"id": "C12", "title": "Morphing to the same parents changes nothing", "statement": "morph_system with the current parent names returns the same system.", "quantifier": "all well-formed systems", "why_tests_cant": "All systems.", "anchors": ["src/ring/sys_composer/morph_sys.py: morph_system"]}
{"id": "C13", "title": "Changing a joint type is local", "statement": "change_joint_type/freeze/unfreeze change the joint type of exactly the named link, resize only that link's coordinate entries (new entries are zero, zeropoint the identity quaternion where appropriate), and leave the entries of every other link untouched; naming an unknown link is an error.", "quantifier": "all systems, names and types", "why_tests_cant": "Re-slicing of four concatenated arrays for arbitrary sequences of widths.", "anchors": ["src/ring/base.py: freeze, unfreeze, change_joint_type, _update_sys_if_replace_joint_type"]}
{"id": "C14", "title": "Replacing free joints by center-of-rotation joints", "statement": "Replacing free with cor joints succeeds exactly on systems whose world connections are the free joints, changes exactly the joints of type free, keeps their existing entries as the leading ones and appends a copy of the translational ones; all other links are untouched.", "quantifier": "all systems", "why_tests_cant": "Arbitrary numbers and positions of free joints.", "anchors": ["src/ring/base.py: _replace_free_with_cor"]}
{"id": "C15", "title": "Joint registry consistency", "statement": "After any sequence of register_new_joint_type calls, successful or failing, every registered joint type has a model, a position width and a velocity width that agree, and a failing call leaves the registry as it was.", "quantifier": "all call sequences", "why_tests_cant": "Histories with failing calls are unbounded.", "anchors": ["src/ring/algorithms/jcalc.py: register_new_joint_type, get_joint_model", "src/ring/base.py: update_n_joint_params"]}
{"id": "C16", "title": "XML round trip", "statement": "Saving a system to XML and loading it again gives back the same system up to link re-ordering into depth-first order.", "quantifier": "all systems that can be saved", "why_tests_cant": "Attribute presence/defaults combine exponentially.", "anchors": ["src/ring/io/xml/to_xml.py: save_sys_to_str", "src/ring/io/xml/from_xml.py: load_sys_from_str", "src/ring/io/xml/abstract.py"]}
{"id": "C17", "title": "Quaternion algebra", "statement": "quat_mul is associative with unit (1,0,0,0) and multiplies norms; for unit quaternions quat_inv is the two-sided inverse; rotate is linear, preserves length, scalar and cross product, composes like quat_mul and agrees with quat_to_3x3.", "quantifier": "all quaternions and vectors over the reals", "why_tests_cant": "Universally quantified real identities; tests sample.", "anchors": ["src/ring/maths.py: quat_mul, quat_inv, rotate, quat_to_3x3"]}
{"id": "C18", "title": "Transforms form a group", "statement": "transform_mul is associative, Transform.zero is neutral, transform_inv is the inverse for unit rotations, and motion transforms compose accordingly.", "quantifier": "all transforms", "why_tests_cant": "Real identities.", "anchors": ["src/ring/algebra.py: transform_mul, transform_inv, transform_motion, transform_force", "src/ring/base.py: Transform"]}
{"id": "C19", "title": "Power and kinetic energy do not depend on the frame", "statement": "Transforming a motion and a force by the same transform leaves their scalar product unchanged; transforming an inertia is compatible with applying it to a transformed motion; as_matrix representations agree with the structured operations.", "quantifier": "all transforms with unit rotation, motions, forces and inertias", "why_tests_cant": "Real identities.", "anchors": ["src/ring/algebra.py: motion_dot, transform_motion, transform_force, transform_inertia, inertia_mul_motion", "src/ring/base.py: as_matrix"]}
{"id": "C20", "title": "Link inertia", "statement": "The inertia parse computes for a link is the sum of its geometries' inertias, is symmetric and positive semidefinite for non-negative masses and dimensions, and its mass is the sum of masses.", "quantifier": "all lists of geometries", "why_tests_cant": "Sum of unboundedly many geometries with arbitrary poses.", "anchors": ["src/ring/base.py: Inertia.create, _inertia_from_geometries, _parse_system_calculate_inertia", "src/ring/spatial.py: mcI"]}
{"id": "C21", "title": "wrap_to_pi", "statement": "wrap_to_pi(phi) lies in [-pi, pi), differs from phi by a multiple of 2*pi, is the identity on [-pi, pi) and is idempotent.", "quantifier": "all real angles", "why_tests_cant": "Real-valued domain.", "anchors": ["src/ring/maths.py: wrap_to_pi"]}
{"id": "C22", "title": "Axis-angle round trip", "statement": "quat_rot_axis and quat_to_rot_axis are inverse up to the sign of the quaternion, exactly unless the vector part is within the library's zero tolerance of 1e-8, and within 1e-8 always; quat_rot_axis yields unit quaternions that rotate by minus the angle about the axis; quat_angle recovers the wrapped angle (within 5e-8); angle_error is a symmetric, sign-blind distance in [0, pi].", "quantifier": "all unit quaternions, axes and angles", "why_tests_cant": "Real-valued domain with singularities at 0 and pi.", "anchors": ["src/ring/maths.py: quat_rot_axis, quat_to_rot_axis, quat_angle"]}
{"id": "C23", "title": "Primary/residual rotation split", "statement": "quat_project(q,k) returns an angle and a residual such that residual times rotation about k by that angle is q, and the residual has no component along k, hence the smallest rotation angle among all such splits.", "quantifier": "all unit quaternions and axes", "why_tests_cant": "Optimality over a continuum.", "anchors": ["src/ring/maths.py: quat_project, quat_inclinationAngle, quat_headingAngle"]}
{"id": "C24", "title": "Heading transfer", "statement": "quat_transfer_heading(q_from,q_to) has the inclination of q_to and the heading of q_from.", "quantifier": "all unit quaternions", "why_tests_cant": "Real-valued domain.", "anchors": ["src/ring/maths.py: quat_transfer_heading", "src/ring/ml/base.py: GroundTruthHeading_FilterWrapper"]}
{"id": "C25", "title": "Quaternion low-pass filter", "statement": "quat_lowpassfilter returns a trajectory of the same length made of unit quaternions, starts at the first input, and leaves constant trajectories unchanged.", "quantifier": "all unit quaternion trajectories, all cutoffs, filtfilt or not", "why_tests_cant": "Unbounded length.", "anchors": ["src/ring/maths.py: quat_lowpassfilter"]}
{"id": "C26", "title": "Euler angles", "statement": "euler_to_quat builds unit quaternions equal to the composition of the elementary rotations; quat_to_euler inverts it away from gimbal lock; quat_euler composes intrinsic rotations.", "quantifier": "all angles", "why_tests_cant": "Trigonometric identities over the reals.", "anchors": ["src/ring/maths.py: euler_to_quat, quat_to_euler, quat_euler"]}
{"id": "C27", "title": "Forward kinematics", "statement": "forward_kinematics gives each link the composition of the joint and link transforms along its chain to the world; the result for a link depends only on coordinates of its ancestors and itself.", "quantifier": "all trees, all coordinates", "why_tests_cant": "Unbounded depth; locality quantifies over all perturbations.", "anchors": ["src/ring/algorithms/kinematics.py: forward_kinematics_transforms", "src/ring/algorithms/jcalc.py: jcalc_transform"]}
{"id": "C28", "title": "Inverse kinematics inverts forward kinematics", "statement": "For every system made of built-in joint types with inverse kinematics, inverse_kinematics applied to the poses of forward_kinematics(q) returns coordinates with the same poses, and q itself where coordinates are unique.", "quantifier": "all systems, all q with unit quaternions", "why_tests_cant": "All trees and all real coordinates.", "anchors": ["src/ring/algorithms/kinematics.py: inverse_kinematics", "src/ring/algorithms/jcalc.py: _inv_kin_*"]}
{"id": "C29", "title": "Default states and unconstrained coordinates", "statement": "State.create without q gives coordinates whose quaternion parts are identities and all else zero; coordinate_vector_to_q maps any vector of the right size to a valid coordinate vector (unit quaternions, angles in [-pi,pi)) and does not change valid ones.", "quantifier": "all systems, all vectors", "why_tests_cant": "All joint sequences.", "anchors": ["src/ring/base.py: State.create, coordinate_vector_to_q"]}
{"id": "C30", "title": "Mass matrix", "statement": "compute_mass_matrix returns a symmetric matrix, its quadratic form is twice the sum of the links' kinetic energies plus the armature term, hence positive semidefinite for physical inertias.", "quantifier": "all trees, configurations and velocities", "why_tests_cant": "All trees and real data.", "anchors": ["src/ring/algorithms/dynamics.py: compute_mass_matrix, kinetic_energy"]}
{"id": "C31", "title": "Inverse dynamics is consistent with the mass matrix", "statement": "inverse_dynamics is affine in the acceleration with the mass matrix (without armature) as linear part, and does not depend on gravity beyond the gravity load; at rest without gravity it is zero.", "quantifier": "all trees and data", "why_tests_cant": "All trees.", "anchors": ["src/ring/algorithms/dynamics.py: inverse_dynamics, compute_mass_matrix"]}
{"id": "C32", "title": "Simulation step", "statement": "step keeps quaternion coordinates normalised, returns state vectors of the same size, equals n sub-steps with dt/n, and rejects wrongly sized inputs or unknown integrators.", "quantifier": "all systems, states, torques, numbers of sub-steps", "why_tests_cant": "Unbounded runs.", "anchors": ["src/ring/algorithms/dynamics.py: step, _semi_implicit_euler_integration, _strapdown_integration"]}
{"id": "C33", "title": "Springs rest at their zero point", "statement": "The spring force vanishes at the zero point, and for quaternion joints points along the rotation that brings the joint to its zero point in unit time.", "quantifier": "all joint types, all zero points", "why_tests_cant": "Real-valued domain.", "anchors": ["src/ring/algorithms/dynamics.py: _spring_force, _quaternion_spring_force"]}
{"id": "C34", "title": "Accelerometer", "statement": "The simulated accelerometer of a body at rest or in uniform motion reads gravity in body coordinates, is exact for constant acceleration, and returns as many samples as poses.", "quantifier": "all trajectories long enough, all n", "why_tests_cant": "Unbounded trajectories.", "anchors": ["src/ring/algorithms/sensors.py: accelerometer"]}
{"id": "C35", "title": "Gyroscope", "statement": "The simulated gyroscope reads zero for constant orientation, reads the exact rate for constant-rate rotations slower than half a turn per sample, does not change under a constant rotation of the world, and returns as many samples as poses.", "quantifier": "all trajectories", "why_tests_cant": "Unbounded trajectories.", "anchors": ["src/ring/algorithms/sensors.py: gyroscope"]}
{"id": "C36", "title": "Smoothing and delay make a causal sensor", "statement": "The moving average returns as many samples as given, fixes constants, stays within the range of its window; combined with the automatic delay no output depends on a later input.", "quantifier": "all signals, all odd windows", "why_tests_cant": "Non-interference over all signals.", "anchors": ["src/ring/algorithms/sensors.py: _moving_average, imu"]}
{"id": "C37", "title": "Random motion interpolation", "statement": "cosInterpolate passes through the knots, stays between neighbouring knot values, is constant after the last knot; randomised interpolation keeps these bounds for every drawn monotone reparametrisation.", "quantifier": "all increasing knot sequences, all query points, all random draws", "why_tests_cant": "Continuous domain and random draws.", "anchors": ["src/ring/algorithms/_random.py: cosInterpolate, interpolate, _biject_alpha, _generate_cdf"]}
{"id": "C38", "title": "Range of motion is respected", "statement": "Random angles keep within [ANG_0 - rom_halfsize, ANG_0 + rom_halfsize] and random positions within [pos_min,pos_max], whatever the random draws.", "quantifier": "all configurations and random draws", "why_tests_cant": "Violations need rare draws.", "anchors": ["src/ring/algorithms/_random.py: random_angle_over_time, random_position_over_time, _resolve_range_of_motion"]}
{"id": "C39", "title": "Batch distribution", "statement": "distribute_batchsize splits a batch into two factors whose product is the batch size or fails; merging after expanding is the identity.", "quantifier": "all batch sizes and device counts", "why_tests_cant": "All integers.", "anchors": ["src/ring/utils/batchsize.py: distribute_batchsize, merge_batchsize, expand_batchsize"]}
{"id": "C40", "title": "Generators deliver exactly the requested number of sequences", "statement": "RCMG.to_list(sizes) returns exactly as many sequences as requested per system, for every accepted size; primes and gcd compute the factorisation and the greatest common divisor.", "quantifier": "all sizes, numbers of systems and configurations, thresholds", "why_tests_cant": "All integers.", "anchors": ["src/ring/algorithms/generator/base.py: _compute_repeats, _generators_ncalls, _number_of_executions_required", "src/ring/utils/utils.py: primes, gcd"]}
{"id": "C41", "title": "Epochs of the eager generator", "statement": "A generator built from a list serves, per epoch, disjoint batches covering floor(N/batchsize)*batchsize distinct elements, reshuffles only between epochs, never alters the caller's list.", "quantifier": "all lists, batch sizes, shuffles and call sequences", "why_tests_cant": "Call histories.", "anchors": ["src/ring/algorithms/generator/base.py: eager_gen_from_list"]}
{"id": "C42", "title": "NaN replacement", "statement": "replace_elements_w_nans returns a list of equal length with no NaN element, keeps every non-NaN element in place, uses only allowed replacements, and terminates.", "quantifier": "all lists, random choices, allowed sets", "why_tests_cant": "Random choices and termination.", "anchors": ["src/ring/utils/utils.py: replace_elements_w_nans"]}
{"id": "C43", "title": "Dictionary union", "statement": "dict_union contains exactly the entries of both arguments, never silently drops or overwrites one unless overwrite=True, and does not alter its arguments.", "quantifier": "all pairs of nested dictionaries", "why_tests_cant": "All dictionaries.", "anchors": ["src/ring/utils/utils.py: dict_union"]}
{"id": "C44", "title": "Hierarchical data keep their identity when saved", "statement": "Saving a nested structure of lists, tuples and dictionaries to an HDF5 file and loading it gives the same structure in the same order; loading selected indices from several files returns the elements at these positions of the concatenation.", "quantifier": "all nested structures, all index lists", "why_tests_cant": "All structures.", "anchors": ["src/ring/utils/hdf5.py: save, load, load_from_multiple"]}
{"id": "C45", "title": "Split and recombination of recorded motion", "statement": "zip_xs after unzip_xs is the identity; match_xs picks each link's own trajectory by name; delete_to_world_pos_rot sets root poses to identity without changing relative poses.", "quantifier": "all trees and trajectories", "why_tests_cant": "Trees of unbounded depth.", "anchors": ["src/ring/sim2real/sim2real.py: unzip_xs, zip_xs, match_xs, delete_to_world_pos_rot"]}
{"id": "C46", "title": "PD control matches links by name", "statement": "The PD controller actuates exactly the links of the reference system, each with its own reference and gains, leaves others at zero torque, gives zero torque on the reference, and never exceeds the clip limit.", "quantifier": "all pairs of systems", "why_tests_cant": "All pairs of trees.", "anchors": ["src/ring/algorithms/generator/pd_control.py"]}
{"id": "C47", "title": "Simulated IMU attachments can be hidden again", "statement": "Injecting non-rigid IMU attachments and hiding them again restores the original link names, types and order, and reports each IMU with its own simulated pose.", "quantifier": "all systems with IMUs", "why_tests_cant": "All trees.", "anchors": ["src/ring/algorithms/generator/motion_artifacts.py: inject_subsystems, HideInjectedBodies"]}
{"id": "C48", "title": "Training protocol", "statement": "Each batch is evaluated before it is used for training and used for training exactly once; the loop runs at most the requested number of episodes and stops after a kill request; callbacks see every episode in order and are closed in the end.", "quantifier": "all generators, callbacks and kill times", "why_tests_cant": "Histories and schedules.", "anchors": ["src/ring/ml/training_loop.py: TrainingLoop"]}
{"id": "C49", "title": "Best-parameters queue", "statement": "The parameter queue always holds the best entries seen (at most its capacity), in order, for every history of insertions.", "quantifier": "all insertion histories", "why_tests_cant": "Histories.", "anchors": ["src/ring/ml/callbacks.py: Queue, SaveParamsTrainingLoopCallback"]}
{"id": "C50", "title": "Skipping large updates", "statement": "An update is applied iff its norm is below the limit or the warm-up/consecutive rule allows it; a skipped update changes neither parameters nor inner optimiser state.", "quantifier": "all update histories", "why_tests_cant": "Histories.", "anchors": ["src/ring/ml/optimizer.py: skip_large_update"]}
{"id": "C51", "title": "RING respects the graph", "statement": "In one network step a link's output depends only on itself, its parent and its children; renumbering links permutes the outputs in the same way; batch elements do not interact.", "quantifier": "all trees, parameters and inputs", "why_tests_cant": "Non-interference over all inputs and networks.", "anchors": ["src/ring/ml/ringnet.py: _make_rnno_cell_apply_fn, make_ring"]}
{"id": "C52", "title": "Filter wrappers", "statement": "Batched and unbatched application agree; wrappers pass parameters, state, y and lam through; NoGraph restores the link axis; AddTs and ScaleX change exactly the documented features.", "quantifier": "all filters and inputs", "why_tests_cant": "Arbitrary wrapped filters.", "anchors": ["src/ring/ml/base.py"]}
{"id": "C53", "title": "Knee joint range limits", "statement": "The clamp functions used for the tibiofemoral joint coordinates always return values within [min,max].", "quantifier": "all inputs and limits", "why_tests_cant": "Real domain.", "anchors": ["src/ring/algorithms/custom_joints/suntay.py: restrict"]}
{"id": "C54", "title": "All anchor combinations", "statement": "randomize_anchors returns one system per combination of anchors, one anchor per subsystem, each containing all links of the input.", "quantifier": "all systems and anchor lists", "why_tests_cant": "Combinatorial.", "anchors": ["src/ring/utils/randomize_sys.py: randomize_anchors"]}
{"id": "C55", "title": "Subsystem lookup", "statement": "findall_bodies_subsystem returns exactly the proper descendants of a link, without duplicates; children returns the direct ones.", "quantifier": "all trees", "why_tests_cant": "All trees.", "anchors": ["src/ring/base.py: findall_bodies_subsystem, children", "src/ring/utils/randomize_sys.py: _find_children"]}
{"id": "C56", "title": "Safe inverse functions", "statement": "safe_arccos/safe_arcsin/safe_norm/safe_normalize agree with the plain functions inside the domain and are total; under differentiation they return the same primal value.", "quantifier": "all reals", "why_tests_cant": "Real domain.", "anchors": ["src/ring/maths.py: safe_arccos, safe_arcsin, safe_norm, safe_normalize"]}
{"id": "C57", "title": "Joint velocities are derivatives of joint poses", "statement": "For every joint type the motion subspace used by the dynamics is the derivative of the joint transform with respect to its coordinates.", "quantifier": "all joint types and coordinates", "why_tests_cant": "Derivative at every configuration.", "anchors": ["src/ring/algorithms/jcalc.py: _joint_types, jcalc_motion, jcalc_transform"]}
{"id": "C58", "title": "Training targets", "statement": "rel_pose gives for each non-root link the rotation from child to parent, so that chaining it with the parent orientation reproduces the child's; root_incl has no heading component and agrees in inclination with the root orientation.", "quantifier": "all trees and orientations", "why_tests_cant": "All trees, reals.", "anchors": ["src/ring/algorithms/sensors.py: rel_pose, root_incl, root_full"]}
{"id": "C59", "title": "Physical IMU attachment simulation", "statement": "The quasi-physical simulation keeps a resting sensor at rest, keeps the number of samples, is causal and independent of the world frame, and moves the sensor as a unit mass tied to the body by a spring and a damper.", "quantifier": "all trajectories", "why_tests_cant": "Unbounded trajectories.", "anchors": ["src/ring/algorithms/sensors.py: _quasi_physical_simulation"]}
{"id": "C60", "title": "Motion configuration overwrites", "statement": "Joint-type specific overwrites affect only the named joint types, reject unknown fields and unknown joint types, and a failing call has no effect; to_nomotion yields a configuration without motion.", "quantifier": "all configurations and call histories", "why_tests_cant": "Histories.", "anchors": ["src/ring/algorithms/jcalc.py: MotionConfig.overwrite_for_joint_type, overwrite_for_subsystem, join_motionconfigs"]}
{"id": "C61", "title": "Forward dynamics inverts inverse dynamics", "statement": "The accelerations computed by forward dynamics with the exact solver, fed to inverse dynamics, give back the applied torques plus springs, implicit damping, armature and the documented 1e-6 regularisation; the matrix given to the solver is symmetric positive definite; a system at rest with its springs at their zero points, without gravity and torques, does not move.", "quantifier": "all systems, states and torques", "why_tests_cant": "All trees and real-valued states.", "anchors": ["src/ring/algorithms/dynamics.py: forward_dynamics, inverse_dynamics, compute_mass_matrix, step"]}
{"id": "C62", "title": "IMU simulation as a whole", "statement": "With sensible options the simulated IMU always returns, for each of its sensors, exactly one reading per pose; no reading depends on the choice of the world frame; the position filter keeps the number of samples, keeps constant signals and commutes with rigid motions of the world.", "quantifier": "all trajectories, all option combinations", "why_tests_cant": "Unbounded trajectories and reals.", "anchors": ["src/ring/algorithms/sensors.py: imu, _moving_average, _butterworth, magnetometer, add_noise_bias, rescale_natural_units"]}
{"id": "C63", "title": "Sampling-rate randomisation keeps the number of time steps", "statement": "randomize_hz returns one (system, configuration) pair for every combination of system, configuration and sampling rate; the system has time step 1/rate, nothing else in it changes, and the configuration's duration divided by the new time step equals the original duration divided by the original time step.", "quantifier": "all lists of systems and configurations, all positive rates", "why_tests_cant": "All list lengths and all real rates; the tests use a single configuration.", "anchors": ["src/ring/utils/randomize_sys.py: randomize_hz"]}
{"id": "C64", "title": "Knee joint geometry", "statement": "The tibiofemoral joint's transform is a rigid motion: its rotation is flexion, abduction and external rotation about the Grood-Suntay axes, its translation is composed of the three joint translations along the flexion axis, the floating axis and the tibial axis, the reported clinical translations are the projections on these axes, and the lookup of the joint in a system returns the unique such link or fails.", "quantifier": "all flexion angles and all drawn functions (away from half-turn rotations)", "why_tests_cant": "Continuum of angles and of randomly drawn functions.", "anchors": ["src/ring/algorithms/custom_joints/suntay.py: register_suntay"]}
{"id": "C65", "title": "Randomly drawn coordinates are coordinates of the system", "statement": "Drawing random joint coordinates for a system with a sensible motion configuration succeeds and gives the requested number of samples. Each row has exactly the size of the system's coordinates and consists of one part per link, in the order of the links: hinge, saddle and planar angles within [-pi, pi], ball and free joints with unit quaternions, frozen joints with nothing. The first sample is from the configured ranges of initial angles and positions, and positions stay in the configured ranges. Each link uses its own fresh keys and the configuration overwrites of its joint type only, so links added at the end do not change the motion of earlier links, and the returned key is unused. Joint types without a draw function are refused.", "quantifier": "every random generator with the promised ranges, key, system, motion configuration with overwrites, and number of samples", "why_tests_cant": "A test fixes a key, a system and a configuration; the shape, normalisation, starting values and independence of links must hold for all of them.", "anchors": ["src/ring/algorithms/generator/base.py: draw_random_q", "src/ring/algorithms/jcalc.py: _draw_rxyz, _draw_pxyz, _draw_spherical, _draw_saddle, _draw_p3d_and_cor, _draw_cor, _draw_free, _draw_free_2d, _draw_frozen, MotionConfig"]}
{"id": "C66", "title": "Links, sequences and sensors are randomised independently", "statement": "All randomness of generated data comes from the one seed. In a generated batch every sequence has a stream of random keys of its own, no key being used for two sequences: if two sources of random numbers agree on the keys of sequence i (and on the one key with which the common sampling rate is drawn, when sampling rates are randomised) then sequence i of both batches is the same, whatever the sources give for all other keys. The same holds for the links of a system when coordinates are drawn, where moreover the key handed back shares no randomness with the links, and for the IMUs of a sequence. All keys are split off from the key passed in.", "quantifier": "all systems, motion configurations, generator options, numbers of sequences, keys and sources of random numbers; user functions that draw only with the key they are given", "why_tests_cant": "Reusing or overlapping keys makes data correlated but each sample looks valid on its own; a test sees finitely many seeds and cannot see which keys were used for what.", "anchors": ["src/ring/algorithms/generator/base.py:_build_mconfig_batched_generator", "src/ring/algorithms/generator/base.py:draw_random_q", "src/ring/algorithms/generator/pd_control.py", "src/ring/algorithms/generator/finalize_fns.py:IMU", "src/ring/algorithms/sensors.py:imu", "src/ring/algorithms/generator/setup_fns.py", "src/ring/algorithms/jcalc.py"]}
{"id": "C67", "title": "Randomising a system changes only what it should, within the declared limits", "statement": "Randomising link positions puts every link in the box declared for it and changes nothing else of the system. Randomising rotations turns every link (except IMUs, if asked) by at most the requested angle, keeps unit quaternions and changes nothing else. Randomising how IMUs are attached changes only the dampings and stiffnesses of the IMUs and their reference links: every attachment ends up either rigid or with soft springs and dampings in the documented ranges, IMUs listed as rigid are rigid, none is rigid for probability zero, with all-or-none the unlisted ones agree; a list naming an unknown or repeated IMU or a probability outside [0,1) is refused. Drawing joint parameters gives every link parameters drawn by its own joint type (or the default ones) and changes nothing else; an unregistered joint type is refused.", "quantifier": "all systems, keys, random draws, limits, probabilities and lists of IMUs", "why_tests_cant": "A test sees a few seeds and systems; the guarantee is about every draw and every link of every system, including what must not change.", "anchors": ["src/ring/algorithms/generator/setup_fns.py:_setup_fn_randomize_positions", "src/ring/algorithms/generator/setup_fns.py:_setup_fn_randomize_transform1_rot", "src/ring/algorithms/generator/motion_artifacts.py:setup_fn_randomize_damping_stiffness_factory", "src/ring/algorithms/jcalc.py:_init_joint_params", "src/ring/maths.py:quat_random"]}
{"id": "C68", "title": "Training data: which features and targets appear, under which names, and in which order", "statement": "For every system, every set of options and every random draw, a sequence of training data produced by RCMG holds exactly the entries its options ask for. Measurements appear once per segment left after IMUs are removed: a segment that wears an IMU carries that IMU's readings of the simulated motion, a segment without one carries zeros for acceleration and angular velocity. Joint axes, relative orientations and root orientations appear for exactly the segments they are defined for, and agree with what the separate functions return for the same motion. With link numbers requested, each entry is renamed to the segment's position in the IMU-free system and no entry is lost. Flattening to arrays puts the features of segment i in row i, each kind of feature in a fixed range of columns, and repeats scalars over time.", "quantifier": "all well-formed systems, options of the generator, keys, motions and sampling rates", "why_tests_cant": "Which names collide, which segments wear sensors and which options are combined is unbounded; tests run a handful of example systems with default options, and a misplaced column still gives arrays of the right shape.", "anchors": ["src/ring/algorithms/generator/base.py:_build_mconfig_batched_generator", "src/ring/algorithms/generator/finalize_fns.py:FinalizeFn", "src/ring/algorithms/generator/finalize_fns.py:_rename_links", "src/ring/algorithms/generator/finalize_fns.py:Names2Indices", "src/ring/algorithms/generator/finalize_fns.py:JointAxisSensor", "src/ring/algorithms/generator/finalize_fns.py:RelPose", "src/ring/algorithms/generator/finalize_fns.py:RootIncl", "src/ring/algorithms/generator/finalize_fns.py:RootFull", "src/ring/algorithms/generator/finalize_fns.py:IMU", "src/ring/algorithms/generator/finalize_fns.py:_imu_data", "src/ring/algorithms/generator/finalize_fns.py:_expand_dt", "src/ring/algorithms/generator/finalize_fns.py:_expand_then_flatten", "src/ring/utils/utils.py:dict_union"]}
{"id": "C69", "title": "Reported joint axes are the axes about which the joints turn", "statement": "For every system, recording and seed, the joint-axis feature of a link connected to the world is zero at all times. Axes taken from the system are, for every hinge, the axis about which its joint turns, which its own rotation leaves fixed. Axes estimated from recorded motion equal, up to sign, the axis of the joint whenever the link turns relative to its parent about one axis only and is turned at the first time. Noise moves an axis by at most seven degrees and keeps its length; a random flip changes the sign for the whole sequence and happens only if asked for. Every reported series has one vector per time step.", "quantifier": "all systems, recordings of any length, options (noise, flips, source of the axes) and seeds", "why_tests_cant": "A wrong sign convention or a cancelling average shows only for particular motions; noise and flips depend on random draws.", "anchors": ["src/ring/algorithms/sensors.py:joint_axes", "src/ring/algorithms/sensors.py:_joint_axes_from_xs", "src/ring/algorithms/sensors.py:_joint_axes_from_sys", "src/ring/sim2real.py:match_xs", "src/ring/sim2real.py:unzip_xs", "src/ring/maths.py:quat_random", "src/ring/algorithms/jcalc.py:_rxyz_transform"]}
{"id": "C70", "title": "Options handed to a data generator are used as given and left alone", "statement": "Building data generators never changes a dictionary, list or system that was handed in, whether building succeeds or fails. A generator built for one of several systems works with the options as they were when it was built, with its own system, and with the names of its own system's soft IMU attachments: it is the same as if it had been built alone, and changing the option dictionaries later has no effect on it. Building succeeds exactly if all motion configurations are feasible, motion artifacts are only asked for together with dynamical simulation and do not already name unactuated subsystems, a probability of rigid attachments is only given with random artifacts, and every simulated system (with soft attachments if asked for) has damped joints and no massless moved body at the end of a chain.", "quantifier": "all options, all lists of systems, all programs that make, change and share option objects and build any number of generators in any order", "why_tests_cant": "Aliasing between shared default dictionaries, options of several systems and later changes shows only for particular histories.", "anchors": ["src/ring/algorithms/generator/base.py:RCMG.__init__", "src/ring/algorithms/generator/base.py:_copy_dicts", "src/ring/algorithms/generator/base.py:_build_mconfig_batched_generator", "src/ring/algorithms/generator/finalize_fns.py:DynamicalSimulation.assert_test_system", "src/ring/algorithms/generator/motion_artifacts.py:inject_subsystems"]}
{"id": "C71", "title": "Training data saved to disk", "statement": "Saving generated sequences to a folder writes exactly the sequences that the in-memory list would contain, in the same order, one file each under consecutive numbers; sequences containing NaN are replaced by clean ones and no other file in the folder changes. If saving stops early, by an exception or a crash at any moment, a leading part of the sequences is complete on disk, at most the next file is damaged, and everything else is as before. Existing files are not overwritten unless this is allowed. Reading the folder back gives each sequence exactly once whatever order the operating system lists the files in, and several folders are read in step. Saving to a single file stores the whole list or, if the file exists and must not be overwritten, changes nothing.", "quantifier": "all generators, sizes, seeds, NaN patterns and draws, file prefixes, folder contents, crash points and directory listing orders", "why_tests_cant": "Crash points, listing orders, existing files and unusual prefixes cannot be enumerated by tests.", "anchors": ["src/ring/algorithms/generator/base.py:RCMG.to_folder", "src/ring/algorithms/generator/base.py:RCMG.to_pickle", "src/ring/utils/path.py:parse_path", "src/ring/utils/utils.py:pickle_save", "src/ring/utils/utils.py:pickle_load", "src/ring/utils/dataloader.py:_Dataset"]}
{"id": "C72", "title": "Inverse kinematics of an end effector reports an honest, feasible best solution", "statement": "Whatever the optimiser does, the coordinates returned for an end effector have the size of the system, and the returned residual is the weighted sum of the angle and the distance between the wanted pose and the pose that the named link has at exactly these coordinates. The coordinates are a valid configuration (unit quaternions, wrapped angles) that stands for what the optimiser found. With positive weights the residual is never negative, bounds both errors, and is zero exactly if the end effector is at the wanted pose (rotations up to sign and tolerance). With random starts the first start with the smallest residual wins and no other start is better; an optimiser that never ends worse than it starts makes the result at least as good as the start. Contradictory arguments, wrong sizes and unknown links are rejected.", "quantifier": "all systems, end effectors, wanted poses, weights, starting points, seeds, custom joints and optimisers", "why_tests_cant": "A test fixes one system and one optimiser run; the residual and the choice among starts must be right for every optimiser outcome.", "anchors": ["src/ring/algorithms/kinematics.py:inverse_kinematics_endeffector", "src/ring/base.py:System.coordinate_vector_to_q", "src/ring/maths.py:angle_error"]}
{"id": "C73", "title": "Stopping, evaluating and saving a training run with callbacks", "statement": "A training run with the library's callbacks ends after the first episode after which some callback asks for it (episode limit, run time, NaN parameters, tag, large gradients), and reports whether one did; otherwise it makes all its episodes. Callbacks never influence what is trained. An episode limit k gives min(n, k+1) episodes. A killed run leaves a checkpoint holding exactly the parameters and optimiser state reached, an unkilled one leaves the checkpoints as they were. The save callback without tracked metrics stores the parameters of the latest k episodes, each under its episode number, and never changes an existing parameter file. With tracked metrics it stores the parameters of the k best episodes by the mean of the metrics (earlier ones first among equals; episodes that are not evaluated count as 1e16; later NaN scores are passed over). An evaluation done every few episodes reports in each episode the result of the last evaluated parameters. An averaged metric is the mean of those tracked values that are numbers. Refuted parts: 'training is stopped after k consecutive large gradients' (one window suffices at the start, NaN gradients never count), 'the parameters with the best tracked metric are kept' (a NaN in the first episode stays for ever), 'a run that ends normally has saved its parameters' (an existing file makes closing fail after all training; nothing is stored and the loggers stay open).", "quantifier": "all lists of callbacks in any order, all step functions, batches, numbers of episodes, metrics, gradients, file systems and limits", "why_tests_cant": "the moment of stopping depends on the whole history of gradients, metrics and clocks seen by several stateful callbacks; the tests run a few episodes with one callback", "anchors": ["src/ring/ml/callbacks.py: EvalXyTrainingLoopCallback, AverageMetricesTLCB, SaveParamsTrainingLoopCallback, Queue, LogGradsTrainingLoopCallBack, NanKillRunCallback, LogEpisodeTrainingLoopCallback, TimingKillRunCallback, CheckpointCallback, WandbKillRun", "src/ring/ml/training_loop.py: TrainingLoop.run, step, close", "src/ring/ml/train.py: _DefaultEvalFnCallback"]}
{"id": "C74", "title": "A training step is gradient descent on the mean error, window by window, for any number of devices", "statement": "One step of training cuts every sequence of the batch into int(T/tbp) windows of equal length that together are the whole sequence, and handles them in order: each window starts in the filter states in which the window before ended, and the parameters are updated with the exact gradient of the mean error over the whole batch of that window. Parameters, optimiser state, reported loss and gradients are the same for any number of devices over which the batch is spread. The step succeeds exactly if the batch can be spread and the number of windows divides the length. Later calls start from the initial states again, so that calls interact only through parameters and optimiser state. The evaluation reports, under the name of each link, the mean error over all sequences and times, for any number of devices. Refuted parts: 'windows are tbp steps long' (they are longer whenever tbp does not divide T), 'the reported loss is the error over the sequence' (it is that of the last window), 'batches may differ in size' (the second size always fails), 'metrics do not depend on the number of devices' (false for reductions other than means, e.g. RMSE).", "quantifier": "all differentiable filters and loss functions, optimisers, parameters, batches, sequence lengths, window sizes, machines and numbers of calls", "why_tests_cant": "the tests run on one CPU device with one batch size and a length that is a multiple of tbp; independence of the number of devices and exactness of the gradient need all of them", "anchors": ["src/ring/ml/train.py: _build_step_fn, _build_eval_fn, _arr_to_dict", "src/ring/utils/batchsize.py: distribute_batchsize, expand_batchsize", "src/ring/ml/ml_utils.py: _unknown_link_names"]}
{"id": "C75", "title": "Starting, stopping, saving and resuming a training run", "statement": "train_fn starts from the checkpoint if one is given (parameters and optimiser state), otherwise from the filter's parameters, otherwise from parameters drawn with the network seed, with a fresh optimiser state. It trains on the batch of key 0 and then on the batches of the keys split from the generator seed, ends after the first episode that gives one of the requested reasons (episode limit, NaN parameters, time, tag, 18 large gradients in a row, a user's callback), otherwise after n_episodes, and returns whether there was a reason. A requested save holds the parameters of the last episode; without a request nothing is saved. A killed run leaves a checkpoint from which a further run continues: parameters and optimiser state are as if the batches of both runs had been trained in one run. Refuted parts: 'a resumed run sees new data' (with the same seed it sees the same batches again), 'tracking metrics without a path is refused' (the run is made and fails at the end, nothing saved, loggers open), 'last and best parameters can both be saved' (fails for one episode), 'automatic saving works for every run' (the second run in a process fails at the end), 'without loggers and wandb run nothing is logged' (the default list remembers a wandb logger).", "quantifier": "all options, filters, optimisers, generators, callbacks, files present before, numbers of episodes and sequences of calls", "why_tests_cant": "the tests train for very few episodes without kill conditions, checkpoints or repeated calls in one process; which reason ends a run and what a resumed run sees need all histories", "anchors": ["src/ring/ml/train.py: train_fn", "src/ring/ml/training_loop.py: TrainingLoop", "src/ring/ml/callbacks.py: SaveParamsTrainingLoopCallback, CheckpointCallback, LogGradsTrainingLoopCallBack, LogEpisodeTrainingLoopCallback", "src/ring/ml/ml_utils.py: unique_id", "src/ring/__init__.py: setup"]}
{"id": "C76", "title": "Normalising network input", "statement": "make_normalizer_from_generator calls the generator just often enough for the requested number of sequences, picks that many different sequences, and returns a function that, on any data with the same names and features (any number of sequences and times), subtracts from every feature its mean over the picked sequences and times and divides by its standard deviation there plus 1e-8, leaving shapes and names alone. The picked data themselves come out with mean zero and standard deviation d/(d+1e-8); a feature comes out all zero exactly when it is constant; order of values is kept and the input can be recovered. Refuted part: 'every generator that can be trained with can be normalised' (batches with four axes, as training uses, are refused).", "quantifier": "all generators, seeds, batch sizes, numbers of sequences, trees of arrays, permutations", "why_tests_cant": "a test compares a few numbers for one generator; the number of calls, the sampling without repetition and the statistics must be right for every batch size and every feature", "anchors": ["src/ring/utils/normalizer.py: make_normalizer_from_generator"]}
{"id": "C77", "title": "What loggers record", "statement": "A logger flattens nested metrics: every leaf is recorded under the keys that lead to it, joined by underscores (integer keys as text). A DictLogger's history of a name lists, in the order of the calls of log, the text or finite number that each call had under it; numbers that are not finite are left out and never recorded; a call in which some value is neither a text nor one number fails and records nothing. If no key is empty or contains an underscore, every leaf has a name of its own, so nothing is lost. The wandb logger makes one call per name, each carrying the episode number if the metrics have one. Refuted parts: 'every metric is logged' (two metrics may flatten to the same name, the last wins), 'entry i of a history belongs to call i' (a skipped number shifts the rest), 'a DictLogger with an output path stores its logs when closed' (it makes a directory at the file's path, so closing always fails and nothing is ever stored).", "quantifier": "all nested metrics, keys, values, sequences of calls and file systems", "why_tests_cant": "the tests log a few flat metrics; collisions, skipped values and failures depend on the keys and values of a whole run", "anchors": ["src/ring/ml/ml_utils.py: MixinLogger.log, DictLogger, WandbLogger.log_key_value, _flatten_dict, _flatten_convert_filter_nested_dict"]}
{"id": "C78", "title": "Where and how geometries are drawn", "statement": "Both rendering backends put every point p of a geometry at the world position given by the pose of the geometry in its link followed by the pose of the link (the world frame for link -1). With MuJoCo, boxes and spheres cover exactly the points that the geometry occupies, an XYZ geometry is drawn as three rods from its origin along its three axes (before the rounding of numbers), and the rounding of the numbers to four decimals moves a geometry by no more than the rounding error per coordinate. With vispy, spheres, cylinders and boxes with dim_y = dim_z cover exactly the occupied points; the vertices of a capsule's mesh all lie on its surface, its tips are vertices and its triangles close the surface with valid vertex numbers; the edges and triangles of a box's mesh lie on the box. Refuted parts: 'a cylinder or capsule is drawn along its x axis' (MuJoCo draws it along z, i.e. with x and z of its frame exchanged), 'a box is drawn with its dimensions' (vispy exchanges dim_y and dim_z), 'a capsule is drawn with the length that its inertia assumes' (vispy draws it shorter by its diameter, and refuses length < 2 radius).", "quantifier": "all geometries, shapes and sizes, all unit rotations, all link poses, all rounding functions, all mesh resolutions and all points of space", "why_tests_cant": "Equality of solids concerns every point and every rotation; a rendered image of one example only looks right, and swapped axes are invisible for symmetric examples.", "anchors": ["src/ring/rendering/base_render.py:_xyz_to_three_capsules", "src/ring/rendering/mujoco_render.py:_xml_str_one_geom", "src/ring/rendering/mujoco_render.py:MujocoScene.update", "src/ring/rendering/vispy_render.py:_compute_transform_per_visual", "src/ring/rendering/vispy_visuals.py:capsule_mesh", "src/ring/rendering/vispy_visuals.py:box_mesh"]}
{"id": "C79", "title": "Which frames, scene and bodies render uses", "statement": "render returns one frame for each of the poses number 0, n, 2n, ... (n = render_every_nth >= 1), in that order, each drawn with the scene of the call; a pose among them without one entry per link is refused before anything is drawn and leaves the remembered scene alone; n = 0 is a ValueError. As long as no scene failed to build, every call in any sequence of calls gets a scene built from its own system, backend and options (with vispy the window toolkit may be that of an earlier call). The MuJoCo model has one body for every link with geometries, holding exactly the geometries of that link in the order of the system together with the cameras and lights given for it; cameras of the world go into the world; a camera on a link without a geometry is refused; the default cameras look at the first link with a geometry. Colours given by name are looked up (KeyError if unknown), three numbers are completed to an opaque colour, four are kept. Refuted: 'a call whose scene cannot be built keeps failing' - the same call again silently uses the scene of an earlier call; a geometry with a link index below -1 makes building the model run forever.", "quantifier": "all pose lists, step sizes, sequences of calls with succeeding or failing scene construction, all geometry, camera and light lists", "why_tests_cant": "The remembered scene depends on the whole history of calls, including failed ones; tests start from a fresh interpreter.", "anchors": ["src/ring/rendering/base_render.py:render", "src/ring/rendering/base_render.py:_load_scene", "src/ring/rendering/mujoco_render.py:_build_model_of_geoms"]}
{"id": "C80", "title": "What render_prediction shows", "statement": "For recorded poses of a system and orientation predictions for every link of the system without IMUs, render_prediction draws the system itself at the recorded poses (moved by offset_truth) and a second copy without IMUs, its links named 'hat_' + name, moved by offset_pred. At every time, each link of the copy is at the recorded position relative to its parent and turned by the prediction: a link on the world has the predicted orientation, any other the inverse of the predicted child-to-parent turn. If the prediction is the recorded orientation (the training target), the copy is exactly the recorded motion. Geometries of the recorded links stay as they are; those of the copy have the prediction colour, and with transparent_segment_to_root those of links on the world are left out. Refuted: 'links without a prediction are filled in from the recording' (KeyError, although the code says it adds them); 'works for every system' (a link already named hat_x for a link x is refused); 'only links are drawn twice' (geometries of the world are, in the prediction colour, if the system has no IMUs; with transparent_segment_to_root the last link decides).", "quantifier": "all parsed systems, pose recordings of any length, unit predictions, offsets and both values of transparent_segment_to_root", "why_tests_cant": "It concerns every tree with any number of links and IMUs and all orientations; a rendered picture of one chain hides a swapped direction or a parent mixed up.", "anchors": ["src/ring/rendering/base_render.py:_render_prediction_internals", "src/ring/rendering/base_render.py:_sys_render", "src/ring/rendering/base_render.py:render_prediction", "src/ring/sim2real/sim2real.py:match_xs", "src/ring/sim2real/sim2real.py:zip_xs"]}
{"id": "C81", "title": "Scaling motions and moving them in the world (sim2real)", "statement": "scale_xs leaves the poses of links with an excluded joint type alone; for the others it multiplies the translation of px, py, pz and free joints by the factor, keeps that of all others, and turns a rotation by the angle a (|a| < pi) about an axis into the rotation by factor * a about the same axis for rx, ry, rz, spherical and free joints (numerically vanishing rotations become the identity), keeping the rotation of all others; factor 1 changes at most the sign of the quaternion. randomize_to_world_pos_rot moves the whole figure rigidly such that its only link on the world follows the drawn motion: every link keeps its pose relative to every other. It refuses systems with no or several links on the world, and drawn motions with another number of time steps (a single one is used for all times). Refuted: 'a hinge angle is scaled by the factor' for angles beyond half a revolution (half of 3/2 pi gives -1/4 pi).", "quantifier": "all well-formed systems, recordings of any length with unit quaternions, all factors, exclusion lists and drawn motions", "why_tests_cant": "The effect depends on the joint type, the whole tree and on real-valued angles; that all relative poses are kept is a statement about every pair of links in every tree.", "anchors": ["src/ring/sim2real/sim2real.py:scale_xs", "src/ring/sim2real/sim2real.py:_scale_transform_based_on_type", "src/ring/sim2real/sim2real.py:randomize_to_world_pos_rot", "src/ring/sim2real/sim2real.py:_overwrite_transform_of_link_then_update"]}
{"id": "C82", "title": "Episodes of the gymnasium environment", "statement": "reset shows the first of T observations, each the two sensors' accelerations and angular velocities of one instant, and the true relative orientation; the action given after observation k is scored against the truth at k (not k+1) by minus the rotation angle between them, in [-pi, 0], the same for every nonzero multiple of the action including negative ones, zero exactly for multiples of the truth, and is answered by observation and truth k+1; the episode is never terminated and truncated exactly when the last observation is shown, so there are T-1 steps, and every step after that raises IndexError; after reset(seed) observations, truths and scores depend on the seed and the actions alone. Contradicted: that rewards are numbers of at most 0 (an action of zeros gets NaN), that a rendered frame shows the answer beside the pose it was given for (it is drawn into the next pose), and that the first frame after a reset depends on the new episode alone (it shows the previous episode's last action).", "quantifier": "all recordings, seeds, environment histories and sequences of actions", "why_tests_cant": "Off-by-one relations between observation, truth, score and truncation must hold for every length of episode and every action; carried-over state needs particular histories.", "anchors": ["src/ring/utils/register_gym_envs/saddle.py: Env.reset, Env.step, Env.render, Env._get_obs, Env._get_info, Env._abs_angle", "src/ring/maths.py: angle_error"]}
{"id": "C83", "title": "Validation during training covers the whole validation set", "statement": "The validation callback, given one sequence or a batch, evaluates the filter on every sequence and reports each metric once under its name; for every link name (the given names or link0, link1, ...) the value is the metric applied to that link's targets and estimates over the whole validation set, in its order, the same for every number of devices and machine type that accepts the set. A set that cannot be spread evenly over the devices is refused with AssertionError; targets for another number of sequences are refused. Contradicted: that every name stands for a link of its own and every link is reported (one name too many repeats the last link, missing names drop links silently).", "quantifier": "all validation sets, filters that treat sequences separately, metrics, link names, numbers of devices", "why_tests_cant": "Independence of the number of devices and of the batch size cannot be tested on one machine; the index clamping shows only for particular numbers of names.", "anchors": ["src/ring/ml/callbacks.py: EvalXyTrainingLoopCallback, _build_eval_fn2", "src/ring/utils/batchsize.py: distribute_batchsize, expand_batchsize, merge_batchsize", "src/ring/ml/ml_utils.py: _unknown_link_names"]}
{"id": "C84", "title": "Batches from a folder of files", "statement": "The generator made from a dataset of N >= 1 elements never ends: its calls fall into epochs of ceil(N / batch_size) calls, and in each epoch every element is delivered exactly once (in the order of the listing without shuffling), in batches that are full except possibly the last of the epoch. With drop_last all batches are full and fewer than batch_size elements of an epoch are left out. A file that cannot be loaded (or transformed) makes only the call fail whose batch contains it; the following calls continue with the following batches. Contradicted: that it never ends for every dataset (an empty one, or one smaller than a batch with drop_last, raises StopIteration on every call).", "quantifier": "all datasets, batch sizes, numbers of calls, orders drawn by the shuffler, failing files", "why_tests_cant": "The generator is an infinite stream; coverage must hold in every epoch, for every remainder N mod batch_size and around failures.", "anchors": ["src/ring/utils/dataloader_torch.py: dataset_to_generator, FolderOfPickleFilesDataset"]}
{"id": "C85", "title": "Setting the number of host devices", "statement": "set_host_device_count(n) makes the flag for n devices the first word of XLA_FLAGS, removes every earlier setting of it wherever it stands, and keeps all other flags in their order; calling it again replaces the setting, so that only the last call counts and the value is the same as if only the last call had been made. Contradicted: that words are only removed or kept as a whole (a setting with an empty value stays, and a word that merely contains a setting loses its end).", "quantifier": "all values of XLA_FLAGS, all numbers, all sequences of calls", "why_tests_cant": "The old value is an arbitrary text; tests fix a few.", "anchors": ["src/ring/utils/backend.py: set_host_device_count"]}
{"id": "C86", "title": "The iterative inverse of the mass matrix", "statement": "With mass_mat_iters = k > 0, whenever the mass matrix M is within Frobenius distance rho < 1 of the identity, the matrix that forward dynamics uses as inverse leaves a residual ||1 - M X|| of at most rho^(2^k), and differs from the true inverse by at most ||M^-1|| rho^(2^k); each iteration squares the residual. Contradicted: that iterating converges (or at least never worsens the answer) for every invertible mass matrix: for one joint with inertia 10 the answer is 0.3 instead of 0.1 for every number of iterations from two on, worse than the starting guess, because the residual of the replaced guess is kept.", "quantifier": "all matrices and sizes, all initial guesses within distance one, all numbers of iterations, all systems", "why_tests_cant": "Convergence for all matrices and iteration counts is an analytic statement; the stale residual shows only for matrices away from the identity.", "anchors": ["src/ring/algorithms/dynamics.py: _inv_approximate, forward_dynamics"]}
{"id": "C87", "title": "Networks stay bounded for ever, and RNNO v1 works online", "statement": "Whatever the weights of a RING or RNNO network (GRU or LSTM cells, any stack, with or without layer norm) and however long and large the recording, every hidden state stays between -1 and 1, the memory of an LSTM grows by at most one per time step, and all estimates and all messages between links stay below a bound that depends on the weights (and the graph) only. If the measurements are bounded, the memory is bounded as well; without a bound on the measurements this is false: one and the same LSTM network can be driven beyond every bound. Layer norm without trained scale gives features of mean zero and mean square below one and ignores a common offset. RNNO v1 computes layer by layer over whole recordings, yet processing a recording in pieces with the states passed on gives the same estimates; it ignores the graph, and refuses recordings with more than one node. Unknown cell types are refused.", "quantifier": "all weights, network sizes, graphs, recordings of any length, and ways to cut them", "why_tests_cant": "Bounds over infinitely many weights and unboundedly long recordings.", "anchors": ["src/ring/ml/ringnet.py: make_ring, StackedRNNCell, LSTM", "src/ring/ml/rnno_v1.py: rnno_v1_forward_factory"]}
{"id": "C88", "title": "The inertia of every geometry is that of the solid it describes", "statement": "The inertia that a geometry (sphere, box, cylinder along its x axis, capsule along its x axis) contributes to its link is that of the solid of constant density with the given mass, in the pose in which it is attached: same mass, same first moment in every direction, and for every motion of the link the same kinetic energy, where moments and energies are volume integrals over the solid. A link has the kinetic energy of all its geometries together, also as stored when a system is parsed; axes without mass contribute nothing. The solids are the ones that the renderers draw.", "quantifier": "all shapes and sizes, masses, poses, motions, and lists of geometries", "why_tests_cant": "Closed formulas against integrals over a continuum of points, for all real sizes, poses and motions.", "anchors": ["src/ring/base.py: Sphere.get_it_3x3, Box.get_it_3x3, Cylinder.get_it_3x3, Capsule.get_it_3x3, Inertia.create", "src/ring/algorithms/dynamics.py", "src/ring/base.py: System.parse"]}
{"id": "C89", "title": "Dynamics and kinematics agree: work is the change of energy", "statement": "For every tree of hinges, sliders, 3d sliders, ball joints and rigid connections: along every smooth motion of the joint coordinates, the velocities of the links that the dynamics work with are the velocities of the poses that forward kinematics returns, and the power of the forces that inverse dynamics returns (plus that of the armature) is the rate of change of the kinetic energy that the library reports plus the energy of the weight. Without ball joints, a motion at the accelerations returned by forward dynamics changes the total stored energy (motion, weight, springs, and the additional inertia from regularisation and implicit damping) by the power of the applied forces less the loss in the dampers; so a system that is left alone never gains energy, and without damping it keeps it.", "quantifier": "all systems of these joint types, all smooth motions, gravity vectors, inertias, springs, dampings and applied forces; trees of any size and depth", "why_tests_cant": "A differential identity along all motions in continuous time; a simulation only sees single trajectories with integration error larger than small violations.", "anchors": ["src/ring/algorithms/dynamics.py: inverse_dynamics, compute_mass_matrix, kinetic_energy, forward_dynamics", "src/ring/algorithms/kinematics.py: forward_kinematics_transforms", "src/ring/algorithms/jcalc.py: jcalc_transform, jcalc_motion"]}
{"id": "C90", "title": "A body on a free joint falls along gravity", "statement": "A body on a free joint that is let go or thrown without spin keeps its orientation, and after one simulated step with any number of sub-steps its position and velocity are those of uniformly accelerated motion (integrated by the semi-implicit rule), independent of its inertia tensor, with an acceleration that differs from gravity only by the factor m/(m+1e-6). In the world this acceleration points along gravity provided the rotation of the joint leaves gravity unchanged. It is not true for every orientation: the body-frame velocity is added to the parent-frame position, and a body that is turned upside down rises.", "quantifier": "all masses, inertia tensors, offsets, orientations, positions, velocities, gravity vectors, step lengths up to 1e8 and numbers of sub-steps", "why_tests_cant": "The deviation depends on orientation and gravity in a continuum; tests start from the identity orientation, for which the motion is right.", "anchors": ["src/ring/algorithms/dynamics.py: step, forward_dynamics, _semi_implicit_euler_integration, _strapdown_integration, inverse_dynamics", "src/ring/algorithms/jcalc.py: free joint", "src/ring/algorithms/kinematics.py: forward_kinematics"]}
{"id": "C91", "title": "Random motion of joints with random axes stays within its range", "statement": "The trajectories drawn for a hinge and a saddle with random axes obey the same ranges and start values as those of the built-in hinge and saddle. For the imperfect hinge the primary angle is drawn like that of a hinge; the residual angle has one value per sample, averages to zero over the sequence, varies by at most twice the given maximum and stays within twice that maximum. It is not true that it stays within the maximum itself: it is scaled to the maximum first and centred afterwards.", "quantifier": "all sensible motion configurations (also for the residual), maxima, random draws, sampling times, numbers of samples", "why_tests_cant": "The bound depends on random trajectories of any length; a few seeds will rarely rest long enough on one side to leave the bound.", "anchors": ["src/ring/algorithms/custom_joints/rr_joint.py: register_rr_joint", "src/ring/algorithms/custom_joints/rr_imp_joint.py: register_rr_imp_joint, _draw_rr_imp", "src/ring/algorithms/custom_joints/rsaddle_joint.py: register_rsaddle_joint", "src/ring/algorithms/jcalc.py: _draw_rxyz, _draw_saddle"]}
{"id": "C92", "title": "The library's global state over a process", "statement": "After importing the library and any sequence of setup(), joint-type registration and motion-overwrite calls, failing ones included, the registry of joint types is consistent (every type has its widths, one motion axis per velocity coordinate); the experiment's identity and the start of the time measurement are the last ones given to a setup() that succeeded, else those made at import. setup() succeeds exactly for arguments its joint registrations accept, always with the defaults, and leaves every joint type it does not name alone. It is not true that it preserves motion set for a joint type before (the change is lost but still counts as made, so it cannot be repeated), that built-in joint types are safe from it, or that a failing call has no effect.", "quantifier": "all histories of calls with all arguments, successful or failing", "why_tests_cant": "A property of all histories of calls on module-level state; tests see one order of calls in one process.", "anchors": ["src/ring/__init__.py: setup, _UNIQUE_ID, _TRAIN_TIMING_START", "src/ring/algorithms/custom_joints: register_rr_joint, register_rr_imp_joint, register_rsaddle_joint, register_suntay", "src/ring/algorithms/jcalc.py: register_new_joint_type, MotionConfig.overwrite_for_joint_type"]}
{"id": "C93", "title": "What ring.RING hands out", "statement": "ring.RING(lam, Ts, **kwargs) succeeds for every Ts except 0 provided the parameter file can be read, and warns exactly for sampling rates outside 40 to 200 Hz. The network uses the 100 Hz parameters exactly for Ts = 0.01 with use_100Hz_RING not turned off, and the others in every other case; it sees acceleration, gyroscope and joint axis scaled by 1/9.81, 1/2.2 and 1/0.57, and (with the other parameters only) ten times the sampling interval in between; parameters, state and lam given to apply replace the stored ones; the output is low-pass filtered link by link at the given rate and cutoff frequency unless turned off. The filter accepts exactly 9 features per link if Ts is given and exactly 10 otherwise, provided the 100 Hz parameters are for 9. Except at 100 Hz, giving Ts is the same as giving it in the data; a batch is the sequences one by one. Unknown keyword arguments are silently ignored; it is not true that they are refused, nor that at 100 Hz it makes no difference whether the interval is an argument or in the data.", "quantifier": "all parent arrays, sampling intervals, keyword arguments, networks and inputs", "why_tests_cant": "All sampling intervals, options and inputs; tests use one or two combinations with the shipped weights.", "anchors": ["src/ring/__init__.py: RING", "src/ring/ml/base.py: ScaleX_FilterWrapper, LPF_FilterWrapper, GroundTruthHeading_FilterWrapper, AddTs_FilterWrapper", "src/ring/ml/ringnet.py: RING"]}
{"id": "C94", "title": "Orientation errors are distances and add up along the chain", "statement": "The angle between two orientations is a distance between rotations: between 0 and pi, symmetric, zero exactly for equal rotations, blind to the sign of quaternions, obeying the triangle inequality, and the same whichever common rotation is applied before or after. angle_error measures it to within the library's tolerance for zero. If the predictions for the links of a system have measured errors of at most e_i against the training targets, then the orientation that render_prediction shows for a link differs from the recorded one by at most the sum of the e_i of the links between it and the world (plus the tolerance). It is not true that it differs by at most the largest of them.", "quantifier": "all unit quaternions; all systems, recordings, predictions, times and links", "why_tests_cant": "All quaternions, trees and predictions; a metric axiom and a bound on accumulated error cannot be sampled.", "anchors": ["src/ring/maths.py: angle_error, quat_angle, quat_mul, quat_inv", "src/ring/rendering/base_render.py: render_prediction, _render_prediction_internals", "src/ring/algorithms/sensors.py: rel_pose, root_full"]}
{"id": "C95", "title": "A recording can be rebuilt from its simulated IMU", "statement": "The readings that imu/gyroscope/accelerometer simulate for a recording determine the recording. Integrating the default (first-order) gyroscope readings from the first orientation gives every recorded orientation to within 5e-8 rad per sample, and exactly (up to the sign of the quaternion) if no step turns by less than the library can tell from zero. Two recordings that start alike and read alike are alike to that accuracy. Together with the noise-free accelerometer readings, gravity and the first two positions, double integration gives every recorded position exactly. It is not true for the second-order gyroscope: a body that flips by half a turn at each sample reads as a body at rest.", "quantifier": "all trajectories of unit quaternions and positions of any length, all sampling times, all gravity vectors", "why_tests_cant": "All trajectories of all lengths; the error bound holds for every history of steps, including those at the numeric threshold.", "anchors": ["src/ring/algorithms/sensors.py: imu, gyroscope, accelerometer", "src/ring/maths.py: quat_to_rot_axis, quat_rot_axis, rotate"]}
{"id": "C96", "title": "Systems as files and texts: what is saved is what is loaded", "statement": "to_str followed by from_str gives the same system (links listed depth first), for every seed, with the joint parameters drawn from that seed. to_xml to a name that ends in .xml, followed by from_xml or create with that name (or, if the name has no other dot, the name without .xml), gives the same system and touches no other file. It is not true for names that do not end in .xml: to_xml writes exactly the given name but from_xml and create look for the name with .xml, so saving has no effect on what is loaded under that name (an error, or an older file). Names that differ only behind the last dot lead to the same file. It is not true that create uses its seed: for a text it always uses seed 1.", "quantifier": "all systems the file format can express, all file names, folders, seeds and joint registries", "why_tests_cant": "All systems, names and previous contents of the folder; the failing cases depend on files left by earlier calls.", "anchors": ["src/ring/base.py: System.create, System.from_xml, System.from_str, System.to_xml, System.to_str", "src/ring/io/xml/to_xml.py: save_sys_to_xml", "src/ring/io/xml/from_xml.py: load_sys_from_xml, _load_xml", "src/ring/utils/path.py: parse_path"]}
{"id": "C97", "title": "Cameras and lights of a rendered scene over the life of a program", "statement": "Camera and light dictionaries passed to render are shared objects: the caller, the module's memory of the last scene and the default argument refer to the same ones. Whatever a program does, rendering never changes what a dictionary means (keys, texts, order). If the caller does not change a dictionary after passing it to a rendering, every rendering shows exactly the cameras and lights asked for, including the shared default lights, and whether or not the remembered scene is reused. It is not true that a rendering shows what the dictionary holds now: if the caller changes it and passes it again, the old scene is shown, whatever was written. It is not true that rendering leaves the caller's dictionary as it is: every text becomes a list of one text.", "quantifier": "all programs (sequences of writes to dictionaries and renderings), all dictionaries, systems and scene arguments", "why_tests_cant": "All histories of calls and all ways of sharing dictionaries between them.", "anchors": ["src/ring/rendering/mujoco_render.py: MujocoScene.__init__, _default_lights", "src/ring/rendering/base_render.py: _load_scene, _args, _scene", "src/ring/utils/utils.py: tree_equal"]}
