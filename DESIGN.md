# Formal model of simon-bachhuber/ring in Rocq (Coq 8.16.1)

## 1. Approach

* The code is read as text from `/repo`; every model definition cites the file and lines it models and names
  its simplifications.
* **Discrete code** (system trees, scan, delete/inject/morph, joint registry, XML structure, batching,
  dictionaries, HDF5 layout, files, training loop, callbacks, queues, optimiser guard, message passing) is modelled by
  total, computable Gallina functions. Python exceptions are values of `result` (`Ok`/`Err`), with one constructor per
  exception class. Loops whose termination is not structural carry fuel, and running out of fuel is a separate,
  explicit error.
* **Numeric code** (quaternions, transforms, kinematics, dynamics, sensors, interpolation, losses) is modelled over the
  real numbers `R` of the Coq standard library. Floating-point rounding, overflow and NaN propagation are not
  modelled, except where a property is about them: there values are `Fin x`, `+inf`, `-inf` or `NaN` (M_Callbacks, M_Train)
  or a division by zero is an explicit error value. Elsewhere division by zero follows Coq's convention, so a statement
  involving a quotient carries the guard which makes the divisor nonzero.
* **Randomness** is an explicit oracle argument (a stream or list of draws, or keys as paths of splits); theorems
  quantify over all oracles.
* **External code** (JAX transformations, haiku/optax modules, jaxopt, h5py, ElementTree text syntax, the file system,
  linear solvers) is represented by arguments or by an abstract interface, described next to the definition that uses it.
* **Crashes** are prefixes of the list of file operations (M_Disk, M_Callbacks).
* Properties that are false of the code are kept in view: a theorem `..._refuted` exhibits a concrete
  counterexample, and the strongest true guarded version is proved next to it. Their MANIFEST status is "partial".

## 2. Layout

`rocq/theories/` contains model files (`M_*.v`, definitions only), specification files (`S_*.v`, definitions
that use no model helper), proof files (`P_*.v`), property files (`C_*.v`: theorems, and for each a concrete non-trivial
instance satisfying the hypotheses) and a few files with larger worked examples (`X_*.v`). `Prelude.v` holds the
`result` monad, Python list indexing and dictionaries. `seeded/LOG.jsonl` records the edits of the model that were
tried against the theorems.

## 3. Properties: model, proof idea, status

The exact list of theorems per property is in `MANIFEST.json`; the last column says what is missing or refuted.

| id | title | property file | model | proof idea | status and limits |
|---|---|---|---|---|---|
| C01 | scan hands every link exactly its own coordinates | C_Scan | M_Sys: `_scan_sys` with arbitrary stateful callback | induction on the links: slices are running offsets | **proved**. for every callback, state, system and argument list |
| C02 | scan visits in tree order and reports in link order | C_Scan | M_Sys | fold order along the links; reordering of outputs | **proved**.  |
| C03 | Deleting a link removes exactly that link and its descendants | C_Delete | M_Compose: `delete_subsystem` | accumulated index list = descendants, induction on topological order | **proved**. Deleting every link raises ValueError (stated as a theorem). |
| C04 | Deleting leaves what remains unchanged | C_Delete | M_Compose | re-indexing of every per-link list; counterexample for world geometries | **partial**. Everything is preserved except geometries attached to the world: the code drops them (refuted). |
| C05 | Injecting appends a re-indexed copy below the chosen link | C_Inject | M_Compose: `inject_system` | list algebra against a declarative specification (S_Inject) | **proved**. World geometries of the injected system move to the attachment link, whose inertia is recomputed; part of the spec injected. Mutation of the caller's joint_params dictionaries not modelled. |
| C06 | Delete undoes inject | C_Inject | M_Compose | composition of the two characterisations | **partial**. False with geometries on the world (refuted); exact otherwise. |
| C07 | System edits keep systems well formed | C_History | M_History: all edits as one command type | invariant by induction on histories | **partial**. Refuted as stated: change_link_name accepts a name already in use. With that excluded, every history of successful edits (injecting parsed systems) keeps the system parsed and well formed. The XML re-read inside change_joint_type for joints with init_joint_params is assumed to return a parsed system. |
| C08 | Removing IMUs | C_Delete | M_Compose: `make_sys_noimu` | via delete; exact success conditions | **partial**. 'works for every system' is false for IMUs on the world or below IMUs (refuted); exact conditions for success proved. |
| C09 | Re-anchoring computes the re-rooted tree | C_Morph | M_Morph: `_autodetermine_new_parents` | re-rooting specified by undirected edges; uniqueness of the rooted tree | **proved**. Full statement: exact re-rooted parent array for every connected tree and every anchor; several roots give a KeyError. |
| C10 | Morphing permutes links and rejects invalid trees | C_Morph | M_Morph: `morph_system`, identification and permutations | fuelled depth-first search proved total and complete on trees | **proved**. Full statement for every parsed system with at least one link (morphing an empty system fails in jnp.concatenate). |
| C11 | Morphing does not move bodies in the default configuration | C_Morph | M_Morph: `_new_transform1`, geometry compensation | laws of an arbitrary group of transforms, induction along the path | **proved**. Over any group of transforms (laws tg_*); holds even for several roots when all default joint transforms are the identity. |
| C12 | Morphing to the same parents changes nothing | C_Morph | M_Morph | fixed point of the permutation; counterexamples | **partial**. The statement is false of the code: links not numbered depth first are reordered, and with several roots each root receives the first root's joint (C12_same_parents_refuted). Proved for one root and depth-first numbering. |
| C13 | Changing a joint type is local | C_Joint | M_Compose: `_update_sys_if_replace_joint_type` | splitting and concatenation of slices | **partial**. Unknown names are silently ignored and default zeropoints are wrong for prefixed type names (refuted). Joint types with own parameters trigger an XML round trip, outside this theorem. |
| C14 | Replacing free joints by center-of-rotation joints | C_Joint | M_Compose: replacement of free by cor joints | case analysis over free joints | **proved**.  |
| C15 | Joint registry consistency | C_History | M_Registry: registries as dictionaries | state invariant over histories of calls | **partial**. Consistency after any call sequence is proved. 'A failing call leaves the registry as it was' is refuted for overwrite=True with a wrong number of motion columns and proved otherwise. |
| C16 | XML round trip | C_Load, C_Xml | M_Xml: abstract XML tree, both directions | depth-first round trip, attribute round trip, printing as faithful parameters | **partial**. Full round trip for every system the format can express (saveable), with Python's number printing/reading as explicit faithful parameters; identical when already depth first; a second round trip changes nothing. The statement is refuted for systems outside: world geometries, integration settings, 'cor' joints, missing model name are lost; C16_rest_survives says exactly the rest survives. C16_loaded: whatever document is loaded successfully, the system is a proper system (parsed). |
| C17 | Quaternion algebra | C_Math | M_Math | ring identities over R | **proved**. Over exact reals. |
| C18 | Transforms form a group | C_Math | M_Math | ring identities, unit quaternions | **proved**. Over exact reals, for unit rotations. |
| C19 | Power and kinetic energy do not depend on the frame | C_Math | M_Math | adjointness of spatial transforms, congruence of inertia | **proved**. Over exact reals, for unit rotations. |
| C20 | Link inertia | C_Math | M_Geom | parallel axis theorem, sums of squares | **proved**. Capsules need a positive radius (their volume is a divisor). |
| C21 | wrap_to_pi | C_Rot | M_Math | integer part of a real | **proved**. Over exact reals. |
| C22 | Axis-angle round trip | C_Rot | M_Math | real analysis of atan2/sin/cos | **proved**. The refuted theorem shows the tolerance is needed: rotations below 1e-8 become the identity. |
| C23 | Primary/residual rotation split | C_Rot | M_Math | projection minimises; half angle formulas | **proved**. For unit axes; the refuted theorem shows a longer axis gives a residual with a component along it. |
| C24 | Heading transfer | C_Rot | M_Math | action on the vertical axis | **partial**. Fails when q_to turns the vertical axis upside down (it has no heading); proved otherwise. The inclination half holds always. |
| C25 | Quaternion low-pass filter | C_Rot | M_Math | invariants of the recursion | **partial**. Length, unit norm and constants hold in both modes; starting at the first input fails with filtfilt=True. |
| C26 | Euler angles | C_Rot | M_Math | trigonometric identities | **proved**. Over exact reals. |
| C27 | Forward kinematics | C_Kin | M_Kin | induction over topological order against chain composition (S_Kin) | **proved**. Poses of forward kinematics are the compositions along the chain, defined independently (S_Kin.pose). |
| C28 | Inverse kinematics inverts forward kinematics | C_Kin | M_Kin, M_Joint | per-type inverse, then slices | **partial**. Proved for every joint type whose inverse kinematics works; free_2d raises TypeError and cor, saddle have none (refuted). Requires at least one link (otherwise concatenate raises). |
| C29 | Default states and unconstrained coordinates | C_State | M_Kin | per-type case analysis | **partial**. A quaternion whose entries are all within 1e-8 of zero is mapped to the zero quaternion (refuted); everything else proved. |
| C30 | Mass matrix | C_Mass | M_Dyn: CRBA | tree sums; kinetic energy as a quadratic form | **proved**. All trees of joints with known types; hypotheses: link transforms are rotations (as after forward kinematics of unit quaternions, fk_unit_transforms) and link inertias are symmetric. |
| C31 | Inverse dynamics is consistent with the mass matrix | C_Rnea | M_Dyn: RNEA | linearity in the acceleration, tree sums | **proved**. Stated for systems with at least one link (without links jnp.concatenate raises, C31_no_links). |
| C32 | Simulation step | C_Step | M_Dyn: `step` | integration per joint type; solver oracle | **proved**. Quaternions are normalised if they are not zero before the step and the sub-step is at most 1e8 seconds; success is proved for built-in joints with unit quaternion coordinates, for any linear solver. |
| C33 | Springs rest at their zero point | C_Spring | M_Dyn | evaluation at the zero point | **proved**. Within the tolerance 1e-8 of the zero point the quaternion spring force is exactly zero. |
| C34 | Accelerometer | C_Sens | M_Sens | second differences of samples | **proved**. n >= 1 and at least 3n samples; shorter trajectories are rejected (C34_too_short) |
| C35 | Gyroscope | C_Sens | M_Sens | axis-angle of neighbouring orientations; error bound by sin | **partial**. exact rates between 1e-7 rad and half a turn per compared pair; in general the error is at most 5e-8 rad per pair (C35_rate_error); slower rotations are read as zero (C35_slow_refuted) |
| C36 | Smoothing and delay make a causal sensor | C_Cond | M_Sens | window sums; causality by indices | **proved**. odd window > 1, as the code asserts |
| C37 | Random motion interpolation | C_Random | M_Random | monotonicity of cosine, intermediate values | **proved**. For every ascending sequence of times and every draw, cosine, and randomised cosine or linear, interpolation goes through the knots, is strictly monotone and onto between neighbours and constant afterwards; the drawn change of time is an increasing bijection of the unit interval; speed bound of the cosine interpolation. Other methods and bin counts are refused. |
| C38 | Range of motion is respected | C_Random | M_Random | loop invariants with oracle draws | **partial**. Angles are always in [-pi, pi] and never below ANG_0 - rom_halfsize; the upper limit ANG_0 + rom_halfsize holds if the lowest allowed speed is not positive and is refuted otherwise. Positions stay in range if the rejection search succeeds; refuted otherwise, because the last try is kept. The loops terminate; initial values are kept if T >= t_min >= Ts, refuted for T < t_min. |
| C39 | Batch distribution | C_Util | M_Util | number theory of divisors | **proved**.  |
| C40 | Generators deliver exactly the requested number of sequences | C_Gen, C_Util | M_Gen | counting through the call plan | **partial**. counts are proved for every accepted size; that every divisible size is accepted is refuted for sizes given per system |
| C41 | Epochs of the eager generator | C_Eager | M_Gen | permutations of the epoch | **proved**.  |
| C42 | NaN replacement | C_Util | M_Util | fuelled loop, exact termination condition | **partial**. termination is refuted when the row has no usable value and the default is unusable; proved under the stated guard |
| C43 | Dictionary union | C_Union | M_Util | dictionary algebra | **proved**.  |
| C44 | Hierarchical data keep their identity when saved | C_Hdf5 | M_Hdf5: tree with name-ordered groups | induction on data trees | **partial**. Every tree of arrays, lists, tuples, dicts and namedtuples is saved and comes back with the same content, and in the same order while lists have at most ten elements (C44_save_load); index loading and loading from several files give exactly the rows at the requested positions in increasing order (C44_load_indices, C44_load_multiple). Refuted: order of longer lists, positional order of namedtuples, OrderedDict, failing saves, names with a dot, order of and negative indices, namedtuples across files. |
| C45 | Split and recombination of recorded motion | C_Xs | M_Target | group laws, name lookup | **proved**. poses with unit quaternions; scale_xs and randomize_to_world_pos_rot are not modelled |
| C46 | PD control matches links by name | C_Dynsim, C_Pd | M_Pd | name lookup; difference quotients | **partial**. Proved for all pairs of systems whose common links have the same joint type: which links are actuated, with which reference rows and gains, zero torque on the reference (velocities as the controller differentiates them), clip limit, initial state, and the whole DynamicalSimulation pipeline. Refuted: joint types of equally named links are not compared; the velocity reference is zero at both ends and jumps at full turns, so with D control the torque on the reference need not be zero. |
| C47 | Simulated IMU attachments can be hidden again | C_Artifact | M_Artifact, M_Xml | composition of inject, round trip and delete characterisations | **partial**. C47_injected: for every saveable system with rigidly attached IMUs, injecting succeeds and adds exactly one sliding carrier per IMU (softened IMU links, moved geometries, everything else unchanged), written out and read back. C47_hidden: for such systems listed depth first and having a link that is not an IMU, hiding restores names, types, parents, order, per-link arrays and settings, and reports coordinates and poses name by name, an IMU with the pose of its own softly attached link. The unrestricted claim is false: an IMU on a moving joint is rejected, a non depth-first order is not restored, IMU geometries and inertia are lost, and a system of IMUs only cannot be hidden. |
| C48 | Training protocol | C_Loop | M_Train | invariant over the history of events | **partial**. Full protocol proved for every generator, step function, callback behaviour and kill time, over repeated runs; refuted as stated in two points: the very first batch is trained on without any callback having seen it, and an exception in a callback leaves callbacks and loggers unclosed. |
| C49 | Best-parameters queue | C_Queue | M_Train | insertion into a sorted queue | **proved**. For all insertion histories. Also proved: C49_unevaluated_refuted (what is saved on close may be parameters that no metric has seen). |
| C50 | Skipping large updates | C_Skip | M_Train | invariant of the skip counter | **proved**. For all update histories. Also proved: C50_nan_passes_refuted (the docstring's 'also skips NaNs and Infs' fails in the warm-up and after the allowed streak). |
| C51 | RING respects the graph | C_Ring | M_Ring | non-interference by induction over message rounds | **proved**. For every forest, all learned functions and all inputs; messages form a commutative monoid (real vectors). Also proved: C51_too_few_inputs_refuted (a wrong number of inputs is silently accepted because jax clamps indices). |
| C52 | Filter wrappers | C_Filter | M_Filter | map/batch commutation; feature bookkeeping | **partial**. Batched and unbatched application agree in both directions (success and values) for every filter, wrapper and the two shipped stacks; pass-through and exact feature changes are proved. Refuted: ScaleX moves dt in front of gyr (sorted keys) for ten features; saving drops the network's name, also on the object in memory; a filter with the default load hook comes back as None. |
| C53 | Knee joint range limits | C_Suntay | M_Suntay | monotonicity and bounds of the clamps | **partial**. All clamps and drawn functions stay within the limits for every real input when min<max and the data with the outer bounds are not all equal; refuted without these conditions (division by zero gives NaN), for centred polynomials, for constant values, and for the remembered centre. |
| C54 | All anchor combinations | C_Rand | M_Rand | product of anchors, re-anchoring of C09 | **proved**. For every parsed system with at least one link, every anchor list and every iteration order of Python sets: one system per combination of anchors, same links, roots exactly the chosen anchors, shapes and marker offsets kept, no new edges. |
| C55 | Subsystem lookup | C_Lookup | M_Sys, M_Rand | graph search = transitive closure | **proved**. Lookup of the links below a link (System.children, findall_bodies_subsystem and the traversal of randomize_anchors) returns exactly the proper descendants, once each, for every well-formed tree; unknown names raise ValueError. |
| C56 | Safe inverse functions | C_Rot | M_Math | case analysis and derivatives | **partial**. The differentiation rule of safe_arcsin returns the arc cosine as primal value; everything else holds. |
| C57 | Joint velocities are derivatives of joint poses | C_Deriv | M_Custom, M_Joint, M_Dyn | `derivable_pt_lim` of each joint transform | **partial**. The motion subspace is the derivative of the pose for rx, ry, rz, px, py, pz, p3d, frozen, spherical and rr. It is refuted for free, free_2d and cor (translation rates are taken as child-frame velocities) and for saddle, rr_imp and rsaddle (first axis not carried by the second rotation); for these the true velocity is proved, with an exact condition for agreement. The integrator is proved to follow the velocity up to 1e-8 rad/s. Suntay knee joint not covered. |
| C58 | Training targets | C_Target | M_Target | chain composition along the path to the root | **proved**. root_incl, root_full and rel_pose over well-formed systems; unknown names are reported |
| C59 | Physical IMU attachment simulation | C_Cond | M_Sens | recurrence as second-order system | **proved**.  |
| C60 | Motion configuration overwrites | C_Config | M_Config | dictionary of draw functions; histories of overwrites | **partial**. Overwrites: an overwrite succeeds exactly for known types without a repeated field, changes only that type (C60_overwrite, C60_draw, C60_history for all call sequences), subsystem overwrites rename exactly the non-frozen links at or below the root (C60_subsystem). Refuted parts: rejected calls leave traces, unknown field names are accepted, a second subsystem overwrite is silently ignored, user types without P gains, rest configs keep cor motion and per-type overwrites, joined configs of unhashable/varying values. |
| C61 | Forward dynamics inverts inverse dynamics | C_Fwd | M_Dyn | mass matrix positive definite; solver contract | **proved**. The linear solver is an oracle with the contract A X = I on symmetric positive definite matrices; C61_solver_exists shows that the contract can be met. The approximate inverse (mass_mat_iters > 0) is not covered. |
| C62 | IMU simulation as a whole | C_Cond | M_Sens | composition of C34–C36 and C59 | **proved**. 3 n <= number of samples; odd window > 1; random draws are arguments |
| C63 | Sampling-rate randomisation keeps the number of time steps | C_Hz | M_Rand: sampling rates per configuration | rounding of durations, list algebra | **partial**. Proved when all configurations have the same duration; refuted otherwise, because the assertion on the durations only tests that the list is not empty. |
| C64 | Knee joint geometry | C_Knee | M_Suntay | rotation matrices, trace formula | **proved**. Over the reals; quat_from_3x3 divides by the real part, so rotations by half a turn are excluded; C64_default_range shows the default configuration never reaches them. |
| C65 | Randomly drawn coordinates are coordinates of the system | C_Draw | M_Draw | per joint type draws, tree scan with keys | **partial**. Proved for every fair generator, key, well-formed system of built-in joint types and sensible configuration (C65_valid); exact description per link (C65_each); prefix independence (C65_prefix). Refuted: a planar joint's y and z are drawn from the ranges of x and y; without a given number of samples a frozen joint makes drawing fail when T is not a multiple of dt. Missing: positions stay in range only under the hypothesis that the bounded search succeeds (C65_ranges_partial). |
| C66 | Links, sequences and sensors are randomised independently | C_Stream | M_Draw, M_Setup, M_Sens, M_Rcmg: keys as paths of splits (S_Stream) | prefix-freeness of key paths | **proved**. keys are idealised as paths of splits; user functions are assumed to draw only with the key they are given |
| C67 | Randomising a system changes only what it should, within the declared limits | C_Setup | M_Setup | per link description of drawn transforms | **partial**. Rotations: proved unless all four normal draws of a link vanish while full turns are allowed; for that event the code stores a zero quaternion (C67_rotations_refuted). Everything else is proved for every draw. |
| C68 | Training data: which features and targets appear, under which names, and in which order | C_Layout | M_Rcmg | exact entries of nested dictionaries, sorting | **partial**. Proved for every option set, with the exact entries, their values and the array layout; C68_total shows data are produced whenever sensors and joint axes can be computed. Refuted where the code fails: a scalar time step cannot be flattened together with sampling rates (C68_rates_refuted), sampling rates with a user finalizer stop with an assertion (C68_rates_finalize_refuted), root orientations or numbers asked for alone use an undefined variable (C68_undefined_refuted), and links named like numbers collide when numbered (C68_numerals_refuted). Guarded hypotheses: no link named dt or like a number. Worked case in X_Layout.v. |
| C69 | Reported joint axes are the axes about which the joints turn | C_Axes | M_Rcmg, M_Sens: joint axes | eigenvector of sums of squares up to sign | **partial**. Zero axes for links to the world, exact axes from the system, exact axes up to sign from motion, noise within seven degrees and constant flips are proved for all systems and recordings. Estimation from motion is refuted in two cases: a hinge at rest at the first time whose later rotations cancel yields zero divided by zero (C69_rest_refuted); a hinge whose offset from the parent is rotated yields another axis (C69_tilted_refuted). |
| C70 | Options handed to a data generator are used as given and left alone | C_Build, C_Soft | M_Build: options on a heap of objects | footprint argument over programs | **partial**. Proved for all programs over a heap of option objects, except that the list of motion configurations is not copied: C70_configs_refuted shows that changing the list in place changes generators built earlier. C70_soft says exactly which systems can be simulated once IMUs are attached softly. |
| C71 | Training data saved to disk | C_Disk | M_Disk: files as a finite map, prefixes of operation lists as crash points | invariant over stopping points | **partial**. Proved for prefixes without a dot, for every stopping point. Refuted: overwrite=False never protects a file, because the name that is checked lacks the extension of the file that is written (C71_overwrite_refuted); a prefix with a dot makes all sequences overwrite one file (C71_dots_refuted); several folders are paired by directory listing order, which the operating system may choose differently per folder (C71_pairing_refuted). |
| C72 | Inverse kinematics of an end effector reports an honest, feasible best solution | C_Ee | M_Ee | optimiser as arbitrary function; argmin | **proved**. optimiser is an arbitrary function of objective and start; validity assumes that no quaternion in the optimiser's parameters is within 1e-8 of zero (see C29) |
| C73 | Stopping, evaluating and saving a training run with callbacks | C_Best, C_Callbacks | M_Callbacks | invariants over callback histories | **partial**. Stopping, checkpointing, saving and evaluating are proved for all callback lists and histories. Refuted: stopping only after k consecutive large gradients (proved once k-1 windows were seen), keeping the best tracked metric in the presence of NaN, and saving when the file exists. Uploads, warnings and cleanup of files are not modelled. |
| C74 | A training step is gradient descent on the mean error, window by window, for any number of devices | C_TrainStep | M_TrainStep | mean of means, `derivable_pt_lim` of finite sums, uniqueness of gradients | **partial**. jax.grad is an oracle assumed to return the partial derivatives where they exist; the filter is given per sequence. The refuted parts of the statement are proved false, everything else is proved. |
| C75 | Starting, stopping, saving and resuming a training run | C_TrainFn | M_TrainFn | the loop as a run of steps; save, stop and resume as invariants over the number of episodes | **partial**. Everything but the refuted parts is proved for all options and callbacks (user callbacks are those of callbacks.py, newly constructed). Uploads are not modelled; file names are taken without dots. |
| C76 | Normalising network input | C_Norm | M_Norm | sampling by a fold over batches; means and variances as finite sums; affine inverse | **partial**. Proved over the real numbers; the statement that every training generator can be normalised is refuted. |
| C77 | What loggers record | C_Log | M_Log | induction over the nested metrics; the history of a key as a filter of the calls | **partial**. Values that are lists or tuples, uploads of files and the environment log are not modelled; three parts are refuted. |
| C78 | Where and how geometries are drawn | C_Mesh, C_Render | M_Render | solids as point sets; images under rigid motions; mesh facts by arithmetic modulo the number of columns | **partial**. Pixels are not modelled; the meaning of the backends' primitives is their documented one. Three parts of the property are refuted (axis of cylinders and capsules in MuJoCo, box dimensions and capsule length in vispy). |
| C79 | Which frames, scene and bodies render uses | C_Scene | M_Render | induction over the calls with the remembered scene as invariant; grouping by a fold over the sorted geometries | **partial**. Building and drawing a scene are parameters (they may raise). Refuted: a failing call repeated does not fail but uses an earlier scene. |
| C80 | What render_prediction shows | C_Predict | M_Predict | the pose algebra of C45 (zip/unzip) and the composition theorem of inject_system | **partial**. Positive parts proved in full; the three refuted sentences are contradicted by theorems. |
| C81 | Scaling motions and moving them in the world (sim2real) | C_Scale | M_Scale | scan over links as an indexed map; axis-angle algebra for the scaled turn; a counterexample beyond half a turn | **partial**. Positive parts proved in full; the refuted sentence is contradicted by a theorem. |
| C82 | Episodes of the gymnasium environment | C_Gym | M_Gym | episodes as runs of steps with the generator's sequences as state; the filter's reset state as invariant; counterexamples from the reward's range and picture calls | **partial**. Positive parts proved in full; the refuted sentences are contradicted by theorems. |
| C83 | Validation during training covers the whole validation set | C_EvalXy | M_EvalXy | expand and merge of batches are inverse (C39); dictionary by distinct names | **partial**. Positive parts proved in full for filters that treat the sequences of a batch separately; the refuted sentence is contradicted by a theorem. |
| C84 | Batches from a folder of files | C_Torch | M_Torch | induction over the sampler with the batch under construction as accumulator; calls counted epoch by epoch | **partial**. Positive parts proved in full; the refuted sentence is contradicted by a theorem. |
| C85 | Setting the number of host devices | C_Flags | M_Flags | induction over the characters with the scan state (inside a match) as generalised index; words of the result by inversion of join and split | **partial**. Positive parts proved in full; the refuted sentence is contradicted by a theorem. |
| C86 | The iterative inverse of the mass matrix | C_Approx | M_Dyn (inv_approximate) | the residual squares in each iteration (matrix algebra); submultiplicative Frobenius norm; counterexample for the start value | **partial**. Positive parts proved in full over the real numbers; the refuted sentence is contradicted by a theorem. |
| C87 | Networks stay bounded for ever, and RNNO v1 works online | C_Net | M_Net | invariants of one cell lifted through stack, message passing and time (induction over the sequence); compositional bounds of layers; a geometric bound for the memory; an explicit divergent LSTM | **partial**. Positive parts proved in full; that the memory is bounded without a bound on the measurements is refuted by a theorem. |
| C88 | The inertia of every geometry is that of the solid it describes | C_Solid | M_Geom | explicit primitives for all quadratic polynomials over boxes and bodies of revolution; expansion of the velocity field in body coordinates; uniqueness of the integral | **proved**. Volume integrals are iterated Newton integrals (cylindrical coordinates for bodies of revolution); C88_unique, C88_region and C88_coordinates show that these integrals are well defined and over the right points. |
| C89 | Dynamics and kinematics agree: work is the change of energy | C_Work | M_Kin, M_Joint, M_Dyn | derivatives of composed moving frames and of the transport of spatial vectors; induction over the tree for velocities and accelerations; the virtual work theorem (C31), kinetic energy (C30), equations of motion (C61); mean value theorem | **proved**. joint types whose velocities are exact by C57; free, cor and saddle joints are excluded because C57 refutes their velocities; ball joints are excluded from the statement on springs |
| C90 | A body on a free joint falls along gravity | C_Fall | M_Dyn, M_Kin (on one free body) | symbolic evaluation of inverse dynamics on one link; solution of the equations of motion (C61) by positive definiteness; induction over the sub-steps; counterexample from the general world motion | **partial**. Free fall is proved in closed form for every orientation, and along gravity when the joint rotation preserves gravity; the sentence for every orientation is refuted (a body turned upside down rises). |
| C91 | Random motion of joints with random axes stays within its range | C_CustomDraw | M_CustomDraw | the angle ranges of C38/C65 carried through scaling and centring; an explicit swinging trajectory as counterexample | **partial**. Ranges, start values, zero mean and twice the bound are proved; that the residual angle stays within the given bound is refuted. |
| C92 | The library's global state over a process | C_Startup | M_Startup | frame conditions of registrations (C60) composed over setup; induction over the history with the trace of results; three computed processes as counterexamples | **partial**. Consistency, identity and frame are proved for all histories; preservation of changed motion, protection of built-in joint types and atomicity of failing calls are refuted. The curve factories of the suntay joint may raise any exception. |
| C93 | What ring.RING hands out | C_Factory | M_Factory | the configuration read off the keyword arguments (lookup after update); the wrappers' equations (C52) composed for each choice; computed counterexamples | **partial**. Proved for all intervals, keyword arguments, networks and inputs. Two sentences a user may expect are refuted: at 100 Hz it matters whether the interval is an argument or in the data, and a misspelt keyword argument is ignored. That the 100 Hz parameter file is for 9 features is a hypothesis (the file is not modelled). |
| C94 | Orientation errors are distances and add up along the chain | C_Drift | M_Math, M_Predict | Cauchy-Schwarz and the addition theorem of the cosine for the triangle inequality; induction over the chain of links with the description of the shown poses (C80); a two-link counterexample | **partial**. Proved for all unit quaternions, systems, recordings and predictions. The bound by the largest error of the predictions is refuted by a system of two links. |
| C95 | A recording can be rebuilt from its simulated IMU | C_Strap | M_Sens, M_Math | a reading times the sampling time is the rotation vector of the step (C22), so dead reckoning undoes it; induction over samples with the triangle inequality (C94); positions by inverting the second difference (C34); an explicit alternating trajectory refutes the second-order case | **partial**. Dead reckoning from the simulated readings is proved for all trajectories. Refuted for second_order=True (C95_second_order_refuted). Positions: for noise-free readings with n = 1, smoothing off. |
| C96 | Systems as files and texts: what is saved is what is loaded | C_Create | M_Create, M_Xml, M_Disk | the round trip of element trees (C16) for every seed, the laws of file name endings (C71) and of dictionaries; general theorems for the two false sentences and a one-joint robot that meets their conditions | **partial**. Proved for names ending in .xml and for texts; the sentences about other names and about the seed of create are refuted in general (C96_other_ending_refuted, C96_seed_refuted). |
| C97 | Cameras and lights of a rendered scene over the life of a program | C_SceneArgs | M_SceneArgs | dictionaries on a heap; an invariant linking the remembered scene to the present contents of the remembered dictionaries, by induction over programs; a general theorem and a program for the false sentences | **partial**. Proved for programs that do not change a dictionary after use; the sentences about changed dictionaries and about the caller's object are refuted in general. |

## 4. What is modelled and what is not

| file in `/repo/src/ring` | model | not modelled |
|---|---|---|
| base.py | M_Sys, M_Geom, M_Math, M_Kin, M_History, M_Create | pickling, rendering options, pretty printing; pytree plumbing |
| algebra.py, spatial.py, maths.py | M_Math | batching by `vmap` (functions are per element) |
| algorithms/_random.py | M_Random | |
| algorithms/jcalc.py | M_Registry, M_Joint, M_Config, M_Draw | |
| algorithms/custom_joints/* | M_Custom, M_CustomDraw, M_Suntay | the draws of the axes |
| \_\_init\_\_.py | M_Startup (setup), M_Factory, M_Filter (RING) | the contents of the parameter files |
| algorithms/dynamics.py | M_Dyn | integrators other than semi-implicit Euler do not exist |
| algorithms/kinematics.py | M_Kin, M_Ee | the optimiser itself (any function) |
| algorithms/sensors.py | M_Sens, M_Target, M_Rcmg | |
| algorithms/generator/* | M_Gen, M_Build, M_Rcmg, M_Setup, M_Artifact, M_Pd, M_Disk | progress bars, printing; grain data loaders |
| io/xml/* | M_Xml, M_Create | the text syntax of XML (documents are trees), number printing (faithful parameters) |
| sys_composer/* | M_Compose, M_Morph, M_History | |
| sim2real/sim2real.py | M_Target, M_Scale | |
| ml/base.py, ml/ringnet.py, ml/rnno_v1.py | M_Filter, M_Ring, M_Net | the values of the weights (arbitrary) and their initialisation |
| ml/callbacks.py | M_Callbacks, M_Train, M_EvalXy | uploads, warnings, clean-up of files |
| ml/training_loop.py, ml/optimizer.py | M_Train | optax transformations (arbitrary functions) |
| ml/train.py | M_TrainStep, M_TrainFn, M_Callbacks | `jax.grad` (oracle with the contract "partial derivatives where they exist") |
| ml/ml_utils.py | M_Log (loggers), M_TrainStep (link names) | list values, file uploads, the log of the environment, plots, export to tensorflow and onnx |
| utils/batchsize.py, utils.py, hdf5.py, path.py, dataloader.py, randomize_sys.py | M_Util, M_Hdf5, M_Disk, M_Rand | |
| utils/normalizer.py | M_Norm | |
| utils/backend.py | M_Flags | |
| utils/dataloader_torch.py | M_Torch | collation of batches, worker processes |
| utils/register_gym_envs/* | M_Gym | registration with gymnasium |
| utils/colab.py | | everything |
| rendering/* | M_Render, M_Predict, M_SceneArgs | the pixels (MuJoCo and vispy), the text formatting of the XML, the sphere and tube meshes of vispy, the look of cameras and lights |

Simplifications that hold throughout:

* JAX tree functions return dictionaries with sorted keys; dictionaries are association lists, and sorting is modelled only
  where it can be observed (M_Rcmg, M_Filter, M_Hdf5).
* Values stored inside option dictionaries are treated as immutable, except in M_Build, where option objects live on a heap.
* File names have no directory separators; the folder of checkpoints is a separate map from the folder of parameters.
* Filters are given per sequence; the batch dimension is a list of sequences.
* Transforms in C11 range over any group with the stated laws; transforms of unit quaternions are an instance (C18).

## 5. Trusted base

* The Coq 8.16.1 kernel, including its `vm_compute` machine (used by closed examples).
* The hand translation from Python to Gallina, described in sections 1 and 4.
* No axioms of our own. The only axioms are those of the Coq standard library:
  * F = `ClassicalDedekindReals.sig_forall_dec`
  * N = `ClassicalDedekindReals.sig_not_dec`
  * E = `FunctionalExtensionality.functional_extensionality_dep`
  * C = `Classical_Prop.classic`
* A checker that lists the parameters of every loaded library module also reports constants sealed behind
  standard-library module signatures. They are definitions inside the standard library, not assumptions of a theorem, and
  `Print Assumptions` does not list them: `Rdefinitions.RbaseSymbolsImpl.{R, R0, R1, Rplus, Rmult, Ropp, Rlt, Rabst, Rrepr,
  Rquot1, Rquot2, R0_def, R1_def, Rplus_def, Rmult_def, Ropp_def, Rlt_def}`, `Rdefinitions.RinvImpl.{Rinv, Rinv_def}`,
  `ssr.ssrunder.Under_rel.{Under_rel, Under_relE, Under_rel_from_rel, Over_rel, over_rel, over_rel_done, under_rel_done}`.

### What `Print Assumptions` lists for each theorem of the manifest

**Closed under the global context** (211 theorems):
`C01_scan_slices`, `C01_cut_unique`, `C02_scan_complete`, `C02_scan_rejects`, `C02_outputs_in_link_order`, `C03_delete_exact`, `C03_delete_total`, `C03_delete_unknown`, `C03_delete_everything_raises`, `C04_delete_preserves_partial`, `C04_world_geometries_refuted`, `C04_floor_lost_refuted`, `C05_inject`, `C05_inject_rejects`, `C06_delete_undoes_inject_partial`, `C06_floor_refuted`, `C07_edits_keep_wf_partial`, `C07_run_keeps_wf`, `C07_edits_keep_wf_refuted`, `C08_noimu_partial`, `C08_noimu_total`, `C08_noimu_raises_refuted`, `C09_new_anchor_reroots`, `C09_rerooted_unique`, `C10_morph_permutes`, `C10_rejects_cycles`, `C10_rejects_new_edges`, `C10_rejects_unknown`, `C10_rejects_wrong_length`, `C10_joints_used_once`, `C10_new_anchor`, `C11_geometries_do_not_move`, `C11_poses_exist`, `C12_same_parents_partial`, `C12_same_parents_refuted`, `C13_change_local_partial`, `C13_change_total`, `C13_freeze`, `C13_unfreeze`, `C13_unfreeze_rejects`, `C13_unknown_name_refuted`, `C13_default_zeropoint_refuted`, `C14_cor`, `C15_registry_consistent`, `C15_builtin_consistent`, `C15_success`, `C15_failure_leaves_unchanged_partial`, `C15_failure_leaves_unchanged_refuted`, `C15_params_scope`, `C39_product`, `C39_accepts`, `C39_expand`, `C39_merge`, `C39_merge3`, `C40_accepts_total`, `C40_accepts_list`, `C40_lazy`, `C40_to_list`, `C40_count`, `C40_succeeds`, `C40_primes`, `C40_prime_factor`, `C40_primes_unique`, `C40_gcd`, `C40_list_sizes_refuted`, `C41_epochs`, `C41_others_unchanged`, `C41_too_few`, `C42_result`, `C42_terminates`, `C42_default_usable`, `C42_all_nan`, `C42_terminates_refuted`, `C43_union`, `C43_no_overwrite`, `C43_fails_iff`, `C44_save_load`, `C44_no_overwrite`, `C44_load_indices`, `C44_load_multiple`, `C44_order_refuted`, `C44_named_refuted`, `C44_ordered_dict_refuted`, `C44_failed_save_refuted`, `C44_name_refuted`, `C44_index_order_refuted`, `C44_negative_refuted`, `C44_multiple_named_refuted`, `C44_load_one`, `C44_load_outside`, `C44_load_length`, `C48_protocol`, `C48_exception`, `C48_kill`, `C48_signals`, `C48_seed_cycle`, `C48_first_batch_refuted`, `C48_close_on_error_refuted`, `C49_queue_best`, `C49_best_unique`, `C49_capacity_zero`, `C49_last_params`, `C50_skip`, `C50_skipped_no_effect`, `C51_step`, `C51_local_step`, `C51_local`, `C51_online`, `C51_equivariant`, `C51_batch`, `C52_of_unbatched`, `C52_network`, `C52_wrapper`, `C52_save_load`, `C52_name`, `C52_save_name_refuted`, `C52_save_side_effect_refuted`, `C52_save_user_refuted`, `C54_randomize_anchors`, `C54_combinations`, `C55_children`, `C55_subsystem`, `C55_subsystem_indices`, `C55_unknown`, `C55_find_children`, `C60_replace`, `C60_overwrite`, `C60_draw`, `C60_history`, `C60_subsystem`, `C60_register`, `C64_find_joint`, `C65_each`, `C65_prefix`, `C65_refused`, `C66_links`, `C67_parameters`, `C68_segments`, `C68_arrays`, `C71_folder`, `C71_crash`, `C71_succeeds`, `C71_reload`, `C71_paired`, `C71_pickle`, `C71_overwrite_refuted`, `C71_dots_refuted`, `C71_pairing_refuted`, `C74_window_length`, `C74_link_names`, `C74_window_refuted`, `C75_resume_data_refuted`, `C75_loggers`, `C75_loggers_refuted`, `C76_sample`, `C77_names`, `C77_distinct`, `C77_log`, `C77_fails`, `C77_history`, `C77_finite`, `C77_wandb`, `C77_close_without_path`, `C77_collision_refuted`, `C77_alignment_refuted`, `C77_save_refuted`, `C78_capsule_faces`, `C78_capsule_closed`, `C79_frames`, `C79_frames_total`, `C79_refused`, `C79_step_zero`, `C79_scene`, `C79_bodies`, `C79_camera_refused`, `C79_target`, `C79_stale_refuted`, `C79_stale_general`, `C79_index_below_refuted`, `C80_geometries`, `C80_world_geometries`, `C80_floor_twice_refuted`, `C82_unreset`, `C83_validation`, `C83_default_names`, `C83_uneven`, `C83_lengths`, `C83_names_refuted`, `C84_calls`, `C84_epochs`, `C84_folder`, `C84_empty`, `C84_empty_refuted`, `C85_flags`, `C85_only`, `C85_override`, `C85_reading`, `C85_words_refuted`, `C87_celltype`, `C92_setup`, `C92_default`, `C92_history`, `C92_builtin_refuted`, `C92_atomic_refuted`, `C92_example`, `C97_meaning`, `C97_scene`, `C97_changed_refuted`, `C97_argument_refuted`, `C97_settled`, `C97_example`.

**Axioms F** (26 theorems):
`C27_poses`, `C27_pose_unique`, `C27_total`, `C27_local`, `C36_delay`, `C45_xs_from_raw`, `C45_raw_unknown`, `C45_match_unknown`, `C46_torque`, `C46_reference`, `C46_gains_refused`, `C52_scale_consistent`, `C52_add_ts_consistent`, `C52_scale_x`, `C52_add_ts_none`, `C52_add_ts_refuses`, `C58_rel_pose_unknown`, `C60_failing_effect_refuted`, `C60_subsystem_user_type_refuted`, `C79_colors`, `C80_missing_refuted`, `C80_clash_refuted`, `C81_randomize_one`, `C81_refused`, `C82_reset`, `C82_render_first`.

**Axioms E, F** (86 theorems):
`C17_quat_inv`, `C17_rotate_linear`, `C18_transform_group`, `C18_transform_acts`, `C18_motion_compose`, `C18_motion_is_velocity_field`, `C19_power_invariant`, `C19_inertia_compatible`, `C19_as_matrix`, `C19_cross`, `C20_body_energy`, `C27_points`, `C30_mass_matrix`, `C30_kinetic_energy`, `C30_positive_semidefinite`, `C30_body_velocities`, `C31_virtual_work`, `C31_affine`, `C31_gravity`, `C31_rest`, `C34_reading`, `C34_constant_acceleration`, `C34_uniform_motion`, `C34_too_short`, `C34_world_frame`, `C36_moving_average`, `C36_constant`, `C36_range`, `C36_causal`, `C37_bounds`, `C37_change_of_time`, `C38_position_step`, `C45_unzip`, `C45_zip_unzip`, `C45_zip`, `C45_delete_to_world`, `C45_eps_frame`, `C45_match`, `C50_norm`, `C52_scale_order_6_9`, `C52_scale_order_refuted`, `C52_add_ts`, `C53_clip`, `C53_smoothclamp`, `C53_scale_positive`, `C53_center_reused_refuted`, `C53_constant_refuted`, `C58_rel_pose`, `C59_count`, `C59_rest`, `C59_causal`, `C59_world_frame`, `C59_spring_damper`, `C60_feasible`, `C60_nomotion`, `C60_find_interval`, `C60_joined_value`, `C61_solver_exists`, `C63_randomize_hz_partial`, `C63_different_durations_refuted`, `C67_positions`, `C68_numerals_refuted`, `C74_step`, `C74_accepts`, `C74_devices`, `C74_calls`, `C74_eval`, `C74_loss_refuted`, `C74_batchsize_refuted`, `C76_order`, `C78_mujoco_placed`, `C78_mujoco`, `C78_rounding`, `C78_mujoco_rod`, `C78_mujoco_cylinder_refuted`, `C78_vispy_placed`, `C78_vispy`, `C78_vispy_box`, `C78_vispy_box_refuted`, `C78_vispy_capsule`, `C78_capsule_refuted`, `C78_box_mesh`, `C80_prediction`, `C81_randomize`, `C86_square`, `C96_written`.

**Axioms E, F, N** (105 theorems):
`C16_roundtrip`, `C16_same`, `C16_twice`, `C16_rest_survives`, `C16_lost_refuted`, `C16_world_geoms`, `C16_loaded`, `C17_quat_mul_monoid`, `C17_rotate_rotation`, `C17_matrix_roundtrip`, `C20_link_inertia`, `C20_parse_inertia`, `C21_wrap_to_pi`, `C21_wrap_unique`, `C22_rot_axis_unit`, `C22_rot_axis_unit_any`, `C26_euler_to_quat`, `C26_quat_euler`, `C37_refused`, `C38_angle_step`, `C47_injected`, `C47_hidden`, `C47_moving_imu_refuted`, `C47_order_refuted`, `C47_geometries_refuted`, `C47_only_imus_refuted`, `C52_no_graph_consistent`, `C52_no_graph`, `C52_normalized`, `C52_no_graph_output`, `C53_network`, `C56_safe_norm`, `C57_drawn_axes`, `C60_join_refuted`, `C60_unknown_field_refuted`, `C60_register_refuted`, `C60_subsystem_twice_refuted`, `C62_butterworth_count`, `C62_butterworth_too_short`, `C62_butterworth_world_frame`, `C62_butterworth_constant`, `C64_rotation`, `C64_default_range`, `C64_translation`, `C64_projections`, `C66_builtin_draws`, `C69_estimate`, `C70_untouched`, `C70_accepts`, `C70_as_given`, `C70_alone`, `C70_history`, `C70_configs_refuted`, `C70_soft`, `C73_stops`, `C73_episode_limit`, `C73_checkpoint`, `C73_saved`, `C73_best`, `C73_best_one`, `C73_called`, `C73_keeps`, `C73_average`, `C73_eval_hold`, `C73_consecutive_partial`, `C73_consecutive_refuted`, `C73_nan_gradient_refuted`, `C73_nan_metric_refuted`, `C73_existing_file_refuted`, `C74_eval_devices_refuted`, `C75_run`, `C75_episodes`, `C75_resume`, `C75_saved`, `C75_not_saved`, `C75_track_without_path_refuted`, `C75_single_episode_refuted`, `C75_second_run_refuted`, `C76_normalizer`, `C76_four_axes_refuted`, `C78_axes`, `C78_capsule_mesh`, `C78_capsule_tips`, `C86_converges`, `C86_error`, `C86_start_refuted`, `C87_states`, `C87_outputs`, `C87_norm`, `C87_v1_online`, `C87_v1_node`, `C87_v1_outputs`, `C88_inertia`, `C88_link`, `C88_parse`, `C88_region`, `C92_keeps_changes_refuted`, `C96_from_xml`, `C96_create`, `C96_text`, `C96_saved`, `C96_other_ending_refuted`, `C96_same_file`, `C96_seed_refuted`, `C96_example`.

**Axioms C, E, F, N** (203 theorems):
`C22_quat_roundtrip`, `C22_quat_roundtrip_all`, `C22_axis_angle_roundtrip`, `C22_angle_recovered`, `C22_angle_recovered_all`, `C22_angle_error`, `C22_constant_axis`, `C22_exact_refuted`, `C23_project_split`, `C23_project_minimal`, `C23_nonunit_axis_refuted`, `C24_transfer_heading_partial`, `C24_inclination`, `C24_upside_down_refuted`, `C25_lowpass`, `C25_constant`, `C25_start_partial`, `C25_step`, `C25_filtfilt_start_refuted`, `C26_quat_to_euler_inverts`, `C26_rebuild`, `C28_ik_inverts_fk_partial`, `C28_other_joints_refuted`, `C29_to_q_valid_partial`, `C29_to_q_idempotent`, `C29_zero_quaternion_refuted`, `C29_default_state`, `C29_create_given`, `C32_next_state`, `C32_substeps`, `C32_rejects`, `C32_total`, `C33_quaternion`, `C33_zero_at_zeropoint`, `C33_force`, `C35_reading`, `C35_constant_orientation`, `C35_world_frame`, `C35_rate_partial`, `C35_rate_error`, `C35_slow_refuted`, `C37_cosine`, `C37_randomised`, `C37_speed`, `C38_angle_range`, `C38_halfsize`, `C38_halfsize_lower`, `C38_angle_start`, `C38_angle_still`, `C38_position_partial`, `C38_position_total`, `C38_position_still`, `C38_turns_back`, `C38_halfsize_refuted`, `C38_position_refuted`, `C38_start_refuted`, `C46_zero_on_reference`, `C46_initial`, `C46_initial_missing`, `C46_unroll`, `C46_dynamical_simulation`, `C46_endpoint_refuted`, `C46_full_turn_refuted`, `C46_type_mismatch_refuted`, `C46_init_refused`, `C46_default_gains`, `C52_heading_consistent`, `C52_lpf_consistent`, `C52_RING_consistent`, `C52_RNNO_consistent`, `C52_heading_none`, `C52_heading`, `C52_lpf`, `C52_lpf_detects`, `C52_ring_input`, `C52_ring_lowpass`, `C52_rnno_raw`, `C52_rnno_quats`, `C53_restrict`, `C53_sigmoidclamp`, `C53_minmax`, `C53_sigmoid`, `C53_unknown_method`, `C53_flexion`, `C53_gaussian_process`, `C53_polynomial`, `C53_polynomial_centered_partial`, `C53_equal_limits_refuted`, `C53_constant_data_refuted`, `C53_polynomial_centered_refuted`, `C56_jvp_partial`, `C56_arcsin_primal_refuted`, `C57_exact_joints`, `C57_free_velocity`, `C57_cor_velocity`, `C57_saddle_velocity`, `C57_rr`, `C57_rr_imp_velocity`, `C57_rsaddle_velocity`, `C57_types`, `C57_plain_names`, `C57_integrator`, `C57_free_refuted`, `C57_free_2d_refuted`, `C57_cor_refuted`, `C57_saddle_refuted`, `C57_rr_imp_refuted`, `C57_integrator_exact_refuted`, `C58_root`, `C58_root_unknown`, `C58_inclination`, `C60_nomotion_cor_refuted`, `C60_nomotion_overwrites_refuted`, `C61_equations_of_motion`, `C61_solvable`, `C61_equilibrium`, `C62_imu_total`, `C62_imu_world_frame`, `C65_valid`, `C65_unequal`, `C65_ranges_partial`, `C65_frozen_refuted`, `C65_planar_refuted`, `C66_sequences`, `C66_sensors`, `C67_rotations`, `C67_attachments`, `C67_attachments_refused`, `C67_rotations_refuted`, `C68_sensors`, `C68_sequence`, `C68_total`, `C68_generator`, `C68_flat`, `C68_rates_refuted`, `C68_rates_finalize_refuted`, `C68_undefined_refuted`, `C69_from_system`, `C69_from_motion`, `C69_hinge`, `C69_simulated`, `C69_rest_refuted`, `C69_tilted_refuted`, `C72_residual`, `C72_best_start`, `C72_rejects`, `C72_feasible`, `C72_zero_iff_reached`, `C72_improves`, `C72_succeeds`, `C81_scale`, `C81_default`, `C81_links_refused`, `C81_one`, `C81_large_angle_refuted`, `C82_reward`, `C82_episode`, `C82_oracle`, `C82_seed`, `C82_render`, `C82_reward_range_refuted`, `C82_picture_refuted`, `C82_picture_history_refuted`, `C86_forward`, `C87_memory`, `C87_memory_refuted`, `C88_unique`, `C88_coordinates`, `C89_velocity`, `C89_power`, `C89_simulation`, `C89_passive`, `C90_free_fall`, `C90_world`, `C90_upright`, `C90_falls_down_refuted`, `C90_example`, `C91_rr`, `C91_rsaddle`, `C91_rr_imp`, `C91_bound_refuted`, `C91_example`, `C93_success`, `C93_warns`, `C93_network`, `C93_features`, `C93_given_or_in_data`, `C93_batch`, `C93_unknown_keyword`, `C93_same_rate_refuted`, `C93_misspelt_refuted`, `C93_example`, `C94_distance`, `C94_measures`, `C94_shown`, `C94_largest_refuted`, `C94_example`, `C95_orientations`, `C95_orientations_exact`, `C95_readings_determine`, `C95_poses`, `C95_second_order_refuted`, `C95_example`.

