{
 "claims": [
  {
   "property": "C01",
   "status": "proved",
   "theorems": [
    "C01_scan_slices",
    "C01_cut_unique"
   ],
   "note": "for every callback, state, system and argument list"
  },
  {
   "property": "C02",
   "status": "proved",
   "theorems": [
    "C02_scan_complete",
    "C02_scan_rejects",
    "C02_outputs_in_link_order"
   ],
   "note": ""
  },
  {
   "property": "C03",
   "status": "proved",
   "theorems": [
    "C03_delete_exact",
    "C03_delete_total",
    "C03_delete_unknown",
    "C03_delete_everything_raises"
   ],
   "note": "Deleting every link raises ValueError (stated as a theorem)."
  },
  {
   "property": "C04",
   "status": "partial",
   "theorems": [
    "C04_delete_preserves_partial",
    "C04_world_geometries_refuted",
    "C04_floor_lost_refuted"
   ],
   "note": "Everything is preserved except geometries attached to the world: the code drops them (refuted)."
  },
  {
   "property": "C05",
   "status": "proved",
   "theorems": [
    "C05_inject",
    "C05_inject_rejects"
   ],
   "note": "World geometries of the injected system move to the attachment link, whose inertia is recomputed; part of the spec injected. Mutation of the caller's joint_params dictionaries not modelled."
  },
  {
   "property": "C06",
   "status": "partial",
   "theorems": [
    "C06_delete_undoes_inject_partial",
    "C06_floor_refuted"
   ],
   "note": "False with geometries on the world (refuted); exact otherwise."
  },
  {
   "property": "C07",
   "status": "partial",
   "theorems": [
    "C07_edits_keep_wf_partial",
    "C07_run_keeps_wf",
    "C07_edits_keep_wf_refuted"
   ],
   "note": "Refuted as stated: change_link_name accepts a name already in use. With that excluded, every history of successful edits (injecting parsed systems) keeps the system parsed and well formed. The XML re-read inside change_joint_type for joints with init_joint_params is assumed to return a parsed system."
  },
  {
   "property": "C08",
   "status": "partial",
   "theorems": [
    "C08_noimu_partial",
    "C08_noimu_total",
    "C08_noimu_raises_refuted"
   ],
   "note": "'works for every system' is false for IMUs on the world or below IMUs (refuted); exact conditions for success proved."
  },
  {
   "property": "C09",
   "status": "proved",
   "theorems": [
    "C09_new_anchor_reroots",
    "C09_rerooted_unique"
   ],
   "note": "Full statement: exact re-rooted parent array for every connected tree and every anchor; several roots give a KeyError."
  },
  {
   "property": "C10",
   "status": "proved",
   "theorems": [
    "C10_morph_permutes",
    "C10_rejects_cycles",
    "C10_rejects_new_edges",
    "C10_rejects_unknown",
    "C10_rejects_wrong_length",
    "C10_joints_used_once",
    "C10_new_anchor"
   ],
   "note": "Full statement for every parsed system with at least one link (morphing an empty system fails in jnp.concatenate)."
  },
  {
   "property": "C11",
   "status": "proved",
   "theorems": [
    "C11_geometries_do_not_move",
    "C11_poses_exist"
   ],
   "note": "Over any group of transforms (laws tg_*); holds even for several roots when all default joint transforms are the identity."
  },
  {
   "property": "C12",
   "status": "partial",
   "theorems": [
    "C12_same_parents_partial",
    "C12_same_parents_refuted"
   ],
   "note": "The statement is false of the code: links not numbered depth first are reordered, and with several roots each root receives the first root's joint (C12_same_parents_refuted). Proved for one root and depth-first numbering."
  },
  {
   "property": "C13",
   "status": "partial",
   "theorems": [
    "C13_change_local_partial",
    "C13_change_total",
    "C13_freeze",
    "C13_unfreeze",
    "C13_unfreeze_rejects",
    "C13_unknown_name_refuted",
    "C13_default_zeropoint_refuted"
   ],
   "note": "Unknown names are silently ignored and default zeropoints are wrong for prefixed type names (refuted). Joint types with own parameters trigger an XML round trip, outside this theorem."
  },
  {
   "property": "C14",
   "status": "proved",
   "theorems": [
    "C14_cor"
   ],
   "note": ""
  },
  {
   "property": "C15",
   "status": "partial",
   "theorems": [
    "C15_registry_consistent",
    "C15_builtin_consistent",
    "C15_success",
    "C15_failure_leaves_unchanged_partial",
    "C15_failure_leaves_unchanged_refuted",
    "C15_params_scope"
   ],
   "note": "Consistency after any call sequence is proved. 'A failing call leaves the registry as it was' is refuted for overwrite=True with a wrong number of motion columns and proved otherwise."
  },
  {
   "property": "C16",
   "status": "partial",
   "theorems": [
    "C16_roundtrip",
    "C16_same",
    "C16_twice",
    "C16_rest_survives",
    "C16_lost_refuted",
    "C16_world_geoms",
    "C16_loaded"
   ],
   "note": "Full round trip for every system the format can express (saveable), with Python's number printing/reading as explicit faithful parameters; identical when already depth first; a second round trip changes nothing. The statement is refuted for systems outside: world geometries, integration settings, 'cor' joints, missing model name are lost; C16_rest_survives says exactly the rest survives. C16_loaded: whatever document is loaded successfully, the system is a proper system (parsed)."
  },
  {
   "property": "C17",
   "status": "proved",
   "theorems": [
    "C17_quat_mul_monoid",
    "C17_quat_inv",
    "C17_rotate_linear",
    "C17_rotate_rotation",
    "C17_matrix_roundtrip"
   ],
   "note": "Over exact reals."
  },
  {
   "property": "C18",
   "status": "proved",
   "theorems": [
    "C18_transform_group",
    "C18_transform_acts",
    "C18_motion_compose",
    "C18_motion_is_velocity_field"
   ],
   "note": "Over exact reals, for unit rotations."
  },
  {
   "property": "C19",
   "status": "proved",
   "theorems": [
    "C19_power_invariant",
    "C19_inertia_compatible",
    "C19_as_matrix",
    "C19_cross"
   ],
   "note": "Over exact reals, for unit rotations."
  },
  {
   "property": "C20",
   "status": "proved",
   "theorems": [
    "C20_body_energy",
    "C20_link_inertia",
    "C20_parse_inertia"
   ],
   "note": "Capsules need a positive radius (their volume is a divisor)."
  },
  {
   "property": "C21",
   "status": "proved",
   "theorems": [
    "C21_wrap_to_pi",
    "C21_wrap_unique"
   ],
   "note": "Over exact reals."
  },
  {
   "property": "C22",
   "status": "proved",
   "theorems": [
    "C22_rot_axis_unit",
    "C22_rot_axis_unit_any",
    "C22_quat_roundtrip",
    "C22_quat_roundtrip_all",
    "C22_axis_angle_roundtrip",
    "C22_angle_recovered",
    "C22_angle_recovered_all",
    "C22_angle_error",
    "C22_constant_axis",
    "C22_exact_refuted"
   ],
   "note": "The refuted theorem shows the tolerance is needed: rotations below 1e-8 become the identity."
  },
  {
   "property": "C23",
   "status": "proved",
   "theorems": [
    "C23_project_split",
    "C23_project_minimal",
    "C23_nonunit_axis_refuted"
   ],
   "note": "For unit axes; the refuted theorem shows a longer axis gives a residual with a component along it."
  },
  {
   "property": "C24",
   "status": "partial",
   "theorems": [
    "C24_transfer_heading_partial",
    "C24_inclination",
    "C24_upside_down_refuted"
   ],
   "note": "Fails when q_to turns the vertical axis upside down (it has no heading); proved otherwise. The inclination half holds always."
  },
  {
   "property": "C25",
   "status": "partial",
   "theorems": [
    "C25_lowpass",
    "C25_constant",
    "C25_start_partial",
    "C25_step",
    "C25_filtfilt_start_refuted"
   ],
   "note": "Length, unit norm and constants hold in both modes; starting at the first input fails with filtfilt=True."
  },
  {
   "property": "C26",
   "status": "proved",
   "theorems": [
    "C26_euler_to_quat",
    "C26_quat_to_euler_inverts",
    "C26_rebuild",
    "C26_quat_euler"
   ],
   "note": "Over exact reals."
  },
  {
   "property": "C27",
   "status": "proved",
   "theorems": [
    "C27_poses",
    "C27_pose_unique",
    "C27_total",
    "C27_local",
    "C27_points"
   ],
   "note": "Poses of forward kinematics are the compositions along the chain, defined independently (S_Kin.pose)."
  },
  {
   "property": "C28",
   "status": "partial",
   "theorems": [
    "C28_ik_inverts_fk_partial",
    "C28_other_joints_refuted"
   ],
   "note": "Proved for every joint type whose inverse kinematics works; free_2d raises TypeError and cor, saddle have none (refuted). Requires at least one link (otherwise concatenate raises)."
  },
  {
   "property": "C29",
   "status": "partial",
   "theorems": [
    "C29_to_q_valid_partial",
    "C29_to_q_idempotent",
    "C29_zero_quaternion_refuted",
    "C29_default_state",
    "C29_create_given"
   ],
   "note": "A quaternion whose entries are all within 1e-8 of zero is mapped to the zero quaternion (refuted); everything else proved."
  },
  {
   "property": "C30",
   "status": "proved",
   "theorems": [
    "C30_mass_matrix",
    "C30_kinetic_energy",
    "C30_positive_semidefinite",
    "C30_body_velocities"
   ],
   "note": "All trees of joints with known types; hypotheses: link transforms are rotations (as after forward kinematics of unit quaternions, fk_unit_transforms) and link inertias are symmetric."
  },
  {
   "property": "C31",
   "status": "proved",
   "theorems": [
    "C31_virtual_work",
    "C31_affine",
    "C31_gravity",
    "C31_rest"
   ],
   "note": "Stated for systems with at least one link (without links jnp.concatenate raises, C31_no_links)."
  },
  {
   "property": "C32",
   "status": "proved",
   "theorems": [
    "C32_next_state",
    "C32_substeps",
    "C32_rejects",
    "C32_total"
   ],
   "note": "Quaternions are normalised if they are not zero before the step and the sub-step is at most 1e8 seconds; success is proved for built-in joints with unit quaternion coordinates, for any linear solver."
  },
  {
   "property": "C33",
   "status": "proved",
   "theorems": [
    "C33_quaternion",
    "C33_zero_at_zeropoint",
    "C33_force"
   ],
   "note": "Within the tolerance 1e-8 of the zero point the quaternion spring force is exactly zero."
  },
  {
   "property": "C34",
   "status": "proved",
   "theorems": [
    "C34_reading",
    "C34_constant_acceleration",
    "C34_uniform_motion",
    "C34_too_short",
    "C34_world_frame"
   ],
   "note": "n >= 1 and at least 3n samples; shorter trajectories are rejected (C34_too_short)"
  },
  {
   "property": "C35",
   "status": "partial",
   "theorems": [
    "C35_reading",
    "C35_constant_orientation",
    "C35_world_frame",
    "C35_rate_partial",
    "C35_rate_error",
    "C35_slow_refuted"
   ],
   "note": "exact rates between 1e-7 rad and half a turn per compared pair; in general the error is at most 5e-8 rad per pair (C35_rate_error); slower rotations are read as zero (C35_slow_refuted)"
  },
  {
   "property": "C36",
   "status": "proved",
   "theorems": [
    "C36_moving_average",
    "C36_constant",
    "C36_range",
    "C36_delay",
    "C36_causal"
   ],
   "note": "odd window > 1, as the code asserts"
  },
  {
   "property": "C37",
   "status": "proved",
   "theorems": [
    "C37_cosine",
    "C37_randomised",
    "C37_bounds",
    "C37_speed",
    "C37_change_of_time",
    "C37_refused"
   ],
   "note": "For every ascending sequence of times and every draw, cosine, and randomised cosine or linear, interpolation goes through the knots, is strictly monotone and onto between neighbours and constant afterwards; the drawn change of time is an increasing bijection of the unit interval; speed bound of the cosine interpolation. Other methods and bin counts are refused."
  },
  {
   "property": "C38",
   "status": "partial",
   "theorems": [
    "C38_angle_range",
    "C38_halfsize",
    "C38_halfsize_lower",
    "C38_angle_start",
    "C38_angle_step",
    "C38_angle_still",
    "C38_position_partial",
    "C38_position_total",
    "C38_position_step",
    "C38_position_still",
    "C38_turns_back",
    "C38_halfsize_refuted",
    "C38_position_refuted",
    "C38_start_refuted"
   ],
   "note": "Angles are always in [-pi, pi] and never below ANG_0 - rom_halfsize; the upper limit ANG_0 + rom_halfsize holds if the lowest allowed speed is not positive and is refuted otherwise. Positions stay in range if the rejection search succeeds; refuted otherwise, because the last try is kept. The loops terminate; initial values are kept if T >= t_min >= Ts, refuted for T < t_min."
  },
  {
   "property": "C39",
   "status": "proved",
   "theorems": [
    "C39_product",
    "C39_accepts",
    "C39_expand",
    "C39_merge",
    "C39_merge3"
   ],
   "note": ""
  },
  {
   "property": "C40",
   "status": "partial",
   "theorems": [
    "C40_accepts_total",
    "C40_accepts_list",
    "C40_lazy",
    "C40_to_list",
    "C40_count",
    "C40_succeeds",
    "C40_primes",
    "C40_prime_factor",
    "C40_primes_unique",
    "C40_gcd",
    "C40_list_sizes_refuted"
   ],
   "note": "counts are proved for every accepted size; that every divisible size is accepted is refuted for sizes given per system"
  },
  {
   "property": "C41",
   "status": "proved",
   "theorems": [
    "C41_epochs",
    "C41_others_unchanged",
    "C41_too_few"
   ],
   "note": ""
  },
  {
   "property": "C42",
   "status": "partial",
   "theorems": [
    "C42_result",
    "C42_terminates",
    "C42_default_usable",
    "C42_all_nan",
    "C42_terminates_refuted"
   ],
   "note": "termination is refuted when the row has no usable value and the default is unusable; proved under the stated guard"
  },
  {
   "property": "C43",
   "status": "proved",
   "theorems": [
    "C43_union",
    "C43_no_overwrite",
    "C43_fails_iff"
   ],
   "note": ""
  },
  {
   "property": "C44",
   "status": "partial",
   "theorems": [
    "C44_save_load",
    "C44_no_overwrite",
    "C44_load_indices",
    "C44_load_multiple",
    "C44_order_refuted",
    "C44_named_refuted",
    "C44_ordered_dict_refuted",
    "C44_failed_save_refuted",
    "C44_name_refuted",
    "C44_index_order_refuted",
    "C44_negative_refuted",
    "C44_multiple_named_refuted",
    "C44_load_one",
    "C44_load_outside",
    "C44_load_length"
   ],
   "note": "Every tree of arrays, lists, tuples, dicts and namedtuples is saved and comes back with the same content, and in the same order while lists have at most ten elements (C44_save_load); index loading and loading from several files give exactly the rows at the requested positions in increasing order (C44_load_indices, C44_load_multiple). Refuted: order of longer lists, positional order of namedtuples, OrderedDict, failing saves, names with a dot, order of and negative indices, namedtuples across files."
  },
  {
   "property": "C45",
   "status": "proved",
   "theorems": [
    "C45_unzip",
    "C45_zip_unzip",
    "C45_zip",
    "C45_delete_to_world",
    "C45_xs_from_raw",
    "C45_eps_frame",
    "C45_raw_unknown",
    "C45_match",
    "C45_match_unknown"
   ],
   "note": "poses with unit quaternions; scale_xs and randomize_to_world_pos_rot are not modelled"
  },
  {
   "property": "C46",
   "status": "partial",
   "theorems": [
    "C46_torque",
    "C46_zero_on_reference",
    "C46_initial",
    "C46_initial_missing",
    "C46_unroll",
    "C46_reference",
    "C46_dynamical_simulation",
    "C46_endpoint_refuted",
    "C46_full_turn_refuted",
    "C46_type_mismatch_refuted",
    "C46_init_refused",
    "C46_gains_refused",
    "C46_default_gains"
   ],
   "note": "Proved for all pairs of systems whose common links have the same joint type: which links are actuated, with which reference rows and gains, zero torque on the reference (velocities as the controller differentiates them), clip limit, initial state, and the whole DynamicalSimulation pipeline. Refuted: joint types of equally named links are not compared; the velocity reference is zero at both ends and jumps at full turns, so with D control the torque on the reference need not be zero."
  },
  {
   "property": "C47",
   "status": "partial",
   "theorems": [
    "C47_injected",
    "C47_hidden",
    "C47_moving_imu_refuted",
    "C47_order_refuted",
    "C47_geometries_refuted",
    "C47_only_imus_refuted"
   ],
   "note": "C47_injected: for every saveable system with rigidly attached IMUs, injecting succeeds and adds exactly one sliding carrier per IMU (softened IMU links, moved geometries, everything else unchanged), written out and read back. C47_hidden: for such systems listed depth first and having a link that is not an IMU, hiding restores names, types, parents, order, per-link arrays and settings, and reports coordinates and poses name by name, an IMU with the pose of its own softly attached link. The unrestricted claim is false: an IMU on a moving joint is rejected, a non depth-first order is not restored, IMU geometries and inertia are lost, and a system of IMUs only cannot be hidden."
  },
  {
   "property": "C48",
   "status": "partial",
   "theorems": [
    "C48_protocol",
    "C48_exception",
    "C48_kill",
    "C48_signals",
    "C48_seed_cycle",
    "C48_first_batch_refuted",
    "C48_close_on_error_refuted"
   ],
   "note": "Full protocol proved for every generator, step function, callback behaviour and kill time, over repeated runs; refuted as stated in two points: the very first batch is trained on without any callback having seen it, and an exception in a callback leaves callbacks and loggers unclosed."
  },
  {
   "property": "C49",
   "status": "proved",
   "theorems": [
    "C49_queue_best",
    "C49_best_unique",
    "C49_capacity_zero",
    "C49_last_params"
   ],
   "note": "For all insertion histories. Also proved: C49_unevaluated_refuted (what is saved on close may be parameters that no metric has seen)."
  },
  {
   "property": "C50",
   "status": "proved",
   "theorems": [
    "C50_skip",
    "C50_skipped_no_effect",
    "C50_norm"
   ],
   "note": "For all update histories. Also proved: C50_nan_passes_refuted (the docstring's 'also skips NaNs and Infs' fails in the warm-up and after the allowed streak)."
  },
  {
   "property": "C51",
   "status": "proved",
   "theorems": [
    "C51_step",
    "C51_local_step",
    "C51_local",
    "C51_online",
    "C51_equivariant",
    "C51_batch"
   ],
   "note": "For every forest, all learned functions and all inputs; messages form a commutative monoid (real vectors). Also proved: C51_too_few_inputs_refuted (a wrong number of inputs is silently accepted because jax clamps indices)."
  },
  {
   "property": "C52",
   "status": "partial",
   "theorems": [
    "C52_of_unbatched",
    "C52_network",
    "C52_wrapper",
    "C52_scale_consistent",
    "C52_add_ts_consistent",
    "C52_heading_consistent",
    "C52_lpf_consistent",
    "C52_no_graph_consistent",
    "C52_RING_consistent",
    "C52_RNNO_consistent",
    "C52_no_graph",
    "C52_scale_x",
    "C52_scale_order_6_9",
    "C52_scale_order_refuted",
    "C52_add_ts",
    "C52_add_ts_none",
    "C52_add_ts_refuses",
    "C52_heading_none",
    "C52_heading",
    "C52_lpf",
    "C52_lpf_detects",
    "C52_ring_input",
    "C52_normalized",
    "C52_save_load",
    "C52_name",
    "C52_save_name_refuted",
    "C52_save_side_effect_refuted",
    "C52_save_user_refuted",
    "C52_ring_lowpass",
    "C52_no_graph_output",
    "C52_rnno_raw",
    "C52_rnno_quats"
   ],
   "note": "Batched and unbatched application agree in both directions (success and values) for every filter, wrapper and the two shipped stacks; pass-through and exact feature changes are proved. Refuted: ScaleX moves dt in front of gyr (sorted keys) for ten features; saving drops the network's name, also on the object in memory; a filter with the default load hook comes back as None."
  },
  {
   "property": "C53",
   "status": "partial",
   "theorems": [
    "C53_restrict",
    "C53_clip",
    "C53_smoothclamp",
    "C53_sigmoidclamp",
    "C53_minmax",
    "C53_sigmoid",
    "C53_unknown_method",
    "C53_flexion",
    "C53_gaussian_process",
    "C53_scale_positive",
    "C53_polynomial",
    "C53_polynomial_centered_partial",
    "C53_network",
    "C53_equal_limits_refuted",
    "C53_constant_data_refuted",
    "C53_polynomial_centered_refuted",
    "C53_center_reused_refuted",
    "C53_constant_refuted"
   ],
   "note": "All clamps and drawn functions stay within the limits for every real input when min<max and the data with the outer bounds are not all equal; refuted without these conditions (division by zero gives NaN), for centred polynomials, for constant values, and for the remembered centre."
  },
  {
   "property": "C54",
   "status": "proved",
   "theorems": [
    "C54_randomize_anchors",
    "C54_combinations"
   ],
   "note": "For every parsed system with at least one link, every anchor list and every iteration order of Python sets: one system per combination of anchors, same links, roots exactly the chosen anchors, shapes and marker offsets kept, no new edges."
  },
  {
   "property": "C55",
   "status": "proved",
   "theorems": [
    "C55_children",
    "C55_subsystem",
    "C55_subsystem_indices",
    "C55_unknown",
    "C55_find_children"
   ],
   "note": "Lookup of the links below a link (System.children, findall_bodies_subsystem and the traversal of randomize_anchors) returns exactly the proper descendants, once each, for every well-formed tree; unknown names raise ValueError."
  },
  {
   "property": "C56",
   "status": "partial",
   "theorems": [
    "C56_safe_norm",
    "C56_jvp_partial",
    "C56_arcsin_primal_refuted"
   ],
   "note": "The differentiation rule of safe_arcsin returns the arc cosine as primal value; everything else holds."
  },
  {
   "property": "C57",
   "status": "partial",
   "theorems": [
    "C57_exact_joints",
    "C57_free_velocity",
    "C57_cor_velocity",
    "C57_saddle_velocity",
    "C57_rr",
    "C57_rr_imp_velocity",
    "C57_rsaddle_velocity",
    "C57_types",
    "C57_plain_names",
    "C57_drawn_axes",
    "C57_integrator",
    "C57_free_refuted",
    "C57_free_2d_refuted",
    "C57_cor_refuted",
    "C57_saddle_refuted",
    "C57_rr_imp_refuted",
    "C57_integrator_exact_refuted"
   ],
   "note": "The motion subspace is the derivative of the pose for rx, ry, rz, px, py, pz, p3d, frozen, spherical and rr. It is refuted for free, free_2d and cor (translation rates are taken as child-frame velocities) and for saddle, rr_imp and rsaddle (first axis not carried by the second rotation); for these the true velocity is proved, with an exact condition for agreement. The integrator is proved to follow the velocity up to 1e-8 rad/s. Suntay knee joint not covered."
  },
  {
   "property": "C58",
   "status": "proved",
   "theorems": [
    "C58_rel_pose",
    "C58_rel_pose_unknown",
    "C58_root",
    "C58_root_unknown",
    "C58_inclination"
   ],
   "note": "root_incl, root_full and rel_pose over well-formed systems; unknown names are reported"
  },
  {
   "property": "C59",
   "status": "proved",
   "theorems": [
    "C59_count",
    "C59_rest",
    "C59_causal",
    "C59_world_frame",
    "C59_spring_damper"
   ],
   "note": ""
  },
  {
   "property": "C60",
   "status": "partial",
   "theorems": [
    "C60_replace",
    "C60_feasible",
    "C60_nomotion",
    "C60_nomotion_cor_refuted",
    "C60_nomotion_overwrites_refuted",
    "C60_find_interval",
    "C60_joined_value",
    "C60_join_refuted",
    "C60_overwrite",
    "C60_draw",
    "C60_history",
    "C60_failing_effect_refuted",
    "C60_unknown_field_refuted",
    "C60_register_refuted",
    "C60_subsystem",
    "C60_subsystem_twice_refuted",
    "C60_subsystem_user_type_refuted",
    "C60_register"
   ],
   "note": "Overwrites: an overwrite succeeds exactly for known types without a repeated field, changes only that type (C60_overwrite, C60_draw, C60_history for all call sequences), subsystem overwrites rename exactly the non-frozen links at or below the root (C60_subsystem). Refuted parts: rejected calls leave traces, unknown field names are accepted, a second subsystem overwrite is silently ignored, user types without P gains, rest configs keep cor motion and per-type overwrites, joined configs of unhashable/varying values."
  },
  {
   "property": "C61",
   "status": "proved",
   "theorems": [
    "C61_equations_of_motion",
    "C61_solvable",
    "C61_solver_exists",
    "C61_equilibrium"
   ],
   "note": "The linear solver is an oracle with the contract A X = I on symmetric positive definite matrices; C61_solver_exists shows that the contract can be met. The approximate inverse (mass_mat_iters > 0) is not covered."
  },
  {
   "property": "C62",
   "status": "proved",
   "theorems": [
    "C62_imu_total",
    "C62_imu_world_frame",
    "C62_butterworth_count",
    "C62_butterworth_too_short",
    "C62_butterworth_world_frame",
    "C62_butterworth_constant"
   ],
   "note": "3 n <= number of samples; odd window > 1; random draws are arguments"
  },
  {
   "property": "C63",
   "status": "partial",
   "theorems": [
    "C63_randomize_hz_partial",
    "C63_different_durations_refuted"
   ],
   "note": "Proved when all configurations have the same duration; refuted otherwise, because the assertion on the durations only tests that the list is not empty."
  },
  {
   "property": "C64",
   "status": "proved",
   "theorems": [
    "C64_rotation",
    "C64_default_range",
    "C64_translation",
    "C64_projections",
    "C64_find_joint"
   ],
   "note": "Over the reals; quat_from_3x3 divides by the real part, so rotations by half a turn are excluded; C64_default_range shows the default configuration never reaches them."
  },
  {
   "property": "C65",
   "status": "partial",
   "theorems": [
    "C65_each",
    "C65_prefix",
    "C65_refused",
    "C65_valid",
    "C65_unequal",
    "C65_ranges_partial",
    "C65_frozen_refuted",
    "C65_planar_refuted"
   ],
   "note": "Proved for every fair generator, key, well-formed system of built-in joint types and sensible configuration (C65_valid); exact description per link (C65_each); prefix independence (C65_prefix). Refuted: a planar joint's y and z are drawn from the ranges of x and y; without a given number of samples a frozen joint makes drawing fail when T is not a multiple of dt. Missing: positions stay in range only under the hypothesis that the bounded search succeeds (C65_ranges_partial)."
  },
  {
   "property": "C66",
   "status": "proved",
   "theorems": [
    "C66_links",
    "C66_builtin_draws",
    "C66_sequences",
    "C66_sensors"
   ],
   "note": "keys are idealised as paths of splits; user functions are assumed to draw only with the key they are given"
  },
  {
   "property": "C67",
   "status": "partial",
   "theorems": [
    "C67_positions",
    "C67_rotations",
    "C67_attachments",
    "C67_attachments_refused",
    "C67_parameters",
    "C67_rotations_refuted"
   ],
   "note": "Rotations: proved unless all four normal draws of a link vanish while full turns are allowed; for that event the code stores a zero quaternion (C67_rotations_refuted). Everything else is proved for every draw."
  },
  {
   "property": "C68",
   "status": "partial",
   "theorems": [
    "C68_sensors",
    "C68_segments",
    "C68_sequence",
    "C68_total",
    "C68_generator",
    "C68_arrays",
    "C68_flat",
    "C68_rates_refuted",
    "C68_rates_finalize_refuted",
    "C68_undefined_refuted",
    "C68_numerals_refuted"
   ],
   "note": "Proved for every option set, with the exact entries, their values and the array layout; C68_total shows data are produced whenever sensors and joint axes can be computed. Refuted where the code fails: a scalar time step cannot be flattened together with sampling rates (C68_rates_refuted), sampling rates with a user finalizer stop with an assertion (C68_rates_finalize_refuted), root orientations or numbers asked for alone use an undefined variable (C68_undefined_refuted), and links named like numbers collide when numbered (C68_numerals_refuted). Guarded hypotheses: no link named dt or like a number. Worked case in X_Layout.v."
  },
  {
   "property": "C69",
   "status": "partial",
   "theorems": [
    "C69_from_system",
    "C69_from_motion",
    "C69_hinge",
    "C69_simulated",
    "C69_estimate",
    "C69_rest_refuted",
    "C69_tilted_refuted"
   ],
   "note": "Zero axes for links to the world, exact axes from the system, exact axes up to sign from motion, noise within seven degrees and constant flips are proved for all systems and recordings. Estimation from motion is refuted in two cases: a hinge at rest at the first time whose later rotations cancel yields zero divided by zero (C69_rest_refuted); a hinge whose offset from the parent is rotated yields another axis (C69_tilted_refuted)."
  },
  {
   "property": "C70",
   "status": "partial",
   "theorems": [
    "C70_untouched",
    "C70_accepts",
    "C70_as_given",
    "C70_alone",
    "C70_history",
    "C70_configs_refuted",
    "C70_soft"
   ],
   "note": "Proved for all programs over a heap of option objects, except that the list of motion configurations is not copied: C70_configs_refuted shows that changing the list in place changes generators built earlier. C70_soft says exactly which systems can be simulated once IMUs are attached softly."
  },
  {
   "property": "C71",
   "status": "partial",
   "theorems": [
    "C71_folder",
    "C71_crash",
    "C71_succeeds",
    "C71_reload",
    "C71_paired",
    "C71_pickle",
    "C71_overwrite_refuted",
    "C71_dots_refuted",
    "C71_pairing_refuted"
   ],
   "note": "Proved for prefixes without a dot, for every stopping point. Refuted: overwrite=False never protects a file, because the name that is checked lacks the extension of the file that is written (C71_overwrite_refuted); a prefix with a dot makes all sequences overwrite one file (C71_dots_refuted); several folders are paired by directory listing order, which the operating system may choose differently per folder (C71_pairing_refuted)."
  },
  {
   "property": "C72",
   "status": "proved",
   "theorems": [
    "C72_residual",
    "C72_best_start",
    "C72_rejects",
    "C72_feasible",
    "C72_zero_iff_reached",
    "C72_improves",
    "C72_succeeds"
   ],
   "note": "optimiser is an arbitrary function of objective and start; validity assumes that no quaternion in the optimiser's parameters is within 1e-8 of zero (see C29)"
  },
  {
   "property": "C73",
   "status": "partial",
   "theorems": [
    "C73_stops",
    "C73_episode_limit",
    "C73_checkpoint",
    "C73_saved",
    "C73_best",
    "C73_best_one",
    "C73_called",
    "C73_keeps",
    "C73_average",
    "C73_eval_hold",
    "C73_consecutive_partial",
    "C73_consecutive_refuted",
    "C73_nan_gradient_refuted",
    "C73_nan_metric_refuted",
    "C73_existing_file_refuted"
   ],
   "note": "Stopping, checkpointing, saving and evaluating are proved for all callback lists and histories. Refuted: stopping only after k consecutive large gradients (proved once k-1 windows were seen), keeping the best tracked metric in the presence of NaN, and saving when the file exists. Uploads, warnings and cleanup of files are not modelled."
  },
  {
   "property": "C74",
   "status": "partial",
   "theorems": [
    "C74_step",
    "C74_accepts",
    "C74_devices",
    "C74_window_length",
    "C74_calls",
    "C74_eval",
    "C74_link_names",
    "C74_window_refuted",
    "C74_loss_refuted",
    "C74_batchsize_refuted",
    "C74_eval_devices_refuted"
   ],
   "note": "jax.grad is an oracle assumed to return the partial derivatives where they exist; the filter is given per sequence. The refuted parts of the statement are proved false, everything else is proved."
  },
  {
   "property": "C75",
   "status": "partial",
   "theorems": [
    "C75_run",
    "C75_episodes",
    "C75_resume",
    "C75_resume_data_refuted",
    "C75_saved",
    "C75_not_saved",
    "C75_track_without_path_refuted",
    "C75_single_episode_refuted",
    "C75_second_run_refuted",
    "C75_loggers",
    "C75_loggers_refuted"
   ],
   "note": "Everything but the refuted parts is proved for all options and callbacks (user callbacks are those of callbacks.py, newly constructed). Uploads are not modelled; file names are taken without dots."
  },
  {
   "property": "C76",
   "status": "partial",
   "theorems": [
    "C76_sample",
    "C76_normalizer",
    "C76_order",
    "C76_four_axes_refuted"
   ],
   "note": "Proved over the real numbers; the statement that every training generator can be normalised is refuted."
  },
  {
   "property": "C77",
   "status": "partial",
   "theorems": [
    "C77_names",
    "C77_distinct",
    "C77_log",
    "C77_fails",
    "C77_history",
    "C77_finite",
    "C77_wandb",
    "C77_close_without_path",
    "C77_collision_refuted",
    "C77_alignment_refuted",
    "C77_save_refuted"
   ],
   "note": "Values that are lists or tuples, uploads of files and the environment log are not modelled; three parts are refuted."
  },
  {
   "property": "C78",
   "status": "partial",
   "theorems": [
    "C78_mujoco_placed",
    "C78_mujoco",
    "C78_axes",
    "C78_rounding",
    "C78_mujoco_rod",
    "C78_mujoco_cylinder_refuted",
    "C78_vispy_placed",
    "C78_vispy",
    "C78_vispy_box",
    "C78_vispy_box_refuted",
    "C78_vispy_capsule",
    "C78_capsule_refuted",
    "C78_capsule_mesh",
    "C78_capsule_tips",
    "C78_capsule_faces",
    "C78_capsule_closed",
    "C78_box_mesh"
   ],
   "note": "Pixels are not modelled; the meaning of the backends' primitives is their documented one. Three parts of the property are refuted (axis of cylinders and capsules in MuJoCo, box dimensions and capsule length in vispy)."
  },
  {
   "property": "C79",
   "status": "partial",
   "theorems": [
    "C79_frames",
    "C79_frames_total",
    "C79_refused",
    "C79_step_zero",
    "C79_scene",
    "C79_bodies",
    "C79_camera_refused",
    "C79_target",
    "C79_stale_refuted",
    "C79_stale_general",
    "C79_index_below_refuted",
    "C79_colors"
   ],
   "note": "Building and drawing a scene are parameters (they may raise). Refuted: a failing call repeated does not fail but uses an earlier scene."
  },
  {
   "property": "C80",
   "status": "partial",
   "theorems": [
    "C80_prediction",
    "C80_geometries",
    "C80_world_geometries",
    "C80_missing_refuted",
    "C80_clash_refuted",
    "C80_floor_twice_refuted"
   ],
   "note": "Positive parts proved in full; the three refuted sentences are contradicted by theorems."
  },
  {
   "property": "C81",
   "status": "partial",
   "theorems": [
    "C81_scale",
    "C81_default",
    "C81_randomize",
    "C81_randomize_one",
    "C81_refused",
    "C81_links_refused",
    "C81_one",
    "C81_large_angle_refuted"
   ],
   "note": "Positive parts proved in full; the refuted sentence is contradicted by a theorem."
  },
  {
   "property": "C82",
   "status": "partial",
   "theorems": [
    "C82_reward",
    "C82_reset",
    "C82_episode",
    "C82_oracle",
    "C82_seed",
    "C82_render",
    "C82_render_first",
    "C82_unreset",
    "C82_reward_range_refuted",
    "C82_picture_refuted",
    "C82_picture_history_refuted"
   ],
   "note": "Positive parts proved in full; the refuted sentences are contradicted by theorems."
  },
  {
   "property": "C83",
   "status": "partial",
   "theorems": [
    "C83_validation",
    "C83_default_names",
    "C83_uneven",
    "C83_lengths",
    "C83_names_refuted"
   ],
   "note": "Positive parts proved in full for filters that treat the sequences of a batch separately; the refuted sentence is contradicted by a theorem."
  },
  {
   "property": "C84",
   "status": "partial",
   "theorems": [
    "C84_calls",
    "C84_epochs",
    "C84_folder",
    "C84_empty",
    "C84_empty_refuted"
   ],
   "note": "Positive parts proved in full; the refuted sentence is contradicted by a theorem."
  },
  {
   "property": "C85",
   "status": "partial",
   "theorems": [
    "C85_flags",
    "C85_only",
    "C85_override",
    "C85_reading",
    "C85_words_refuted"
   ],
   "note": "Positive parts proved in full; the refuted sentence is contradicted by a theorem."
  },
  {
   "property": "C86",
   "status": "partial",
   "theorems": [
    "C86_square",
    "C86_converges",
    "C86_error",
    "C86_forward",
    "C86_start_refuted"
   ],
   "note": "Positive parts proved in full over the real numbers; the refuted sentence is contradicted by a theorem."
  },
  {
   "property": "C87",
   "status": "partial",
   "theorems": [
    "C87_states",
    "C87_outputs",
    "C87_memory",
    "C87_norm",
    "C87_v1_online",
    "C87_v1_node",
    "C87_v1_outputs",
    "C87_celltype",
    "C87_memory_refuted"
   ],
   "note": "Positive parts proved in full; that the memory is bounded without a bound on the measurements is refuted by a theorem."
  },
  {
   "property": "C88",
   "status": "proved",
   "theorems": [
    "C88_inertia",
    "C88_link",
    "C88_parse",
    "C88_unique",
    "C88_region",
    "C88_coordinates"
   ],
   "note": "Volume integrals are iterated Newton integrals (cylindrical coordinates for bodies of revolution); C88_unique, C88_region and C88_coordinates show that these integrals are well defined and over the right points."
  },
  {
   "property": "C89",
   "status": "proved",
   "theorems": [
    "C89_velocity",
    "C89_power",
    "C89_simulation",
    "C89_passive"
   ],
   "note": "joint types whose velocities are exact by C57; free, cor and saddle joints are excluded because C57 refutes their velocities; ball joints are excluded from the statement on springs"
  },
  {
   "property": "C90",
   "status": "partial",
   "theorems": [
    "C90_free_fall",
    "C90_world",
    "C90_upright",
    "C90_falls_down_refuted"
   ],
   "note": "Free fall is proved in closed form for every orientation, and along gravity when the joint rotation preserves gravity; the sentence for every orientation is refuted (a body turned upside down rises)."
  },
  {
   "property": "C91",
   "status": "partial",
   "theorems": [
    "C91_rr",
    "C91_rsaddle",
    "C91_rr_imp",
    "C91_bound_refuted"
   ],
   "note": "Ranges, start values, zero mean and twice the bound are proved; that the residual angle stays within the given bound is refuted."
  },
  {
   "property": "C92",
   "status": "partial",
   "theorems": [
    "C92_setup",
    "C92_default",
    "C92_history",
    "C92_keeps_changes_refuted",
    "C92_builtin_refuted",
    "C92_atomic_refuted"
   ],
   "note": "Consistency, identity and frame are proved for all histories; preservation of changed motion, protection of built-in joint types and atomicity of failing calls are refuted. The curve factories of the suntay joint may raise any exception."
  },
  {
   "property": "C93",
   "status": "partial",
   "theorems": [
    "C93_success",
    "C93_warns",
    "C93_network",
    "C93_features",
    "C93_given_or_in_data",
    "C93_batch",
    "C93_unknown_keyword",
    "C93_same_rate_refuted",
    "C93_misspelt_refuted"
   ],
   "note": "Proved for all intervals, keyword arguments, networks and inputs. Two sentences a user may expect are refuted: at 100 Hz it matters whether the interval is an argument or in the data, and a misspelt keyword argument is ignored. That the 100 Hz parameter file is for 9 features is a hypothesis (the file is not modelled)."
  },
  {
   "property": "C94",
   "status": "partial",
   "theorems": [
    "C94_distance",
    "C94_measures",
    "C94_shown",
    "C94_largest_refuted"
   ],
   "note": "Proved for all unit quaternions, systems, recordings and predictions. The bound by the largest error of the predictions is refuted by a system of two links."
  },
  {
   "property": "C95",
   "status": "partial",
   "theorems": [
    "C95_orientations",
    "C95_orientations_exact",
    "C95_readings_determine",
    "C95_poses",
    "C95_second_order_refuted"
   ],
   "note": "Dead reckoning from the simulated readings is proved for all trajectories. Refuted for second_order=True (C95_second_order_refuted). Positions: for noise-free readings with n = 1, smoothing off."
  },
  {
   "property": "C96",
   "status": "partial",
   "theorems": [
    "C96_from_xml",
    "C96_create",
    "C96_text",
    "C96_saved",
    "C96_written",
    "C96_other_ending_refuted",
    "C96_same_file",
    "C96_seed_refuted"
   ],
   "note": "Proved for names ending in .xml and for texts; the sentences about other names and about the seed of create are refuted in general (C96_other_ending_refuted, C96_seed_refuted)."
  },
  {
   "property": "C97",
   "status": "partial",
   "theorems": [
    "C97_meaning",
    "C97_scene",
    "C97_changed_refuted",
    "C97_argument_refuted",
    "C97_settled"
   ],
   "note": "Proved for programs that do not change a dictionary after use; the sentences about changed dictionaries and about the caller's object are refuted in general."
  }
 ]
}
