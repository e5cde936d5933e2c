{
 "claims": [
  {
   "property": "C01",
   "status": "proved",
   "theorems": [
    "flags_and_pointwise",
    "flags_or_pointwise",
    "flags_not_pointwise",
    "flags_de_morgan",
    "flags_read_defined"
   ],
   "note": "Reading is undefined exactly for negative indices (flags_read_defined)."
  },
  {
   "property": "C02",
   "status": "proved",
   "theorems": [
    "flags_to_bool_iff_some_index_set"
   ],
   "note": ""
  },
  {
   "property": "C03",
   "status": "proved",
   "theorems": [
    "flags_edit_history"
   ],
   "note": ""
  },
  {
   "property": "C04",
   "status": "proved",
   "theorems": [
    "flags_print_read",
    "flags_print_construct",
    "flags_print_read_same_default",
    "flags_read_accepts",
    "flags_read_rejects",
    "flags_construct_alphabet",
    "flags_print_loses_default_refuted",
    "flags_blank_ambiguous_refuted"
   ],
   "note": "Findings: the default bit is not printed; blanks are a bit for the constructor and skipped by the reader."
  },
  {
   "property": "C05",
   "status": "proved",
   "theorems": [
    "stack_spec_deterministic",
    "stack_command_spec",
    "stack_command_refused",
    "stack_command_undefined",
    "stack_history",
    "stack_moves_keep_other_order",
    "stack_count",
    "stack_exist_iff"
   ],
   "note": ""
  },
  {
   "property": "C06",
   "status": "proved",
   "theorems": [
    "stack_down_after_up",
    "stack_up_after_down",
    "stack_extreme_moves_do_nothing"
   ],
   "note": ""
  },
  {
   "property": "C07",
   "status": "proved",
   "theorems": [
    "stack_dependencies_match",
    "stack_dependencies_duplicate_refuted",
    "stack_inputs_kept"
   ],
   "note": "Finding: with the same task pushed twice, removing one occurrence drops the dependencies of the remaining one."
  },
  {
   "property": "C08",
   "status": "proved",
   "theorems": [
    "stack_empty_until_sized",
    "stack_push_refused_iff"
   ],
   "note": ""
  },
  {
   "property": "C09",
   "status": "proved",
   "theorems": [
    "solver_runs",
    "solver_priority",
    "solver_priority_exact",
    "solver_priority_bound"
   ],
   "note": "Exact arithmetic over a real field; the SVD is any exact decomposition."
  },
  {
   "property": "C10",
   "status": "proved",
   "theorems": [
    "solver_optimal",
    "solver_smallest_increment"
   ],
   "note": ""
  },
  {
   "property": "C11",
   "status": "partial",
   "theorems": [
    "solver_rejected_unchanged",
    "solver_rejected_skipped_partial",
    "solver_rejected_first_refuted"
   ],
   "note": "The control is unchanged by a rejected task. The remaining tasks are solved as if it were absent only once a null space basis exists; when the rejected task is the first one (no projector input) the loop stops and the lower tasks are dropped: refuted with a witness."
  },
  {
   "property": "C12",
   "status": "proved",
   "theorems": [
    "solver_basis_orthonormal",
    "solver_start_orthonormal",
    "solver_increments_orthogonal"
   ],
   "note": ""
  },
  {
   "property": "C13",
   "status": "proved",
   "theorems": [
    "solver_start_checked",
    "solver_start_kept"
   ],
   "note": ""
  },
  {
   "property": "C14",
   "status": "proved",
   "theorems": [
    "solver_selection",
    "solver_excluded_joint"
   ],
   "note": "Proved for any stack in which every task excludes the joint."
  },
  {
   "property": "C15",
   "status": "proved",
   "theorems": [
    "stack_list_faithful"
   ],
   "note": ""
  },
  {
   "property": "C16",
   "status": "partial",
   "theorems": [
    "task_error_concat",
    "task_error_concat_partial",
    "task_error_single",
    "task_error_empty",
    "task_error_history",
    "task_error_lost_refuted"
   ],
   "note": "Finding: in a buffer that is too small (first evaluation) the errors written before the last reallocation are lost; exact as soon as the buffer was used once with the same dimension"
  },
  {
   "property": "C17",
   "status": "proved",
   "theorems": [
    "task_jacobian_stack",
    "task_jacobian_mixed",
    "task_jacobian_columns_fixed",
    "task_jacobian_empty",
    "task_jacobian_history",
    "task_jacobian_swapped_resize_refuted"
   ],
   "note": "Finding: a buffer with rows and no column leads to an out-of-range write (swapped resize arguments); the number of columns can never change"
  },
  {
   "property": "C18",
   "status": "proved",
   "theorems": [
    "task_derivative_concat",
    "task_derivative_sizes"
   ],
   "note": ""
  },
  {
   "property": "C19",
   "status": "proved",
   "theorems": [
    "task_reference",
    "taskpd_errordot",
    "taskpd_reference",
    "task_unilateral_bounds",
    "task_unilateral_short_undefined",
    "taskconti_reference",
    "taskconti_continuous",
    "taskconti_not_started",
    "task_derivative_short_undefined"
   ],
   "note": ""
  },
  {
   "property": "C20",
   "status": "proved",
   "theorems": [
    "selection_history",
    "selection_only_shrinks",
    "feature_list_history",
    "list_features_injective"
   ],
   "note": ""
  },
  {
   "property": "C21",
   "status": "proved",
   "theorems": [
    "bound_history",
    "bound_constructors",
    "bound_is_single_or_double"
   ],
   "note": ""
  },
  {
   "property": "C22",
   "status": "proved",
   "theorems": [
    "bound_print_read",
    "bounds_print_read",
    "num_io_decimal",
    "bounds_empty_not_consumed_refuted",
    "bounds_count_raises",
    "bounds_start_raises",
    "bound_read_grammar",
    "bounds_read_grammar"
   ],
   "note": "Finding: the closing parenthesis of a printed empty vector is not consumed; printing and reading of numbers is a parameter with a stated contract, met by decimal naturals"
  },
  {
   "property": "C23",
   "status": "proved",
   "theorems": [
    "adaptive_at_zero",
    "adaptive_decreases",
    "adaptive_range",
    "adaptive_tends",
    "adaptive_slope",
    "adaptive_constant",
    "adaptive_forced",
    "adaptive_last_setting",
    "adaptive_wrong_sign_diverges",
    "norm_zero_iff",
    "adaptive_default"
   ],
   "note": ""
  },
  {
   "property": "C24",
   "status": "proved",
   "theorems": [
    "adaptive_passing_point",
    "adaptive_passing_point_zero"
   ],
   "note": ""
  },
  {
   "property": "C25",
   "status": "proved",
   "theorems": [
    "hyperbolic_range",
    "hyperbolic_decreases",
    "hyperbolic_mean",
    "hyperbolic_tends",
    "hyperbolic_slope_quarter",
    "hyperbolic_constant",
    "hyperbolic_value_at_zero_refuted",
    "hyperbolic_forced"
   ],
   "note": "Findings: the documented value at zero error is not reached, and the slope at the inflexion point is a quarter of the requested one."
  },
  {
   "property": "C26",
   "status": "partial",
   "theorems": [
    "chosen_spec",
    "generic_dimension_history",
    "generic_error_selected_partial",
    "generic_error_no_reference",
    "generic_jacobian_selected",
    "generic_error_sizes",
    "generic_resize_undefined_refuted"
   ],
   "note": "For inputs whose size stays the one of the first access; finding: a later growth of the error input writes outside the result."
  },
  {
   "property": "C27",
   "status": "proved",
   "theorems": [
    "errordot_selected",
    "errordot_zero",
    "errordot_sizes"
   ],
   "note": "For a derivative of the size of the error; finding: a longer one with selected extra entries writes outside the result."
  },
  {
   "property": "C28",
   "status": "partial",
   "theorems": [
    "posture_consistent_partial",
    "posture_jacobian_product",
    "posture_resize_inconsistent_refuted",
    "posture_select_refused"
   ],
   "note": "For a robot whose size does not change; finding: a refused command after a change of size leaves the old jacobian."
  },
  {
   "property": "C29",
   "status": "partial",
   "theorems": [
    "joint_limits_error",
    "joint_limits_range",
    "joint_limits_jacobian",
    "joint_limits_jacobian_half_partial",
    "joint_limits_jacobian_not_derivative_refuted"
   ],
   "note": "Finding: the jacobian entry is half the derivative of the error, so the last part of the property is false of the code."
  },
  {
   "property": "C30",
   "status": "proved",
   "theorems": [
    "visual_point_interaction",
    "visual_point_refused",
    "visual_point_error"
   ],
   "note": ""
  },
  {
   "property": "C31",
   "status": "proved",
   "theorems": [
    "device_first_order",
    "device_second_order",
    "accelerated_exact",
    "device_no_integration"
   ],
   "note": ""
  },
  {
   "property": "C32",
   "status": "partial",
   "theorems": [
    "device_positions_bounded_partial",
    "device_positions_bounded_freeflyer",
    "device_steps_keep_bounds",
    "device_nan_control_ignored",
    "device_direct_mode_unbounded_refuted",
    "device_null_period_nan_refuted"
   ],
   "note": "In IEEE arithmetic, for the two integrating modes and a non null period. False of the direct (no integration) mode, which does not check positions, and for a null period with an infinite control: refuted theorems."
  },
  {
   "property": "C33",
   "status": "partial",
   "theorems": [
    "bounds_setters",
    "sanity_setter",
    "state_setter",
    "device_mode",
    "device_mode_commands",
    "device_bounds_paired",
    "device_bounds_sized_partial",
    "device_resize_keeps_bounds_refuted",
    "velocity_setter",
    "set_root_refuted"
   ],
   "note": "The reachable configuration part holds as long as the size of the robot is not changed; resizing does not clear the bounds (refuted theorem)."
  },
  {
   "property": "C34",
   "status": "proved",
   "theorems": [
    "saturate_spec",
    "saturate_nan"
   ],
   "note": ""
  },
  {
   "property": "C35",
   "status": "partial",
   "theorems": [
    "sequencer_runs_due_events_partial",
    "sequencer_inert_refuted",
    "sequencer_clear_shared_event_refuted",
    "sequencer_clear",
    "sequencer_null_refuted"
   ],
   "note": "Proved once the sequencer plays; but no command can set its play mode (sequencer_inert_refuted), and clearing deletes a shared event twice."
  },
  {
   "property": "C36",
   "status": "proved",
   "theorems": [
    "periodic_tick",
    "periodic_window",
    "periodic_null_factor",
    "periodic_negative_times_refuted"
   ],
   "note": "The window theorem is for non negative times; a negative time breaks the count (refuted witness) and a null factor divides by zero."
  },
  {
   "property": "C37",
   "status": "partial",
   "theorems": [
    "switch_selects",
    "switch_no_selection",
    "variadic_inputs_partial",
    "variadic_get_signal",
    "variadic_numbering",
    "variadic_number",
    "variadic_number_conflict_refuted"
   ],
   "note": "For input names that are not of the form sin<i>; such a name makes a later setSignalNumber fail half way and leaves a null input (refuted witness)."
  },
  {
   "property": "C38",
   "status": "proved",
   "theorems": [
    "latch_holds_last_request"
   ],
   "note": ""
  },
  {
   "property": "C39",
   "status": "proved",
   "theorems": [
    "event_fires",
    "event_without_repeat",
    "event_period",
    "event_initial_true_refuted",
    "event_fires_while_false_refuted",
    "event_period_changed"
   ],
   "note": "Two surprising behaviours are stated as refutations: no firing when the condition is true from the start, and the repetition goes on once the condition is false."
  },
  {
   "property": "C40",
   "status": "proved",
   "theorems": [
    "mailbox_reads_last_post",
    "mailbox_busy_read",
    "mailbox_mutual_exclusion",
    "mailbox_only_posts_wait",
    "mailbox_mutex_released",
    "mailbox_initial_timestamp_refuted",
    "mailbox_signal_misses_post_refuted",
    "mailbox_signal_access",
    "mailbox_signal_first_access"
   ],
   "note": "Findings: the time stamp read before any post is indeterminate; the object signal can miss a post for ever when it is read while the poster holds the mutex."
  },
  {
   "property": "C41",
   "status": "proved",
   "theorems": [
    "pool_lookup",
    "pool_no_overwrite",
    "pool_no_overwrite_feature",
    "pool_graph_tasks",
    "pool_dangling_refuted"
   ],
   "note": "Finding: a deleted task stays registered, so the pool hands out a dangling reference."
  },
  {
   "property": "C42",
   "status": "partial",
   "theorems": [
    "fir_refines",
    "fir_convolution_partial",
    "fir_finite_memory",
    "fir_scalar_stale_refuted",
    "fir_size_zero_refuted",
    "fir_vector_coordinates"
   ],
   "note": "Every history of setSize/setElement/evaluations; convolution as documented for signals whose buffer is reset (the Vector instances). The generic instance (double) accumulates on the stale output buffer: fir_scalar_stale_refuted."
  },
  {
   "property": "C43",
   "status": "partial",
   "theorems": [
    "causal_refines_partial",
    "causal_difference_equation_partial",
    "causal_switch",
    "causal_steady_state",
    "causal_switch_oldest_refuted",
    "causal_fir_refuted",
    "differentiator_coordinates",
    "differentiator_equation",
    "differentiator_before_init_refuted",
    "differentiator_size_refuted"
   ],
   "note": "Real arithmetic. One coordinate for the filter (causal_*), every coordinate and every schedule of reads of the three outputs for the entity (differentiator_*). Holds for numerators of size at least 1 and denominators of size at least 2; outside, causal_fir_refuted. Before init every use is undefined."
  },
  {
   "property": "C44",
   "status": "partial",
   "theorems": [
    "causal_difference_equation_partial",
    "causal_refines_partial",
    "causal_ddx_order_two_refuted",
    "differentiator_coordinates",
    "differentiator_equation"
   ],
   "note": "dx for every filter; ddx for denominators of size at least 3. For size 2 the claim is false: causal_ddx_order_two_refuted. Each coordinate of the signals of the entity: differentiator_equation."
  },
  {
   "property": "C45",
   "status": "proved",
   "theorems": [
    "derivator_outputs",
    "derivator_telescopes",
    "derivator_vector",
    "derivator_vector_telescopes",
    "derivator_skips_refuted",
    "derivator_size_refuted",
    "derivative_of_integral",
    "derivative_of_device"
   ],
   "note": "Every history of samples and (non-zero) period changes, for numbers and, read through the signal at times that do not decrease, for vectors. Two limits are shown: a read that skips ticks divides a change over several ticks by one period, and a change of size is undefined."
  },
  {
   "property": "C46",
   "status": "proved",
   "theorems": [
    "euler_step",
    "euler_recurrence",
    "euler_pure_integrator",
    "euler_derivative",
    "euler_period",
    "euler_initialize_checks",
    "euler_uninitialized_refuted",
    "euler_initial_velocity_refuted",
    "euler_constant_input_spike_refuted",
    "euler_matrix_memory",
    "euler_derivative_none",
    "euler_leading_coefficient_refuted",
    "euler_rectangular_refuted",
    "euler_leading_coefficient",
    "euler_matrix_recurrence",
    "euler_vector_recurrence",
    "euler_matrix_period",
    "euler_matrix_integrator",
    "euler_matrix_coefficients",
    "euler_initialize",
    "euler_configuration",
    "euler_pop_defined",
    "euler_vector_initialize",
    "euler_coefficients"
   ],
   "note": "Real arithmetic. Scalar, vector and matrix coefficients."
  },
  {
   "property": "C47",
   "status": "proved",
   "theorems": [
    "ema_hull",
    "ema_closed_form",
    "ema_constant",
    "ema_bad_alpha_refuted",
    "ema_first_output_refuted",
    "ema_default"
   ],
   "note": "Hull for every history of smoothing factors in [0,1]."
  },
  {
   "property": "C48",
   "status": "proved",
   "theorems": [
    "selecter_output",
    "selecter_unchecked_refuted",
    "component_output",
    "stack_output",
    "matrix_selector_output",
    "matrix_column_output",
    "mix_output",
    "mix_bad_input",
    "mix_segments",
    "selecter_outside",
    "component_outside",
    "stack_outside",
    "matrix_selector_outside",
    "matrix_column_outside"
   ],
   "note": "For ranges inside the vectors; nothing checks them otherwise (refutation)."
  },
  {
   "property": "C49",
   "status": "partial",
   "theorems": [
    "adder_output_partial",
    "adder_empty_refuted",
    "adder_added_input_refuted",
    "adder_number_resets",
    "multiplier_output",
    "bool_output",
    "bool_empty_refuted",
    "variadic_inputs_partial",
    "adder_new"
   ],
   "note": "Sums hold for histories of setSignalNumber/setCoeffs; after addSignal the coefficients are read out of bounds, and sums and boolean operators without input keep their previous value (refutations)."
  },
  {
   "property": "C50",
   "status": "partial",
   "theorems": [
    "se3_vector_roundtrip",
    "se3_vector_short",
    "pose_quaternion_roundtrip",
    "quaternion_roundtrip",
    "quaternion_product_inverse",
    "rotation_inverse",
    "pose_rpy_roundtrip",
    "rpy_roundtrip",
    "rpy_is_rotation",
    "pose_utheta_roundtrip",
    "utheta_range",
    "utheta_vector_roundtrip",
    "rpy_utheta_commute",
    "rpy_quaternion_commute",
    "composer_roundtrip",
    "skew_to_vector_opposite_partial",
    "skew_to_vector_refuted",
    "rpy_angles_refuted",
    "pose_quaternion_sizes",
    "pose_utheta_sizes"
   ],
   "note": "Every pose representation converts back to the same pose, for all rigid transformations. False as stated for skew matrices: the vector comes back negated. Eigen's own algorithms are modelled from its documentation."
  },
  {
   "property": "C51",
   "status": "proved",
   "theorems": [
    "twist_product",
    "twist_identity",
    "twist_inverse",
    "homo_to_twist_same",
    "twist_velocity_field",
    "rigid_inverse"
   ],
   "note": "Over the reals."
  },
  {
   "property": "C52",
   "status": "proved",
   "theorems": [
    "op_point_world",
    "op_point_body",
    "op_point_body_world",
    "op_point_jacobian_world",
    "op_point_jacobian_body",
    "op_point_history",
    "op_point_chain",
    "op_point_identity",
    "op_point_stale_refuted"
   ],
   "note": "Both versions also proved to be the derivative of the output position. The entity with its commands and the times of its reads: after any history the outputs follow the transformation set last, at a time not read yet; at a time already read the old value is handed out, and before any transformation is set the outputs are undefined. Modifiers in a row are one with the product."
  },
  {
   "property": "C53",
   "status": "proved",
   "theorems": [
    "axis_sequence_rotation",
    "axis_sequence_short",
    "axis_sequence_default_refuted"
   ],
   "note": "The entity as shipped has no axes and no command to add any, so its output is the identity (axis_sequence_default_refuted)."
  },
  {
   "property": "C54",
   "status": "proved",
   "theorems": [
    "covariance_psd",
    "tick_spec",
    "variance_psd",
    "variance_decreases",
    "gain_optimal",
    "variance_information",
    "state_least_squares",
    "exact_measurement",
    "estimation_error",
    "variance_dependencies_refuted",
    "covariance_history",
    "initial_conditions"
   ],
   "note": "Real field arithmetic; innovation covariance invertible (a singular one is a distinct outcome)."
  },
  {
   "property": "C55",
   "status": "proved",
   "theorems": [
    "pinv_truncated",
    "pinv_penrose",
    "penrose_unique",
    "penrose_least_squares",
    "penrose_least_norm",
    "damped_formula",
    "damped_minimises",
    "damped_bound",
    "left_cols_orthonormal",
    "pinv_negative_threshold_refuted",
    "damped_zero_refuted"
   ],
   "note": "Real field arithmetic over any exact singular value decomposition (Eigen's JacobiSVD is external)."
  },
  {
   "property": "C56",
   "status": "proved",
   "theorems": [
    "update_unit_norm",
    "output_unit_norm",
    "update_defined",
    "filter_unit_norm",
    "gyro_kinematics",
    "corrective_gradient",
    "error_is_vertical",
    "filter_fixed_point",
    "filter_gyro_only",
    "filter_descent",
    "beta_range",
    "null_quaternion_refuted",
    "beta_nan_refuted",
    "beta_double",
    "filter_before_init",
    "filter_defaults"
   ],
   "note": "Real arithmetic; the inverse square root of zero is a distinct outcome, shown unreachable for time steps below one second from unit quaternions."
  },
  {
   "property": "C57",
   "status": "partial",
   "theorems": [
    "smooth_reach_partial",
    "smooth_reach_unchecked_refuted",
    "smooth_reach_change",
    "smooth_reach_default",
    "smooth_reach_unset_refuted"
   ],
   "note": "Between start and goal for smoothing modes 0, 1, 2 with a positive parameter and duration; other modes, parameters and durations are not rejected and leave the segment (refuted)."
  },
  {
   "property": "C58",
   "status": "partial",
   "theorems": [
    "joint_limitator_partial",
    "joint_limitator_closed_loop",
    "joint_limitator_period_refuted",
    "joint_limitator_width"
   ],
   "note": "Holds for the hard-coded period of 5 ms; with another period the limits can be crossed (refuted)."
  },
  {
   "property": "C59",
   "status": "partial",
   "theorems": [
    "gripper_increment",
    "gripper_factor_range",
    "gripper_recovers",
    "gripper_reference_one_partial",
    "gripper_many_fingers_refuted",
    "gripper_zero_is_final",
    "gripper_never_recovers_refuted",
    "gripper_offset",
    "gripper_factor_float_range"
   ],
   "note": "Factor law for any number of fingers; the reference is defined for one finger only (refuted for more). In doubles the factor can underflow to zero and then never recovers (refuted)."
  },
  {
   "property": "C60",
   "status": "partial",
   "theorems": [
    "admittance_bounded_partial",
    "admittance_negative_saturation_refuted",
    "admittance_commands",
    "admittance_decay",
    "admittance_output_frame",
    "admittance_power",
    "admittance_output_bound_refuted",
    "admittance_sensor_pose_refuted",
    "admittance_settles"
   ],
   "note": "The world velocity is bounded for non-negative saturations; the output itself, expressed in the frame of the operational point, is not (refuted)."
  },
  {
   "property": "C61",
   "status": "partial",
   "theorems": [
    "com_freezer_partial",
    "com_freezer_modes",
    "com_freezer_delay_refuted"
   ],
   "note": "Frozen value and modes proved; the settling delay of 200 ticks is refuted."
  },
  {
   "property": "C62",
   "status": "proved",
   "theorems": [
    "name_has_last_id",
    "id_has_consistent_name",
    "force_id_has_consistent_name",
    "id_name_given",
    "extremities",
    "stale_name_refuted"
   ],
   "note": "Joint names and force names. Finding: an id that is no longer used keeps its old name (stale_name_refuted)."
  },
  {
   "property": "C63",
   "status": "partial",
   "theorems": [
    "joints_roundtrip",
    "joints_duplicate_refuted",
    "joints_undefined",
    "joints_empty",
    "base_rotation_exact",
    "base_rotation_band",
    "base_band_refuted",
    "base_to_quaternion",
    "base_sot_roundtrip",
    "base_urdf_roundtrip",
    "velocity_roundtrip",
    "config_sot_roundtrip_partial",
    "config_urdf_roundtrip_partial",
    "velocity_no_joints",
    "joints_sizes_unchecked",
    "whole_sizes_unchecked"
   ],
   "note": "Joint vectors and velocities round trip both ways. Configurations round trip outside a band of 0.001 rad around a vertical pitch (up to the sign of the quaternion); inside it the roll is dropped: the rotation is off by at most 0.002 per coefficient (base_rotation_band) and the full claim is false (base_band_refuted). A map that is not a permutation loses joints or is undefined."
  },
  {
   "property": "C64",
   "status": "partial",
   "theorems": [
    "limits_last",
    "range_check_partial",
    "range_check_unset",
    "robot_reads_back",
    "server_range_check",
    "range_check_nan_refuted"
   ],
   "note": "Exact for values and limits that are numbers; a value that is not a number is reported in range (range_check_nan_refuted)."
  },
  {
   "property": "C65",
   "status": "partial",
   "theorems": [
    "player_complete",
    "player_prompt",
    "step_refines",
    "init_refines",
    "playback_partial",
    "playback_complete",
    "point_outputs",
    "waist_position",
    "header_stamp_unread",
    "second_init_ignored",
    "pose_tail_refuted",
    "waist_position_refuted",
    "step_without_init_refuted",
    "short_point_refuted",
    "zero_stamp_refuted",
    "empty_point_holds",
    "init_again",
    "init_again_refuted",
    "init_empty"
   ],
   "note": "Refinement of the entity to a player that emits every point of every accepted trajectory once and in order and holds the last one, for every history after initTraj. Refuted readings: the first step without initTraj is undefined, points with one to four positions are undefined, the last five coefficients of the posture are uninitialised, the waist position is rotated by theta, stamps in the text are not read so that a second initTraj is never played, trajectories with stamp zero are ignored. The regular expressions of the text parser are not modelled (only the stream reads of the header)."
  },
  {
   "property": "C66",
   "status": "partial",
   "theorems": [
    "next_selects",
    "reader_step",
    "reader_replays_partial",
    "rewind_replays_all",
    "rows_loaded",
    "matrix_row_major",
    "long_line_refuted",
    "load_after_end_refuted",
    "matrix_stale_refuted",
    "reader_size",
    "reader_keeps_outputs",
    "reader_next_keeps",
    "matrix_negative_refuted"
   ],
   "note": "For every history of load, clear, rewind, resize and evaluation with files of lines of at most 1023 characters. Refuted readings: a longer line is cut and the rest of the file ignored, rows loaded after the end was met are not played before rewind, a row shorter than the matrix leaves the previous matrix. The conversion of text to numbers is left abstract."
  },
  {
   "property": "C67",
   "status": "partial",
   "theorems": [
    "watch_measures",
    "watch_statistics_partial",
    "stop_unknown",
    "off_is_inert",
    "zero_measure_refuted",
    "pause_refuted",
    "pause_last_refuted",
    "off_raises_nothing",
    "watch_time_so_far",
    "watch_no_mode",
    "pause_effect"
   ],
   "note": "For every history of start, stop, reset, on and off in one time mode. Refuted readings: a measure of zero is forgotten by the minimum; pause mixes two clocks and its time is lost in the last time."
  },
  {
   "property": "C68",
   "status": "proved",
   "theorems": [
    "calendar_step",
    "calendar_history",
    "calendar_run",
    "fast_forward",
    "fast_forward_calls",
    "stop_once",
    "register_group",
    "stop_other_doc_refuted",
    "stop_first_refuted",
    "stop_twice_refuted",
    "register_text"
   ],
   "note": "For every history of registrations, pings and stops of permanent events. Functions that change the calendar while it runs are in C123. Refuted readings: stopping with another documentation or before any permanent event raises."
  },
  {
   "property": "C69",
   "status": "partial",
   "theorems": [
    "pause_stops",
    "play_obeyed_partial",
    "play_lost",
    "play_running",
    "first_play",
    "once_once",
    "quit_ends",
    "play_lost_refuted",
    "quit_lost_refuted",
    "play_twice_refuted",
    "restart_refuted",
    "once_first_refuted",
    "once_scheduled",
    "first_play_scheduled",
    "play_scheduled",
    "play_raises"
   ],
   "note": "Every interleaving of reads and writes, from every state. The exact condition is proved: play and once are obeyed unless the thread has already decided to pause; that state is reachable, so the unconditional reading is refuted, as is the one of quit just after the first play."
  },
  {
   "property": "C70",
   "status": "partial",
   "theorems": [
    "solver_priority",
    "solver_posture_optimal_partial",
    "solver_posture_first_refuted",
    "solver_posture_not_optimal_refuted"
   ],
   "note": "Higher priorities are served; optimal only when the null space basis does not move the free-flyer; undefined as first task without projector; both refuted with witnesses."
  },
  {
   "property": "C71",
   "status": "partial",
   "theorems": [
    "solver_defined_partial",
    "solver_growth_undefined_refuted"
   ],
   "note": "Defined as long as no task grew since it was first solved (and the posture shortcut is off); refuted otherwise."
  },
  {
   "property": "C72",
   "status": "proved",
   "theorems": [
    "solver_characterised"
   ],
   "note": ""
  },
  {
   "property": "C73",
   "status": "proved",
   "theorems": [
    "feature1d_gradient"
   ],
   "note": ""
  },
  {
   "property": "C74",
   "status": "partial",
   "theorems": [
    "device_velocity_bounded_partial",
    "device_velocity_bound_ineffective_refuted"
   ],
   "note": "Only the stored velocity of the second order mode is clamped; the applied velocity is not (refuted theorem)."
  },
  {
   "property": "C75",
   "status": "partial",
   "theorems": [
    "device_step_defined_partial",
    "device_nan_control_ignored",
    "device_new_step_undefined_refuted"
   ],
   "note": "A new device has its checks on without bounds and its first step is undefined (refuted theorem)."
  },
  {
   "property": "C76",
   "status": "partial",
   "theorems": [
    "graph_name_plain_partial",
    "graph_name_directory_refuted",
    "graph_name_dotted_directory_refuted",
    "pool_graph_tasks",
    "graph_lines",
    "graph_written_partial",
    "graph_braces_refuted",
    "graph_deleted_refuted"
   ],
   "note": "Holds for plain file names; with a directory the name is wrong (refuted)."
  },
  {
   "property": "C77",
   "status": "proved",
   "theorems": [
    "comparison_output",
    "weighted_adder_output",
    "substraction_output",
    "binary_sizes_unchecked_refuted"
   ],
   "note": ""
  },
  {
   "property": "C78",
   "status": "proved",
   "theorems": [
    "convolution_output",
    "convolution_size_change_refuted"
   ],
   "note": "For samples of constant size; another size silently truncates the sum."
  },
  {
   "property": "C79",
   "status": "proved",
   "theorems": [
    "gradient_ascent",
    "gradient_ascent_size_refuted"
   ],
   "note": "Exact reals; another gradient size after the first evaluation is undefined."
  },
  {
   "property": "C80",
   "status": "partial",
   "theorems": [
    "motion_period_partial",
    "motion_period_repeats",
    "motion_null_period",
    "motion_before_start_refuted",
    "motion_period_resized"
   ],
   "note": "From the start of the motion on; before the start the unsigned subtraction wraps (refuted); a null period, which the setter accepts, is a division by zero."
  },
  {
   "property": "C81",
   "status": "partial",
   "theorems": [
    "neck_limitation_partial",
    "neck_sign_refuted"
   ],
   "note": "For sign 1; for sign -1 the tilt is sent to the opposite of the limit (refuted)."
  },
  {
   "property": "C82",
   "status": "proved",
   "theorems": [
    "pd_control_law",
    "gr_control_law",
    "binary_int",
    "gr_control_sizes_undefined"
   ],
   "note": "Exact reals."
  },
  {
   "property": "C83",
   "status": "partial",
   "theorems": [
    "clamp_projectors_partial",
    "clamp_ignores_position_refuted",
    "clamp_time_zero_refuted",
    "clamp_smooth_refuted",
    "clamp_smooth_weights",
    "clamp_reference",
    "clamp_reference_angle"
   ],
   "note": "From the first evaluation at a positive time on; up to time 0 the second matrix is full of ones (refuted); the smooth mode, not selectable, is not complementary (refuted)."
  },
  {
   "property": "C84",
   "status": "partial",
   "theorems": [
    "servers_refine",
    "robots_registered",
    "command_before_init",
    "init_rejected",
    "server_write",
    "servers_defined_partial",
    "joint_name_conversion",
    "init_simple_refuted",
    "read_before_init_refuted",
    "init_simple_twice_refuted",
    "init_nan_refuted",
    "init_simple_first"
   ],
   "note": "Refinement of the servers to a log of commands per robot for all histories that are defined. Findings: init_simple without exactly one robot throws but leaves the server marked as initialised, the next command dereferences a null pointer; range checks before init do too."
  },
  {
   "property": "C85",
   "status": "proved",
   "theorems": [
    "parameter_value",
    "parameter_alias"
   ],
   "note": "Values are strings (conversions of boost are external)."
  },
  {
   "property": "C86",
   "status": "proved",
   "theorems": [
    "mimic_joints_found",
    "mimic_unnamed_refuted",
    "mimic_attribute_name_refuted"
   ],
   "note": "The XML parser is external. Findings: a mimic joint without name is reported under the name of the previous joint."
  },
  {
   "property": "C87",
   "status": "proved",
   "theorems": [
    "point6d_dimension",
    "point6d_error",
    "point6d_jacobian",
    "point6d_errordot",
    "point6d_errordot_noref",
    "point6d_frame",
    "point6d_keep",
    "point6d_error_zero"
   ],
   "note": "Over the reals; Eigen's angle-axis conversion modelled in Geom_Model."
  },
  {
   "property": "C88",
   "status": "proved",
   "theorems": [
    "point6d_translation_rate",
    "point6d_translation_rate_noref"
   ],
   "note": ""
  },
  {
   "property": "C89",
   "status": "partial",
   "theorems": [
    "point6d_rotation_rate_partial",
    "point6d_rotation_jacobian_refuted"
   ],
   "note": "Full rate proved below a half turn. Finding: the rotation rows of the Jacobian are those of the angular velocity, not of the rotation vector, so an individual rotation coordinate does not move as its row announces (refuted with a witness); at exactly a half turn the rotation vector is discontinuous."
  },
  {
   "property": "C90",
   "status": "proved",
   "theorems": [
    "point6d_descent"
   ],
   "note": "Needs the three rotation coordinates selected together; below a half turn."
  },
  {
   "property": "C91",
   "status": "proved",
   "theorems": [
    "pose_dimension_ok",
    "pose_relative",
    "pose_error_ok",
    "pose_error_zero",
    "pose_default_error",
    "pose_default_errordot"
   ],
   "note": "Poses are rigid; pinocchio's logarithms are external and modelled by their formulas (Log6_Facts), the conversion to quaternions and back is modelled."
  },
  {
   "property": "C92",
   "status": "partial",
   "theorems": [
    "pose_rate_SE3",
    "pose_rate_R3xSO3_partial",
    "pose_rate_exact",
    "pose_rate_still",
    "pose_errordot_unplugged",
    "pose_columns_refuted",
    "pose_reference_rate_refuted"
   ],
   "note": "Exact for SE(3) for every motion. For R3xSO(3) the exact rate is proved with the extra term (w x (t - tdes)) that the code misses, and a witness shows that the unconditional statement is false. Rotation errors of exactly half a turn are excluded (the logarithm is not continuous there)."
  },
  {
   "property": "C93",
   "status": "proved",
   "theorems": [
    "pose_keep_ok"
   ],
   "note": ""
  },
  {
   "property": "C94",
   "status": "proved",
   "theorems": [
    "pose_decrease",
    "pose_straight_line"
   ],
   "note": "Continuous time, real arithmetic; the hypothesis is that the task is executed exactly."
  },
  {
   "property": "C95",
   "status": "proved",
   "theorems": [
    "relative6_error",
    "relative6_error_zero",
    "relative6_init",
    "relative6_init_refused",
    "relative6_errordot"
   ],
   "note": "Poses are rigid. An exception while reading the reference falls back on no reference, as in the code."
  },
  {
   "property": "C96",
   "status": "partial",
   "theorems": [
    "relative6_velocity",
    "relative6_descent_partial",
    "relative6_decrease",
    "relative6_columns",
    "relative6_row_refuted",
    "relative6_errordot_refuted"
   ],
   "note": "Finding: one row of the jacobian is not the derivative of that component of the error (relative6_row_refuted), so selections that cut the translation or the rotation are not covered. Finding: the published derivative of the error is the one of the plain 6D feature, which ignores the second frame (relative6_errordot_refuted)."
  },
  {
   "property": "C97",
   "status": "proved",
   "theorems": [
    "vector3_error",
    "vector3_zero",
    "vector3_norm",
    "vector3_rate",
    "vector3_descent",
    "vector3_sizes",
    "vector3_gain_refuted",
    "vector3_dimension"
   ],
   "note": "A gain cannot be imposed on all three components (vector3_gain_refuted)."
  },
  {
   "property": "C98",
   "status": "partial",
   "theorems": [
    "line_error_distance",
    "line_error_zero",
    "line_distance_refuted",
    "line_rate_partial",
    "line_rate_missing",
    "line_rate_refuted",
    "line_sizes"
   ],
   "note": "Finding: the error is not the distance (line_distance_refuted). Finding: the jacobian drops the effect of the third coordinate of the direction (line_rate_refuted); line_rate_missing gives the exact rate, line_rate_partial the case where that term vanishes."
  },
  {
   "property": "C99",
   "status": "partial",
   "theorems": [
    "projecter_image_partial",
    "projecter_point_refuted",
    "projecter_assert_refuted"
   ],
   "note": "Holds only for homogeneous points in a build without assertions (projecter_image_partial); a three dimensional point is multiplied by a 4x4 matrix (projecter_point_refuted), and with assertions nothing can be projected (projecter_assert_refuted)."
  },
  {
   "property": "C100",
   "status": "partial",
   "theorems": [
    "trajectory_text_partial",
    "trajectory_positions",
    "trajectory_reading",
    "points_end_unused",
    "trajectory_stamp_refuted",
    "trajectory_exponent_refuted",
    "trajectory_integer_refuted",
    "trajectory_no_joint_refuted",
    "trajectory_empty_loops_refuted",
    "trajectory_trailing_refuted",
    "trajectory_copy_refuted"
   ],
   "note": "Every text of the documented form is read back except for its time stamp; trajectory_reading describes the outcome for every text. Findings: the stamp is not read, exponents are dropped, numbers without a point are skipped, without joint names a piece of a number is taken for one, a text without names is read for ever, what follows the trajectory may be read as points, copies lose the joint names. The regular expression engine of boost is external and modelled (leftmost, greedy, backtracking)."
  },
  {
   "property": "C101",
   "status": "proved",
   "theorems": [
    "py_to_matrix",
    "py_cpp_same_matrix",
    "py_cpp_same_angles",
    "py_rpy_roundtrip",
    "py_rpy_band",
    "py_angles_roundtrip",
    "tr2rpy_order_refuted",
    "dist_vector",
    "py_quaternion",
    "orthonormal_basis",
    "orthonormal_defined",
    "orthonormal_so3_refuted",
    "orthonormal_swap",
    "matrix_to_tuple",
    "vector_to_tuple",
    "vector_to_tuple_cut_refuted",
    "vector_to_tuple_no_column"
   ],
   "note": "Real arithmetic. Findings: tr2rpy returns yaw first, so rpy2tr(*tr2rpy(M)) is not M; generateOrthonormalM gives a reflection (determinant -1) for half of the draws although its comment says SO3; vectorToTuple keeps only the first column of a matrix with several rows."
  },
  {
   "property": "C102",
   "status": "proved",
   "theorems": [
    "loader_running",
    "loader_well_behaved",
    "loader_iteration",
    "loader_released",
    "loader_no_double_deletion",
    "loader_second_cleanup_refuted",
    "loader_double_deletion_refuted",
    "loader_create_missing_refuted",
    "loader_reinit_refuted",
    "loader_start_early_refuted",
    "loader_exception_sliced_refuted",
    "loader_names",
    "loader_initialization"
   ],
   "note": "The operating system and the pool of dynamic-graph are modelled by what the loader observes of them; command line parsing and the Python interpreter are not modelled. Findings: clean up does not forget the device name, so cleaning up and then destroying the loader ends the program; a library without create function stays open; initialising twice loses the first interface; starting before loading uses a null pointer; an exception of the interface loses its class."
  },
  {
   "property": "C103",
   "status": "proved",
   "theorems": [
    "stream_lines",
    "stream_next",
    "stream_blank_refuted",
    "stream_partial_line_refuted",
    "stream_long_line_refuted",
    "stream_missing_file",
    "stream_file_comes"
   ],
   "note": "The stream operations are those of libstdc++ (get, tellg after end of file). Findings: an empty line stops the reader for ever; a last line that is not complete at a look makes the whole file be given again; a line longer than 255 characters is cut and loses a character."
  },
  {
   "property": "C104",
   "status": "proved",
   "theorems": [
    "history_restores",
    "history_time_refuted",
    "history_late_start_refuted",
    "history_zero_refuted"
   ],
   "note": "The zmp is not modelled; the OpenHRP dump is in C121. Findings: the printed time T0 is the index in the list and not the time; when recording starts later than tick 0 another state is restored."
  },
  {
   "property": "C105",
   "status": "proved",
   "theorems": [
    "gotoq_returns",
    "gotoq_all_or_nothing",
    "gotoq_effect",
    "gotoq_error",
    "gotoq_one_size",
    "gotoq_humanoid",
    "posture_limbs",
    "gotoq_first_posture_refuted",
    "gotoq_two_robots_refuted",
    "gotoq_integers_refuted",
    "gotoq_no_limb_refuted",
    "gotoq_caller_array_refuted"
   ],
   "note": "Findings: a call with a posture raises until some call without one has been made; the size is shared by all robots of the process; a posture given as a tuple of integers truncates the values of the limbs; a call without limbs controls no joint; the caller's array is modified even by a call that raises."
  },
  {
   "property": "C106",
   "status": "proved",
   "theorems": [
    "reference_pose",
    "goto6d_effect",
    "gotoNd_effect",
    "set_gain",
    "reference_list_refuted",
    "reference_column_refuted",
    "set_gain_ignored_refuted"
   ],
   "note": "Findings: a position given as a list, or with a wrong number of values, sends the task to the origin without an error; a column of three values is refused; a gain given as two values is ignored."
  },
  {
   "property": "C107",
   "status": "proved",
   "theorems": [
    "opmodif_last",
    "opmodif_false",
    "opmodif_refused",
    "relative_points_independent",
    "op_point_exist",
    "short_name_last",
    "opmodif_refused_refuted",
    "opmodif_raises"
   ],
   "note": "Finding: a refused assignment while no matrix is in use plugs the modifier with an old matrix although the attribute reads False."
  },
  {
   "property": "C108",
   "status": "partial",
   "theorems": [
    "outputs_fresh",
    "outputs_fresh_iff",
    "undeclared_input_ignored",
    "entities_fresh_partial",
    "entities_fresh_refuted",
    "posture_error_refuted"
   ],
   "note": "The general theorem holds for every graph and history and its condition is exact. 56 outputs of the code meet it. It fails for 25 pairs of an output and an input that the output reads without declaring it (jacobian of the one dimensional, vector and joint limits features, error of the posture and line features, jacobian of an operational point that is not an end effector, admittance, Kalman gain, continuous and derivative tasks)."
  },
  {
   "property": "C109",
   "status": "partial",
   "theorems": [
    "reference_declared",
    "reference_only_partial",
    "reference_leftover_refuted"
   ],
   "note": "That the present reference is declared holds for every history. That no other is holds for histories that take a reference away before giving another; it is false otherwise."
  },
  {
   "property": "C110",
   "status": "partial",
   "theorems": [
    "moves_unique",
    "free_flyer_first_order",
    "free_flyer_second_order",
    "free_flyer_pose_undefined_refuted",
    "free_flyer_set_state_refuted",
    "free_flyer_rest_refuted",
    "free_flyer_bounds_refuted"
   ],
   "note": "Exact reals; the integration of SE(3) is pinocchio's, modelled from its documentation. Proved for every sequence of commands without checks; moves_unique shows that the specification determines the pose. Findings: the free flyer pose has no value before the first step and is not updated by setState; a null command replaces a negative yaw by other angles of the same attitude, and with checks on these are cut at the bounds, so that a robot at rest turns."
  },
  {
   "property": "C111",
   "status": "proved",
   "theorems": [
    "posture_tasks_decrease",
    "posture_tasks_others_still",
    "posture_tasks_run",
    "posture_gain_range",
    "posture_limits_suffice",
    "posture_tasks_converge",
    "posture_tasks_constant_gain"
   ],
   "note": "The models of the posture feature, the task, the stack (any exact decomposition, exact arithmetic over a real field) and the device are connected into a tick; induction over the ticks. posture_tasks_run builds, by reflections, an exact decomposition for every task, so that the loop is defined. posture_limits_suffice gives simple conditions under which the limits do not act."
  },
  {
   "property": "C112",
   "status": "partial",
   "theorems": [
    "timestamp_milliseconds",
    "timestamp_increasing",
    "synchro_constant",
    "synchro_outputs_agree_refuted",
    "synchro_outputs_agree_partial"
   ],
   "note": "Doubles by Flocq's rounding. The agreement of the two synchronised outputs is false: synchroDouble reads the clock again (refuted with a witness); it holds when the clock has not moved."
  },
  {
   "property": "C113",
   "status": "partial",
   "theorems": [
    "timer_wall",
    "timer_clock",
    "timer_nonnegative_refuted",
    "timer_last"
   ],
   "note": "Everything but the last point, which is false when the clock is set back (gettimeofday is not monotonic; refuted with a witness)."
  },
  {
   "property": "C114",
   "status": "partial",
   "theorems": [
    "exception_code",
    "exception_print",
    "exception_message",
    "exception_details_partial",
    "exception_details_refuted",
    "exception_details_cut"
   ],
   "note": "False of the exceptions of tasks and features, which replace the text by the details (refuted); proved for the other classes. Details are cut at 255 characters."
  },
  {
   "property": "C115",
   "status": "partial",
   "theorems": [
    "relative_feature_error",
    "relative_feature_names",
    "relative_feature_keep_partial",
    "relative_feature_keep_refuted",
    "position_feature_error",
    "position_feature_keep",
    "position_feature_frame",
    "position_feature_array_refuted",
    "position_feature_signal_partial",
    "position_feature_signal_refuted",
    "relative_feature_defined",
    "position_feature_defined"
   ],
   "note": "keep of the relative feature only makes the error zero when the base is at its reference; a numpy reference is refused and errordot and velocity are not found by name."
  },
  {
   "property": "C116",
   "status": "partial",
   "theorems": [
    "viewer_sees_every_state",
    "viewer_missing",
    "viewer_twice_refuted",
    "viewer_other_robot_refuted",
    "viewer_name_partial",
    "viewer_name_refuted",
    "viewer_missing_class"
   ],
   "note": "For a viewer added once: every call does what it did, every state is sent once and in order (viewer_sees_every_state); a missing viewer changes nothing (viewer_missing). False of the code: adding the viewer twice makes every call raise RecursionError (viewer_twice_refuted); another robot of the class moves then raises (viewer_other_robot_refuted); the name \"robot\" is not translated to \"hrp\" (viewer_name_refuted)."
  },
  {
   "property": "C117",
   "status": "proved",
   "theorems": [
    "pd_loop_follows",
    "pd_loop_gains",
    "pd_loop_leaves",
    "pd_loop_ready",
    "critical_gains",
    "proportional_only"
   ],
   "note": "Over the reals, with bound checks off; the model of ControlPD and the model of Device are those of C-properties on each entity."
  },
  {
   "property": "C118",
   "status": "partial",
   "theorems": [
    "meta_relative_points",
    "meta_relative_goto",
    "meta_relative_gotoN",
    "meta_relative_gotoN_same",
    "meta_relative_gain",
    "meta_relative_gain_start",
    "meta_relative_raise",
    "meta_relative_start",
    "meta_relative_jacobian",
    "meta_relative_keep_partial",
    "meta_relative_keep_refuted",
    "meta_relative_ref_refuted"
   ],
   "note": "Proved for the helpers. keep() only keeps when the base is at the pose given for it, and neither keep() nor ref has an effect before a helper was called (refuted in general): the reference feature has two poses and both must have a value."
  },
  {
   "property": "C119",
   "status": "partial",
   "theorems": [
    "visual_task_partial",
    "visual_task_creates",
    "visual_task_no_reference",
    "visual_task_refuted"
   ],
   "note": "Proved for Python 2, builds without assertions and targets in homogeneous coordinates. In Python 3 the constructor always raises, since it asks for the length of a filter object; see also C99."
  },
  {
   "property": "C120",
   "status": "partial",
   "theorems": [
    "outputs_agree",
    "outputs_same_point",
    "outputs_again",
    "outputs_defined_partial",
    "outputs_without_init_refuted",
    "outputs_values",
    "outputs_seq"
   ],
   "note": "Proved once a first trajectory was given. Before, an output that is read looks at the front of an empty queue (refuted)."
  },
  {
   "property": "C121",
   "status": "partial",
   "theorems": [
    "zmp_recorded",
    "zmp_not_recorded",
    "zmp_array_refuted",
    "dump_files",
    "dump_raises"
   ],
   "note": "False when the point signal gives numpy arrays: every recording raises after storing the position and no point is kept (zmp_array_refuted). The time stamps count samples of 5 ms whatever the period of recording, and the argument sample is not read."
  },
  {
   "property": "C122",
   "status": "partial",
   "theorems": [
    "log_holds_updates",
    "log_forwards",
    "log_other_files",
    "log_fresh",
    "log_slash_refuted"
   ],
   "note": "False for a name with a slash: opening the log raises and the element is not displayed any more (log_slash_refuted)."
  },
  {
   "property": "C123",
   "status": "partial",
   "theorems": [
    "live_forward",
    "live_same_tick",
    "live_quiet",
    "live_stop_later",
    "live_stop_skips_refuted",
    "live_loop_refuted",
    "live_stop_unknown"
   ],
   "note": "Actions are arbitrary functions of the tick and of the calls so far, as long as they register, stop or add pings. The full property, every permanent action called at every tick, fails when an action stops itself or an earlier one (live_stop_skips_refuted), and a run need not end (live_loop_refuted). Missing: actions that run the calendar themselves."
  },
  {
   "property": "C124",
   "status": "partial",
   "theorems": [
    "reference_by_name",
    "reference_unknown",
    "reference_other_class_refuted",
    "reference_none_refuted",
    "reference_deleted_refuted",
    "reference_dependencies"
   ],
   "note": "Proved for every history in which nothing is deleted and objects have distinct addresses. Missing: an error for a feature of another class, and histories with deletions, which are undefined (refuted theorems)."
  },
  {
   "property": "C125",
   "status": "partial",
   "theorems": [
    "stack_display",
    "stack_display_faithful",
    "stack_graph_lines",
    "stack_graph_order",
    "stack_graph_loop_refuted",
    "task_display_lines",
    "task_graph_lines",
    "task_history_display",
    "feature_graph_reference",
    "feature_graph_undefined"
   ],
   "note": "Lines of the display and of the graph for every stack and every list of features; order of the stack read back from the text and from the edges. Partial: a task may be pushed twice, and the graph then has a loop (stack_graph_loop_refuted)."
  },
  {
   "property": "C126",
   "status": "partial",
   "theorems": [
    "watch_report",
    "watch_report_all",
    "watch_report_off",
    "watch_report_name_refuted",
    "watch_report_no_measure"
   ],
   "note": "Lines and columns of the report for every history. Partial: with a name of eighty characters or more there is nothing between the name and the minimum, so the report does not tell them apart (watch_report_name_refuted)."
  },
  {
   "property": "C127",
   "status": "partial",
   "theorems": [
    "constant_last_set",
    "constant_never_set",
    "constant_kind",
    "constant_sizes_refuted",
    "constant_commands"
   ],
   "note": "The last clause is false of the code: the fields rows and cols of the entity are never written (constant_sizes_refuted). The value before any command is that of dynamic-graph, a parameter."
  },
  {
   "property": "C128",
   "status": "partial",
   "theorems": [
    "com_task_read",
    "com_task_needs_reference",
    "com_task_default_gain",
    "com_task_converges",
    "com_task_geometric",
    "com_task_long_reference_refuted"
   ],
   "note": "The last clause is false of the code: a reference with more coordinates than the center of mass is accepted and its last coordinates are left out (com_task_long_reference_refuted); a shorter one is refused only when it has fewer coordinates than are selected (see C26). Real arithmetic."
  },
  {
   "property": "C129",
   "status": "partial",
   "theorems": [
    "quaternion_product",
    "quaternion_rotation",
    "quaternion_of_matrix_partial",
    "quaternion_half_turn_refuted",
    "quaternion_half_turn_undefined_refuted",
    "quaternion_of_vector_refuted"
   ],
   "note": "False of the code for half turns (the three branches take the root of the same number, are scaled by 0.5 s where 0.25 / s is needed, and the real part is a sum where a difference is needed) and for every rotation vector (the full angle is used and the vector is divided by the sine). The file is in no build list. Real arithmetic; a division by zero is a distinct outcome."
  },
  {
   "property": "C130",
   "status": "partial",
   "theorems": [
    "device_step_trace",
    "device_step_raised",
    "device_trace_ordered",
    "device_ignores_calls",
    "device_call_starved_refuted",
    "device_call_repeated_refuted",
    "device_step_report",
    "device_null_factor"
   ],
   "note": "The positive parts are proved for every history; that every due call is made, once per time, is false of the code: two refuted theorems give the witnesses. Factors are not null (a null factor is a division by zero, C-level undefined behaviour)."
  },
  {
   "property": "C131",
   "status": "partial",
   "theorems": [
    "operator_graph",
    "operator_command_then_input",
    "operator_command_stale_refuted",
    "operator_graph_entities",
    "operator_parameters"
   ],
   "note": "Proved for every graph, operator and history when the parameters are set before the first reading, and for a command followed by a new input; that a command is seen by the next reading is false of the code (refuted for every graph, operator and parameters). The rule by which the library computes an output again is that of C108, an assumption on dynamic-graph."
  },
  {
   "property": "C132",
   "status": "partial",
   "theorems": [
    "decorate_registers",
    "decorated_docs",
    "decorated_call",
    "decorated_runs",
    "decorated_stop",
    "decorated_stop_refuted",
    "run_prints"
   ],
   "note": "Proved for every history; stopping a function through the name under which it was decorated is false of the code (decorated_stop_refuted: ValueError, and the function goes on being called)."
  },
  {
   "property": "C133",
   "status": "proved",
   "theorems": [
    "shortcut_calls",
    "step_by_step",
    "stop_rests",
    "loop_states_sane",
    "restart_refuted",
    "next_overlap_refuted",
    "next_uncounted_refuted"
   ],
   "note": "Proved for every interleaving. The two overlaps and the restart that never restarts are findings, with witnesses."
  },
  {
   "property": "C134",
   "status": "proved",
   "theorems": [
    "pose_text_components",
    "pose_text_dimension",
    "pose_text_selection",
    "sequencer_text",
    "periodic_text"
   ],
   "note": "The text of an integer is a parameter; the stream never fails."
  },
  {
   "property": "C135",
   "status": "partial",
   "theorems": [
    "trace_contents_partial",
    "trace_untouched",
    "trace_closed",
    "trace_stuck_refuted"
   ],
   "note": "Contents, order, filtering and silence when closed are proved for every history (contents: histories whose writes succeed). The last sentence is false of the code: trace_stuck_refuted shows that after one failed write neither openFile nor closeFile releases the file, and nothing is written by any later history."
  },
  {
   "property": "C136",
   "status": "partial",
   "theorems": [
    "flagset_accepts",
    "flagset_refuses",
    "flagset_history",
    "flagset_help_refuted",
    "flagset_range_refuted"
   ],
   "note": "All but the last clause are proved for every pool, text and history. The last is false of the code: flagset_help_refuted and flagset_range_refuted show that the form {#&"
  },
  {
   "property": "C137",
   "status": "partial",
   "theorems": [
    "stackcmd_names_partial",
    "stackcmd_list",
    "stackcmd_deleted_refuted",
    "stackcmd_recycled_refuted"
   ],
   "note": "Proved for every history without deletion of a task or of the pool. With them it is false of the code: the name of a deleted task is still accepted by push, and once the pool is destroyed a name can denote a task other than the one listed under it."
  },
  {
   "property": "C138",
   "status": "proved",
   "theorems": [
    "event_list_text",
    "event_add_signal",
    "event_fires_listed",
    "event_list_faithful"
   ],
   "note": "The lookup of a signal by its name in the pool of dynamic-graph is a function of the name."
  },
  {
   "property": "C139",
   "status": "partial",
   "theorems": [
    "force_display_text_partial",
    "force_display_undefined_refuted",
    "force_display_limits_refuted"
   ],
   "note": "The contents are proved for every history that sets the four extremities. Two clauses are false of the code: printing is undefined exactly when an extremity was never set, and the ids of the limits are not printed."
  },
  {
   "property": "C140",
   "status": "partial",
   "theorems": [
    "trajectory_text_lines",
    "trajectory_text_determines",
    "transfer_sets",
    "transfers_last",
    "stamp_equal",
    "stamp_shown_exact",
    "stamp_shown_distinct_refuted",
    "stamp_shown_order_refuted"
   ],
   "note": "Proved for the text of a trajectory, the fills and the equality of stamps. The clause on printed stamps is false of the code: nanoseconds are scaled by 1e-6, so the printed number is the time in seconds only for whole seconds, two different stamps can print the same, and the order can be reversed. The text of a double is a parameter, assumed on one line, injective and never a title (the default precision of a stream is not injective)."
  },
  {
   "property": "C141",
   "status": "partial",
   "theorems": [
    "robot_text_partial",
    "robot_text_undefined_refuted",
    "robot_text_unshown_refuted"
   ],
   "note": "Proved for robots whose four force sensors are named and whose joints are given: the whole text, table by table, from the history. False of the code elsewhere: printing is undefined exactly when one of these was never set, and the joint limits, the position of the force sensor and the joint of the inertial unit are never printed. How a number, a vector and the property tree are written is a parameter."
  },
  {
   "property": "C142",
   "status": "partial",
   "theorems": [
    "adaptive_text_determines",
    "hyperbolic_text_determines",
    "hyperbolic_text_open_refuted",
    "hyperbolic_text_formula_refuted"
   ],
   "note": "Proved for the coefficients and the gain last computed (the text of a number is a parameter, free of the characters around it). The last clause is false of the code: the text writes a.exp(-b(x-d))+c while the gain is a/2 (tanh(-b(x-d))+1)+c; at every error they agree only when a is zero, and for a positive the written value is larger. The text also leaves a parenthesis open."
  }
 ]
}