{
 "claims": [
  {
   "property": "C01",
   "status": "proved",
   "theorems": [
    "C01_training_lifecycle"
   ],
   "note": "Any Node subclass (hooks are arbitrary finite programs), any call history including raising calls."
  },
  {
   "property": "C02",
   "status": "proved",
   "theorems": [
    "C02_dims_write_once"
   ],
   "note": ""
  },
  {
   "property": "C03",
   "status": "proved",
   "theorems": [
    "C03_preserve_dim"
   ],
   "note": ""
  },
  {
   "property": "C04",
   "status": "proved",
   "theorems": [
    "C04_execute_untrained",
    "C04_execute_midtraining"
   ],
   "note": ""
  },
  {
   "property": "C05",
   "status": "proved",
   "theorems": [
    "C05_cumulator_collects",
    "C05_chunking_irrelevant"
   ],
   "note": ""
  },
  {
   "property": "C65",
   "status": "partial",
   "theorems": [
    "C65_failed_call_atomic_refuted",
    "C65_rejected_array_keeps_node"
   ],
   "note": "REFUTED: a rejected train fixes input_dim/dtype, a rejected execute closes the training phase. The guarded statement that does hold is proved."
  },
  {
   "property": "C08",
   "status": "proved",
   "theorems": [
    "C08_flow_training"
   ],
   "note": "Nodes: any reachable node whose execute hook writes no attribute and whose hooks do not raise TrainingFinishedException themselves."
  },
  {
   "property": "C09",
   "status": "proved",
   "theorems": [
    "C09_execute_is_composition",
    "C09_empty_rejected",
    "C09_chunking_irrelevant"
   ],
   "note": ""
  },
  {
   "property": "C10",
   "status": "proved",
   "theorems": [
    "C10_inverse_undoes_execute",
    "C10_inverse_order"
   ],
   "note": ""
  },
  {
   "property": "C11",
   "status": "proved",
   "theorems": [
    "C11_checkpoints"
   ],
   "note": "Checkpoint functions that do not modify the node, or close its training."
  },
  {
   "property": "C66",
   "status": "partial",
   "theorems": [
    "C66_swallowed_exception_refuted",
    "C08_flow_training"
   ],
   "note": "REFUTED: a TrainingFinishedException raised by a _train hook makes train return normally with phases untrained. Excluding that exception, C08 shows all data was seen."
  },
  {
   "property": "C67",
   "status": "partial",
   "theorems": [
    "C08_all_trained_refuted",
    "C08_flow_training"
   ],
   "note": "REFUTED: a trainable node followed only by non-trainable nodes keeps its last phase open; C08 proves what does hold."
  },
  {
   "property": "C06",
   "status": "proved",
   "theorems": [
    "C06_flows_consistent",
    "C06_iadd_refuted"
   ],
   "note": "For all operations and histories in which no += raised; REFUTED for a raising +=, which leaves the flow inconsistent (C06_iadd_refuted)."
  },
  {
   "property": "C07",
   "status": "partial",
   "theorems": [
    "C07_failing_edit_atomic",
    "C07_iadd_refuted"
   ],
   "note": "Proved for every operation except +=; REFUTED for +=, which changes the list before checking it."
  },
  {
   "property": "C68",
   "status": "partial",
   "theorems": [
    "C68_edits_are_isolated",
    "C68_iadd_refuted"
   ],
   "note": "Proved for every operation except +=; REFUTED for += (Flow keeps a reference to the caller's list)."
  },
  {
   "property": "C69",
   "status": "proved",
   "theorems": [
    "C69_acts_like_list"
   ],
   "note": ""
  },
  {
   "property": "C70",
   "status": "partial",
   "theorems": [
    "C70_slice_iterator_refuted",
    "C69_acts_like_list"
   ],
   "note": "REFUTED for one-shot iterators: the type check exhausts them and the slice is deleted. Sequences: C69."
  },
  {
   "property": "C71",
   "status": "partial",
   "theorems": [
    "C71_consistent_accepted",
    "C71_consistent_accepted_refuted"
   ],
   "note": "REFUTED for output_dim 0 followed by an unset input_dim (TypeError); proved otherwise."
  },
  {
   "property": "C15",
   "status": "proved",
   "theorems": [
    "C15_topological_sort"
   ],
   "note": ""
  },
  {
   "property": "C16",
   "status": "proved",
   "theorems": [
    "C16_traversals"
   ],
   "note": ""
  },
  {
   "property": "C17",
   "status": "partial",
   "theorems": [
    "C17_components",
    "C17_weakly_connected",
    "C17_weakly_connected_refuted"
   ],
   "note": "Proved for non-empty graphs; REFUTED: is_weakly_connected of the empty graph raises IndexError."
  },
  {
   "property": "C18",
   "status": "proved",
   "theorems": [
    "C18_bookkeeping",
    "C18_effects",
    "C18_bad_tree_refuted"
   ],
   "note": "All histories of calls with nodes of the graph and proper trees, raising calls included; an add_tree of a sequence that is no tree raises half-way and breaks the bookkeeping (C18_bad_tree_refuted)."
  },
  {
   "property": "C72",
   "status": "proved",
   "theorems": [
    "C72_add_tree",
    "C72_empty_tree_refuted"
   ],
   "note": "For non-empty trees; the empty sequence raises TypeError."
  },
  {
   "property": "C73",
   "status": "proved",
   "theorems": [
    "C73_full_connectivity"
   ],
   "note": ""
  },
  {
   "property": "C74",
   "status": "proved",
   "theorems": [
    "C74_degrees",
    "C74_edge_queries"
   ],
   "note": ""
  },
  {
   "property": "C75",
   "status": "partial",
   "theorems": [
    "C75_dfs_order_refuted",
    "C16_traversals"
   ],
   "note": "REFUTED: nodes are marked when put on the stack, so a son can come after nodes it should precede. The set of nodes is right (C16)."
  },
  {
   "property": "C76",
   "status": "proved",
   "theorems": [
    "C76_bfs_by_distance"
   ],
   "note": ""
  },
  {
   "property": "C77",
   "status": "partial",
   "theorems": [
    "C77_remove_node_refuted",
    "C18_effects"
   ],
   "note": "REFUTED for nodes with a self loop: ValueError, node stays. Proved for nodes without self loop (last part of C18_effects)."
  },
  {
   "property": "C12",
   "status": "proved",
   "theorems": [
    "C12_restore"
   ],
   "note": "Each condition is needed: C78-C81, C84."
  },
  {
   "property": "C13",
   "status": "partial",
   "theorems": [
    "C13_contexts",
    "C13_failing_enter_refuted"
   ],
   "note": "Proved for bodies and nestings with known extension names; REFUTED when entering fails: all active extensions are deactivated, also those active before."
  },
  {
   "property": "C14",
   "status": "partial",
   "theorems": [
    "C14_refuted",
    "C14_collision_leaves_trace"
   ],
   "note": "REFUTED: on every name clash the attribute of the other extension is removed although it stays active."
  },
  {
   "property": "C78",
   "status": "partial",
   "theorems": [
    "C78_override_refuted",
    "C12_restore"
   ],
   "note": "REFUTED: the subclass method is lost. C12_restore is the guarded positive version."
  },
  {
   "property": "C79",
   "status": "partial",
   "theorems": [
    "C79_order_refuted",
    "C12_restore"
   ],
   "note": "REFUTED: subclass registered first gets the inherited method copied. Positive version with the order condition: C12_restore."
  },
  {
   "property": "C80",
   "status": "partial",
   "theorems": [
    "C80_classmethod_refuted",
    "C12_restore"
   ],
   "note": "REFUTED: static methods come back plain, class methods bound to the class. Positive version for plain values: C12_restore."
  },
  {
   "property": "C81",
   "status": "partial",
   "theorems": [
    "C81_reexposed_refuted",
    "C12_restore"
   ],
   "note": "REFUTED. Positive version without repeated values: C12_restore."
  },
  {
   "property": "C82",
   "status": "proved",
   "theorems": [
    "C82_any_order"
   ],
   "note": ""
  },
  {
   "property": "C83",
   "status": "partial",
   "theorems": [
    "C83_list_context_refuted",
    "C13_contexts"
   ],
   "note": "REFUTED for dependent extensions (exit order is entry order); holds for independent ones (C13_contexts)."
  },
  {
   "property": "C84",
   "status": "partial",
   "theorems": [
    "C84_original_refuted",
    "C12_restore"
   ],
   "note": "REFUTED with a registered superclass and an unregistered class in between; holds without registered superclass (C12_restore)."
  },
  {
   "property": "C85",
   "status": "partial",
   "theorems": [
    "C85_setup_failure_refuted",
    "C85_setup_failure_clean"
   ],
   "note": "REFUTED: the clean-up deletes the own methods of the classes. Proved when no registered class defines the attributes itself."
  },
  {
   "property": "C19",
   "status": "proved",
   "theorems": [
    "C19_routing",
    "C19_invertible_iff",
    "C19_inverse",
    "C19_not_invertible"
   ],
   "note": ""
  },
  {
   "property": "C20",
   "status": "proved",
   "theorems": [
    "C20_mean_inverse"
   ],
   "note": "For every commutative and associative addition; the argsort is any sorting permutation."
  },
  {
   "property": "C21",
   "status": "proved",
   "theorems": [
    "C21_rectangular",
    "C21_accepted",
    "C21_cover"
   ],
   "note": "Coverage needs spacing <= field size, see C87."
  },
  {
   "property": "C22",
   "status": "proved",
   "theorems": [
    "C22_double_rect"
   ],
   "note": ""
  },
  {
   "property": "C23",
   "status": "proved",
   "theorems": [
    "C23_rhombic",
    "C23_no_outside"
   ],
   "note": ""
  },
  {
   "property": "C24",
   "status": "proved",
   "theorems": [
    "C24_coordinates"
   ],
   "note": ""
  },
  {
   "property": "C25",
   "status": "proved",
   "theorems": [
    "C25_channel_input",
    "C25_channel_node",
    "C25_input_channels"
   ],
   "note": ""
  },
  {
   "property": "C86",
   "status": "partial",
   "theorems": [
    "C86_negative_refuted",
    "C86_execute_fails_refuted",
    "C86_accepted"
   ],
   "note": "REFUTED: negative entries are accepted; is_invertible and inverse are then wrong."
  },
  {
   "property": "C87",
   "status": "partial",
   "theorems": [
    "C87_cover_refuted",
    "C21_cover"
   ],
   "note": "REFUTED: 3x1 image, 1x1 fields, spacing 2. Proved for spacing <= field size."
  },
  {
   "property": "C88",
   "status": "proved",
   "theorems": [
    "C88_rhombic_double_cover"
   ],
   "note": ""
  },
  {
   "property": "C89",
   "status": "partial",
   "theorems": [
    "C89_negative_spacing_refuted",
    "C21_accepted"
   ],
   "note": "REFUTED: spacing (-1,-1) accepted."
  },
  {
   "property": "C90",
   "status": "partial",
   "theorems": [
    "C90_negative_channel_refuted",
    "C25_channel_input",
    "C25_input_channels"
   ],
   "note": "REFUTED for -1; proved for indices in range."
  },
  {
   "property": "C26",
   "status": "proved",
   "theorems": [
    "C26_layer_execute",
    "C26_same_input_execute",
    "C26_layer_execute_error",
    "C26_layer_inverse",
    "C26_layer_init",
    "C26_layer_dims"
   ],
   "note": "Additional arguments are part of the node methods; dtype of the result array not modelled."
  },
  {
   "property": "C27",
   "status": "proved",
   "theorems": [
    "C27_clone_execute",
    "C27_clone_inverse"
   ],
   "note": "For nodes acting row by row; the unrestricted docstring claim is C94."
  },
  {
   "property": "C91",
   "status": "proved",
   "theorems": [
    "C91_train_step",
    "C91_layer_training",
    "C91_same_input_training"
   ],
   "note": ""
  },
  {
   "property": "C92",
   "status": "proved",
   "theorems": [
    "C92_phases_suffice"
   ],
   "note": ""
  },
  {
   "property": "C93",
   "status": "partial",
   "theorems": [
    "C93_layer_phases_refuted",
    "C92_phases_suffice"
   ],
   "note": "REFUTED: a trained node with two phases gives the layer two phases though one is needed."
  },
  {
   "property": "C94",
   "status": "partial",
   "theorems": [
    "C94_clone_frames_refuted",
    "C27_clone_execute"
   ],
   "note": "REFUTED for nodes like TimeFramesNode; proved for row-wise nodes (C27)."
  },
  {
   "property": "C95",
   "status": "proved",
   "theorems": [
    "C95_clone_train",
    "C95_clone_stop"
   ],
   "note": ""
  },
  {
   "property": "C96",
   "status": "partial",
   "theorems": [
    "C96_rows_refuted",
    "C26_layer_execute"
   ],
   "note": "REFUTED: a single row is broadcast."
  },
  {
   "property": "C97",
   "status": "partial",
   "theorems": [
    "C97_same_node_twice_refuted",
    "C95_clone_stop"
   ],
   "note": "REFUTED for nodes with two phases."
  },
  {
   "property": "C28",
   "status": "proved",
   "theorems": [
    "C28_flownode_training"
   ],
   "note": "Statement about successful training; automatic training on first execute not modelled."
  },
  {
   "property": "C98",
   "status": "partial",
   "theorems": [
    "C98_first_execute_refuted",
    "C98_flownode_execute"
   ],
   "note": "REFUTED: with an unknown output_dim the first execute raises; whenever execute returns, the result is that of the flow (proved)."
  },
  {
   "property": "C99",
   "status": "proved",
   "theorems": [
    "C99_copy",
    "C99_copy_node_error"
   ],
   "note": ""
  },
  {
   "property": "C100",
   "status": "partial",
   "theorems": [
    "C100_copy_changes_original_refuted",
    "C100_copy_depth",
    "C99_copy"
   ],
   "note": "REFUTED: the original's flow attribute becomes a Flow object, nested deeper with each copy."
  },
  {
   "property": "C101",
   "status": "partial",
   "theorems": [
    "C101_copy_error_refuted",
    "C99_copy_node_error"
   ],
   "note": "REFUTED if deepcopy raises; proved for a raising node copy."
  },
  {
   "property": "C29",
   "status": "proved",
   "theorems": [
    "C29_sequential_scheduler"
   ],
   "note": ""
  },
  {
   "property": "C30",
   "status": "proved",
   "theorems": [
    "C30_ordered_results"
   ],
   "note": ""
  },
  {
   "property": "C34",
   "status": "partial",
   "theorems": [
    "C34_lock_refuted",
    "C34_raise_then_blocked",
    "C29_sequential_scheduler"
   ],
   "note": "REFUTED: a raising task, a missing callable or get_results without results leave the lock held; the guarded positive statement is C29_sequential_scheduler."
  },
  {
   "property": "C102",
   "status": "partial",
   "theorems": [
    "C102_set_function_refuted",
    "C29_sequential_scheduler"
   ],
   "note": "REFUTED: a plain function is not wrapped by set_task_callable."
  },
  {
   "property": "C31",
   "status": "proved",
   "theorems": [
    "C31_exclusive",
    "C31_results",
    "C31_terminates",
    "C31_all_answered"
   ],
   "note": "Transition system with one client thread."
  },
  {
   "property": "C32",
   "status": "partial",
   "theorems": [
    "C32_race_refuted",
    "C32_set_refuted",
    "C32_right_callable"
   ],
   "note": "REFUTED: race between add_task and the thread that reads _last_callable_index; proved for clients that change the callable only while no task is open, and without caching."
  },
  {
   "property": "C33",
   "status": "partial",
   "theorems": [
    "C33_n_threads_refuted",
    "C33_never_waits"
   ],
   "note": "REFUTED: _n_active_threads is never increased."
  },
  {
   "property": "C103",
   "status": "partial",
   "theorems": [
    "C103_failed_refuted",
    "C103_failed_blocks",
    "C31_all_answered"
   ],
   "note": "REFUTED: the task stays open, get_results never returns; proved to return if no task raises."
  },
  {
   "property": "C104",
   "status": "partial",
   "theorems": [
    "C104_shutdown_refuted",
    "C31_terminates"
   ],
   "note": "REFUTED: the result is stored before the process is given back; the threads do finish (C31_terminates)."
  },
  {
   "property": "C105",
   "status": "partial",
   "theorems": [
    "C105_fork_refuted",
    "C32_right_callable",
    "C29_sequential_scheduler",
    "C107_thread_results"
   ],
   "note": "REFUTED for ProcessScheduler(cache_callable=False); C32_right_callable says what is called."
  },
  {
   "property": "C106",
   "status": "partial",
   "theorems": [
    "C106_dead_process_refuted",
    "C31_all_answered"
   ],
   "note": "REFUTED: the dead process goes back to the free processes."
  },
  {
   "property": "C107",
   "status": "proved",
   "theorems": [
    "C107_thread_results",
    "C107_answered"
   ],
   "note": ""
  },
  {
   "property": "C108",
   "status": "partial",
   "theorems": [
    "C108_raise_refuted",
    "C108_failed_blocks",
    "C107_answered"
   ],
   "note": "REFUTED: the task stays open forever."
  },
  {
   "property": "C35",
   "status": "proved",
   "theorems": [
    "C35_parallel_training",
    "C35_additive_nodes"
   ],
   "note": "For every completion order; nodes satisfying the fork/join laws (C35_additive_nodes shows them for additive statistics in exact arithmetic)."
  },
  {
   "property": "C36",
   "status": "proved",
   "theorems": [
    "C36_parallel_execution"
   ],
   "note": "For nodenr=None; see C109."
  },
  {
   "property": "C109",
   "status": "partial",
   "theorems": [
    "C109_nodenr_refuted",
    "C109_nodenr_ignored"
   ],
   "note": "REFUTED: nodenr is not passed to the callable."
  },
  {
   "property": "C110",
   "status": "partial",
   "theorems": [
    "C110_retrain_refuted",
    "C110_flow_stays_underway"
   ],
   "note": "REFUTED: the flow stays 'underway', every later call raises."
  },
  {
   "property": "C111",
   "status": "partial",
   "theorems": [
    "C111_sample_order_refuted",
    "C111_sample_multiset"
   ],
   "note": "REFUTED for the order; the multiset of samples is right."
  },
  {
   "property": "C112",
   "status": "proved",
   "theorems": [
    "C112_scheduler_per_node"
   ],
   "note": ""
  },
  {
   "property": "C113",
   "status": "partial",
   "theorems": [
    "C113_all_trained_refuted",
    "C113_all_trained_raises"
   ],
   "note": "REFUTED: None > 0 raises TypeError before the branch for this case."
  },
  {
   "property": "C114",
   "status": "partial",
   "theorems": [
    "C114_checkpoint_serial_refuted",
    "C114_entry"
   ],
   "note": "REFUTED: the default train_callable_class makes the call raise."
  },
  {
   "property": "C115",
   "status": "partial",
   "theorems": [
    "C115_stale_flownode_refuted",
    "C115_fresh_container"
   ],
   "note": "REFUTED: the container keeps the flownode of earlier executions."
  },
  {
   "property": "C37",
   "status": "proved",
   "theorems": [
    "C37_covariance",
    "C37_chunking"
   ],
   "note": "Exact rational arithmetic."
  },
  {
   "property": "C38",
   "status": "proved",
   "theorems": [
    "C38_delay_covariance",
    "C38_pairs",
    "C38_short_block",
    "C38_no_delay"
   ],
   "note": "Exact rational arithmetic."
  },
  {
   "property": "C39",
   "status": "proved",
   "theorems": [
    "C39_cross_covariance",
    "C39_mismatch"
   ],
   "note": "Exact rational arithmetic."
  },
  {
   "property": "C40",
   "status": "proved",
   "theorems": [
    "C40_rotate",
    "C40_rotate_data",
    "C40_rotate_inverse",
    "C40_permute",
    "C40_symmetrize"
   ],
   "note": "Over any commutative ring; angle given by its cosine and sine."
  },
  {
   "property": "C41",
   "status": "partial",
   "theorems": [
    "C41_cov2_refuted",
    "C41_cov2"
   ],
   "note": "REFUTED: off by the product of the means divided by n-1."
  },
  {
   "property": "C116",
   "status": "proved",
   "theorems": [
    "C116_transformed"
   ],
   "note": ""
  },
  {
   "property": "C117",
   "status": "proved",
   "theorems": [
    "C117_trapezoid"
   ],
   "note": "sqrt(dt)*sqrt(dt) taken as dt."
  },
  {
   "property": "C118",
   "status": "partial",
   "theorems": [
    "C118_vartime_reset_refuted",
    "C118_reset"
   ],
   "note": "REFUTED for VartimeCovarianceMatrix: tchunk and xlast are kept; the other classes do reset."
  },
  {
   "property": "C119",
   "status": "partial",
   "theorems": [
    "C119_one_row_refuted",
    "C117_trapezoid"
   ],
   "note": "REFUTED: for a chunk of one row dt[-1+1:] is the whole of dt, the gap is counted twice."
  },
  {
   "property": "C120",
   "status": "proved",
   "theorems": [
    "C120_mult_diag"
   ],
   "note": ""
  },
  {
   "property": "C121",
   "status": "partial",
   "theorems": [
    "C121_weight_refuted",
    "C121_weight_array"
   ],
   "note": "REFUTED for numbers and lists; proved for arrays."
  },
  {
   "property": "C42",
   "status": "proved",
   "theorems": [
    "C42_comb",
    "C42_factorial"
   ],
   "note": "Number of k-element subsets, all N, k >= 0."
  },
  {
   "property": "C43",
   "status": "proved",
   "theorems": [
    "C43_orthogonal",
    "C43_izip",
    "C43_izip_endless"
   ],
   "note": ""
  },
  {
   "property": "C122",
   "status": "partial",
   "theorems": [
    "C122_comb_negative_refuted",
    "C122_comb_above"
   ],
   "note": "REFUTED for negative k (1 is returned); proved for k > N."
  },
  {
   "property": "C123",
   "status": "proved",
   "theorems": [
    "C123_cov_maxima",
    "C123_greedy"
   ],
   "note": ""
  },
  {
   "property": "C124",
   "status": "proved",
   "theorems": [
    "C124_weighted_choice",
    "C124_total"
   ],
   "note": "Exact rational arithmetic."
  },
  {
   "property": "C125",
   "status": "proved",
   "theorems": [
    "C125_signs",
    "C125_sign_to_bool"
   ],
   "note": ""
  },
  {
   "property": "C44",
   "status": "proved",
   "theorems": [
    "C44_execute",
    "C44_too_short",
    "C44_pseudo_inverse",
    "C44_inverse",
    "C44_execute_inverse"
   ],
   "note": "gap >= 1. C44_pseudo_inverse also gives the entries when fewer than gap rows come out."
  },
  {
   "property": "C45",
   "status": "partial",
   "theorems": [
    "C45_delay_refuted",
    "C45_delay",
    "C45_delay_long",
    "C45_short_input_raises"
   ],
   "note": "REFUTED for inputs shorter than the longest delay (ValueError); exact condition proved."
  },
  {
   "property": "C46",
   "status": "proved",
   "theorems": [
    "C46_sliding_window",
    "C46_as_batch"
   ],
   "note": "gap >= 1, see C127."
  },
  {
   "property": "C47",
   "status": "proved",
   "theorems": [
    "C47_hit_parade",
    "C47_chunking"
   ],
   "note": "Maxima; the minima are the maxima of the negated signal."
  },
  {
   "property": "C48",
   "status": "proved",
   "theorems": [
    "C48_cutoff",
    "C48_monotone"
   ],
   "note": "The lower bound holds if it is not above the upper one."
  },
  {
   "property": "C126",
   "status": "partial",
   "theorems": [
    "C126_local_maxima_refuted",
    "C47_hit_parade"
   ],
   "note": "REFUTED: while hits are missing any value far enough from the kept ones is taken."
  },
  {
   "property": "C127",
   "status": "partial",
   "theorems": [
    "C127_gap_zero_refuted",
    "C46_sliding_window"
   ],
   "note": "REFUTED for gap 0; proved for gap >= 1."
  },
  {
   "property": "C128",
   "status": "partial",
   "theorems": [
    "C128_lower",
    "C128_upper",
    "C128_upper_fraction_refuted"
   ],
   "note": "Lower bound proved; REFUTED for the upper bound, which clips N-1-floor(N-f*N) values."
  },
  {
   "property": "C129",
   "status": "partial",
   "theorems": [
    "C129_fraction_one_refuted",
    "C128_lower"
   ],
   "note": "REFUTED: a lower fraction of 1 raises IndexError; proved for fractions in (0,1)."
  },
  {
   "property": "C130",
   "status": "proved",
   "theorems": [
    "C130_eta",
    "C130_timediff"
   ],
   "note": ""
  },
  {
   "property": "C49",
   "status": "proved",
   "theorems": [
    "C49_polynomial",
    "C49_by_degree",
    "C49_counts"
   ],
   "note": "degree >= 1, see C131; over any multiplication."
  },
  {
   "property": "C50",
   "status": "proved",
   "theorems": [
    "C50_general",
    "C50_output_dim"
   ],
   "note": "For functions that map an array to one with as many rows and a column count depending only on the input column count."
  },
  {
   "property": "C131",
   "status": "partial",
   "theorems": [
    "C131_degree_zero_refuted",
    "C49_polynomial"
   ],
   "note": "REFUTED: assigning x to an empty array raises; proved for degree >= 1."
  },
  {
   "property": "C132",
   "status": "proved",
   "theorems": [
    "C132_recursive",
    "C132_output_dim",
    "C132_families"
   ],
   "note": "degree >= 1, and >= 2 for the rational functions (C134, C135). Exact rational arithmetic."
  },
  {
   "property": "C133",
   "status": "partial",
   "theorems": [
    "C133_input_dim_refuted",
    "C133_later"
   ],
   "note": "REFUTED: Node.__init__ calls expanded_dim before degree is set; setting the dimension later works."
  },
  {
   "property": "C134",
   "status": "partial",
   "theorems": [
    "C134_rational_degree_one_refuted",
    "C132_recursive"
   ],
   "note": "REFUTED for legendre_rational; proved for the other families."
  },
  {
   "property": "C135",
   "status": "partial",
   "theorems": [
    "C135_degree_zero_refuted",
    "C132_output_dim"
   ],
   "note": "REFUTED: num_vars columns of ones; proved for degree >= 1."
  },
  {
   "property": "C136",
   "status": "proved",
   "theorems": [
    "C136_normalised"
   ],
   "note": "Exact rational arithmetic."
  },
  {
   "property": "C137",
   "status": "partial",
   "theorems": [
    "C137_in_place_refuted",
    "C137_inside"
   ],
   "note": "REFUTED: the transformation works in place on the array of the caller; nothing changes if the training data was inside the domain."
  },
  {
   "property": "C51",
   "status": "proved",
   "theorems": [
    "C51_values",
    "C51_transparent",
    "C51_not_recomputed",
    "C51_persistent",
    "C51_node_checks"
   ],
   "note": "joblib.Memory modelled as a table per directory; _execute must not change the node (docstring). C51_node_checks shows that the checks of Node (NodeModel) satisfy the assumption of the others."
  },
  {
   "property": "C52",
   "status": "partial",
   "theorems": [
    "C52_nested_refuted",
    "C52_leave"
   ],
   "note": "REFUTED for nested contexts: leaving the inner one switches caching off."
  },
  {
   "property": "C138",
   "status": "partial",
   "theorems": [
    "C138_failed_check_refuted",
    "C51_transparent"
   ],
   "note": "REFUTED: the cached method is registered before the checks run, so after a failed check they are skipped on a cache hit; C51_transparent gives the condition."
  },
  {
   "property": "C139",
   "status": "partial",
   "theorems": [
    "C139_reactivation_refuted",
    "C139_selection"
   ],
   "note": "REFUTED when caching is already active (classes of the first activation stay); proved from the deactivated state."
  },
  {
   "property": "C140",
   "status": "partial",
   "theorems": [
    "C140_instance_refuted",
    "C140_instance"
   ],
   "note": "REFUTED for an instance listed twice; proved if it is listed at most once."
  },
  {
   "property": "C141",
   "status": "partial",
   "theorems": [
    "C141_by_name_refuted",
    "C51_values"
   ],
   "note": "REFUTED: no joblib memory exists before set_cachedir is called."
  },
  {
   "property": "C53",
   "status": "proved",
   "theorems": [
    "C53_rank"
   ],
   "note": "The order of equally probable labels is kept."
  },
  {
   "property": "C54",
   "status": "proved",
   "theorems": [
    "C54_train",
    "C54_markov"
   ],
   "note": "For labels that are not iterable (C143). Exact rational arithmetic."
  },
  {
   "property": "C55",
   "status": "proved",
   "theorems": [
    "C55_vote"
   ],
   "note": "For every argsort result that sorts the distances; at least one sample, k >= 1. Exact rational arithmetic; the square root of the distance is left out (monotone)."
  },
  {
   "property": "C56",
   "status": "proved",
   "theorems": [
    "C56_nearest_mean",
    "C56_order_independent"
   ],
   "note": "For every iteration order of set(labels). Exact rational arithmetic."
  },
  {
   "property": "C57",
   "status": "proved",
   "theorems": [
    "C57_weights",
    "C57_recall",
    "C144_recalled"
   ],
   "note": "At most 2^n+1 sweeps, for every sequence of shuffles. Exact rational arithmetic."
  },
  {
   "property": "C142",
   "status": "partial",
   "theorems": [
    "C142_cumulator_labels_refuted",
    "C142_cumulator_fails",
    "C142_cumulator_arrays_partial"
   ],
   "note": "REFUTED: anything but an array raises AttributeError after the data has been taken, and the node can never be stopped; proved for arrays."
  },
  {
   "property": "C143",
   "status": "partial",
   "theorems": [
    "C143_markov_string_label_refuted",
    "C143_markov_single_label_partial"
   ],
   "note": "REFUTED for strings, which are zipped character by character; proved for labels that are not iterable."
  },
  {
   "property": "C144",
   "status": "proved",
   "theorems": [
    "C144_recalled"
   ],
   "note": "Exact rational arithmetic."
  },
  {
   "property": "C145",
   "status": "proved",
   "theorems": [
    "C145_fixed_point"
   ],
   "note": "Exact rational arithmetic."
  },
  {
   "property": "C146",
   "status": "proved",
   "theorems": [
    "C146_converges"
   ],
   "note": "Exact rational arithmetic."
  },
  {
   "property": "C147",
   "status": "partial",
   "theorems": [
    "C147_max_iter_refuted",
    "C146_converges"
   ],
   "note": "REFUTED: _centroids stays None when max_iter is reached."
  },
  {
   "property": "C148",
   "status": "proved",
   "theorems": [
    "C148_mistakes",
    "C148_convergence",
    "C148_accepted"
   ],
   "note": "Exact rational arithmetic."
  },
  {
   "property": "C149",
   "status": "proved",
   "theorems": [
    "C149_signum"
   ],
   "note": ""
  },
  {
   "property": "C150",
   "status": "proved",
   "theorems": [
    "C150_fit"
   ],
   "note": "Determinant and inverse are not computed: the singularity test is a parameter. Exact rational arithmetic."
  },
  {
   "property": "C151",
   "status": "proved",
   "theorems": [
    "C151_posterior"
   ],
   "note": "The density is a parameter (any positive function)."
  },
  {
   "property": "C152",
   "status": "partial",
   "theorems": [
    "C152_failed_stop_refuted",
    "C150_fit"
   ],
   "note": "REFUTED: the entries appended before the failure stay, so that means and priors are assigned to the wrong classes; C150_fit holds for a node without failure."
  },
  {
   "property": "C58",
   "status": "proved",
   "theorems": [
    "C58_open",
    "C58_closed",
    "C58_stop",
    "C58_iteration",
    "C58_total"
   ],
   "note": ""
  },
  {
   "property": "C153",
   "status": "proved",
   "theorems": [
    "C153_channels"
   ],
   "note": "For channels that compute a function of the data."
  },
  {
   "property": "C154",
   "status": "proved",
   "theorems": [
    "C154_chunks"
   ],
   "note": ""
  },
  {
   "property": "C155",
   "status": "partial",
   "theorems": [
    "C155_stop_twice_refuted",
    "C58_stop"
   ],
   "note": "REFUTED: the phases before the failing one are closed again by the second call; C58_stop: a call that returns closes every phase once."
  },
  {
   "property": "C59",
   "status": "partial",
   "theorems": [
    "C59_terminal_node_refuted",
    "C59_terminal_phases_refuted",
    "C59_every_element",
    "C59_trained_on_all"
   ],
   "note": "REFUTED: a terminal Node that is not an OnlineNode is executed after its first element, which ends its training (with several phases a TrainingException is raised); proved for OnlineNodes."
  },
  {
   "property": "C60",
   "status": "partial",
   "theorems": [
    "C60_output_index_refuted",
    "C60_slice_refuted",
    "C60_input",
    "C60_output_kept",
    "C60_execute"
   ],
   "note": "REFUTED: set_output_node(len(flow)) is accepted and execute then raises IndexError. The rotation by set_input_node and the preservation of the output node by all operations elsewhere are proved."
  },
  {
   "property": "C156",
   "status": "partial",
   "theorems": [
    "C156_closed_refuted",
    "C156_stays_open"
   ],
   "note": "REFUTED: _close_last_node closes a terminal OnlineNode with more than one phase. Proved for the other nodes."
  },
  {
   "property": "C157",
   "status": "proved",
   "theorems": [
    "C157_clock",
    "C157_iterations",
    "C157_default"
   ],
   "note": ""
  },
  {
   "property": "C158",
   "status": "partial",
   "theorems": [
    "C158_iadd_refuted",
    "C158_step",
    "C158_history"
   ],
   "note": "REFUTED: += changes the flow before the checks. Proved for the other operations and for histories in which no += fails."
  },
  {
   "property": "C159",
   "status": "partial",
   "theorems": [
    "C159_append_refuted",
    "C159_append"
   ],
   "note": "REFUTED: append refuses a Node in training, + accepts it. Proved for all other nodes."
  },
  {
   "property": "C160",
   "status": "partial",
   "theorems": [
    "C160_stored_input_refuted",
    "C160_stored_input"
   ],
   "note": "REFUTED: the call is ignored if the input dim is unknown. Proved for known dims."
  },
  {
   "property": "C161",
   "status": "partial",
   "theorems": [
    "C161_container_refuted",
    "C161_delete_fails",
    "C161_delete_slice_fails",
    "C161_assign_fails",
    "C161_insert_fails",
    "C60_output_kept"
   ],
   "note": "REFUTED: deleting and item assignment always raise, after the flow has been changed; insert raises before the output node. C60_output_kept: the operations that return keep the output node."
  },
  {
   "property": "C162",
   "status": "partial",
   "theorems": [
    "C162_inverse_refuted",
    "C162_add_flow_refuted",
    "C162_add_flow_fails"
   ],
   "note": "REFUTED: a deque cannot be sliced; __add__ appends the flow itself as an item."
  },
  {
   "property": "C61",
   "status": "proved",
   "theorems": [
    "C61_average",
    "C61_train",
    "C61_weights"
   ],
   "note": "Exact rational arithmetic; over all histories of calls."
  },
  {
   "property": "C163",
   "status": "partial",
   "theorems": [
    "C163_first_refuted",
    "C163_execute"
   ],
   "note": "REFUTED: after one row execute returns its input. Proved for more than one row. Exact rational arithmetic."
  },
  {
   "property": "C164",
   "status": "proved",
   "theorems": [
    "C164_inverse"
   ],
   "note": "Exact rational arithmetic."
  },
  {
   "property": "C165",
   "status": "proved",
   "theorems": [
    "C165_incremental"
   ],
   "note": "Exact rational arithmetic; incremental mode: every array given to _train has one row."
  },
  {
   "property": "C166",
   "status": "partial",
   "theorems": [
    "C166_batch_refuted",
    "C166_second_batch_refuted",
    "C165_incremental"
   ],
   "note": "REFUTED: x_prev is the last row of the previous block, and zeros of the shape of the first block after the first one."
  },
  {
   "property": "C62",
   "status": "proved",
   "theorems": [
    "C62_execute",
    "C62_no_id"
   ],
   "note": "For a node that is not being trained, with an id that is not empty and does not contain the separator, or without id. Result tuples of length 2 and 3, or a bare result."
  },
  {
   "property": "C167",
   "status": "proved",
   "theorems": [
    "C167_stop",
    "C167_message"
   ],
   "note": "Without and with a message; with one, the remaining message comes between the result and stop_result, and the target of the result, then of the message, then of stop_result is used."
  },
  {
   "property": "C168",
   "status": "partial",
   "theorems": [
    "C168_message_refuted",
    "C168_started"
   ],
   "note": "REFUTED: train(None, msg) does not mark the phase as started, so a node trained by messages only can never stop training. Proved for an array and the normal training method."
  },
  {
   "property": "C169",
   "status": "partial",
   "theorems": [
    "C169_inverse_refuted",
    "C168_started"
   ],
   "note": "REFUTED: with 'method': 'inverse' in the message, train runs _pre_inversion_checks, which stops the training. Proved for the normal training method."
  },
  {
   "property": "C170",
   "status": "partial",
   "theorems": [
    "C170_x_refuted",
    "C170_bind"
   ],
   "note": "REFUTED: 'x' and 'self' are taken for arguments, the call raises TypeError. C170_bind says exactly when a call binds."
  },
  {
   "property": "C63",
   "status": "partial",
   "theorems": [
    "C63_wrap_refuted",
    "C63_walk",
    "C63_beyond"
   ],
   "note": "REFUTED: a relative target that leads before the front by more than one is not refused; the list index is negative and the flow goes on from its end. C63_walk: exact order of the nodes when no target leads there; C63_beyond: a target behind the end raises."
  },
  {
   "property": "C64",
   "status": "partial",
   "theorems": [
    "C64_alias_refuted",
    "C64_combine"
   ],
   "note": "REFUTED: if the same list object comes in two chunks (e.g. a list stored in the node), its content is multiplied. C64_combine: exact combination when the list objects are distinct."
  },
  {
   "property": "C171",
   "status": "partial",
   "theorems": [
    "C171_changed_refuted",
    "C171_once"
   ],
   "note": "REFUTED: the list of the first chunk is extended in place. Unchanged if a key comes once."
  },
  {
   "property": "C172",
   "status": "partial",
   "theorems": [
    "C172_twice_refuted",
    "C172_again"
   ],
   "note": "REFUTED: get_message stores the concatenated arrays under the same keys, so the second call complains about arrays and other values for the same key. Proved without arrays."
  },
  {
   "property": "C173",
   "status": "proved",
   "theorems": [
    "C173_chunk",
    "C173_compose"
   ],
   "note": "Normal nodes, initial target None."
  },
  {
   "property": "C174",
   "status": "partial",
   "theorems": [
    "C174_wrap_refuted",
    "C174_not_executed"
   ],
   "note": "REFUTED: a target before the front wraps around and may hit the node. Proved for runs without such a target."
  },
  {
   "property": "C175",
   "status": "partial",
   "theorems": [
    "C175_last_refuted",
    "C175_last",
    "C175_next"
   ],
   "note": "REFUTED: for the last node, BiFlowException is raised after the training phase has been closed. Proved for the other nodes."
  },
  {
   "property": "C176",
   "status": "partial",
   "theorems": [
    "C176_messages_refuted",
    "C176_quiet"
   ],
   "note": "REFUTED: keys addressed to a node are removed from the message of the caller, so they are missing in the second phase. Proved when no key is addressed to a node of the flow and the methods neither change nor return messages."
  },
  {
   "property": "C177",
   "status": "partial",
   "theorems": [
    "C177_none_refuted",
    "C177_arrays"
   ],
   "note": "REFUTED: the second chunk without array raises although no chunk gave one. C177_arrays: the exact result."
  },
  {
   "property": "C178",
   "status": "partial",
   "theorems": [
    "C178_none_refuted",
    "C178_dict"
   ],
   "note": "REFUTED: the code tests the type dict instead of the result; a result None ends the training with TypeError. Proved for functions that return a dictionary; the effect of the update is not modelled."
  },
  {
   "property": "C179",
   "status": "partial",
   "theorems": [
    "C179_target_refuted",
    "C179_unknown",
    "C179_known"
   ],
   "note": "REFUTED: TypeError from the list index, for every unknown name and for the exit target. Known names start at the first node with this id."
  },
  {
   "property": "C180",
   "status": "proved",
   "theorems": [
    "C180_clean",
    "C180_next",
    "C180_train",
    "C180_phases"
   ],
   "note": "bi_reset idempotent; coroutines are not modelled."
  },
  {
   "property": "C181",
   "status": "proved",
   "theorems": [
    "C181_trained"
   ],
   "note": "Normal nodes never get phases back; one entry of data per node; checkpoint functions do not take phases back."
  },
  {
   "property": "C182",
   "status": "proved",
   "theorems": [
    "C182_pass",
    "C182_as_flow",
    "C182_rest",
    "C182_train"
   ],
   "note": "Nodes without additional training arguments; C182_as_flow for flows whose trainable nodes are in training (else C183)."
  },
  {
   "property": "C183",
   "status": "partial",
   "theorems": [
    "C183_trained_node_refuted",
    "C183_trained_node"
   ],
   "note": "REFUTED: train raises TrainingFinishedException at the trained node. Positive part: C182."
  },
  {
   "property": "C184",
   "status": "partial",
   "theorems": [
    "C184_stop_refuted",
    "C184_circular_refuted",
    "C184_not_stopped",
    "C184_stop",
    "C184_closed"
   ],
   "note": "REFUTED: TypeError, no node is stopped, if the first node is not trainable or if the circular node has more than one iteration (the placeholder function needs an argument). Proved otherwise."
  },
  {
   "property": "C185",
   "status": "proved",
   "theorems": [
    "C185_execute",
    "C185_no_training",
    "C185_after_stop",
    "C185_untrained"
   ],
   "note": ""
  },
  {
   "property": "C186",
   "status": "proved",
   "theorems": [
    "C186_element",
    "C186_rows",
    "C186_train",
    "C186_nothing_stored"
   ],
   "note": "After an exception in a later iteration the stored input may differ from the one of the flow."
  },
  {
   "property": "C187",
   "status": "proved",
   "theorems": [
    "C187_never_raises"
   ],
   "note": "argsort returns a permutation of the positions, argmax a position; lambda_ positive; exact arithmetic."
  },
  {
   "property": "C188",
   "status": "proved",
   "theorems": [
    "C188_simple"
   ],
   "note": ""
  },
  {
   "property": "C189",
   "status": "proved",
   "theorems": [
    "C189_nodes"
   ],
   "note": ""
  },
  {
   "property": "C190",
   "status": "proved",
   "theorems": [
    "C190_ages",
    "C190_fresh"
   ],
   "note": "C190_fresh for steps without insertion, which may cut this very edge."
  },
  {
   "property": "C191",
   "status": "proved",
   "theorems": [
    "C191_box"
   ],
   "note": "Exact arithmetic."
  },
  {
   "property": "C192",
   "status": "partial",
   "theorems": [
    "C192_start_refuted",
    "C192_cast"
   ],
   "note": "REFUTED: if the array has the dtype of the node, refcast returns the array itself and the positions are updated in place. C192_cast: a converted array is a copy."
  },
  {
   "property": "C193",
   "status": "partial",
   "theorems": [
    "C193_one_refuted",
    "C193_nodes",
    "C193_random"
   ],
   "note": "REFUTED for one node: IndexError after the node was moved. Proved for two and more."
  },
  {
   "property": "C194",
   "status": "partial",
   "theorems": [
    "C194_lifetime_refuted",
    "C194_lifetime"
   ],
   "note": "REFUTED if the lifetime decreases (max_age_f < max_age_i): removing an edge from the list in the loop skips the next edge. Proved for lifetimes that do not decrease, where at most one edge is too old in a step."
  },
  {
   "property": "C195",
   "status": "proved",
   "theorems": [
    "C195_simple"
   ],
   "note": ""
  },
  {
   "property": "C196",
   "status": "proved",
   "theorems": [
    "C196_box"
   ],
   "note": "Exact arithmetic."
  },
  {
   "property": "C197",
   "status": "partial",
   "theorems": [
    "C197_max_epochs_refuted",
    "C197_epochs"
   ],
   "note": "REFUTED: every call trains max_epochs epochs. C197_epochs: the exact number."
  },
  {
   "property": "C198",
   "status": "proved",
   "theorems": [
    "C198_chunks"
   ],
   "note": ""
  },
  {
   "property": "C199",
   "status": "proved",
   "theorems": [
    "C199_nearest",
    "C199_nearest_neighbor"
   ],
   "note": "argsort sorts."
  },
  {
   "property": "C200",
   "status": "proved",
   "theorems": [
    "C200_least_squares"
   ],
   "note": "Exact arithmetic; the inversion function returns a matrix P with A P A = A (inverse or pseudo-inverse)."
  },
  {
   "property": "C201",
   "status": "proved",
   "theorems": [
    "C201_unique",
    "C201_exact"
   ],
   "note": "The inversion function is an exact two-sided inverse (C201_exact: generalised inverse)."
  },
  {
   "property": "C202",
   "status": "proved",
   "theorems": [
    "C202_order"
   ],
   "note": "Exact arithmetic, exact inverse."
  },
  {
   "property": "C203",
   "status": "partial",
   "theorems": [
    "C203_column_refuted",
    "C203_execute",
    "C203_row"
   ],
   "note": "REFUTED: the constant terms are the first row of beta. The formula for execute is proved."
  },
  {
   "property": "C204",
   "status": "proved",
   "theorems": [
    "C204_redundant",
    "C204_continue"
   ],
   "note": ""
  },
  {
   "property": "C205",
   "status": "partial",
   "theorems": [
    "C205_rejected_refuted",
    "C205_rejected",
    "C205_data"
   ],
   "note": "REFUTED: a first call with the wrong number of targets sets output_dim, so that a correct call with another number of outputs fails afterwards. Proved if output_dim is set; the data sums never change."
  },
  {
   "property": "C206",
   "status": "proved",
   "theorems": [
    "C206_decorrelated",
    "C206_order",
    "C206_contract"
   ],
   "note": "Exact arithmetic over every ordered field; the eigenvalue routine returns an orthogonal matrix of eigenvectors with ascending eigenvalues, or raises. At least 2 observations."
  },
  {
   "property": "C207",
   "status": "proved",
   "theorems": [
    "C207_maximal",
    "C207_reconstruction"
   ],
   "note": "Exact arithmetic over every ordered field; the eigenvalue routine returns an orthogonal matrix of eigenvectors with ascending eigenvalues, or raises. At least 2 observations."
  },
  {
   "property": "C208",
   "status": "proved",
   "theorems": [
    "C208_best",
    "C208_all",
    "C208_execute_inverse"
   ],
   "note": "Exact arithmetic over every ordered field; the eigenvalue routine returns an orthogonal matrix of eigenvectors with ascending eigenvalues, or raises. At least 2 observations. For whitening: kept variances positive and an exact square root."
  },
  {
   "property": "C209",
   "status": "partial",
   "theorems": [
    "C209_refuted",
    "C209_fraction"
   ],
   "note": "REFUTED for data without variance: d is empty but there is one component, explained_variance is nan. Proved if the total variance is not zero. Exact arithmetic over every ordered field; the eigenvalue routine returns an orthogonal matrix of eigenvectors with ascending eigenvalues, or raises. At least 2 observations."
  },
  {
   "property": "C210",
   "status": "proved",
   "theorems": [
    "C210_reduce"
   ],
   "note": "Exact arithmetic over every ordered field; the eigenvalue routine returns an orthogonal matrix of eigenvectors with ascending eigenvalues, or raises. At least 2 observations. var_abs nonnegative."
  },
  {
   "property": "C211",
   "status": "partial",
   "theorems": [
    "C211_refuted",
    "C211_svd_refuted",
    "C211_zero_refuted",
    "C211_int",
    "C211_none"
   ],
   "note": "REFUTED: output_dim above the input dimension n keeps all n components and output_dim stays; with svd=True it keeps only output_dim - n components (negative slice index); output_dim=0 keeps all. Proved for 1..n and None."
  },
  {
   "property": "C212",
   "status": "partial",
   "theorems": [
    "C212_refuted",
    "C212_failed_stop"
   ],
   "note": "REFUTED: _cov_mtx is deleted first, every later call of stop_training or train raises AttributeError."
  },
  {
   "property": "C213",
   "status": "proved",
   "theorems": [
    "C213_white",
    "C213_sqrt"
   ],
   "note": "Exact arithmetic over every ordered field; the eigenvalue routine returns an orthogonal matrix of eigenvectors with ascending eigenvalues, or raises. At least 2 observations. Kept variances positive, exact square root."
  },
  {
   "property": "C214",
   "status": "partial",
   "theorems": [
    "C214_refuted",
    "C214_inverse_n"
   ],
   "note": "REFUTED: n smaller than the number of columns of y raises ValueError; inverse works only if min(n, number of components) is the number of columns of y."
  },
  {
   "property": "C215",
   "status": "proved",
   "theorems": [
    "C215_fake",
    "C215_total"
   ],
   "note": "Exact arithmetic over every ordered field; the eigenvalue routine returns an orthogonal matrix of eigenvectors with ascending eigenvalues, or raises; exact square roots."
  },
  {
   "property": "C216",
   "status": "partial",
   "theorems": [
    "C216_refuted",
    "C216_pca",
    "C216_svd",
    "C216_total",
    "C216_contract"
   ],
   "note": "REFUTED: for B = diag(4,9), which is positive definite, the pca variant leaves out the first input and reports rank_deficit 1. Proved otherwise. Exact arithmetic over every ordered field; the eigenvalue routine returns an orthogonal matrix of eigenvectors with ascending eigenvalues, or raises; exact square roots."
  },
  {
   "property": "C217",
   "status": "proved",
   "theorems": [
    "C217_pca",
    "C217_svd"
   ],
   "note": "Eigenvalues of B below the threshold are zero, A vanishes where B does, and the inputs left out by _find_blank_data_idx are blank. Exact arithmetic over every ordered field; the eigenvalue routine returns an orthogonal matrix of eigenvectors with ascending eigenvalues, or raises; exact square roots."
  },
  {
   "property": "C218",
   "status": "partial",
   "theorems": [
    "C218_constant_refuted",
    "C218_uncorrelated_refuted",
    "C218_none",
    "C218_first"
   ],
   "note": "REFUTED: the average runs over the rows of B where the first row is small. If the inputs uncorrelated with the first are exactly the blank ones, no input at all is left; an input that varies is left out if it is the first and uncorrelated with the others. Proved if no input is uncorrelated with the first, or the first is blank."
  },
  {
   "property": "C219",
   "status": "partial",
   "theorems": [
    "C219_refuted",
    "C219_index"
   ],
   "note": "REFUTED: an IndexError is raised instead, for every matrix with nothing left (unless eigh of the empty matrix raises itself)."
  },
  {
   "property": "C220",
   "status": "proved",
   "theorems": [
    "C220_white",
    "C220_contract_pca"
   ],
   "note": "Exact arithmetic over every ordered field; the solver returns a prefix of a solution of the generalised eigenvalue problem or raises (proved for the models of _symeig_fake and symeig_semidefinite_pca in C222_contract_none, C220_contract_pca, C222_contract_pca); at least 2 samples and 2 derivatives; output_dim not 0."
  },
  {
   "property": "C221",
   "status": "partial",
   "theorems": [
    "C221_mean_refuted",
    "C221_delta",
    "C221_order"
   ],
   "note": "REFUTED: the sum of squares is divided by the number of derivatives minus one (the matrix is not centred), so no nonzero d[k] is the mean. Everything else proved. Exact arithmetic over every ordered field; the solver returns a prefix of a solution of the generalised eigenvalue problem or raises (proved for the models of _symeig_fake and symeig_semidefinite_pca in C222_contract_none, C220_contract_pca, C222_contract_pca); at least 2 samples and 2 derivatives; output_dim not 0."
  },
  {
   "property": "C222",
   "status": "proved",
   "theorems": [
    "C222_slowest",
    "C222_number",
    "C222_contract_none",
    "C222_contract_pca"
   ],
   "note": "Exact arithmetic over every ordered field; the solver returns a prefix of a solution of the generalised eigenvalue problem or raises (proved for the models of _symeig_fake and symeig_semidefinite_pca in C222_contract_none, C220_contract_pca, C222_contract_pca); at least 2 samples and 2 derivatives; output_dim not 0. The solution is complete (nothing left out where B or A does not vanish)."
  },
  {
   "property": "C223",
   "status": "proved",
   "theorems": [
    "C223_connected",
    "C223_seen",
    "C223_order"
   ],
   "note": "Uses functional extensionality."
  },
  {
   "property": "C224",
   "status": "partial",
   "theorems": [
    "C224_refuted",
    "C224_large_refuted",
    "C224_dim"
   ],
   "note": "REFUTED: _set_range assigns output_dim, which Node.set_output_dim rejects: every stop_training raises InconsistentDimException if output_dim is larger than input_dim. Proved otherwise."
  },
  {
   "property": "C225",
   "status": "partial",
   "theorems": [
    "C225_refuted",
    "C225_train_refuted",
    "C225_smaller_refuted",
    "C225_retry",
    "C225_contract"
   ],
   "note": "REFUTED for more data (AttributeError, although is_training() is True) and a smaller output_dim (InconsistentDimException, output_dim was fixed by the failed call). Proved for another method; the matrices are assumed not to be overwritten by the solver."
  },
  {
   "property": "C226",
   "status": "partial",
   "theorems": [
    "C226_refuted",
    "C226_zero_refuted",
    "C226_first"
   ],
   "note": "REFUTED for n = 0: all columns are returned. Proved for n > 0."
  },
  {
   "property": "C227",
   "status": "proved",
   "theorems": [
    "C227_execute_inverse",
    "C227_inverse_execute"
   ],
   "note": "Exact arithmetic over every ordered field; the solver returns a prefix of a solution of the generalised eigenvalue problem or raises (proved for the models of _symeig_fake and symeig_semidefinite_pca in C222_contract_none, C220_contract_pca, C222_contract_pca); at least 2 samples and 2 derivatives; output_dim not 0. The pseudoinverse W of U satisfies U W U = U; no linear combination of the inputs is constant for the second part."
  },
  {
   "property": "C228",
   "status": "partial",
   "theorems": [
    "C228_refuted",
    "C228_deficit_refuted"
   ],
   "note": "REFUTED: with the method pca and two uncorrelated inputs of variance one, the slower one is lost, output_dim is 2 but there is one output, and inverse raises NodeException on it."
  },
  {
   "property": "C229",
   "status": "proved",
   "theorems": [
    "C229_means",
    "C229_total"
   ],
   "note": "Exact arithmetic over every ordered field; any order of iteration through the set of labels."
  },
  {
   "property": "C230",
   "status": "proved",
   "theorems": [
    "C230_white"
   ],
   "note": "Exact arithmetic over every ordered field; the solver returns a prefix of a solution of the generalised eigenvalue problem or raises (proved for the model of _symeig_fake in C232_contract); at least 2 observations; 1 <= output_dim <= input_dim or None. Uses functional extensionality."
  },
  {
   "property": "C231",
   "status": "proved",
   "theorems": [
    "C231_within",
    "C231_bound"
   ],
   "note": "Exact arithmetic over every ordered field; the solver returns a prefix of a solution of the generalised eigenvalue problem or raises (proved for the model of _symeig_fake in C232_contract); at least 2 observations; 1 <= output_dim <= input_dim or None. Uses functional extensionality."
  },
  {
   "property": "C232",
   "status": "proved",
   "theorems": [
    "C232_optimal",
    "C232_contract"
   ],
   "note": "Exact arithmetic over every ordered field; the solver returns a prefix of a solution of the generalised eigenvalue problem or raises (proved for the model of _symeig_fake in C232_contract); at least 2 observations; 1 <= output_dim <= input_dim or None. Uses functional extensionality. The solution is complete."
  },
  {
   "property": "C233",
   "status": "proved",
   "theorems": [
    "C233_order"
   ],
   "note": "Exact arithmetic over every ordered field. Uses functional extensionality."
  },
  {
   "property": "C234",
   "status": "partial",
   "theorems": [
    "C234_refuted",
    "C234_unknown",
    "C234_known"
   ],
   "note": "REFUTED: KeyError is raised, but the observations are already counted in the covariance matrix and the mean of all data; a later stop_training succeeds with a wrong mean. Proved: KeyError for unknown labels, success for known ones."
  },
  {
   "property": "C235",
   "status": "partial",
   "theorems": [
    "C235_refuted",
    "C235_retry_refuted"
   ],
   "note": "REFUTED: _allcov and _S_W are deleted before the solver is called; every later call of stop_training and train raises AttributeError."
  },
  {
   "property": "C236",
   "status": "partial",
   "theorems": [
    "C236_refuted",
    "C236_negative_refuted",
    "C236_dim_refuted",
    "C236_first",
    "C236_execute_inverse"
   ],
   "note": "REFUTED: a negative n drops the last |n| components; with output_dim above input_dim there are input_dim columns and inverse raises NodeException on the output of execute. Proved for positive n, and for nodes with output_dim columns."
  },
  {
   "property": "C237",
   "status": "proved",
   "theorems": [
    "C237_form",
    "C237_range"
   ],
   "note": "Exact arithmetic over every ordered field; nonnegative tolerances of the test for symmetry."
  },
  {
   "property": "C238",
   "status": "proved",
   "theorems": [
    "C238_white",
    "C238_slowest"
   ],
   "note": "Exact arithmetic over every ordered field; the solver returns a prefix of a solution of the generalised eigenvalue problem or raises (proved for the models of _symeig_fake and symeig_semidefinite_pca in C222_contract_none, C220_contract_pca, C222_contract_pca); at least 2 samples and 2 derivatives; output_dim not 0."
  },
  {
   "property": "C239",
   "status": "partial",
   "theorems": [
    "C239_refuted",
    "C239_large_refuted",
    "C239_dim"
   ],
   "note": "REFUTED: with output_dim above the dimension of the expansion, output_dim keeps its value, but the outputs are those of a node without output_dim. Proved: the value of output_dim after training."
  },
  {
   "property": "C240",
   "status": "proved",
   "theorems": [
    "C240_apply",
    "C240_default",
    "C240_check",
    "C240_symmetric"
   ],
   "note": "Exact arithmetic over every ordered field."
  },
  {
   "property": "C241",
   "status": "proved",
   "theorems": [
    "C241_sphere",
    "C241_small"
   ],
   "note": "Exact arithmetic over every ordered field; eig returns orthonormal eigenvectors of symmetric matrices, argsort sorts, solve returns a solution, qr an orthonormal basis whose first vector is a multiple of the point, square roots are exact. C241_small: a linear term below the machine epsilon is ignored, with a bound of the error."
  },
  {
   "property": "C242",
   "status": "partial",
   "theorems": [
    "C242_eig_refuted",
    "C242_extremal",
    "C242_gradient"
   ],
   "note": "REFUTED for a routine eig which returns linearly independent unit eigenvectors that are not orthogonal (numx_linalg.eig does not promise more for multiple eigenvalues). Proved for orthonormal eigenvectors. Exact arithmetic over every ordered field; eig returns orthonormal eigenvectors of symmetric matrices, argsort sorts, solve returns a solution, qr an orthonormal basis whose first vector is a multiple of the point, square roots are exact."
  },
  {
   "property": "C243",
   "status": "partial",
   "theorems": [
    "C243_refuted",
    "C243_interior_refuted",
    "C243_norm",
    "C243_bound"
   ],
   "note": "REFUTED: if the maximum on the sphere is not reached by the secular equation (f orthogonal to the largest eigenvectors), the bisection ends with a vector of much smaller norm and value; and if the stationary point of a definite form is inside the sphere, this point is returned. Proved: the norm if the bisection ended by the tolerance, bounds otherwise. Exact arithmetic over every ordered field; eig returns orthonormal eigenvectors of symmetric matrices, argsort sorts, solve returns a solution, qr an orthonormal basis whose first vector is a multiple of the point, square roots are exact."
  },
  {
   "property": "C244",
   "status": "partial",
   "theorems": [
    "C244_refuted",
    "C244_total"
   ],
   "note": "REFUTED: UnboundLocalError if norm^2 is not above the tolerance, or f is small in comparison to H; LinAlgError for a singular H (for instance a linear form). Proved otherwise: the bisection ends (archimedean fields). Exact arithmetic over every ordered field; eig returns orthonormal eigenvectors of symmetric matrices, argsort sorts, solve returns a solution, qr an orthonormal basis whose first vector is a multiple of the point, square roots are exact."
  },
  {
   "property": "C245",
   "status": "proved",
   "theorems": [
    "C245_invariances"
   ],
   "note": "Exact arithmetic over every ordered field; eig returns orthonormal eigenvectors of symmetric matrices, argsort sorts, solve returns a solution, qr an orthonormal basis whose first vector is a multiple of the point, square roots are exact."
  },
  {
   "property": "C246",
   "status": "proved",
   "theorems": [
    "C246_circle"
   ],
   "note": "Exact identity over every ordered field."
  },
  {
   "property": "C247",
   "status": "proved",
   "theorems": [
    "C247_max",
    "C247_min"
   ],
   "note": "Exact arithmetic over every ordered field; eig returns orthonormal eigenvectors of symmetric matrices, argsort sorts, solve returns a solution, qr an orthonormal basis whose first vector is a multiple of the point, square roots are exact."
  },
  {
   "property": "C248",
   "status": "proved",
   "theorems": [
    "C248_connected"
   ],
   "note": "Exact arithmetic over every ordered field, sqrt(dt)*sqrt(dt) = dt; positive increments, at least two rows per call. A first call with two rows and two increments, and later calls without time_dep with len(x) increments, are excluded (C253)."
  },
  {
   "property": "C249",
   "status": "proved",
   "theorems": [
    "C249_separate",
    "C249_average"
   ],
   "note": "Exact arithmetic over every ordered field, sqrt(dt)*sqrt(dt) = dt; positive increments, at least two rows per call. A first call with two rows and two increments, and later calls without time_dep with len(x) increments, are excluded (C253)."
  },
  {
   "property": "C250",
   "status": "proved",
   "theorems": [
    "C250_white",
    "C250_delta",
    "C250_order",
    "C250_slowest"
   ],
   "note": "Exact arithmetic over every ordered field, sqrt(dt)*sqrt(dt) = dt; positive increments, at least two rows per call. A first call with two rows and two increments, and later calls without time_dep with len(x) increments, are excluded (C253). Solvers as in C220 and C222; at least three consecutive samples somewhere."
  },
  {
   "property": "C251",
   "status": "proved",
   "theorems": [
    "C251_unit"
   ],
   "note": "Exact arithmetic over every ordered field, sqrt(dt)*sqrt(dt) = dt; positive increments, at least two rows per call. A first call with two rows and two increments, and later calls without time_dep with len(x) increments, are excluded (C253)."
  },
  {
   "property": "C252",
   "status": "proved",
   "theorems": [
    "C252_rejected",
    "C252_accepted"
   ],
   "note": "From a new node through any calls of train, accepted or not; only the flag that training has started may change."
  },
  {
   "property": "C253",
   "status": "partial",
   "theorems": [
    "C253_uninitialised_refuted",
    "C253_first_refuted",
    "C253_derivative_refuted",
    "C248_connected"
   ],
   "note": "REFUTED: in a later call with time_dep=False and len(x) increments the first row of the derivatives is uninitialised memory and the first increment is counted as time; in a first call with two rows both increments are counted in dtlen; time_derivative changes the state used in training. Proved for a first call with at least three rows (part of C248)."
  },
  {
   "property": "C254",
   "status": "partial",
   "theorems": [
    "C254_generalisation_refuted"
   ],
   "note": "REFUTED: the trapezoid rule gives the first and last sample half the weight, and averages over n-1 instead of dividing by n-1 degrees of freedom; delta values differ for evenly sampled data."
  },
  {
   "property": "C255",
   "status": "proved",
   "theorems": [
    "C255_init_accepts",
    "C255_init_rejects",
    "C255_new_layer"
   ],
   "note": "Setting the dtype of the nodes is not modelled. Assigning a generator does not change the training type of a node."
  },
  {
   "property": "C256",
   "status": "partial",
   "theorems": [
    "C256_type_settable_refuted",
    "C256_type_is_final",
    "C256_set_type",
    "C256_set_type_sets",
    "C256_default_incremental"
   ],
   "note": "REFUTED: once the type is set (by the user or by default at the first training or execution), the other one is always rejected, although no node has a type. Proved: what set_training_type does, that no history of calls changes a type, the default."
  },
  {
   "property": "C257",
   "status": "proved",
   "theorems": [
    "C257_chunks",
    "C257_nodes_alone",
    "C257_counts"
   ],
   "note": "C257_nodes_alone: distinct nodes whose training does not change their input dimension, OnlineLayer; C257_chunks: all three kinds."
  },
  {
   "property": "C258",
   "status": "proved",
   "theorems": [
    "C258_only_stop_ends",
    "C258_stop_ends_all"
   ],
   "note": "stop_training of an internal node ends its training (C58 for OnlineNodes)."
  },
  {
   "property": "C259",
   "status": "partial",
   "theorems": [
    "C259_trained_twice_refuted",
    "C259_execute_trains"
   ],
   "note": "REFUTED if the output dimension of a node is not known: the nodes are trained twice with the data. Proved if it is known."
  },
  {
   "property": "C260",
   "status": "partial",
   "theorems": [
    "C260_own_generator_refuted",
    "C260_init_shares",
    "C260_first_call_shares"
   ],
   "note": "REFUTED: the first training or execution replaces the generators of all OnlineNodes by a new unseeded one. Proved: the generator given is shared."
  },
  {
   "property": "C261",
   "status": "proved",
   "theorems": [
    "C261_train_same",
    "C261_stop_same",
    "C261_execute_same"
   ],
   "note": "Execution: a node which acts row by row without changing its state (as in C27), output dimension known, training begun or over."
  },
  {
   "property": "C262",
   "status": "proved",
   "theorems": [
    "C262_union",
    "C262_order"
   ],
   "note": "Exact arithmetic; printing is not modelled, nor the mode compact_classes. The windows sliding_window/fast_sliding_window and the smart_unlabeled modes are stated in C268, C269, C276, C277; arrays as graphs if balanced (C271)."
  },
  {
   "property": "C263",
   "status": "proved",
   "theorems": [
    "C263_groups",
    "C263_sizes",
    "C263_loopless"
   ],
   "note": "Exact arithmetic; printing is not modelled, nor the mode compact_classes."
  },
  {
   "property": "C264",
   "status": "partial",
   "theorems": [
    "C264_refuted",
    "C264_serial"
   ],
   "note": "REFUTED for one group: train accepts it, adds the sample sums without counting the samples, and stop_training divides by zero. Proved for two and more groups."
  },
  {
   "property": "C265",
   "status": "proved",
   "theorems": [
    "C265_mixed"
   ],
   "note": "Exact arithmetic; printing is not modelled, nor the mode compact_classes. At least two groups, block_size an integer."
  },
  {
   "property": "C266",
   "status": "proved",
   "theorems": [
    "C266_regular",
    "C266_directions"
   ],
   "note": "Exact arithmetic; printing is not modelled, nor the mode compact_classes. SFANode with include_last_sample=True."
  },
  {
   "property": "C267",
   "status": "proved",
   "theorems": [
    "C267_mirror",
    "C267_truncating"
   ],
   "note": "Exact arithmetic; printing is not modelled, nor the mode compact_classes."
  },
  {
   "property": "C268",
   "status": "partial",
   "theorems": [
    "C268_refuted",
    "C268_fast_partial",
    "C268_slow",
    "C268_same"
   ],
   "note": "REFUTED for lengths above 2h and below 4h: the borders overlap and differences are wrong. Proved for lengths from 4h on."
  },
  {
   "property": "C269",
   "status": "partial",
   "theorems": [
    "C269_refuted"
   ],
   "note": "REFUTED: num_samples grows by w more than the sum of the node weights, so that the mean is too small by the factor (n-h/2-1/2)/(n-h/2+1/2), for every width and length."
  },
  {
   "property": "C270",
   "status": "proved",
   "theorems": [
    "C270_classes",
    "C270_pairs"
   ],
   "note": "Exact arithmetic; printing is not modelled, nor the mode compact_classes. argsort is any function that sorts."
  },
  {
   "property": "C271",
   "status": "partial",
   "theorems": [
    "C271_refuted",
    "C271_dict",
    "C271_array_partial",
    "C271_old"
   ],
   "note": "REFUTED if the node weights are not the sums of the edge weights at each node: the array form gives another matrix. Proved for symmetric arrays with node weights equal to the row sums, and for dictionaries."
  },
  {
   "property": "C272",
   "status": "partial",
   "theorems": [
    "C272_refuted"
   ],
   "note": "REFUTED: the dual graph has weight zero; the result is that of serial in all cases."
  },
  {
   "property": "C273",
   "status": "proved",
   "theorems": [
    "C273_white",
    "C273_delta",
    "C273_slowest"
   ],
   "note": "Exact arithmetic; printing is not modelled, nor the mode compact_classes. Any solver that solves the generalised eigenvalue problem (C222_contract_none for the solver of the library, if the covariance matrix is definite)."
  },
  {
   "property": "C274",
   "status": "proved",
   "theorems": [
    "C274_values"
   ],
   "note": "Exact arithmetic; printing is not modelled, nor the mode compact_classes."
  },
  {
   "property": "C275",
   "status": "partial",
   "theorems": [
    "C275_refuted",
    "C275_quiet"
   ],
   "note": "REFUTED: with verbose stop_training reads self.dcov_mtx, which does not exist, and raises AttributeError."
  },
  {
   "property": "C276",
   "status": "partial",
   "theorems": [
    "C276_refuted",
    "C276_graph"
   ],
   "note": "REFUTED: the weight of an unlabeled sample is Q/(5 N2) - 1/40, negative for N2 > 8 Q; the covariance matrix can have a negative diagonal. Proved: the explicit graph."
  },
  {
   "property": "C277",
   "status": "partial",
   "theorems": [
    "C277_refuted",
    "C277_sums"
   ],
   "note": "REFUTED: sum_x_labeled is a view of sum_x, which is scaled in place; the labeled samples then count with adj(2-adj) instead of 1 in the mean. Proved: the formula."
  },
  {
   "property": "C278",
   "status": "proved",
   "theorems": [
    "C278_retry",
    "C278_unlabeled"
   ],
   "note": "Exact arithmetic; printing is not modelled, nor the mode compact_classes."
  },
  {
   "property": "C279",
   "status": "partial",
   "theorems": [
    "C279_refuted",
    "C279_kept"
   ],
   "note": "REFUTED: serial_regression assigns its own size to block_size, all later modes of the list use that one. Proved: other modes do not."
  },
  {
   "property": "C280",
   "status": "partial",
   "theorems": [
    "C280_refuted",
    "C280_int"
   ],
   "note": "REFUTED for a list of sizes: the message of the ValueError is formatted with %d and a list, which raises TypeError. Proved for an integer."
  },
  {
   "property": "C281",
   "status": "partial",
   "theorems": [
    "C281_refuted",
    "C281_default_fork"
   ],
   "note": "REFUTED: if no argument of __init__ has a default value, a missing attribute leads to the TypeError of the constructor. Proved for every class with a default value."
  },
  {
   "property": "C282",
   "status": "partial",
   "theorems": [
    "C282_refuted",
    "C282_pca",
    "C282_sfa",
    "C282_fda"
   ],
   "note": "REFUTED: SFANode does not keep rank_deficit_method as an attribute, PCANode with a fraction as output_dim has output_dim None, so that forks are constructed with the defaults. Proved for the other arguments."
  },
  {
   "property": "C283",
   "status": "proved",
   "theorems": [
    "C283_pca"
   ],
   "note": "Exact arithmetic; every chunk has at least one row (SFA: two), every fork gets data (C292 for others); objects of the fork are values here (C293 for references)."
  },
  {
   "property": "C284",
   "status": "proved",
   "theorems": [
    "C284_sfa"
   ],
   "note": "Exact arithmetic; every chunk has at least one row (SFA: two), every fork gets data (C292 for others); objects of the fork are values here (C293 for references)."
  },
  {
   "property": "C285",
   "status": "partial",
   "theorems": [
    "C285_refuted",
    "C285_own_data_only",
    "C285_sequential"
   ],
   "note": "REFUTED: the data of NIPALSNode are in the list data, not in _cov_mtx: all data of the forks are lost, stop_training then raises ValueError (no own data) or uses the own data only."
  },
  {
   "property": "C286",
   "status": "partial",
   "theorems": [
    "C286_refuted",
    "C286_vartime",
    "C286_separate"
   ],
   "note": "REFUTED for the default time_dep=True: the step between the last sample of one fork and the first of the next is lost. Proved: the result is that of the sequence of calls with time_dep=False for the first call of each fork. Positive increments, calls valid with and without time_dep."
  },
  {
   "property": "C287",
   "status": "proved",
   "theorems": [
    "C287_fda"
   ],
   "note": "Exact arithmetic; every chunk has at least one row (SFA: two), every fork gets data (C292 for others); objects of the fork are values here (C293 for references). Labels of the second phase occur in the first one."
  },
  {
   "property": "C288",
   "status": "proved",
   "theorems": [
    "C288_histogram",
    "C288_cutoff"
   ],
   "note": "hist_fraction 1 (no random choice); one channel of integers for the bounds."
  },
  {
   "property": "C289",
   "status": "proved",
   "theorems": [
    "C289_gaussian"
   ],
   "note": "Exact arithmetic; every chunk has at least one row (SFA: two), every fork gets data (C292 for others); objects of the fork are values here (C293 for references)."
  },
  {
   "property": "C290",
   "status": "proved",
   "theorems": [
    "C290_nearest_mean"
   ],
   "note": "Exact arithmetic; every chunk has at least one row (SFA: two), every fork gets data (C292 for others); objects of the fork are values here (C293 for references)."
  },
  {
   "property": "C291",
   "status": "proved",
   "theorems": [
    "C291_knn"
   ],
   "note": "Exact arithmetic; every chunk has at least one row (SFA: two), every fork gets data (C292 for others); objects of the fork are values here (C293 for references)."
  },
  {
   "property": "C292",
   "status": "partial",
   "theorems": [
    "C292_refuted",
    "C292_pca",
    "C292_sfa",
    "C292_fda0"
   ],
   "note": "REFUTED: once the node has data, joining a fork without data raises TypeError (array += None). Proved: harmless before the node has data, and in the first phase of FDANode; the sums of the node are kept."
  },
  {
   "property": "C293",
   "status": "partial",
   "theorems": [
    "C293_refuted",
    "C293_distinct"
   ],
   "note": "REFUTED: the first join takes over the covariance object of the fork, later joins change it; one fork joined three times counts four times. Proved: different forks give the sum."
  },
  {
   "property": "C294",
   "status": "proved",
   "theorems": [
    "C294_layer",
    "C294_clone_layer",
    "C294_flow_node"
   ],
   "note": "The nodes are abstract (pca_contract, sfa_contract are instances); no node with use_execute_fork in the flow."
  },
  {
   "property": "C295",
   "status": "partial",
   "theorems": [
    "C295_refuted",
    "C295_flow_node"
   ],
   "note": "REFUTED for ParallelLayer: it forks only nodes in training. Proved for ParallelFlowNode."
  },
  {
   "property": "C296",
   "status": "proved",
   "theorems": [
    "C296_generic"
   ],
   "note": ""
  },
  {
   "property": "C297",
   "status": "proved",
   "theorems": [
    "C297_average",
    "C297_weights",
    "C297_default"
   ],
   "note": "Exact arithmetic."
  },
  {
   "property": "C298",
   "status": "proved",
   "theorems": [
    "C298_train",
    "C298_more",
    "C298_chunks"
   ],
   "note": "Exact arithmetic with an exact square root; shapes and dtypes of samples are not modelled, divisions by a zero norm end the model (XNan)."
  },
  {
   "property": "C299",
   "status": "proved",
   "theorems": [
    "C299_update"
   ],
   "note": "Exact arithmetic with an exact square root; shapes and dtypes of samples are not modelled, divisions by a zero norm end the model (XNan)."
  },
  {
   "property": "C300",
   "status": "proved",
   "theorems": [
    "C300_residual"
   ],
   "note": "Exact arithmetic with an exact square root; shapes and dtypes of samples are not modelled, divisions by a zero norm end the model (XNan)."
  },
  {
   "property": "C301",
   "status": "proved",
   "theorems": [
    "C301_average"
   ],
   "note": "Exact arithmetic with an exact square root; shapes and dtypes of samples are not modelled, divisions by a zero norm end the model (XNan)."
  },
  {
   "property": "C302",
   "status": "proved",
   "theorems": [
    "C302_direction"
   ],
   "note": "Exact arithmetic with an exact square root; shapes and dtypes of samples are not modelled, divisions by a zero norm end the model (XNan)."
  },
  {
   "property": "C303",
   "status": "partial",
   "theorems": [
    "C303_refuted",
    "C303_constructor",
    "C303_set"
   ],
   "note": "REFUTED for init_eigen_vectors in the constructor: the setter is not called by it, the eigenvalues stay None and every training raises TypeError. Proved for the later assignment."
  },
  {
   "property": "C304",
   "status": "partial",
   "theorems": [
    "C304_refuted",
    "C304_reduced"
   ],
   "note": "REFUTED: the variances after the sample are compared with the total variance before it (var_tot is assigned afterwards); with var_rel=1 the only dimension is dropped. Proved: the exact rule."
  },
  {
   "property": "C305",
   "status": "partial",
   "theorems": [
    "C305_refuted",
    "C305_batch"
   ],
   "note": "REFUTED: a chunk of two or more samples raises ValueError in batch mode for every node. The same chunk is accepted in incremental mode."
  },
  {
   "property": "C306",
   "status": "partial",
   "theorems": [
    "C306_refuted",
    "C306_live",
    "C306_white"
   ],
   "note": "REFUTED: the matrix is the live array. For CCIPCANode it follows the node; for the whitening node it is overwritten with the unscaled unit vectors of the next update."
  },
  {
   "property": "C307",
   "status": "partial",
   "theorems": [
    "C307_refuted",
    "C307_eigenvectors",
    "C307_inverse"
   ],
   "note": "REFUTED before the first sample after setting the initial vectors: they are not scaled then. Proved from the first sample on."
  },
  {
   "property": "C308",
   "status": "partial",
   "theorems": [
    "C308_refuted",
    "C308_update"
   ],
   "note": "REFUTED: with the default step size and a sample of squared norm 14 along the vector the new vector is zero, its normalization gives nan. Proved: the formula whenever the call succeeds. Exact arithmetic with an exact square root; shapes and dtypes of samples are not modelled, divisions by a zero norm end the model (XNan)."
  },
  {
   "property": "C309",
   "status": "proved",
   "theorems": [
    "C309_fixed"
   ],
   "note": "Exact arithmetic with an exact square root; shapes and dtypes of samples are not modelled, divisions by a zero norm end the model (XNan). For calls that succeed."
  },
  {
   "property": "C310",
   "status": "partial",
   "theorems": [
    "C310_refuted",
    "C310_power",
    "C310_minor"
   ],
   "note": "REFUTED for the default step size 0.1: with a sample of variance 100 in a direction the part in this direction grows. Proved: the exact power iteration, and the decrease if the step size is small against the larger eigenvalue."
  },
  {
   "property": "C311",
   "status": "proved",
   "theorems": [
    "C311_still"
   ],
   "note": "Exact arithmetic with an exact square root; shapes and dtypes of samples are not modelled, divisions by a zero norm end the model (XNan)."
  },
  {
   "property": "C312",
   "status": "partial",
   "theorems": [
    "C312_refuted",
    "C312_never",
    "C312_attribute"
   ],
   "note": "REFUTED: _check_params uses self.avgnode, which does not exist then: AttributeError. Proved: no call of train or execute succeeds."
  },
  {
   "property": "C313",
   "status": "partial",
   "theorems": [
    "C313_refuted",
    "C313_pca",
    "C313_mca"
   ],
   "note": "REFUTED: with init_pca_vectors every first training raises TypeError (as C303), with init_mca_vectors every later one. The same data are accepted without the options."
  },
  {
   "property": "C314",
   "status": "partial",
   "theorems": [
    "C314_refuted",
    "C314_mean"
   ],
   "note": "REFUTED: the data of the first call are counted twice. Proved: the mean is the average with this weighting."
  },
  {
   "property": "C315",
   "status": "partial",
   "theorems": [
    "C315_refuted",
    "C315_first"
   ],
   "note": "REFUTED: every row of the first call is treated as the start of an episode, so that no update of the slow features takes place; given in two calls the second row is used. Proved: the state after the first call."
  },
  {
   "property": "C316",
   "status": "proved",
   "theorems": [
    "C316_batch"
   ],
   "note": "Exact arithmetic with an exact square root; shapes and dtypes of samples are not modelled, divisions by a zero norm end the model (XNan). For calls that succeed; the state is compared with all its parts. Chunks of one row raise TrainingException."
  },
  {
   "property": "C317",
   "status": "partial",
   "theorems": [
    "C317_refuted",
    "C317_compose",
    "C317_execute",
    "C317_stale"
   ],
   "note": "REFUTED after the first sample, where they are the product of the raw start vectors, and after each start of an episode. Proved after every other sample."
  },
  {
   "property": "C318",
   "status": "proved",
   "theorems": [
    "C318_inverse"
   ],
   "note": "Exact arithmetic with an exact square root; shapes and dtypes of samples are not modelled, divisions by a zero norm end the model (XNan)."
  },
  {
   "property": "C319",
   "status": "proved",
   "theorems": [
    "C319_orthonormal"
   ],
   "note": "Over an arbitrary ordered field with square roots (real arithmetic, no rounding); data of one input dimension. nan is modelled as a component that is absent."
  },
  {
   "property": "C320",
   "status": "proved",
   "theorems": [
    "C320_variances",
    "C320_execute"
   ],
   "note": "Over an arbitrary ordered field with square roots (real arithmetic, no rounding); data of one input dimension. nan is modelled as a component that is absent."
  },
  {
   "property": "C321",
   "status": "partial",
   "theorems": [
    "C321_refuted",
    "C321_explained"
   ],
   "note": "REFUTED: d is divided by tlen-1 and total_variance by tlen, so that too little is kept: 9/13 instead of 9/10 for the rows (3,0), (-3,0), (0,2), (0,-2); explained_variance can be above one. Proved: explained_variance reaches the fraction with the last component and not before, total_variance, and the bound on the sum of all d. Over an arbitrary ordered field with square roots (real arithmetic, no rounding); data of one input dimension. nan is modelled as a component that is absent."
  },
  {
   "property": "C322",
   "status": "partial",
   "theorems": [
    "C322_refuted",
    "C322_first"
   ],
   "note": "REFUTED: the iteration starts with the first variable; for uncorrelated variables it ends there at once, whatever the other variances are. Proved: not less than the variance of the first variable. Over an arbitrary ordered field with square roots (real arithmetic, no rounding); data of one input dimension. nan is modelled as a component that is absent."
  },
  {
   "property": "C323",
   "status": "proved",
   "theorems": [
    "C323_accuracy",
    "C323_exact"
   ],
   "note": "Over an arbitrary ordered field with square roots (real arithmetic, no rounding); data of one input dimension. nan is modelled as a component that is absent."
  },
  {
   "property": "C324",
   "status": "partial",
   "theorems": [
    "C324_refuted",
    "C324_nan",
    "C324_found",
    "C324_constant"
   ],
   "note": "REFUTED: two uncorrelated variables of equal variance give a second component nan, a constant first variable makes all components nan. Proved: a component is nan exactly if the earlier ones leave nothing of the first variable, and the later ones then, too. Over an arbitrary ordered field with square roots (real arithmetic, no rounding); data of one input dimension. nan is modelled as a component that is absent."
  },
  {
   "property": "C325",
   "status": "partial",
   "theorems": [
    "C325_refuted",
    "C325_stuck",
    "C325_more",
    "C325_zero"
   ],
   "note": "REFUTED: self.data has been replaced by the array of the centred data, every later train raises AttributeError and stop_training IndexError. Proved: this for all sequences of later calls; the result does not depend on max_it. Over an arbitrary ordered field with square roots (real arithmetic, no rounding); data of one input dimension. nan is modelled as a component that is absent."
  },
  {
   "property": "C326",
   "status": "proved",
   "theorems": [
    "C326_prefix"
   ],
   "note": "Over an arbitrary ordered field with square roots (real arithmetic, no rounding); data of one input dimension. nan is modelled as a component that is absent."
  },
  {
   "property": "C327",
   "status": "proved",
   "theorems": [
    "C327_order"
   ],
   "note": "Over an arbitrary ordered field with square roots (real arithmetic, no rounding); data of one input dimension. nan is modelled as a component that is absent."
  },
  {
   "property": "C328",
   "status": "proved",
   "theorems": [
    "C328_method"
   ],
   "note": "The MRO and the dictionaries of classes are parameters (see the header of ExtRegModel.v)."
  },
  {
   "property": "C329",
   "status": "proved",
   "theorems": [
    "C329_kept",
    "C329_second"
   ],
   "note": "The MRO and the dictionaries of classes are parameters (see the header of ExtRegModel.v)."
  },
  {
   "property": "C330",
   "status": "proved",
   "theorems": [
    "C330_activation"
   ],
   "note": "The MRO and the dictionaries of classes are parameters (see the header of ExtRegModel.v)."
  },
  {
   "property": "C331",
   "status": "partial",
   "theorems": [
    "C331_refuted",
    "C331_refuted_inherited",
    "C331_defined"
   ],
   "note": "REFUTED: an attribute is skipped if any superclass of the node class has the same value registered, although a class in between has another one: an extension node which sets a method back to the default of the extension keeps the function of its superclass. Proved if no superclass has the attribute registered. The MRO and the dictionaries of classes are parameters (see the header of ExtRegModel.v)."
  },
  {
   "property": "C332",
   "status": "partial",
   "theorems": [
    "C332_refuted",
    "C332_taken",
    "C332_first"
   ],
   "note": "REFUTED: after extension_method or extension_setup the class definition is refused as a second registration. Proved: the class first, then the others. The MRO and the dictionaries of classes are parameters (see the header of ExtRegModel.v)."
  },
  {
   "property": "C333",
   "status": "partial",
   "theorems": [
    "C333_refuted",
    "C333_refused"
   ],
   "note": "REFUTED: the name is entered before the check for two node classes, the corrected definition raises as already registered. Proved: nothing else is changed. The MRO and the dictionaries of classes are parameters (see the header of ExtRegModel.v)."
  },
  {
   "property": "C334",
   "status": "partial",
   "theorems": [
    "C334_refuted",
    "C334_active"
   ],
   "note": "REFUTED: if the class has an own method of this name, deactivation deletes it. Proved: nothing changes if the attribute was registered before, or if the class has no such attribute itself. The MRO and the dictionaries of classes are parameters (see the header of ExtRegModel.v)."
  },
  {
   "property": "C335",
   "status": "proved",
   "theorems": [
    "C335_flat"
   ],
   "note": "The reading of message keys is a parameter, data checks of the BiFlowNode pass (see the header of BiFlowNodeModel.v)."
  },
  {
   "property": "C336",
   "status": "partial",
   "theorems": [
    "C336_refuted",
    "C336_refuted_index",
    "C336_relative"
   ],
   "note": "REFUTED: target -1 from the node behind a BiFlowNode enters it at its first node, and +2 from inside of it ends in IndexError. Proved inside one flow. The reading of message keys is a parameter, data checks of the BiFlowNode pass (see the header of BiFlowNodeModel.v)."
  },
  {
   "property": "C337",
   "status": "partial",
   "theorems": [
    "C337_refuted",
    "C337_last",
    "C337_train",
    "C337_train_back",
    "C337_stop",
    "C337_stop_none"
   ],
   "note": "REFUTED: a result of stop_training of the last inner node without target always raises BiFlowException, since the next index is not in the flow. Proved for train, and for stop_training of the other nodes. The reading of message keys is a parameter, data checks of the BiFlowNode pass (see the header of BiFlowNodeModel.v)."
  },
  {
   "property": "C338",
   "status": "partial",
   "theorems": [
    "C338_refuted",
    "C338_reset",
    "C338_found"
   ],
   "note": "REFUTED: the lookup is stored in _last_id_request and the next execution of the BiFlowNode starts at the node which was looked up. Proved: what is found, and that nothing else is changed. The reading of message keys is a parameter, data checks of the BiFlowNode pass (see the header of BiFlowNodeModel.v)."
  },
  {
   "property": "C339",
   "status": "proved",
   "theorems": [
    "C339_inverse",
    "C339_target"
   ],
   "note": "The reading of message keys is a parameter, data checks of the BiFlowNode pass (see the header of BiFlowNodeModel.v)."
  },
  {
   "property": "C340",
   "status": "partial",
   "theorems": [
    "C340_refuted",
    "C340_clone"
   ],
   "note": "REFUTED: with a single instance and an inner node as target the first part starts at the target and the second at the first node. Proved without such a target. The reading of message keys is a parameter, data checks of the BiFlowNode pass (see the header of BiFlowNodeModel.v)."
  },
  {
   "property": "C341",
   "status": "partial",
   "theorems": [
    "C341_refuted",
    "C335_flat"
   ],
   "note": "REFUTED: the BiFlow passes None without message on, the BiFlowNode raises BiNodeException. Proved if there is always data or a message that is not empty (C335). The reading of message keys is a parameter, data checks of the BiFlowNode pass (see the header of BiFlowNodeModel.v)."
  },
  {
   "property": "C342",
   "status": "proved",
   "theorems": [
    "C342_total",
    "C342_unique",
    "C342_mismatch"
   ],
   "note": "Nodes: IdentityNode, SFANode, QuadraticExpansionNode, SFA2Node, Layers of these, Switchboard, CloneBiLayer (not the first); all have been executed or trained; at least one sample. Numbers are those of an ordered field; derivatives are total derivatives (epsilon-delta, maximum norm); the message has no keys but method and grad (see the header of GradModel.v)."
  },
  {
   "property": "C343",
   "status": "proved",
   "theorems": [
    "C343_continues"
   ],
   "note": "Numbers are those of an ordered field; derivatives are total derivatives (epsilon-delta, maximum norm); the message has no keys but method and grad (see the header of GradModel.v)."
  },
  {
   "property": "C344",
   "status": "partial",
   "theorems": [
    "C344_refuted",
    "C342_total"
   ],
   "note": "REFUTED: a normal Node of the BiFlow changes x but not the gradient in the message: the gradient returned is that of a flow without this node. Proved if all are BiNodes. Numbers are those of an ordered field; derivatives are total derivatives (epsilon-delta, maximum norm); the message has no keys but method and grad (see the header of GradModel.v)."
  },
  {
   "property": "C345",
   "status": "partial",
   "theorems": [
    "C345_refuted",
    "C345_touched"
   ],
   "note": "REFUTED: execute with method 'gradient' does not set input_dim, IdentityNode and QuadraticExpansionNode raise TypeError until they are executed without gradient. Proved: afterwards they have the gradient. Numbers are those of an ordered field; derivatives are total derivatives (epsilon-delta, maximum norm); the message has no keys but method and grad (see the header of GradModel.v)."
  },
  {
   "property": "C346",
   "status": "partial",
   "theorems": [
    "C346_refuted",
    "C342_total"
   ],
   "note": "REFUTED: Switchboard overrides _gradient only, a Layer calls _get_grad: NotImplementedError. Proved for Layers (nested ones included) of the other nodes. Numbers are those of an ordered field; derivatives are total derivatives (epsilon-delta, maximum norm); the message has no keys but method and grad (see the header of GradModel.v)."
  },
  {
   "property": "C347",
   "status": "partial",
   "theorems": [
    "C347_refuted",
    "C347_refuted_silent",
    "C342_total"
   ],
   "note": "REFUTED: SameInputLayer inherits the block-diagonal gradient of Layer: ValueError, or for one variable a gradient with zeros in place of those of the second node. Proved for Layer (C342). Numbers are those of an ordered field; derivatives are total derivatives (epsilon-delta, maximum norm); the message has no keys but method and grad (see the header of GradModel.v)."
  },
  {
   "property": "C348",
   "status": "partial",
   "theorems": [
    "C348_refuted",
    "C348_eye",
    "C343_continues"
   ],
   "note": "REFUTED: without grad in the message each node of a CloneBiLayer starts with its own unit matrix, the results are stacked to shape (n, k*o, d) instead of (n, k*o, k*d). Proved with grad given, or behind other nodes. Numbers are those of an ordered field; derivatives are total derivatives (epsilon-delta, maximum norm); the message has no keys but method and grad (see the header of GradModel.v)."
  },
  {
   "property": "C349",
   "status": "partial",
   "theorems": [
    "C349_refuted",
    "C349_never"
   ],
   "note": "REFUTED: stop_training is possible in the training phase only, and there _gradient always raises TrainingException. Numbers are those of an ordered field; derivatives are total derivatives (epsilon-delta, maximum norm); the message has no keys but method and grad (see the header of GradModel.v)."
  },
  {
   "property": "C350",
   "status": "partial",
   "theorems": [
    "C350_refuted",
    "C342_total"
   ],
   "note": "REFUTED: np.asarray([]) has shape (0,), a following Switchboard raises IndexError although execute works. Proved for at least one sample. Numbers are those of an ordered field; derivatives are total derivatives (epsilon-delta, maximum norm); the message has no keys but method and grad (see the header of GradModel.v)."
  },
  {
   "property": "C351",
   "status": "partial",
   "theorems": [
    "C351_refuted",
    "C351_refuted_identity",
    "C351_checked"
   ],
   "note": "REFUTED: the method 'gradient' does no checks: Switchboard and IdentityNode accept data with too many variables which execute refuses. Proved: SFANode, SFA2Node and QuadraticExpansionNode raise (ValueError). Numbers are those of an ordered field; derivatives are total derivatives (epsilon-delta, maximum norm); the message has no keys but method and grad (see the header of GradModel.v)."
  },
  {
   "property": "C352",
   "status": "proved",
   "theorems": [
    "C352_roundtrip",
    "C352_target"
   ],
   "note": "The methods of the inner node are parameters; messages are values (see the header of CloneBiModel.v)."
  },
  {
   "property": "C353",
   "status": "partial",
   "theorems": [
    "C353_refuted",
    "C353_refuted_none",
    "C353_complete",
    "C353_dropped"
   ],
   "note": "REFUTED: the columns beyond a multiple of the number of nodes are dropped without an error; with less columns than nodes all nodes get None. Proved if the number of columns is a multiple. The methods of the inner node are parameters; messages are values (see the header of CloneBiModel.v)."
  },
  {
   "property": "C354",
   "status": "partial",
   "theorems": [
    "C354_refuted",
    "C354_never",
    "C354_copies",
    "C354_message"
   ],
   "note": "REFUTED: switching back always raises: CloneBiLayerException in training, else AttributeError since is_bi_training does not exist. Proved: switching to copies. The methods of the inner node are parameters; messages are values (see the header of CloneBiModel.v)."
  },
  {
   "property": "C355",
   "status": "proved",
   "theorems": [
    "C355_shared",
    "C355_own",
    "C355_raising"
   ],
   "note": "The methods of the inner node are parameters; messages are values (see the header of CloneBiModel.v)."
  },
  {
   "property": "C356",
   "status": "partial",
   "theorems": [
    "C356_refuted",
    "C356_copies",
    "C356_single"
   ],
   "note": "REFUTED: a single instance gets the whole arrays in stop_training. Proved for copies. The methods of the inner node are parameters; messages are values (see the header of CloneBiModel.v)."
  },
  {
   "property": "C357",
   "status": "partial",
   "theorems": [
    "C357_refuted",
    "C357_same"
   ],
   "note": "REFUTED: an array of the node itself in its message is joined over the copies but handed on once by a single instance. Proved for nodes whose results agree for the copies (identity of arrays included). The methods of the inner node are parameters; messages are values (see the header of CloneBiModel.v)."
  },
  {
   "property": "C358",
   "status": "partial",
   "theorems": [
    "C358_refuted",
    "C358_refuted_trained",
    "C358_inverse",
    "C358_back",
    "C358_never",
    "C358_untouched",
    "C358_stop"
   ],
   "note": "REFUTED: with copies AttributeError; after stop_training output_dim is not set, so that inverse sets it to input_dim for good and refuses the right number of outputs. Proved for a single instance with output_dim set. The methods of the inner node are parameters; messages are values (see the header of CloneBiModel.v)."
  },
  {
   "property": "C359",
   "status": "proved",
   "theorems": [
    "C359_joined"
   ],
   "note": "The methods of the inner node are parameters; messages are values (see the header of CloneBiModel.v)."
  },
  {
   "property": "C360",
   "status": "proved",
   "theorems": [
    "C360_least"
   ],
   "note": "Numbers of an ordered field, connections not negative. See the headers of SwitchModel.v and SwitchBiModel.v."
  },
  {
   "property": "C361",
   "status": "proved",
   "theorems": [
    "C361_back"
   ],
   "note": "Numbers of an ordered field, connections not negative. See the headers of SwitchModel.v and SwitchBiModel.v."
  },
  {
   "property": "C362",
   "status": "proved",
   "theorems": [
    "C362_routed",
    "C362_plain",
    "C362_back"
   ],
   "note": "Connections not negative. See the headers of SwitchModel.v and SwitchBiModel.v."
  },
  {
   "property": "C363",
   "status": "partial",
   "theorems": [
    "C363_refuted",
    "C363_never",
    "C363_others"
   ],
   "note": "REFUTED: down_connections is never used; connections which are not invertible raise SwitchboardException for every array. Proved: invertible ones (C362), and messages without such arrays. See the headers of SwitchModel.v and SwitchBiModel.v."
  },
  {
   "property": "C364",
   "status": "partial",
   "theorems": [
    "C364_refuted",
    "C364_results",
    "C364_all"
   ],
   "note": "REFUTED: the empty string as prefix gives no result. Proved for all other prefixes. See the headers of SwitchModel.v and SwitchBiModel.v."
  },
  {
   "property": "C365",
   "status": "partial",
   "theorems": [
    "C365_refuted",
    "C365_dim",
    "C365_multiple",
    "C365_made"
   ],
   "note": "REFUTED: if prev_output_dim is no multiple of the number of output channels, the rest is dropped and the switchboard does not fit. Proved for multiples. See the headers of SwitchModel.v and SwitchBiModel.v."
  },
  {
   "property": "C366",
   "status": "partial",
   "theorems": [
    "C366_refuted",
    "C366_again",
    "C366_others",
    "C366_bi"
   ],
   "note": "REFUTED: ignore_cover=True is entered into the dict of the caller. Proved: nothing else, and a further call with it gives the same result as with the original one. See the headers of SwitchModel.v and SwitchBiModel.v."
  },
  {
   "property": "C367",
   "status": "partial",
   "theorems": [
    "C367_refuted",
    "C367_never",
    "C367_direct"
   ],
   "note": "REFUTED: the keyword is long_out_channels_xy, the constructor has long_in_channels_xy: TypeError for every call. Proved: with the right name the switchboard fits. See the headers of SwitchModel.v and SwitchBiModel.v."
  },
  {
   "property": "C368",
   "status": "proved",
   "theorems": [
    "C368_projection"
   ],
   "note": "At least one input (L >= 1) and two samples. Numbers are rationals; see the header of XsfaModel.v."
  },
  {
   "property": "C369",
   "status": "partial",
   "theorems": [
    "C369_nothing_left_refuted",
    "C369_uncorrelated",
    "C369_covariance",
    "C369_trained",
    "C369_nothing_left"
   ],
   "note": "REFUTED: for L = 0 the slices -0: take all columns and execute raises ValueError for all data with expanded sources. Proved for L >= 1. Numbers are rationals; see the header of XsfaModel.v."
  },
  {
   "property": "C370",
   "status": "partial",
   "theorems": [
    "C370_constant_refuted",
    "C370_normalized",
    "C370_constant"
   ],
   "note": "REFUTED: a component that is constant in the training data is divided by zero. Proved for all other components (with an exact square root). Numbers are rationals; see the header of XsfaModel.v."
  },
  {
   "property": "C371",
   "status": "proved",
   "theorems": [
    "C371_phases",
    "C371_total"
   ],
   "note": "Numbers are rationals; see the header of XsfaModel.v."
  },
  {
   "property": "C372",
   "status": "partial",
   "theorems": [
    "C372_announced_refuted",
    "C372_announced",
    "C372_during",
    "C372_complete"
   ],
   "note": "REFUTED: before the first chunk get_remaining_train_phase is 2 whatever the number will be. Proved: the schedule with the numbers known after it. Numbers are rationals; see the header of XsfaModel.v."
  },
  {
   "property": "C373",
   "status": "proved",
   "theorems": [
    "C373_map",
    "C373_excess"
   ],
   "note": "Numbers of an ordered field; utils.inv is a parameter which inverts symmetric positive definite matrices; see the header of FAModel.v."
  },
  {
   "property": "C374",
   "status": "proved",
   "theorems": [
    "C374_mstep"
   ],
   "note": "Numbers of an ordered field; utils.inv is a parameter which inverts symmetric positive definite matrices; see the header of FAModel.v."
  },
  {
   "property": "C375",
   "status": "proved",
   "theorems": [
    "C375_positive",
    "C375_fitted",
    "C375_data"
   ],
   "note": "Numbers of an ordered field; utils.inv is a parameter which inverts symmetric positive definite matrices; see the header of FAModel.v."
  },
  {
   "property": "C376",
   "status": "proved",
   "theorems": [
    "C376_curve"
   ],
   "note": "The likelihood is an arbitrary function: the convergence criterion is met first, so the warning cannot be given. Numbers of an ordered field; utils.inv is a parameter which inverts symmetric positive definite matrices; see the header of FAModel.v."
  },
  {
   "property": "C377",
   "status": "partial",
   "theorems": [
    "C377_last_refuted",
    "C377_last",
    "C377_cycles"
   ],
   "note": "REFUTED: the likelihoods are those before each cycle, and a cycle that ended by convergence is not in the curve, so the last value is one or two cycles older than the parameters. Proved: exactly which cycles they are of. Numbers of an ordered field; utils.inv is a parameter which inverts symmetric positive definite matrices; see the header of FAModel.v."
  },
  {
   "property": "C378",
   "status": "partial",
   "theorems": [
    "C378_retry_refuted",
    "C378_dead",
    "C378_done"
   ],
   "note": "REFUTED: the covariance is deleted before the exception; every later train, stop_training, execute raises AttributeError. Proved: what happens in both cases. Numbers of an ordered field; utils.inv is a parameter which inverts symmetric positive definite matrices; see the header of FAModel.v."
  },
  {
   "property": "C379",
   "status": "proved",
   "theorems": [
    "C379_shrunk"
   ],
   "note": "Numbers of an ordered field; utils.inv is a parameter which inverts symmetric positive definite matrices; see the header of FAModel.v."
  },
  {
   "property": "C380",
   "status": "proved",
   "theorems": [
    "C380_execute",
    "C380_around"
   ],
   "note": "Real numbers; scipy's convolutions are modelled by their definition (rounding of the Fourier transform not modelled). "
  },
  {
   "property": "C381",
   "status": "proved",
   "theorems": [
    "C381_flat_or_image"
   ],
   "note": "Real numbers; scipy's convolutions are modelled by their definition (rounding of the Fourier transform not modelled). "
  },
  {
   "property": "C382",
   "status": "proved",
   "theorems": [
    "C382_other_shape"
   ],
   "note": "By the failing assignment of a result of another shape. Real numbers; scipy's convolutions are modelled by their definition (rounding of the Fourier transform not modelled). "
  },
  {
   "property": "C383",
   "status": "proved",
   "theorems": [
    "C383_product"
   ],
   "note": "Real numbers; scipy's convolutions are modelled by their definition (rounding of the Fourier transform not modelled). "
  },
  {
   "property": "C384",
   "status": "proved",
   "theorems": [
    "C384_linear"
   ],
   "note": "C384_ex_fill: a node with another fill value, for which it does not hold. Real numbers; scipy's convolutions are modelled by their definition (rounding of the Fourier transform not modelled). "
  },
  {
   "property": "C385",
   "status": "partial",
   "theorems": [
    "C385_replaced_refuted",
    "C385_same_size"
   ],
   "note": "REFUTED: output_dim and the output shape stay those of the first execution; with more filters ndarray.resize drops values and gives outputs of one data point to the next. Proved: filters of the same number and size can be replaced (with C380). Real numbers; scipy's convolutions are modelled by their definition (rounding of the Fourier transform not modelled). "
  },
  {
   "property": "C386",
   "status": "partial",
   "theorems": [
    "C386_rejected_refuted",
    "C386_after_success"
   ],
   "note": "REFUTED: the image shape is stored before the dimension is checked. Proved: after a successful execution nothing is changed any more. Real numbers; scipy's convolutions are modelled by their definition (rounding of the Fourier transform not modelled). "
  },
  {
   "property": "C387",
   "status": "partial",
   "theorems": [
    "C387_inconsistent_refuted",
    "C387_flattened"
   ],
   "note": "REFUTED: with images (rank 3) numpy broadcasts the result into the declared shape. Proved: flattened data points are rejected. Real numbers; scipy's convolutions are modelled by their definition (rounding of the Fourier transform not modelled). "
  },
  {
   "property": "C388",
   "status": "partial",
   "theorems": [
    "C388_output_dim_refuted",
    "C388_too_large"
   ],
   "note": "REFUTED: output_dim is fixed at the product of two negative numbers. Proved: nothing can be executed. Real numbers; scipy's convolutions are modelled by their definition (rounding of the Fourier transform not modelled). "
  },
  {
   "property": "C389",
   "status": "proved",
   "theorems": [
    "C389_joint",
    "C389_marginal"
   ],
   "note": "Numbers of an ordered field and any function with the laws of exp (C389_real etc.: the real exp); random numbers are an arbitrary stream; no rounding. "
  },
  {
   "property": "C390",
   "status": "proved",
   "theorems": [
    "C390_joint",
    "C390_marginal"
   ],
   "note": "Numbers of an ordered field and any function with the laws of exp (C389_real etc.: the real exp); random numbers are an arbitrary stream; no rounding. "
  },
  {
   "property": "C391",
   "status": "proved",
   "theorems": [
    "C391_softmax",
    "C391_joint",
    "C391_reconstruction",
    "C391_exponents"
   ],
   "note": "Numbers of an ordered field and any function with the laws of exp (C389_real etc.: the real exp); random numbers are an arbitrary stream; no rounding. "
  },
  {
   "property": "C392",
   "status": "proved",
   "theorems": [
    "C392_update"
   ],
   "note": "Numbers of an ordered field and any function with the laws of exp (C389_real etc.: the real exp); random numbers are an arbitrary stream; no rounding. "
  },
  {
   "property": "C393",
   "status": "proved",
   "theorems": [
    "C393_gap"
   ],
   "note": "Numbers of an ordered field and any function with the laws of exp (C389_real etc.: the real exp); random numbers are an arbitrary stream; no rounding. "
  },
  {
   "property": "C394",
   "status": "partial",
   "theorems": [
    "C394_zero_refuted",
    "C394_no_rounds",
    "C392_update"
   ],
   "note": "REFUTED: n_updates=0 raises UnboundLocalError, after the weights were initialised. Proved: what happens for every number of iterations. Numbers of an ordered field and any function with the laws of exp (C389_real etc.: the real exp); random numbers are an arbitrary stream; no rounding. "
  },
  {
   "property": "C395",
   "status": "proved",
   "theorems": [
    "C395_sample",
    "C395_execute"
   ],
   "note": "Numbers of an ordered field and any function with the laws of exp (C389_real etc.: the real exp); random numbers are an arbitrary stream; no rounding. "
  },
  {
   "property": "C396",
   "status": "partial",
   "theorems": [
    "C396_columns_refuted",
    "C396_total"
   ],
   "note": "REFUTED: only the total number of columns is checked. Proved: that one is. Numbers of an ordered field and any function with the laws of exp (C389_real etc.: the real exp); random numbers are an arbitrary stream; no rounding. "
  },
  {
   "property": "C397",
   "status": "proved",
   "theorems": [
    "C397_phase"
   ],
   "note": "Nodes are arbitrary functions on a shared state (the BiFlowNode model of BiFlowNodeModel.v); forks are trained in the order of the chunks. "
  },
  {
   "property": "C398",
   "status": "partial",
   "theorems": [
    "C398_refuted",
    "C398_never",
    "C397_phase"
   ],
   "note": "REFUTED: no phase whose chunks all have x None can be closed (TrainingException). Proved: with data in each chunk (C397). Nodes are arbitrary functions on a shared state (the BiFlowNode model of BiFlowNodeModel.v); forks are trained in the order of the chunks. "
  },
  {
   "property": "C399",
   "status": "partial",
   "theorems": [
    "C399_refuted",
    "C397_phase"
   ],
   "note": "REFUTED: IndexError, the third entry of a pair is asked for. Proved: for executions leaving the flow by 'exit' or without result (C397). Nodes are arbitrary functions on a shared state (the BiFlowNode model of BiFlowNodeModel.v); forks are trained in the order of the chunks. "
  },
  {
   "property": "C400",
   "status": "partial",
   "theorems": [
    "C400_refuted",
    "C400_end"
   ],
   "note": "REFUTED: a chunk for which an earlier node ends the execution is passed over. Proved: a chunk which leaves the flow at its end or with an unknown target raises. Nodes are arbitrary functions on a shared state (the BiFlowNode model of BiFlowNodeModel.v); forks are trained in the order of the chunks. "
  },
  {
   "property": "C401",
   "status": "proved",
   "theorems": [
    "C401_execute"
   ],
   "note": "Chunks give an array and a message with distinct keys. "
  },
  {
   "property": "C402",
   "status": "partial",
   "theorems": [
    "C402_refuted",
    "C402_no_array"
   ],
   "note": "REFUTED: any chunk without array makes parallel execution raise (ValueError of concatenate). Proved: that it always does, and C401 for the other case. "
  },
  {
   "property": "C403",
   "status": "partial",
   "theorems": [
    "C403_refuted",
    "C403_never",
    "C403_phases"
   ],
   "note": "REFUTED: None > int raises TypeError after the last phase, for every such training. Proved: the schedulers used and shut down are the right ones. "
  },
  {
   "property": "C404",
   "status": "partial",
   "theorems": [
    "C404_refuted",
    "C404_never",
    "C404_flow"
   ],
   "note": "REFUTED: TypeError, multiple values for 'checkpoints'; no call whatsoever gets to the serial training. Proved: ParallelBiFlow.train. "
  },
  {
   "property": "C405",
   "status": "partial",
   "theorems": [
    "C405_refuted",
    "C405_arguments"
   ],
   "note": "REFUTED: stop_messages is dropped in every call. Proved: all the others arrive. "
  },
  {
   "property": "C406",
   "status": "partial",
   "theorems": [
    "C406_refuted",
    "C406_switch",
    "C406_fresh"
   ],
   "note": "REFUTED: what was learned before the switch counts once for each copy. Proved: the exact result, and equality from the start of a phase. "
  },
  {
   "property": "C407",
   "status": "partial",
   "theorems": [
    "C407_refuted",
    "C407_forks",
    "C407_to_copies",
    "C407_to_one"
   ],
   "note": "REFUTED: a fork switched to copies cannot be joined (AttributeError), one switched to a single instance is counted once for each copy. Proved: without switches. "
  },
  {
   "property": "C408",
   "status": "partial",
   "theorems": [
    "C408_refuted",
    "C408_otherwise"
   ],
   "note": "REFUTED: AttributeError (no method is_bi_training) after the training. Proved: all other cases. "
  },
  {
   "property": "C409",
   "status": "partial",
   "theorems": [
    "C409_refuted",
    "C409_never",
    "C409_stale",
    "C409_after"
   ],
   "note": "REFUTED: _flownode is not set by setup_parallel_execution. Proved: after train or execute with a scheduler and no assignment. "
  },
  {
   "property": "C410",
   "status": "proved",
   "theorems": [
    "C410_coroutines",
    "C413_exact"
   ],
   "note": "Bodies are arbitrary functions (state machines) on the state of the node. "
  },
  {
   "property": "C411",
   "status": "proved",
   "theorems": [
    "C411_other",
    "C413_exact"
   ],
   "note": "Bodies are arbitrary functions (state machines) on the state of the node. Stated for the activations of the ideal which C413_exact proves the node to follow."
  },
  {
   "property": "C412",
   "status": "proved",
   "theorems": [
    "C412_reset",
    "C412_calls"
   ],
   "note": "Bodies are arbitrary functions (state machines) on the state of the node. "
  },
  {
   "property": "C413",
   "status": "partial",
   "theorems": [
    "C413_refuted",
    "C413_exact"
   ],
   "note": "REFUTED: the next call returns None without running the body; only the one after it starts anew. Proved: exactly this behaviour. Bodies are arbitrary functions (state machines) on the state of the node. "
  },
  {
   "property": "C414",
   "status": "partial",
   "theorems": [
    "C414_refuted",
    "C414_returned",
    "C414_combined",
    "C414_plain"
   ],
   "note": "REFUTED: y arrives as a tuple with one entry; with a message IndexError is raised. Proved: this for every body. Bodies are arbitrary functions (state machines) on the state of the node. "
  },
  {
   "property": "C415",
   "status": "partial",
   "theorems": [
    "C415_refuted",
    "C410_coroutines"
   ],
   "note": "REFUTED: both are stored under the same name, so that the one of the base class is resumed. Proved: bodies which do not start coroutines (C410); different names in an Example. Bodies are arbitrary functions (state machines) on the state of the node. "
  },
  {
   "property": "C416",
   "status": "proved",
   "theorems": [
    "C416_orthogonal",
    "C416_white",
    "C416_sweeps",
    "C416_num"
   ],
   "note": "Exact real arithmetic; arctan2, cos, sin and sqrt are the real functions. "
  },
  {
   "property": "C417",
   "status": "partial",
   "theorems": [
    "C417_refuted",
    "C417_contrast",
    "C417_max"
   ],
   "note": "REFUTED: the terms of the contrast of frequency 8 are ignored; there are eight white points which CuBICA leaves alone although a rotation raises the contrast. Proved: the angle maximizes the rest of the contrast, whose exact form is given. Exact real arithmetic; arctan2, cos, sin and sqrt are the real functions. "
  },
  {
   "property": "C418",
   "status": "proved",
   "theorems": [
    "C418_projmatrix",
    "C418_recmatrix",
    "C418_transposed",
    "C418_matrices",
    "C418_execute_inverse",
    "C418_inverse_execute"
   ],
   "note": "Exact real arithmetic; arctan2, cos, sin and sqrt are the real functions. "
  },
  {
   "property": "C419",
   "status": "partial",
   "theorems": [
    "C419_refuted",
    "C419_telescope",
    "C419_exact"
   ],
   "note": "REFUTED: UnboundLocalError with fewer than 2**minpow observations, 10*dim < 2**minpow <= 20*dim. Proved: all other sizes. Exact real arithmetic; arctan2, cos, sin and sqrt are the real functions. "
  },
  {
   "property": "C420",
   "status": "partial",
   "theorems": [
    "C420_refuted",
    "C420_dims",
    "C420_set"
   ],
   "note": "REFUTED: with white_parm={'reduce': True} output_dim is that of the data before the reduction. Proved: whenever whitening keeps the number of dimensions asked for. "
  },
  {
   "property": "C421",
   "status": "proved",
   "theorems": [
    "C421_jade"
   ],
   "note": "Exact real arithmetic; arctan2, cos, sin and sqrt are the real functions. "
  },
  {
   "property": "C422",
   "status": "partial",
   "theorems": [
    "C422_refuted",
    "C422_gain",
    "C422_on",
    "C422_two"
   ],
   "note": "REFUTED: arctan2(0, 0) = 0 is taken for the angle where the best one is 45 degrees, so that the 45 degree mixture of two binary sources is not separated. Proved: all other cases, and that the sum never gets smaller. Exact real arithmetic; arctan2, cos, sin and sqrt are the real functions. "
  },
  {
   "property": "C423",
   "status": "partial",
   "theorems": [
    "C423_refuted",
    "C423_diagonal",
    "C423_exact"
   ],
   "note": "REFUTED: sqrt(2) is applied to the first of three terms only, so that JADE fails to separate two binary sources whatever the limit. Proved: the matrices with equal indices, and what is added to the others. Exact real arithmetic; arctan2, cos, sin and sqrt are the real functions. "
  },
  {
   "property": "C424",
   "status": "proved",
   "theorems": [
    "C424_symm",
    "C424_defl"
   ],
   "note": "Exact real arithmetic; arctan2, cos, sin and sqrt are the real functions. Division by zero (norm of a zero vector) is a result of its own. "
  },
  {
   "property": "C425",
   "status": "partial",
   "theorems": [
    "C425_refuted",
    "C425_filters"
   ],
   "note": "REFUTED: a component which does not converge is skipped and its column of the filters stays zero, without an exception (eight white points, max_it=2). Proved: the columns which converged are orthonormal, the others zero, the first one always converged, and with failures=0 (or when all converged) the filters are orthonormal. Exact real arithmetic; arctan2, cos, sin and sqrt are the real functions. Division by zero (norm of a zero vector) is a result of its own. "
  },
  {
   "property": "C426",
   "status": "partial",
   "theorems": [
    "C426_refuted",
    "C426_ignored",
    "C426_switch",
    "C426_kept"
   ],
   "note": "REFUTED: the deflation approach (the default) ignores coarse_limit, whatever the data. Proved: the symmetric approach switches to fine_g. Exact real arithmetic; arctan2, cos, sin and sqrt are the real functions. Division by zero (norm of a zero vector) is a result of its own. "
  },
  {
   "property": "C427",
   "status": "proved",
   "theorems": [
    "C427_orthonormal",
    "C427_ends"
   ],
   "note": "Contract of sqrtm and inv: symmetric square root of the inverse. Exact real arithmetic; arctan2, cos, sin and sqrt are the real functions. Division by zero (norm of a zero vector) is a result of its own. "
  },
  {
   "property": "C428",
   "status": "proved",
   "theorems": [
    "C428_direction",
    "C428_fixed",
    "C428_symm"
   ],
   "note": "Exact real arithmetic; arctan2, cos, sin and sqrt are the real functions. Division by zero (norm of a zero vector) is a result of its own. "
  },
  {
   "property": "C429",
   "status": "proved",
   "theorems": [
    "C429_stays",
    "C429_independent"
   ],
   "note": "Exact real arithmetic; arctan2, cos, sin and sqrt are the real functions. Division by zero (norm of a zero vector) is a result of its own. "
  },
  {
   "property": "C430",
   "status": "partial",
   "theorems": [
    "C430_refuted",
    "C430_overwritten"
   ],
   "note": "REFUTED: with whitened=True and an array of the dtype of the node the columns of guess are orthonormalized in place by the deflation approach; what the first column becomes is proved. Exact real arithmetic; arctan2, cos, sin and sqrt are the real functions. Division by zero (norm of a zero vector) is a result of its own. "
  },
  {
   "property": "C431",
   "status": "partial",
   "theorems": [
    "C431_refuted",
    "C431_whitened",
    "C431_right",
    "C431_start"
   ],
   "note": "REFUTED: guess is multiplied by the wrong matrix when the node whitens the data. Proved: right for whitened=True, and with the transposed projection matrix of the whitening instead. Exact real arithmetic; arctan2, cos, sin and sqrt are the real functions. Division by zero (norm of a zero vector) is a result of its own. "
  },
  {
   "property": "C432",
   "status": "proved",
   "theorems": [
    "C432_case1",
    "C432_case2"
   ],
   "note": "Exact real arithmetic; arctan2, cos, sin and sqrt are the real functions. Contracts: shuffle permutes the list of axes, random_rot gives an orthogonal matrix, permutation a permutation, argsort sorts. "
  },
  {
   "property": "C433",
   "status": "proved",
   "theorems": [
    "C433_minimal",
    "C433_value",
    "C433_no_worse"
   ],
   "note": "Exact real arithmetic; arctan2, cos, sin and sqrt are the real functions. Contracts: shuffle permutes the list of axes, random_rot gives an orthogonal matrix, permutation a permutation, argsort sorts. "
  },
  {
   "property": "C434",
   "status": "proved",
   "theorems": [
    "C434_rotation"
   ],
   "note": "Exact real arithmetic; arctan2, cos, sin and sqrt are the real functions. Contracts: shuffle permutes the list of axes, random_rot gives an orthogonal matrix, permutation a permutation, argsort sorts. "
  },
  {
   "property": "C435",
   "status": "proved",
   "theorems": [
    "C435_contrast",
    "C435_sweep"
   ],
   "note": "Exact real arithmetic; arctan2, cos, sin and sqrt are the real functions. Contracts: shuffle permutes the list of axes, random_rot gives an orthogonal matrix, permutation a permutation, argsort sorts. "
  },
  {
   "property": "C436",
   "status": "partial",
   "theorems": [
    "C436_refuted",
    "C436_axes"
   ],
   "note": "REFUTED: data with one component cannot be trained on (UnboundLocalError). Proved: input dimension at least two. Exact real arithmetic; arctan2, cos, sin and sqrt are the real functions. Contracts: shuffle permutes the list of axes, random_rot gives an orthogonal matrix, permutation a permutation, argsort sorts. "
  },
  {
   "property": "C437",
   "status": "partial",
   "theorems": [
    "C437_refuted",
    "C437_ends",
    "C437_sweeps"
   ],
   "note": "REFUTED: NodeException is also raised if the optimization converges in sweep number max_iter. Proved: it ends, and returns after fewer than max_iter sweeps. Exact real arithmetic; arctan2, cos, sin and sqrt are the real functions. Contracts: shuffle permutes the list of axes, random_rot gives an orthogonal matrix, permutation a permutation, argsort sorts. "
  },
  {
   "property": "C438",
   "status": "partial",
   "theorems": [
    "C438_refuted",
    "C438_quits",
    "C438_two",
    "C438_rotates"
   ],
   "note": "REFUTED: the rotation with contrast zero is not applied; with two components, one lag and exact arithmetic TDSEPNode never rotates, whatever the matrix. Proved: every other improvement is applied. Exact real arithmetic; arctan2, cos, sin and sqrt are the real functions. Contracts: shuffle permutes the list of axes, random_rot gives an orthogonal matrix, permutation a permutation, argsort sorts. "
  },
  {
   "property": "C439",
   "status": "partial",
   "theorems": [
    "C439_refuted",
    "C439_matrices"
   ],
   "note": "REFUTED: the first columns of RPC are those of RP in another order. Proved: the rest. Exact real arithmetic; arctan2, cos, sin and sqrt are the real functions. Contracts: shuffle permutes the list of axes, random_rot gives an orthogonal matrix, permutation a permutation, argsort sorts. "
  },
  {
   "property": "C440",
   "status": "proved",
   "theorems": [
    "C440_slowness"
   ],
   "note": "Exact real arithmetic; arctan2, cos, sin and sqrt are the real functions. Contracts: shuffle permutes the list of axes, random_rot gives an orthogonal matrix, permutation a permutation, argsort sorts. "
  },
  {
   "property": "C441",
   "status": "partial",
   "theorems": [
    "C441_refuted",
    "C439_matrices"
   ],
   "note": "REFUTED: the matrices given by the user are transformed in place; what they become is proved (C439_matrices). Exact real arithmetic; arctan2, cos, sin and sqrt are the real functions. Contracts: shuffle permutes the list of axes, random_rot gives an orthogonal matrix, permutation a permutation, argsort sorts. "
  },
  {
   "property": "C442",
   "status": "partial",
   "theorems": [
    "C442_refuted",
    "C442_multi"
   ],
   "note": "REFUTED: AttributeError. Proved: the object the node builds itself can be given. Exact real arithmetic; arctan2, cos, sin and sqrt are the real functions. Contracts: shuffle permutes the list of axes, random_rot gives an orthogonal matrix, permutation a permutation, argsort sorts. "
  },
  {
   "property": "C443",
   "status": "partial",
   "theorems": [
    "C443_refuted",
    "C443_weights",
    "C443_accepted"
   ],
   "note": "REFUTED: TypeError instead of NodeException for a wrong length, TypeError for a number, IndexError without lags. Proved: accepted weights are used as documented. "
  },
  {
   "property": "C444",
   "status": "partial",
   "theorems": [
    "C444_refuted",
    "C444_dims",
    "C444_alone"
   ],
   "note": "REFUTED: output_dim overrides white_comp, so there is no outer space. Proved: exactly what the dimensions are. "
  },
  {
   "property": "C445",
   "status": "partial",
   "theorems": [
    "C445_refuted",
    "C445_convergence",
    "C445_isfa"
   ],
   "note": "REFUTED: white_parm is ignored by TDSEPNode, and convergence is a dictionary. ISFANode passes white_parm on. "
  },
  {
   "property": "C446",
   "status": "proved",
   "theorems": [
    "C446_execute_inverse",
    "C446_inverse_execute"
   ],
   "note": "Exact real arithmetic; arctan2, cos, sin and sqrt are the real functions. Contracts: shuffle permutes the list of axes, random_rot gives an orthogonal matrix, permutation a permutation, argsort sorts. "
  },
  {
   "property": "C447",
   "status": "partial",
   "theorems": [
    "C447_refuted",
    "C447_index",
    "C447_exception",
    "C447_enough"
   ],
   "note": "REFUTED: with k equal to the number of points training always ends with IndexError (each point has only k-1 others). Proved: TrainingException exactly for greater k, neither of the two for smaller k. argsort, solve, svd and symeig are parameters with the contracts stated in the theorems (is_argsort, is_solve, is_symeig); exact real arithmetic."
  },
  {
   "property": "C448",
   "status": "partial",
   "theorems": [
    "C448_refuted",
    "C448_neighbours"
   ],
   "note": "REFUTED: the first entry of argsort is dropped as the point itself; if the point occurs twice it can be the other copy, and the point is its own neighbour. Proved for points which occur once. argsort, solve, svd and symeig are parameters with the contracts stated in the theorems (is_argsort, is_solve, is_symeig); exact real arithmetic."
  },
  {
   "property": "C449",
   "status": "proved",
   "theorems": [
    "C449_matrix",
    "C449_best"
   ],
   "note": "argsort, solve, svd and symeig are parameters with the contracts stated in the theorems (is_argsort, is_solve, is_symeig); exact real arithmetic."
  },
  {
   "property": "C450",
   "status": "partial",
   "theorems": [
    "C450_refuted",
    "C450_training",
    "similar_moved"
   ],
   "note": "REFUTED for execute: the regularization is r instead of r times the trace, so the output depends on the scale. Proved for the weights of training with given r. argsort, solve, svd and symeig are parameters with the contracts stated in the theorems (is_argsort, is_solve, is_symeig); exact real arithmetic."
  },
  {
   "property": "C451",
   "status": "proved",
   "theorems": [
    "C451_constants",
    "C451_coordinates",
    "C451_centered",
    "C451_best"
   ],
   "note": "argsort, solve, svd and symeig are parameters with the contracts stated in the theorems (is_argsort, is_solve, is_symeig); exact real arithmetic."
  },
  {
   "property": "C452",
   "status": "partial",
   "theorems": [
    "C452_refuted",
    "C452_combination"
   ],
   "note": "REFUTED: for every r > 0 the regularization moves the output for a training point. Proved: the output is the best combination. argsort, solve, svd and symeig are parameters with the contracts stated in the theorems (is_argsort, is_solve, is_symeig); exact real arithmetic."
  },
  {
   "property": "C453",
   "status": "partial",
   "theorems": [
    "C453_refuted",
    "C453_execute",
    "C453_train"
   ],
   "note": "REFUTED: with r=None and no unused variance (output_dim >= k, or output_dim not given) execute raises LinAlgError for every training point. Proved: never with r > 0. argsort, solve, svd and symeig are parameters with the contracts stated in the theorems (is_argsort, is_solve, is_symeig); exact real arithmetic."
  },
  {
   "property": "C454",
   "status": "proved",
   "theorems": [
    "C454_row",
    "C454_range"
   ],
   "note": "The median is a parameter which lies between the smallest and the greatest entry. argsort, solve, svd and symeig are parameters with the contracts stated in the theorems (is_argsort, is_solve, is_symeig); exact real arithmetic."
  },
  {
   "property": "C455",
   "status": "partial",
   "theorems": [
    "C455_refuted",
    "C455_projection"
   ],
   "note": "REFUTED: the projection is multiplied by (Y.T Y)^(1/2) instead of (Y.T Y)^(-1/2), so the coordinates have length N. argsort, solve, svd and symeig are parameters with the contracts stated in the theorems (is_argsort, is_solve, is_symeig); exact real arithmetic."
  },
  {
   "property": "C456",
   "status": "partial",
   "theorems": [
    "C456_refuted",
    "C456_unnormalized",
    "C456_sums",
    "C456_qr"
   ],
   "note": "REFUTED: the columns are orthogonal to the constants, their sum is zero and is replaced by 1, so the division never has an effect. argsort, solve, svd and symeig are parameters with the contracts stated in the theorems (is_argsort, is_solve, is_symeig); exact real arithmetic."
  },
  {
   "property": "C457",
   "status": "partial",
   "theorems": [
    "C457_refuted",
    "C457_orthonormal",
    "C457_columns",
    "C457_few"
   ],
   "note": "REFUTED: with fewer neighbours than that _mgs always divides by zero. Proved: orthonormal columns if it does not. argsort, solve, svd and symeig are parameters with the contracts stated in the theorems (is_argsort, is_solve, is_symeig); exact real arithmetic."
  },
  {
   "property": "C458",
   "status": "partial",
   "theorems": [
    "C458_refuted",
    "C458_rows",
    "C458_first"
   ],
   "note": "REFUTED: with r=None the correction of the first row is kept for all rows (and added twice in the first). Proved for given r. argsort, solve, svd and symeig are parameters with the contracts stated in the theorems (is_argsort, is_solve, is_symeig); exact real arithmetic."
  },
  {
   "property": "C459",
   "status": "partial",
   "theorems": [
    "C459_refuted",
    "C459_sized",
    "C459_order",
    "C459_unsized"
   ],
   "note": "REFUTED: an empty sequence raises UnboundLocalError (count). Proved for all other sequences. Exact rationals instead of floats. "
  },
  {
   "property": "C460",
   "status": "partial",
   "theorems": [
    "C460_refuted",
    "C460_length",
    "C460_fits"
   ],
   "note": "REFUTED: in a terminal of width 4 the bar for 0 and the bar for 1 differ in length. Proved for all terminals with room for one symbol. Exact rationals instead of floats. "
  },
  {
   "property": "C461",
   "status": "proved",
   "theorems": [
    "C459_sized",
    "C461_complete"
   ],
   "note": "Exact rationals instead of floats. "
  },
  {
   "property": "C462",
   "status": "partial",
   "theorems": [
    "C462_refuted",
    "C462_mean",
    "C462_last"
   ],
   "note": "REFUTED: with speed 'last' AttributeError if the first fraction drawn is not zero, ZeroDivisionError if a fraction is drawn twice. Proved for the mean speed, and for the last speed after a smaller fraction. Exact rationals instead of floats. "
  },
  {
   "property": "C463",
   "status": "partial",
   "theorems": [
    "C463_refuted",
    "C463_revert",
    "C463_two"
   ],
   "note": "REFUTED: an unknown label is turned into None without an error. The rest is proved."
  },
  {
   "property": "C464",
   "status": "partial",
   "theorems": [
    "C464_refuted",
    "C464_number",
    "C464_fails"
   ],
   "note": "REFUTED: 1024 KiB instead of 1 MiB (the number can be the base), IndexError for sizes above base**7, and dig_node of a node without arrays raises ValueError. Proved: the number is above 1 and at most the base. Exact rationals instead of floats. "
  },
  {
   "property": "C465",
   "status": "partial",
   "theorems": [
    "C465_refuted",
    "C465_signature",
    "C465_varargs"
   ],
   "note": "REFUTED: for an __init__ without default values TypeError; with *args extra positional arguments always collide with the keywords. Proved for signatures with defaults."
  },
  {
   "property": "C466",
   "status": "proved",
   "theorems": [
    "C466_halves"
   ],
   "note": "argsort is a parameter which sorts (bucket is one)."
  },
  {
   "property": "C467",
   "status": "proved",
   "theorems": [
    "C467_uncorrelated"
   ],
   "note": "argsort is a parameter which sorts."
  },
  {
   "property": "C468",
   "status": "proved",
   "theorems": [
    "C468_classes"
   ],
   "note": "argsort is a parameter which sorts."
  },
  {
   "property": "C469",
   "status": "proved",
   "theorems": [
    "C469_graph",
    "C469_weights"
   ],
   "note": "Exact arithmetic; for at least two classes. argsort is a parameter which sorts."
  },
  {
   "property": "C470",
   "status": "partial",
   "theorems": [
    "C470_refuted",
    "C470_range",
    "C466_halves",
    "C467_uncorrelated"
   ],
   "note": "REFUTED: Jdes = 2**J is accepted, and one of the labels is -1 for all samples. Proved: fewer are different labels which divide the classes, more raise IndexError. "
  },
  {
   "property": "C471",
   "status": "partial",
   "theorems": [
    "C471_refuted",
    "C471_list",
    "C471_errors"
   ],
   "note": "REFUTED: for a list of sizes whose size does not divide the number of samples TypeError is raised when the message is made. The rest is proved."
  },
  {
   "property": "C472",
   "status": "proved",
   "theorems": [
    "C472_parts",
    "C472_factor",
    "C472_median"
   ],
   "note": "Exact arithmetic over any ordered field; eigensolver (PCA) and symeig solver (GSFA) by contract; regression, QR and pseudoinverse are parameters. The expansion is a function of the values (respects)."
  },
  {
   "property": "C473",
   "status": "proved",
   "theorems": [
    "C473_float",
    "C473_int",
    "C473_bounded",
    "C473_dim"
   ],
   "note": "Exact arithmetic over any ordered field; eigensolver (PCA) and symeig solver (GSFA) by contract; regression, QR and pseudoinverse are parameters. "
  },
  {
   "property": "C474",
   "status": "partial",
   "theorems": [
    "C474_refuted",
    "C474_output_dim",
    "C474_width",
    "C474_short"
   ],
   "note": "REFUTED: with output_dim above input_dim plus the number of slow features training succeeds, execute gives fewer columns, and inverse refuses them. Proved for all other output dimensions. Exact arithmetic over any ordered field; eigensolver (PCA) and symeig solver (GSFA) by contract; regression, QR and pseudoinverse are parameters. "
  },
  {
   "property": "C475",
   "status": "partial",
   "theorems": [
    "C475_refuted",
    "C475_pca",
    "C475_ignored"
   ],
   "note": "REFUTED: outputs which differ in the slow features only have the same inverse. Proved: inverse is the inverse of the PCANode on the other columns. Exact arithmetic over any ordered field; eigensolver (PCA) and symeig solver (GSFA) by contract; regression, QR and pseudoinverse are parameters. "
  },
  {
   "property": "C476",
   "status": "partial",
   "theorems": [
    "C476_refuted",
    "C476_zero",
    "C476_mean"
   ],
   "note": "REFUTED: if only slow features are kept, inverse gives zero for all outputs, whatever the mean. Proved if there is at least one component. Exact arithmetic over any ordered field; eigensolver (PCA) and symeig solver (GSFA) by contract; regression, QR and pseudoinverse are parameters. "
  },
  {
   "property": "C477",
   "status": "proved",
   "theorems": [
    "C477_evar"
   ],
   "note": "Exact arithmetic over any ordered field; eigensolver (PCA) and symeig solver (GSFA) by contract; regression, QR and pseudoinverse are parameters. "
  },
  {
   "property": "C478",
   "status": "proved",
   "theorems": [
    "C478_threshold"
   ],
   "note": "Exact arithmetic over any ordered field; eigensolver (PCA) and symeig solver (GSFA) by contract; regression, QR and pseudoinverse are parameters. "
  },
  {
   "property": "C479",
   "status": "partial",
   "theorems": [
    "C479_refuted",
    "C479_verbose"
   ],
   "note": "REFUTED: with verbose=True training never succeeds, as GSFANode reads the missing attribute dcov_mtx. Proved: it fails for all data. Exact arithmetic over any ordered field; eigensolver (PCA) and symeig solver (GSFA) by contract; regression, QR and pseudoinverse are parameters. "
  },
  {
   "property": "C480",
   "status": "proved",
   "theorems": [
    "C480_finished",
    "C480_methods"
   ],
   "note": "Exact arithmetic over any ordered field; eigensolver (PCA) and symeig solver (GSFA) by contract; regression, QR and pseudoinverse are parameters. "
  },
  {
   "property": "C481",
   "status": "proved",
   "theorems": [
    "C481_exact",
    "C481_error",
    "C481_regression"
   ],
   "note": "Exact arithmetic over any ordered field; eigensolver (PCA) and symeig solver (GSFA) by contract; regression, QR and pseudoinverse are parameters. For factors other than zero (see C484) and, for QR, not more slow features than inputs (see C483); contracts of QR (M = QR, Q orthonormal) and pinv (R R+ R = R)."
  },
  {
   "property": "C482",
   "status": "proved",
   "theorems": [
    "C482_qr",
    "C482_sensitivity"
   ],
   "note": "Exact arithmetic over any ordered field; eigensolver (PCA) and symeig solver (GSFA) by contract; regression, QR and pseudoinverse are parameters. Contract of the regression: the normal equations."
  },
  {
   "property": "C483",
   "status": "partial",
   "theorems": [
    "C483_refuted",
    "C483_output_dim"
   ],
   "note": "REFUTED: with more slow features than inputs (an expansion) QR_decomposition gives input_dim columns for them, execute gives fewer than output_dim columns, and inverse refuses them. Proved otherwise. Exact arithmetic over any ordered field; eigensolver (PCA) and symeig solver (GSFA) by contract; regression, QR and pseudoinverse are parameters. "
  },
  {
   "property": "C484",
   "status": "partial",
   "theorems": [
    "C484_refuted",
    "C484_zero",
    "C484_factor"
   ],
   "note": "REFUTED: a slow feature without linear relation to the input (even functions of it) has the factor 0, its column is always 0, and inverse divides 0 by 0. Proved: exactly then. Exact arithmetic over any ordered field; eigensolver (PCA) and symeig solver (GSFA) by contract; regression, QR and pseudoinverse are parameters. "
  },
  {
   "property": "C485",
   "status": "proved",
   "theorems": [
    "C485_order",
    "C485_spec"
   ],
   "note": "The methods of DictMixin (Python 2) are modelled by what they do with the methods of the class. "
  },
  {
   "property": "C486",
   "status": "proved",
   "theorems": [
    "C486_del",
    "C486_popitem"
   ],
   "note": "The methods of DictMixin (Python 2) are modelled by what they do with the methods of the class. "
  },
  {
   "property": "C487",
   "status": "proved",
   "theorems": [
    "C487_copy",
    "C487_eq"
   ],
   "note": "The methods of DictMixin (Python 2) are modelled by what they do with the methods of the class. "
  },
  {
   "property": "C488",
   "status": "partial",
   "theorems": [
    "C488_refuted",
    "C488_true",
    "C488_none",
    "C488_tuple",
    "C488_sound"
   ],
   "note": "REFUTED: '0.4' is smaller than (0, 4, 3), but False is returned. Proved: the result is right for versions with at least as many parts, and True is never wrong."
  },
  {
   "property": "C489",
   "status": "proved",
   "theorems": [
    "C489_info",
    "C489_has",
    "C489_empty"
   ],
   "note": "sorted by an insertion sort; dir() in any order."
  },
  {
   "property": "C490",
   "status": "partial",
   "theorems": [
    "C490_refuted",
    "C490_default",
    "C490_label",
    "C490_registered",
    "C490_empty"
   ],
   "note": "REFUTED: with an empty MDPNUMX numpy is used although scipy can be imported. Proved for unset and non-empty values."
  },
  {
   "property": "C491",
   "status": "partial",
   "theorems": [
    "C491_refuted",
    "C491_has",
    "C491_error",
    "C491_secret",
    "C491_disabled"
   ],
   "note": "REFUTED: a joblib without __version__ raises AttributeError even if it is disabled (also svmutil and libsvm if not disabled). Proved: exactly then; otherwise the registrations are as stated."
  },
  {
   "property": "C492",
   "status": "proved",
   "theorems": [
    "C492_removed",
    "C492_tree",
    "C492_elsewhere"
   ],
   "note": "Model of a file system with directories, files, symbolic links and permissions. "
  },
  {
   "property": "C493",
   "status": "proved",
   "theorems": [
    "C493_again",
    "C493_gone",
    "C493_raised"
   ],
   "note": "Model of a file system with directories, files, symbolic links and permissions. "
  },
  {
   "property": "C494",
   "status": "partial",
   "theorems": [
    "C494_refuted_outside",
    "C494_refuted_left",
    "C492_removed"
   ],
   "note": "REFUTED: links to directories are followed, so the contents of a directory elsewhere are removed, and the link and the directory remain; errors of remove and rmdir are dropped, the directory remains and cleanup does nothing any more. Proved without links and protected directories (C492). Model of a file system with directories, files, symbolic links and permissions. "
  },
  {
   "property": "C495",
   "status": "proved",
   "theorems": [
    "C495_orthogonal",
    "C495_det"
   ],
   "note": "Exact arithmetic over any real closed field. "
  },
  {
   "property": "C496",
   "status": "partial",
   "theorems": [
    "C496_refuted",
    "C496_division",
    "C495_orthogonal",
    "C495_det"
   ],
   "note": "REFUTED: a first entry 0 gives a matrix with a zero row, a vector (1, 0, ..., 0) divides by 0. Proved for all other draws (C495). Exact arithmetic over any real closed field. "
  },
  {
   "property": "C497",
   "status": "proved",
   "theorems": [
    "C497_only",
    "C497_all"
   ],
   "note": "An instance has a __module__ of its own in the model; the lookup in sys.modules and debug output are not modelled. A function which is also the __func__ of a bound method is changed but not followed."
  },
  {
   "property": "C498",
   "status": "partial",
   "theorems": [
    "C498_refuted",
    "C498_terminates",
    "C498_removed"
   ],
   "note": "REFUTED: a name in names which is not accessible raises AttributeError, the names behind it are not treated and the modules not removed. Proved otherwise. An instance has a __module__ of its own in the model; the lookup in sys.modules and debug output are not modelled. "
  },
  {
   "property": "C499",
   "status": "proved",
   "theorems": [
    "C499_eta",
    "C499_stop",
    "C499_error",
    "C499_again"
   ],
   "note": "Exact arithmetic over the reals; the solver with the contract of C220; the delta value with the divisor of SFANode (C221)."
  },
  {
   "property": "C500",
   "status": "partial",
   "theorems": [
    "C500_refuted",
    "C499_eta"
   ],
   "note": "REFUTED: four samples of one oscillation give 3/pi with every solver. Proved what is computed instead (C499)."
  },
  {
   "property": "C501",
   "status": "proved",
   "theorems": [
    "C501_transparent",
    "C501_report",
    "C501_silent"
   ],
   "note": "HTML output, exceptions of the callback and pickling of decorated nodes are not modelled. Python's recursion limit is arbitrary (the decorated node needs up to twice the depth)."
  },
  {
   "property": "C502",
   "status": "proved",
   "theorems": [
    "C502_restored",
    "C502_untouched",
    "C502_flow"
   ],
   "note": "HTML output, exceptions of the callback and pickling of decorated nodes are not modelled. "
  },
  {
   "property": "C503",
   "status": "partial",
   "theorems": [
    "C503_refuted",
    "C503_twice",
    "C502_flow"
   ],
   "note": "REFUTED: after an exception (also that for a msg given to a Flow) the nodes stay decorated; in the next trace they are decorated a second time, the wrapper then is its own original method and calls itself without end. The same holds for a node which occurs twice in a flow. Proved for executions without exception (C502). HTML output, exceptions of the callback and pickling of decorated nodes are not modelled. "
  },
  {
   "property": "C504",
   "status": "partial",
   "theorems": [
    "C504_refuted",
    "C504_plain"
   ],
   "note": "REFUTED: the first clone is replaced by a copy for tracing, and afterwards all clones by that copy, which was trained with the data of the first clone only; the data of the others is lost. HTML output, exceptions of the callback and pickling of decorated nodes are not modelled. "
  },
  {
   "property": "C505",
   "status": "partial",
   "theorems": [
    "C505_refuted",
    "C505_addressed",
    "C505_all",
    "C505_x"
   ],
   "note": "REFUTED: a recipient_id with the separator -> gives a key which raises ValueError in the next node, or is taken for a key of no node. Proved for all other ids; the reading of keys is that of BiModel.v."
  },
  {
   "property": "C506",
   "status": "proved",
   "theorems": [
    "C506_slides",
    "C506_result"
   ],
   "note": "The content of the slides, file errors, and nodes which catch exceptions of the callback are not modelled. "
  },
  {
   "property": "C507",
   "status": "partial",
   "theorems": [
    "C507_refuted",
    "C507_raise"
   ],
   "note": "REFUTED: the error slide is opened by a with statement, but NewlineWriteFile has no __enter__ in its class (special methods are not found by __getattr__), so AttributeError is raised instead of TraceDebugException and the file stays open. Proved that the exception is handed on without debug. The content of the slides, file errors, and nodes which catch exceptions of the callback are not modelled. "
  },
  {
   "property": "C508",
   "status": "partial",
   "theorems": [
    "C508_refuted",
    "C508_order",
    "C508_once"
   ],
   "note": "REFUTED: the names are sorted as strings, so snapshot_10 is read before snapshot_2 and the trace of a training with more than ten phases is in the wrong order. Proved for at most ten snapshots. Directories below the snapshot path and other files are not modelled."
  },
  {
   "property": "C509",
   "status": "partial",
   "theorems": [
    "C509_refuted",
    "C509_sections",
    "C509_length"
   ],
   "note": "REFUTED: for a phase without slides of stop_training start_index is set to end_index, so one id too many is added. Proved if every phase has a slide of stop_training. The refuting index table is the one of a debugged training which failed; with the tracer as it is that table is not reached in debug mode (C507)."
  },
  {
   "property": "C510",
   "status": "proved",
   "theorems": [
    "C510_peek",
    "C510_first"
   ],
   "note": "An iterator is a list of elements; infinite iterators and iterators which raise other exceptions are not modelled."
  },
  {
   "property": "C511",
   "status": "partial",
   "theorems": [
    "C511_refuted",
    "C511_run",
    "C511_controls"
   ],
   "note": "REFUTED: only_one_section compares the ids before they are made strings, the script afterwards; for the ids 1 and '1' the loop of nextSection does not end. Proved if no number and string with the same text are mixed. The HTML elements, the loading of the slides and the delay are not modelled. "
  },
  {
   "property": "C512",
   "status": "proved",
   "theorems": [
    "C512_next",
    "C512_previous",
    "C512_one"
   ],
   "note": "For ids which do not mix a number and a string with the same text (C511). The HTML elements, the loading of the slides and the delay are not modelled. "
  },
  {
   "property": "C513",
   "status": "partial",
   "theorems": [
    "C513_refuted",
    "C513_train"
   ],
   "note": "REFUTED: with the additional section id of C509 a training with one phase and no slides of stop_training seems to have two sections, and nextSection does not end. Proved if every phase has a slide of stop_training. The reservation about debug mode of C509 holds here too. The HTML elements, the loading of the slides and the delay are not modelled. "
  },
  {
   "property": "C514",
   "status": "proved",
   "theorems": [
    "C514_kernel",
    "C514_classifier",
    "C514_case",
    "C514_init",
    "C514_unknown",
    "C514_type"
   ],
   "note": "The library is a parameter; ASCII names; integer values; the params are a dict, so their names are different."
  },
  {
   "property": "C515",
   "status": "proved",
   "theorems": [
    "C515_prob"
   ],
   "note": "For a model with different labels and one value for each label in every row, which is the library's part and is assumed; values are integers."
  },
  {
   "property": "C516",
   "status": "proved",
   "theorems": [
    "C516_panel"
   ],
   "note": "The text around the links is not modelled."
  },
  {
   "property": "C517",
   "status": "partial",
   "theorems": [
    "C517_refuted",
    "C517_unique"
   ],
   "note": "REFUTED: a section which occurs again after another one gets a second link with the same id; getElementById finds the first only. Proved if the slides of every section follow each other and no number and string with the same text are mixed."
  },
  {
   "property": "C518",
   "status": "proved",
   "theorems": [
    "C518_once"
   ],
   "note": "The action does not raise an exception and does not change the modules."
  }
 ]
}