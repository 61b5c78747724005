{
 "claims": [
  {
   "property": "C01",
   "status": "proved",
   "theorems": [
    "hiid_matches_is_intersection",
    "hiid_matches_symmetric",
    "hiid_matches_concrete_id",
    "hiid_prefixedBy_is_prefix"
   ],
   "note": ""
  },
  {
   "property": "C02",
   "status": "proved",
   "theorems": [
    "hiid_subset_is_inclusion",
    "hiid_subset_preorder",
    "hiid_subset_matches"
   ],
   "note": ""
  },
  {
   "property": "C03",
   "status": "proved",
   "theorems": [
    "hiid_order_is_strict_total_order",
    "hiid_order_is_lexicographic",
    "hiid_equality_is_equality"
   ],
   "note": ""
  },
  {
   "property": "C04",
   "status": "proved",
   "theorems": [
    "hiid_pack_then_unpack",
    "hiid_unpack_then_pack",
    "hiid_pack_accounts_space",
    "hiid_pack_refuses_short_buffer",
    "hiid_unpack_refuses_bad_size"
   ],
   "note": ""
  },
  {
   "property": "C05",
   "status": "partial",
   "theorems": [
    "hiid_splitAtSlash_splits",
    "hiid_repeated_split_enumerates_components",
    "hiid_pop_front_drops",
    "hiid_popLeadSlashes_strips",
    "hiid_popLeadIndex_pops",
    "hiid_popTrailIndex_pops",
    "hiid_push_front_prepends_refuted",
    "hiid_push_front_empty_partial",
    "hiid_push_front_single_partial"
   ],
   "note": "splitting and popping proved in full; push_front is wrong in the code (moves bytes instead of atoms): refuted, with the correct cases proved"
  },
  {
   "property": "C06",
   "status": "partial",
   "theorems": [
    "ref_counts_exact",
    "no_dangling_reference",
    "reference_operations_defined",
    "members_have_one_owner",
    "only_anonymous_objects_are_destroyed",
    "no_leak_partial",
    "no_leak_gentle_partial",
    "own_references_can_be_overwritten",
    "own_references_can_be_attached",
    "privatize_keeps_contents",
    "privatize_deep_leaks_refuted",
    "copy_from_own_contents_refuted",
    "delete_external_dangles_refuted"
   ],
   "note": "counts, absence of dangling references and of double destruction hold for every program of valid operations; absence of leaks holds for programs that do not deeply privatize the only reference to an object (the code leaks there: refuted theorem)"
  },
  {
   "property": "C07",
   "status": "proved",
   "theorems": [
    "copy_on_write_isolation",
    "failed_write_changes_nothing",
    "shared_write_is_seen",
    "privatize_keeps_contents"
   ],
   "note": ""
  },
  {
   "property": "C08",
   "status": "proved",
   "theorems": [
    "locked_reference_is_not_overwritten",
    "locked_reference_stays",
    "unlock_undoes_lock",
    "lock_survives_write_refuted",
    "failed_xfer_changes_nothing_refuted"
   ],
   "note": "the refuted theorems record that a copy-on-write or privatize silently removes the lock, and that a failing xfer from a locked reference has already emptied the destination"
  },
  {
   "property": "C09",
   "status": "partial",
   "theorems": [
    "blockset_fifo",
    "blockset_pop_empty_refuted",
    "blockset_popMove",
    "blockset_copies",
    "blockset_size",
    "cursor_reads_every_byte_once",
    "cursor_read_step",
    "cursor_survives_pushes",
    "cursor_after_end_refuted",
    "flush_drops_what_was_read",
    "flush_size_refuted"
   ],
   "note": "all of it except the consistency of size() after flushToCursor, which is refuted: the code does not update the counter"
  },
  {
   "property": "C10",
   "status": "proved",
   "theorems": [
    "object_file_round_trip",
    "object_file_objects",
    "object_file_write_succeeds",
    "object_file_write_count_refuted",
    "object_file_empty_block_refuted",
    "object_file_rewind_refuted"
   ],
   "note": "Objects come back in order and then the end of the file is reported, for any sequence of writes including throwing ones. Write's documented byte count is wrong (leaves out the size array); empty blocks cannot be stored; rewind() after end of file does not work."
  },
  {
   "property": "C11",
   "status": "proved",
   "theorems": [
    "object_file_truncated",
    "object_file_stale_header_refuted"
   ],
   "note": "Any cut: intact prefix, then end of file or exception, never another object. A second call after the end of a cut header may hand out a type again, throw, or be undefined, but never yields an object."
  },
  {
   "property": "C12",
   "status": "proved",
   "theorems": [
    "object_round_trip",
    "object_round_trip_exact",
    "object_contents_unique",
    "construct_takes_a_prefix",
    "construct_depth"
   ],
   "note": "sizes must fit the ints they are stored in; validateContent of Record subclasses is not modelled"
  },
  {
   "property": "C13",
   "status": "proved",
   "theorems": [
    "object_truncated_fails",
    "message_truncated_fails_partial",
    "message_missing_data_block_refuted",
    "record_negative_count_refuted"
   ],
   "note": "proved for all objects of the container classes; for Messages a missing data block is undefined behaviour (refuted theorem), and a forged negative block count in a Record is accepted"
  },
  {
   "property": "C14",
   "status": "partial",
   "theorems": [
    "list_insert_as_sequence",
    "list_replace_as_sequence",
    "list_remove_as_sequence",
    "list_append_as_sequence",
    "list_put_argument",
    "list_get_front_partial",
    "list_get_after_put",
    "list_get_negative_refuted",
    "list_get_after_replace_refuted",
    "list_failed_replace_unchanged_refuted",
    "list_append_self_refuted",
    "list_get_by_name_refuted"
   ],
   "note": "Insert, replace, remove and append act as on sequences for all indices. Reading is right only from the front of a non-empty list: get(-k) is off by one and get(-1) undefined. A replace refused because of a locked reference has already dropped the old item."
  },
  {
   "property": "C15",
   "status": "partial",
   "theorems": [
    "record_as_finite_map",
    "record_refused_add",
    "record_protected_kept",
    "record_clear_honours_protection_refuted",
    "record_failed_add_unchanged_refuted"
   ],
   "note": "Proved for every operation sequence with unlocked references; protection kept for all arguments. A failing transfer of a locked reference does change the record; clear() ignores protection."
  },
  {
   "property": "C16",
   "status": "proved",
   "theorems": [
    "record_merge",
    "record_failed_merge_unchanged_refuted"
   ],
   "note": "Exact result and exact condition for throwing; a throwing merge may have merged some fields already (but never a protected one)."
  },
  {
   "property": "C17",
   "status": "partial",
   "theorems": [
    "record_removed_object_partial",
    "record_removed_object_refuted",
    "record_add_then_remove_refuted"
   ],
   "note": "True only while the field is still in blocks; for a live field removeField returns an invalid reference."
  },
  {
   "property": "C18",
   "status": "proved",
   "theorems": [
    "array_index_bijection"
   ],
   "note": "Every in-range index tuple addresses a distinct element, every element is addressed, out-of-range tuples throw."
  },
  {
   "property": "C19",
   "status": "partial",
   "theorems": [
    "array_slice_addresses",
    "array_slice_complete_partial",
    "array_slice_last_refuted",
    "array_slice_end_checked_refuted",
    "array_slice_open_end_refuted",
    "array_slice_rest_refuted"
   ],
   "note": "Every element returned is the one named. All named elements are returned only when the increment divides the length and the end is not omitted after a start; an end beyond the axis is accepted; axes not mentioned are fixed at 0."
  },
  {
   "property": "C20",
   "status": "partial",
   "theorems": [
    "string_packer_correct",
    "hiid_packer_correct",
    "binary_packer_correct",
    "sequence_packer_correct",
    "array_packer_round_trip",
    "map_packer_binary_values_round_trip_partial",
    "array_packer_binary_refuted",
    "map_packer_variable_values_refuted",
    "map_packer_size_refuted",
    "sequence_packer_tiny_buffer_refuted"
   ],
   "note": "true for strings, ids, binary values, sequences, non-binary arrays and maps whose two parts are binary; the four refuted theorems give inputs on which the stated law fails in the code (arrays of binary elements, maps with variable-size values, map sizes, buffers below 8 bytes)"
  },
  {
   "property": "C21",
   "status": "proved",
   "theorems": [
    "timestamp_normalize",
    "timestamp_add_exact",
    "timestamp_sub_exact",
    "timestamp_compare_exact",
    "timestamp_compare_unnormalised_refuted",
    "timestamp_scale_nearest",
    "timestamp_of_seconds",
    "timestamp_print_units",
    "timestamp_format_s_refuted"
   ],
   "note": "long without overflow, double as exact rationals; the refuted theorems show that comparison needs normalised arguments and that the text format \"s\" prints milliseconds"
  },
  {
   "property": "C22",
   "status": "proved",
   "theorems": [
    "rqid_maskedCompare_agrees",
    "rqid_diffMask_positions",
    "rqid_compare_iff_no_common_difference",
    "rqid_compare_equivalence",
    "rqid_compare_coarser_for_smaller_mask"
   ],
   "note": ""
  },
  {
   "property": "C23",
   "status": "proved",
   "theorems": [
    "rqid_incrSubId_increments_selected",
    "rqid_incrSubId_difference",
    "rqid_setSubId_sets_selected",
    "rqid_maskSubId_zeroes_unselected",
    "rqid_maskSubId_equivalent",
    "rqid_maskSubId_canonical",
    "rqid_maskSubId_length",
    "rqid_update_negative_mask_diverges"
   ],
   "note": "negative masks make the real loop run forever; positions from 16 up are untouched by the bit loop"
  },
  {
   "property": "C24",
   "status": "proved",
   "theorems": [
    "symdeps_active_mask_is_union",
    "symdeps_total_except_empty_vector"
   ],
   "note": ""
  },
  {
   "property": "C25",
   "status": "proved",
   "theorems": [
    "envelope_least_upper_bound",
    "envelope_algebra",
    "superset_of_projection",
    "expand_is_envelope",
    "envelope_commutes_under_eqb_refuted"
   ],
   "note": "Binary64 ranges, all built domains whose axes have start < end. Algebraic laws hold for numeric equality; under operator== commutativity fails on signed zeros (refuted theorem)."
  },
  {
   "property": "C26",
   "status": "proved",
   "theorems": [
    "segments_partition_uniform",
    "regular_one_segment"
   ],
   "note": "Proved over any arithmetic (binary64 included) for non-empty grids set by arrays: the segments partition the cells, each is uniform within 1e-10 of the grid's extent, and every boundary is justified. Zero cells give the segment (0,-1)."
  },
  {
   "property": "C27",
   "status": "partial",
   "theorems": [
    "cells_compare_partial",
    "cells_equal_iff",
    "cells_compare_refuted",
    "compare_zero_same_grid_refuted"
   ],
   "note": "compare: reflexive and symmetric when both have domains. ==: true exactly for equal domains, shapes, centers and sizes. Refuted for empty cells: compare() of two empties is 1, empty against any non-empty is 0, the reverse is -1. A result 0 does not imply equal grids."
  },
  {
   "property": "C28",
   "status": "proved",
   "theorems": [
    "upsample_coverage",
    "integrate_coverage",
    "upsample_integrate_identity",
    "upsample_integrate_identity_refuted",
    "integrate_remainder_refuted"
   ],
   "note": "Exact rational arithmetic. In binary64 the identity is refuted (cell [0,1], factor 3), and a factor not dividing the number of cells drops the remaining cells."
  },
  {
   "property": "C29",
   "status": "partial",
   "theorems": [
    "cache_transparent_partial",
    "cache_transparent_cells_refuted",
    "cache_transparent_ignore_type_refuted"
   ],
   "note": "Proved for all graphs, histories, cache policies and hints, single-threaded, no state changes in between, for requests whose type determines whether they have cells, nodes that do not return RES_IGNORE_TYPE and evaluate the same with and without derivatives. Refuted when a request without cells precedes one with cells, and when a child returns RES_IGNORE_TYPE."
  },
  {
   "property": "C30",
   "status": "proved",
   "theorems": [
    "child_poll_order",
    "child_poll_order_accepted",
    "child_poll_order_refused_unchanged_refuted"
   ],
   "note": "For children with distinct names. A refused call leaves the order partly written (refuted theorem)."
  },
  {
   "property": "C31",
   "status": "partial",
   "theorems": [
    "sync_poll_schedule_independent",
    "sync_poll_code",
    "sync_poll_own_results_refuted"
   ],
   "note": "For all schedules and any number of successive polls, as long as no child's code makes the poll end early (so no RES_ABORT). With the abandon policy a poll can return a result of an earlier request."
  },
  {
   "property": "C32",
   "status": "partial",
   "theorems": [
    "sync_poll_finishes_partial",
    "sync_poll_finishes_refuted"
   ],
   "note": "Finishes when no child's code ends the poll early, given that the pool serves its queue; under the abandon policy any nursery with two enabled children, one failing, can hang."
  },
  {
   "property": "C33",
   "status": "partial",
   "theorems": [
    "pool_busy_bound_partial",
    "pool_counters",
    "pool_busy_bound_refuted",
    "pool_join_index_refuted"
   ],
   "note": "The true bound is max_busy+1: proved for all schedules, and reached for every max_busy. The counters of the pool are exact. Joining the pool tests its vector the wrong way round."
  },
  {
   "property": "C34",
   "status": "proved",
   "theorems": [
    "forest_registry",
    "forest_create"
   ],
   "note": "For every sequence of create, remove and clear calls without undefined behaviour."
  },
  {
   "property": "C35",
   "status": "partial",
   "theorems": [
    "forest_index_checks_partial",
    "forest_index_checks_refuted"
   ],
   "note": "True for every index except maxNodeIndex()+1, which is read beyond the end of the repository."
  },
  {
   "property": "C36",
   "status": "proved",
   "theorems": [
    "subscriptions_add_is_union",
    "subscriptions_add_idempotent",
    "subscriptions_add_unchanged_when_false",
    "subscriptions_merge_is_union",
    "subscriptions_remove_never_adds",
    "subscriptions_remove_exact"
   ],
   "note": ""
  },
  {
   "property": "C37",
   "status": "proved",
   "theorems": [
    "subscriptions_pack_size_exact",
    "subscriptions_pack_unpack",
    "subscriptions_unpack_safe_refuted"
   ],
   "note": "round trip proved; additionally unpack of hostile bytes is refuted to be memory safe (size arithmetic wraps)"
  },
  {
   "property": "C38",
   "status": "proved",
   "theorems": [
    "wpqueue_always_sorted",
    "wpqueue_enqueue_stable",
    "wpqueue_loses_and_duplicates_nothing",
    "wpqueue_fifo_within_priority",
    "wpqueue_highest_priority_first",
    "wpqueue_no_lost_wakeup",
    "wpqueue_poll_accept_removes",
    "wpqueue_poll_requeue",
    "wpqueue_poll_accepted_once_refuted"
   ],
   "note": "the last theorem records a defect of the polled path"
  },
  {
   "property": "C39",
   "status": "proved",
   "theorems": [
    "dispatcher_send_delivers_exactly",
    "dispatcher_send_counts_deliveries"
   ],
   "note": "destinations using the multi-level wildcard are excluded: the code treats them as literal addresses"
  },
  {
   "property": "C40",
   "status": "proved",
   "theorems": [
    "dispatcher_polls_within_bound",
    "dispatcher_starvation_free",
    "dispatcher_loop_goes_on_while_someone_waits",
    "dispatcher_simple_bound_refuted",
    "dispatcher_busy_holder_starves_others"
   ],
   "note": "the two last theorems show that the hypotheses are needed"
  },
  {
   "property": "C41",
   "status": "proved",
   "theorems": [
    "message_round_trip"
   ],
   "note": "latency statistics are compiled out and not modelled; the forwarder is not stored by the code"
  },
  {
   "property": "C42",
   "status": "partial",
   "theorems": [
    "vellset_shape_is_max",
    "vellset_shape_order",
    "mergeShape_is_max",
    "vellset_setShape_refuted"
   ],
   "note": "Full statement for every history of setters (values, flags, weights, perturbed values). Explicit setShape calls are not covered: they may drop axes (refuted theorem)."
  },
  {
   "property": "C43",
   "status": "partial",
   "theorems": [
    "fails_accumulate_refuted",
    "add_fail_last_partial"
   ],
   "note": "False for every VellSet: addFail clears first. What holds: the fails of the last call are kept."
  },
  {
   "property": "C44",
   "status": "proved",
   "theorems": [
    "gateway_forwards_once",
    "gateway_hop_limit"
   ],
   "note": ""
  },
  {
   "property": "C45",
   "status": "proved",
   "theorems": [
    "tree_executed_exactly_once",
    "tree_never_twice"
   ],
   "note": "For trees (every node has one parent), all pool sizes, all schedules, including spurious wakeups."
  },
  {
   "property": "C46",
   "status": "partial",
   "theorems": [
    "tree_completes_partial",
    "tree_runs_end",
    "tree_completes_refuted"
   ],
   "note": "Always completes if no level of the tree has more than max_busy+1 nodes. Wider trees can deadlock: witness with the pool the server starts for two threads."
  },
  {
   "property": "C47",
   "status": "partial",
   "theorems": [
    "verifyShape_recomputes_partial",
    "verifyShape_recomputes_refuted"
   ],
   "note": "Holds if verifyShape does not throw and some stored array still varies; otherwise it throws or keeps the old shape."
  },
  {
   "property": "C48",
   "status": "partial",
   "theorems": [
    "failed_vellset_empty_partial",
    "failed_vellset_empty_refuted"
   ],
   "note": "Value, flags, perturbed values and shape are gone; the pointer to the weights dangles."
  },
  {
   "property": "C49",
   "status": "proved",
   "theorems": [
    "domain_equality_exact"
   ],
   "note": "All domains built by any history, including NaN ranges (NaN payloads are not modelled)."
  },
  {
   "property": "C50",
   "status": "partial",
   "theorems": [
    "domain_clone_partial",
    "domain_clone_refuted"
   ],
   "note": "Holds when every axis has start < end; a degenerate axis at 2^35 stays empty because subtracting 1e-6 rounds away, and copying it throws."
  },
  {
   "property": "C51",
   "status": "partial",
   "theorems": [
    "domain_record_safe_partial",
    "domain_record_safe_refuted"
   ],
   "note": "Safe if the field names are legal axis numbers; a field named 9 is not rejected and indexes past the arrays."
  },
  {
   "property": "C52",
   "status": "proved",
   "theorems": [
    "regular_grid_tiles"
   ],
   "note": "Exact rational arithmetic."
  },
  {
   "property": "C53",
   "status": "partial",
   "theorems": [
    "cells_copy_partial",
    "cells_copy_segments_refuted"
   ],
   "note": "Cells, sizes, shapes and domain are preserved. The number of segments is not: whenever an axis has fewer segments than cells the copy claims one segment per cell and reading them is out of bounds."
  },
  {
   "property": "C54",
   "status": "proved",
   "theorems": [
    "cells_superset_union"
   ],
   "note": "Over any arithmetic; the grids of an axis both define are compared only by number of cells and range, as in the code."
  },
  {
   "property": "C55",
   "status": "partial",
   "theorems": [
    "resample_noop_partial",
    "resample_noop_refuted"
   ],
   "note": "Domain, grids, sizes, segments and numbers of cells are kept, and the shape if it has rank 8. Refuted for lower ranks: the resampled cells have rank 8, so compare() returns 1."
  },
  {
   "property": "C56",
   "status": "partial",
   "theorems": [
    "regular_one_segment",
    "regular_segments_stored",
    "regular_one_segment_refuted",
    "regular_segment_uniform_refuted"
   ],
   "note": "Holds in exact arithmetic, and the stored segment is the one setCells with the same arrays stores. Refuted in binary64: ten cells of 0.1 s at 4.8e9 s are split into five segments, and the single segment declared by the regular setCells is not uniform within the tolerance."
  },
  {
   "property": "C57",
   "status": "proved",
   "theorems": [
    "repeated_request_cached"
   ],
   "note": ""
  },
  {
   "property": "C58",
   "status": "partial",
   "theorems": [
    "unpack_stays_inside_partial",
    "unpack_stays_inside_refuted",
    "map_unpack_stays_inside_refuted",
    "sequence_models_agree"
   ],
   "note": "Holds for vectors of strings, ids and fixed-size elements (all bytes, with 64-bit wrap-around). Refuted for vectors of vectors (an inner size that wraps round passes the check) and for maps with variable-length values (value sizes are never checked)."
  },
  {
   "property": "C59",
   "status": "partial",
   "theorems": [
    "elementwise_broadcasts",
    "incompatible_shapes_rejected",
    "arithmetic_rank_checked_refuted"
   ],
   "note": "Proved for up to 8 axes. Refuted beyond: the constructor accepts more axes and arithmetic then writes past its stride arrays."
  },
  {
   "property": "C60",
   "status": "partial",
   "theorems": [
    "inplace_same_values",
    "inplace_not_narrowed",
    "inplace_same_flags_refuted"
   ],
   "note": "Shape, values and failures proved equal for all arrays. Refuted for the data flags: kept when applied in place, dropped otherwise."
  },
  {
   "property": "C61",
   "status": "partial",
   "theorems": [
    "sum_at_every_index",
    "product_at_every_index",
    "product_shortcut_exact_refuted"
   ],
   "note": "Proved when zero and one are neutral and zero annihilates (exact arithmetic). Refuted for binary64: zero times infinity."
  },
  {
   "property": "C62",
   "status": "partial",
   "theorems": [
    "nelements_counts_unflagged",
    "mean_is_average",
    "min_of_counted",
    "reduction_over_shape_partial",
    "max_of_counted_partial",
    "sum_with_flags_refuted",
    "max_of_negatives_refuted"
   ],
   "note": "nelements, mean and min proved for all arrays and flags. sum and product proved without flags, refuted with flags that vary along an axis the data does not. max proved when some unflagged value is at least DBL_MIN, refuted for arrays of negative numbers."
  },
  {
   "property": "C63",
   "status": "partial",
   "theorems": [
    "merged_flags",
    "flagged_values_replaced",
    "binary_with_flags",
    "flag_complement_refuted"
   ],
   "note": "Merging, replacing and two-argument min/max proved for all shapes. Complement refuted: the operator reads the new array instead of its argument."
  },
  {
   "property": "C64",
   "status": "partial",
   "theorems": [
    "function_spids_merged",
    "negative_spid_refuted"
   ],
   "note": "Proved for spids from 0 on. Refuted for spid -1, which the merge takes for a duplicate."
  },
  {
   "property": "C65",
   "status": "partial",
   "theorems": [
    "function_perturbed_values",
    "tree_perturbed_values",
    "unequal_pertsets_refuted"
   ],
   "note": "Proved for every node class, one node and whole trees, including missing data and tensor planes, when all VellSets with spids have the same number of perturbation sets. Refuted otherwise: the shorter list is read past its end."
  },
  {
   "property": "C66",
   "status": "proved",
   "theorems": [
    "function_succeeds"
   ],
   "note": "The shape checks are parameters and assumed to accept; flags must be spreadable over one shape."
  },
  {
   "property": "C67",
   "status": "proved",
   "theorems": [
    "function_flags"
   ],
   "note": "Exact bit-by-bit characterisation, including the rule that flags of null children without spids are dropped."
  },
  {
   "property": "C68",
   "status": "partial",
   "theorems": [
    "function_code_partial",
    "function_fails_partial",
    "function_code_refuted",
    "function_fails_refuted"
   ],
   "note": "Codes proved when no child VellSet is a fail. Refuted with failing children: they count as missing, so a result of fails only returns RES_MISSING. Of several fails only one child's is kept (refuted that all are; proved that the plane is a fail with a child's fail)."
  },
  {
   "property": "C69",
   "status": "partial",
   "theorems": [
    "polc_values_partial",
    "polc_clipped_values",
    "polc_axes_order_refuted",
    "polc_same_axis_refuted",
    "polc_no_domain_refuted",
    "polc_clipped_axis_refuted",
    "polc_before_domain_refuted"
   ],
   "note": "Proved in exact rational arithmetic for polynomials whose second axis comes after the first and whose domain ranges cover the cells; for a polynomial in the first axis on increasing cells only partly in the domain, the value is the polynomial at the cells in the domain. Refuted otherwise: decreasing axes store values transposed, equal axes write past the end, a missing domain or cells outside (even along an axis the polynomial does not use) clip the grid, cells before the domain are read past the end."
  },
  {
   "property": "C70",
   "status": "partial",
   "theorems": [
    "polc_perturbed_values",
    "polc_perturbed_order_refuted"
   ],
   "note": "Proved with at most ten coefficients along the second axis (exact arithmetic). Refuted for eleven: the powers overrun a local array."
  },
  {
   "property": "C71",
   "status": "proved",
   "theorems": [
    "polc_update",
    "polc_update_reaches_perturbed_value"
   ],
   "note": "Exact arithmetic, without force_positive and constraints."
  },
  {
   "property": "C72",
   "status": "partial",
   "theorems": [
    "polc_spids",
    "parm_not_solvable",
    "polc_solvable_value_partial",
    "polc_solvable_value_refuted"
   ],
   "note": "Spids and coefficient indices proved for all shapes and masks; a funklet that is not solvable has none. The polynomial is kept if all coefficients beyond the triangle are zero or a mask is given; refuted in general: the cross term of a 2x2 polynomial is set to zero."
  },
  {
   "property": "C73",
   "status": "partial",
   "theorems": [
    "polc_solve_domain_partial",
    "polc_solve_domain_refuted",
    "polc_solve_domain_one_axis_refuted"
   ],
   "note": "Proved when both axes of the domain are non-empty. Refuted if the domain lacks an axis (offset and scale change, coefficients do not) and for funklets of one axis (a second offset is read)."
  },
  {
   "property": "C74",
   "status": "partial",
   "theorems": [
    "polc_set_shape",
    "polc_set_shape_refuted"
   ],
   "note": "Proved for the same number of axes, one or two. Refuted when a second axis is added: the coefficients of the first axis become those of the second."
  },
  {
   "property": "C75",
   "status": "partial",
   "theorems": [
    "parm_spids_disjoint_partial",
    "parm_spids_disjoint_refuted",
    "parm_perturbation_refuted"
   ],
   "note": "Distinct up to 256 spids per node, refuted beyond. A zero perturbation is replaced only after it has been handed out."
  },
  {
   "property": "C76",
   "status": "proved",
   "theorems": [
    "tiling_follows_cells",
    "tile_numbers"
   ],
   "note": "For arbitrary grids with at least one axis."
  },
  {
   "property": "C77",
   "status": "partial",
   "theorems": [
    "solver_tiles_partial",
    "solver_missing_axis_refuted"
   ],
   "note": "Proved when any two tilings are comparable, tiles are no larger than the grid, and either the grid has no undefined axis before a defined one or all parms are tiled alike. Refuted for an undefined first axis: integer division by zero."
  },
  {
   "property": "C78",
   "status": "partial",
   "theorems": [
    "solver_unknowns_partial",
    "solver_crossed_tilings_refuted",
    "solver_large_tiles_refuted"
   ],
   "note": "Same conditions. Refuted when tilings are not comparable (DimVector's operator< is no strict weak order and the map confuses two tilings) and for tiles larger than the grid."
  },
  {
   "property": "C79",
   "status": "partial",
   "theorems": [
    "solver_updates_partial",
    "solver_update_order_refuted"
   ],
   "note": "The set and number of the updates under the same conditions; the order of the tiles is refuted when subtiles of a solver tile are not contiguous, and proved in C80 when all parms are tiled alike."
  },
  {
   "property": "C80",
   "status": "partial",
   "theorems": [
    "solver_alike",
    "solver_mixed_tilings_refuted"
   ],
   "note": "Proved when all parms are tiled alike (also not at all); refuted otherwise: fillEquations uses the solver's tile as index into the unknowns of a finer tiled parm."
  },
  {
   "property": "C81",
   "status": "proved",
   "theorems": [
    "cache_released_by_parents"
   ],
   "note": "For any sequence of hints, also more than one round."
  },
  {
   "property": "C82",
   "status": "proved",
   "theorems": [
    "threads_solve_all"
   ],
   "note": "Any number of threads, subsolvers and earlier activations; what a subsolver computes is abstracted to its outcome."
  },
  {
   "property": "C83",
   "status": "proved",
   "theorems": [
    "one_thread_per_subsolver",
    "shared_under_lock"
   ],
   "note": "The flags of wt_active_ are taken as separate variables (in the code they share words of a vector<bool>)."
  },
  {
   "property": "C84",
   "status": "proved",
   "theorems": [
    "threads_never_stuck",
    "threads_come_back"
   ],
   "note": "Progress and an explicit bound on the number of steps."
  },
  {
   "property": "C85",
   "status": "partial",
   "theorems": [
    "thread_exceptions_refuted"
   ],
   "note": "Refuted: a thread that comes late finds wt_solve_loop_ cleared and leaves subsolvers unsolved, one that is in the loop goes on after another has thrown. That something is thrown does not depend on the schedule (C82)."
  },
  {
   "property": "C86",
   "status": "proved",
   "theorems": [
    "condeq_equations"
   ],
   "note": "Exact rational arithmetic. The test of shapes in VellSet::setValue is a parameter that accepts shapes that go with the grid. More than two sets of perturbations are an error (condeq_three_sets_refuted)."
  },
  {
   "property": "C87",
   "status": "proved",
   "theorems": [
    "condeq_affine",
    "condeq_quadratic"
   ],
   "note": "Exact rational arithmetic."
  },
  {
   "property": "C88",
   "status": "proved",
   "theorems": [
    "condeq_flags_weights"
   ],
   "note": ""
  },
  {
   "property": "C89",
   "status": "proved",
   "theorems": [
    "condeq_modulo",
    "condeq_modulo_real"
   ],
   "note": "Exact rational arithmetic; remainder() rounds ties to even."
  },
  {
   "property": "C90",
   "status": "partial",
   "theorems": [
    "condeq_missing",
    "condeq_fail_lost_refuted",
    "condeq_three_sets_refuted"
   ],
   "note": "First part proved; the second is false: a failing plane is replaced by one without a value and cannot be told from missing data. Three sets of perturbations make the node throw."
  },
  {
   "property": "C91",
   "status": "partial",
   "theorems": [
    "solver_equations"
   ],
   "note": "exact arithmetic without NaN or infinities, whose equations the code leaves out; spids tiled alike (with unlike tilings the index of the unknown can be wrong: C80)"
  },
  {
   "property": "C92",
   "status": "partial",
   "theorems": [
    "solver_solutions"
   ],
   "note": "as C91; LSQFit itself is not modelled, so that it finds a solution is not claimed"
  },
  {
   "property": "C93",
   "status": "partial",
   "theorems": [
    "solver_meets_parms",
    "solver_groups_overshoot_refuted"
   ],
   "note": "true for one solve group; with several, each has equations for the whole residual and their changes together overshoot (refuted). Residuals linear in the parameters"
  },
  {
   "property": "C94",
   "status": "proved",
   "theorems": [
    "solver_unknown_spid"
   ],
   "note": ""
  },
  {
   "property": "C95",
   "status": "proved",
   "theorems": [
    "tile_domains",
    "tiled_init",
    "tile_domains_proper",
    "composed_domain"
   ],
   "note": "Cells as exact rationals. std::sort is modelled as an insertion sort; the tiles are proved to be in strict order already."
  },
  {
   "property": "C96",
   "status": "partial",
   "theorems": [
    "tiled_constants",
    "tiled_solution"
   ],
   "note": "Funklets with one coefficient; polynomials are modelled but only their failures are proved (C99)."
  },
  {
   "property": "C97",
   "status": "proved",
   "theorems": [
    "tiled_update"
   ],
   "note": "Without force_positive and constraints."
  },
  {
   "property": "C98",
   "status": "proved",
   "theorems": [
    "tiled_reuse",
    "tiled_restart"
   ],
   "note": ""
  },
  {
   "property": "C99",
   "status": "proved",
   "theorems": [
    "tiled_perturbation_refuted",
    "composed_outside_refuted",
    "composed_copy_refuted"
   ],
   "note": "Three refutations."
  },
  {
   "property": "C100",
   "status": "partial",
   "theorems": [
    "matrix_product",
    "product_dims_refuted",
    "mismatch_refused_refuted",
    "empty_child_refuted"
   ],
   "note": "Proved for children without fails; the dimensions of the result may differ when the product is zero (refuted), mismatches are not always refused (refuted), and an empty Result after a scalar is read past its end (refuted)."
  },
  {
   "property": "C101",
   "status": "partial",
   "theorems": [
    "matrix_pair",
    "scalar_flags",
    "fails_kept_refuted",
    "masked_flags_refuted"
   ],
   "note": "Proved for two matrices and for a scalar that is not a constant 0 or 1; refuted for constants 0 and 1."
  },
  {
   "property": "C102",
   "status": "proved",
   "theorems": [
    "product_grouping",
    "matrix_grouping"
   ],
   "note": "For nested nodes when the inner result is not a lone zero that stands for a matrix."
  },
  {
   "property": "C103",
   "status": "partial",
   "theorems": [
    "transpose_elements",
    "transpose_vector",
    "transpose_scalar",
    "transpose_twice",
    "transpose_twice_refuted",
    "transpose_column_refuted",
    "scalar_rank_refuted",
    "result_dims_sound"
   ],
   "note": "Elements proved for all tensors. Twice is the identity unless a row among matrices loses its dimension (refuted), or a column is taken for a vector (refuted). A 1x1 Result changes its rank when copied (refuted)."
  },
  {
   "property": "C104",
   "status": "partial",
   "theorems": [
    "select_numbers",
    "select_slice",
    "select_slice_wrong",
    "select_refused"
   ],
   "note": "Slices are right if and only if at most the last sliced axis has more than one element (for distinct VellSets); with two such axes the Selector always gives a wrong slice or an error."
  },
  {
   "property": "C105",
   "status": "partial",
   "theorems": [
    "paste_slice",
    "paste_select",
    "select_paste",
    "select_paste_refuted",
    "paste_numbers",
    "paste_refused"
   ],
   "note": "For slices along one axis; refuted for a slice of one element along an axis of one element, which is refused. Shape checks (verifyShape) are not modelled."
  },
  {
   "property": "C106",
   "status": "partial",
   "theorems": [
    "compose_list",
    "compose_dims",
    "compose_excess_refuted"
   ],
   "note": "Too many VellSets are not an error at once: the Result throws when copied (refuted). Cells are not modelled; dims are non-negative."
  },
  {
   "property": "C107",
   "status": "partial",
   "theorems": [
    "compose_tensors",
    "compose_refused",
    "compose_code_refuted"
   ],
   "note": "The return code is proved when all children have the same number of VellSets and refuted for mixtures."
  },
  {
   "property": "C108",
   "status": "proved",
   "theorems": [
    "table_funklets",
    "table_funklet",
    "table_put"
   ],
   "note": "Byte for byte, over all histories; the file system and QDBM are taken to work."
  },
  {
   "property": "C109",
   "status": "partial",
   "theorems": [
    "table_funklets",
    "table_constant_refuted"
   ],
   "note": "Proved for everything but constant Polcs, which come back with the same coefficient as plain Polcs; refuted for their class, perturbation and other fields."
  },
  {
   "property": "C110",
   "status": "partial",
   "theorems": [
    "table_funklets",
    "table_put",
    "table_near_refuted"
   ],
   "note": "Proved if no two different domains are equal up to 1e-16; refuted otherwise."
  },
  {
   "property": "C111",
   "status": "partial",
   "theorems": [
    "blocks_round_trip",
    "blocks_checked_partial",
    "blocks_damaged_refuted"
   ],
   "note": "Round trip proved; damaged values proved safe up to 2^28-2 blocks and sizes adding up to less than 2^32; refuted otherwise."
  },
  {
   "property": "C112",
   "status": "partial",
   "theorems": [
    "table_torn_open",
    "table_torn_refuted"
   ],
   "note": "Opening is proved; saving afterwards is refuted, since the file is opened in append mode."
  },
  {
   "property": "C113",
   "status": "partial",
   "theorems": [
    "parm_reload_partial",
    "parm_tiles_partial",
    "parm_reload_refuted",
    "parm_axis_refuted"
   ],
   "note": "Proved if nothing else is stored for overlapping domains; refuted otherwise, and for domains that differ only in the third axis or later ones."
  },
  {
   "property": "C114",
   "status": "proved",
   "theorems": [
    "merge_flags",
    "masks_set"
   ],
   "note": ""
  },
  {
   "property": "C115",
   "status": "partial",
   "theorems": [
    "merge_flags_one",
    "merge_flags_mask_refuted"
   ],
   "note": "what the node does is proved; the documented masking of every child is refuted"
  },
  {
   "property": "C116",
   "status": "partial",
   "theorems": [
    "zero_flagger",
    "zero_flagger_partial",
    "zero_flagger_refuted",
    "zero_flagger_complex"
   ],
   "note": "VellSets without flags; with flags the documented OR is refuted, and zero_flagger says what happens instead"
  },
  {
   "property": "C117",
   "status": "proved",
   "theorems": [
    "merge_zero_flagger"
   ],
   "note": ""
  },
  {
   "property": "C118",
   "status": "partial",
   "theorems": [
    "replace_flagged",
    "replace_succeeds",
    "replace_null_refuted"
   ],
   "note": "flags of children that are identically zero are ignored (refuted); success is proved where the values vary along all axes of the flags"
  },
  {
   "property": "C119",
   "status": "proved",
   "theorems": [
    "flagged_slices",
    "slices_partition",
    "plain_slices",
    "slices_same_axis_refuted"
   ],
   "note": "different axes are required: naming the last axis twice writes past the end of the shape (slices_same_axis_refuted)"
  },
  {
   "property": "C120",
   "status": "partial",
   "theorems": [
    "reduction_along_axes_partial",
    "mean_along_axes_partial",
    "sum_along_axes_partial",
    "sum_along_first_axis_refuted",
    "reduction_of_scalar_refuted"
   ],
   "note": "proved for axes after which nothing varies, given in ascending order; refuted for others, since the slices are read as contiguous memory; a child with fewer axes than are reduced makes the node fail"
  },
  {
   "property": "C121",
   "status": "partial",
   "theorems": [
    "sum_along_axes_partial",
    "sum_collapsed_refuted",
    "rms_flags_refuted"
   ],
   "note": "proved for children that are collapsed only along reduced axes; refuted otherwise, and refuted for Rms and StdDev, whose mean of squares ignores flags"
  },
  {
   "property": "C122",
   "status": "partial",
   "theorems": [
    "flags_along_axes_partial",
    "flags_single_partial",
    "flags_along_axes_refuted"
   ],
   "note": "proved for odd masks with any flag counting, along trailing axes; refuted for even masks, for flags outside the mask, for other axes, and for the flags of a vector"
  },
  {
   "property": "C123",
   "status": "partial",
   "theorems": [
    "flags_across_children_partial",
    "flags_across_many_refuted"
   ],
   "note": "proved for 2 to 30 children; undefined from 31 on"
  },
  {
   "property": "C124",
   "status": "partial",
   "theorems": [
    "axes_last_given",
    "axes_with_children_refuted"
   ],
   "note": "axes by number are accepted with several children"
  },
  {
   "property": "C125",
   "status": "proved",
   "theorems": [
    "every_string_splits",
    "reading_fields",
    "reading_ignores_case",
    "reading_joins",
    "field_order_refuted"
   ],
   "note": "field_order_refuted shows that the effect of a '$' field on later ones makes the order of fields matter; numbers of 2^31 or more are undefined behaviour in atoi; literals of 65536 bytes or more are excluded (long_literal_refuted, C126)"
  },
  {
   "property": "C126",
   "status": "partial",
   "theorems": [
    "printed_reads_back_partial",
    "printed_reads_back_refuted",
    "large_index_refuted",
    "long_literal_refuted",
    "separators_named"
   ],
   "note": "false for identifiers with empty atoms, indices from 2147418112 on and long literals (refuted theorems)"
  },
  {
   "property": "C127",
   "status": "partial",
   "theorems": [
    "python_keys_partial",
    "python_keys_refuted",
    "python_keys_collide_refuted"
   ],
   "note": "keys with empty fields grow by one '_' each time and keys differing in leading zeros or '$' collide (refuted theorems)"
  },
  {
   "property": "C128",
   "status": "partial",
   "theorems": [
    "literals_apart_partial",
    "literals_apart_refuted",
    "literal_index_refuted"
   ],
   "note": "false outside ASCII, and popTrailIndex takes atoms of a literal for indices (refuted theorems)"
  },
  {
   "property": "C129",
   "status": "partial",
   "theorems": [
    "registry_after_history",
    "names_lead_back_partial",
    "names_lead_back_refuted"
   ],
   "note": "the first part is proved for all histories; an id whose name another id took first (even in another case) is not found by its name (refuted)"
  },
  {
   "property": "C130",
   "status": "proved",
   "theorems": [
    "spigot_values",
    "spigot_accepts",
    "spigot_uvw"
   ],
   "note": ""
  },
  {
   "property": "C131",
   "status": "partial",
   "theorems": [
    "spigot_flags_partial",
    "spigot_rowflags_partial",
    "spigot_rowflags_refuted"
   ],
   "note": "Without a flag mask only the first of the rows is ever flagged (the row flags are assigned along the wrong axis): refuted by an example; proved with a flag mask, and for the UVW column in spigot_uvw."
  },
  {
   "property": "C132",
   "status": "partial",
   "theorems": [
    "spigot_queue",
    "spigot_repeat",
    "spigot_fresh",
    "spigot_queue_refuted"
   ],
   "note": "A result asked for after a later one is lost (refuted); all else proved."
  },
  {
   "property": "C133",
   "status": "partial",
   "theorems": [
    "sink_values",
    "sink_values_2d_partial",
    "sink_accepts",
    "sink_once",
    "sink_scalar_2d_refuted"
   ],
   "note": "Proved for cube columns; in a two-dimensional column a single number is overwritten by zeroes when the tile has two correlations (refuted), the last VellSet stays."
  },
  {
   "property": "C134",
   "status": "partial",
   "theorems": [
    "sink_flags_partial",
    "sink_zero_flags_refuted",
    "sink_range_flags_refuted"
   ],
   "note": "Where a zero is written the flags of the tile stay; when only some rows are processed, flags that depend on time are dropped (both refuted)."
  },
  {
   "property": "C135",
   "status": "proved",
   "theorems": [
    "spigot_sink_round_trip"
   ],
   "note": ""
  },
  {
   "property": "C136",
   "status": "proved",
   "theorems": [
    "ifr_numbers",
    "ifr_injective",
    "ifr_table"
   ],
   "note": "Unbounded integers: no overflow of int."
  },
  {
   "property": "C137",
   "status": "partial",
   "theorems": [
    "mux_dataset",
    "mux_start_refuted",
    "mux_range_refuted",
    "mux_next_dataset_refuted"
   ],
   "note": "Proved when cells can be made from the first tile of every snippet. Otherwise the tiles of the snippet go with the request of the one before (refuted); all tiles of a snippet go with the range of valid rows of the first (refuted for the tile's own); tables shrink for good (refuted)."
  },
  {
   "property": "C138",
   "status": "partial",
   "theorems": [
    "mux_output",
    "mux_output_refuted"
   ],
   "note": "Without a tile the footer is posted alone (refuted)."
  },
  {
   "property": "C139",
   "status": "partial",
   "theorems": [
    "mux_errors_partial",
    "mux_errors_refuted"
   ],
   "note": "A fail of the last snippet before the limit is dropped (refuted)."
  },
  {
   "property": "C140",
   "status": "proved",
   "theorems": [
    "mux_order"
   ],
   "note": ""
  },
  {
   "property": "C141",
   "status": "proved",
   "theorems": [
    "mtq_sent"
   ],
   "note": ""
  },
  {
   "property": "C142",
   "status": "proved",
   "theorems": [
    "mtq_received",
    "mtq_answers",
    "mtq_block_refuted",
    "mtq_post_discards_refuted"
   ],
   "note": "the statement as given is proved; refuted: getEvent(BLOCK) waits as EventChannel.h says, and a client that posts an event after the remote channel has closed still gets the events that are pending"
  },
  {
   "property": "C143",
   "status": "proved",
   "theorems": [
    "mtq_errors"
   ],
   "note": ""
  },
  {
   "property": "C144",
   "status": "partial",
   "theorems": [
    "mtq_flush_partial",
    "mtq_flush_refuted",
    "mtq_close_flushes_refuted"
   ],
   "note": "proved: flush leaves at most one event unsent; refuted: that none is left after flush, or after close, which loses the whole queue"
  },
  {
   "property": "C145",
   "status": "proved",
   "theorems": [
    "mtq_closed"
   ],
   "note": ""
  },
  {
   "property": "C146",
   "status": "partial",
   "theorems": [
    "mtq_blocked",
    "mtq_rest",
    "mtq_get_hangs",
    "mtq_get_closed_refuted",
    "mtq_close_hangs",
    "mtq_close_returns_refuted",
    "mtq_post_deadlock_refuted"
   ],
   "note": "proved while nothing is closed, and what two waiting threads can be waiting for; refuted: calls come back when the remote channel closes (a waiting getEvent hangs for ever, postEvent and the worker may wait for each other), and close comes back when errors are pending (the worker spins with the lock)"
  },
  {
   "property": "C147",
   "status": "proved",
   "theorems": [
    "tensor_perturbed_values",
    "tensor_feeds_functions"
   ],
   "note": "evaluateTensors and getResultDims are parameters; [tells] is the meaning of a VellSet used in the theorems on Function nodes."
  },
  {
   "property": "C148",
   "status": "proved",
   "theorems": [
    "tensor_succeeds",
    "tensor_needs_values"
   ],
   "note": ""
  },
  {
   "property": "C149",
   "status": "proved",
   "theorems": [
    "tensor_flags",
    "tensor_default_mask_refuted"
   ],
   "note": ""
  },
  {
   "property": "C150",
   "status": "proved",
   "theorems": [
    "tensor_perturbations_agree",
    "tensor_cells",
    "tensor_unequal_sets_refuted"
   ],
   "note": "Spids must be increasing and non-negative, as VellSets keep them."
  },
  {
   "property": "C151",
   "status": "proved",
   "theorems": [
    "tensorpert_perturbed_values",
    "tensorpert_succeeds",
    "tensorpert_two_sets",
    "tensorpert_more_sets_refuted"
   ],
   "note": "The node class computes the values of each perturbation from the child values that getChildValue returns for that perturbation."
  },
  {
   "property": "C152",
   "status": "proved",
   "theorems": [
    "rider_commands",
    "rider_commands_complete",
    "rider_exceptions"
   ],
   "note": ""
  },
  {
   "property": "C153",
   "status": "partial",
   "theorems": [
    "rider_command_all",
    "rider_command_by_nodeindex",
    "rider_records_made",
    "solver_rider",
    "rider_by_list_refuted",
    "rider_copied_refuted",
    "rider_clear_refuted"
   ],
   "note": "Proved for getCmdRec_All, getCmdRec_ByNodeIndex and fillRider; refuted for getCmdRec_ByList, copyRider followed by writing, Rider::clear on a validated request and shared requests."
  },
  {
   "property": "C154",
   "status": "partial",
   "theorems": [
    "execute_commands",
    "execute_commands_once",
    "rider_cached_refuted"
   ],
   "note": "The commands of a new request answered from the cache are not carried out: refuted."
  },
  {
   "property": "C155",
   "status": "partial",
   "theorems": [
    "execute_calls",
    "execute_exceptions",
    "execute_cached",
    "execute_terminates",
    "execute_values",
    "execute_stale_refuted",
    "execute_fails_posted_refuted"
   ],
   "note": "Two expectations are refuted: empty results without cells when the caller's reference is not empty, and the reporting of fails returned by getResult()."
  },
  {
   "property": "C156",
   "status": "partial",
   "theorems": [
    "seq_polls",
    "seq_results",
    "seq_codes_refuted",
    "seq_wait_refuted"
   ],
   "note": "Masks are below 2^31 and not negative. Two expectations are refuted: WAIT, and the codes for requests without cells."
  },
  {
   "property": "C157",
   "status": "partial",
   "theorems": [
    "mux_results",
    "mux_collects",
    "mux_missing",
    "mux_disabled",
    "mux_fail_refuted"
   ],
   "note": "A fail of the selected child is returned without its result: refuted."
  },
  {
   "property": "C158",
   "status": "partial",
   "theorems": [
    "chk_cells",
    "chk_same_object",
    "chk_shared_refuted",
    "chk_constants_refuted"
   ],
   "note": "Proved for cells in different objects and for cells in one object; refuted for a mixture and for axes of constant children."
  },
  {
   "property": "C159",
   "status": "proved",
   "theorems": [
    "axm_time_freq",
    "axm_set",
    "axm_add",
    "axm_adds_only",
    "axm_copy"
   ],
   "note": "the axis description records are not modelled"
  },
  {
   "property": "C160",
   "status": "partial",
   "theorems": [
    "axm_refused",
    "axm_stale_refuted",
    "axm_refused_refuted",
    "axm_copy_refuted"
   ],
   "note": "refuted as stated; axm_refused says exactly what a refused list leaves behind"
  },
  {
   "property": "C161",
   "status": "proved",
   "theorems": [
    "invert_denotes",
    "invert_scalar_denotes",
    "invert_product"
   ],
   "note": "invert_scalar_denotes asks for a scalar that is not zero everywhere (otherwise the value may be missing and the node stops with an error); arithmetic is exact, where the matrix is singular nothing is said"
  },
  {
   "property": "C162",
   "status": "partial",
   "theorems": [
    "invert_fails",
    "invert_mask_refuted",
    "invert_fails_kept_refuted"
   ],
   "note": "two parts of the statement are false of the code: only one fail record is kept, and the mask is not applied to scalars"
  },
  {
   "property": "C163",
   "status": "proved",
   "theorems": [
    "discover_exactly",
    "discover_order",
    "discover_succeeds",
    "discover_covers"
   ],
   "note": "discover_order asks for at most 256 unknowns per Parm and one Parm per node index; carries (Dsc_Spec) says which spids Results can have, as proved for the node classes elsewhere (C64, C86, C100, C147)"
  },
  {
   "property": "C164",
   "status": "partial",
   "theorems": [
    "discover_describes",
    "discover_solver",
    "discover_clash_refuted"
   ],
   "note": "false for Parms with more than 256 unknowns; discover_solver has the conditions on tilings of C77 and C78"
  },
  {
   "property": "C165",
   "status": "proved",
   "theorems": [
    "mrs_up",
    "mrs_down",
    "mrs_num",
    "mrs_seamless",
    "mrs_even",
    "mrs_round"
   ],
   "note": "Exact rationals in place of doubles. Segments of the cells, which are recomputed from the centres, are not modelled."
  },
  {
   "property": "C166",
   "status": "partial",
   "theorems": [
    "mrs_down",
    "mrs_id",
    "mrs_history_refuted",
    "mrs_same_id_refuted",
    "mrs_axes_refuted"
   ],
   "note": "The property as one would wish it is refuted in three ways; mrs_down says which factor is in force after any earlier requests, and mrs_id which id the child sees. That caching in the child is fooled by equal ids is not proved here."
  },
  {
   "property": "C167",
   "status": "proved",
   "theorems": [
    "hst_kept",
    "hst_end",
    "hst_item",
    "hst_ask"
   ],
   "note": "Which item is looked for in a result, and under which label the list is put, are not followed; errors kept in the state (last_error) are left out."
  },
  {
   "property": "C168",
   "status": "partial",
   "theorems": [
    "hst_refused",
    "hst_refused_refuted",
    "hst_limit_refuted"
   ],
   "note": "Refuted as stated; hst_refused says exactly what is kept and what is lost. The other fields of the node (Node::setStateImpl) are not followed. hst_limit_refuted: a limit that has been set does not hold until the next item."
  },
  {
   "property": "C169",
   "status": "proved",
   "theorems": [
    "wsum_value",
    "wmean_value",
    "wmean_plain",
    "wmean_zero_total"
   ],
   "note": "Single exact values; planes, shapes, flags and perturbed values are those of the Function module."
  },
  {
   "property": "C170",
   "status": "partial",
   "theorems": [
    "wsum_zero",
    "wsum_skips_refuted"
   ],
   "note": "Refuted as stated; wsum_zero says that every such request is refused."
  }
 ]
}