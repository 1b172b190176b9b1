{
 "claims": [
  {
   "property": "C01",
   "status": "proved",
   "theorems": [
    "C01_ticks_monotone",
    "C01_ticks_strict",
    "C01_positive_intervals"
   ],
   "note": "Any callables, RNG draws and addition function; guard: no reschedule went backwards, derived from the intervals by C01_positive_intervals."
  },
  {
   "property": "C02",
   "status": "proved",
   "theorems": [
    "C02_one_time_exactly_once",
    "C02_one_time_never_twice",
    "C02_schedule_call",
    "C02_callable"
   ],
   "note": "Exact list of execution ticks at every idle state; a voided event is executed as a no-op (C11)."
  },
  {
   "property": "C03",
   "status": "proved",
   "theorems": [
    "C03_past_never_runs",
    "C03_past_frame"
   ],
   "note": "The call never runs, and every field of the state except the fresh event object is unchanged."
  },
  {
   "property": "C04",
   "status": "proved",
   "theorems": [
    "C04_repeating_exact",
    "C04_repeating_prefix"
   ],
   "note": "Execution ticks are exactly the reached at + n*interval computed with the (arbitrary) double addition."
  },
  {
   "property": "C05",
   "status": "proved",
   "theorems": [
    "C05_priority_classes"
   ],
   "note": "No overtaking between priority classes, also for events added to the running tick; that pending events do run is C08/C09."
  },
  {
   "property": "C06",
   "status": "proved",
   "theorems": [
    "C06_scheduling_order"
   ],
   "note": "Handles are numbered by schedule call, so repeating events keep their original position."
  },
  {
   "property": "C07",
   "status": "proved",
   "theorems": [
    "C07_priority_order"
   ],
   "note": "Ties by scheduling order included."
  },
  {
   "property": "C08",
   "status": "proved",
   "theorems": [
    "C08_tick_is_permutation",
    "C08_pending_exactly_once",
    "C08_no_duplicates"
   ],
   "note": ""
  },
  {
   "property": "C09",
   "status": "proved",
   "theorems": [
    "C09_same_tick_event_runs",
    "C09_first_call"
   ],
   "note": "Guard: positive intervals."
  },
  {
   "property": "C10",
   "status": "partial",
   "theorems": [
    "C10_priority_order_refuted",
    "C10_priority_order_partial"
   ],
   "note": "False of the code: after a same-tick addition the list is re-sorted with the NaN priorities of RANDOM events in it. Proved when the RANDOM events of the tick have a priority."
  },
  {
   "property": "C11",
   "status": "proved",
   "theorems": [
    "C11_void_never_runs",
    "C11_void_frame"
   ],
   "note": "A voided event stays in the queue and is executed as a no-op once."
  },
  {
   "property": "C12",
   "status": "partial",
   "theorems": [
    "C12_not_lost_refuted",
    "C12_not_lost_partial"
   ],
   "note": "False of the code: an event scheduled between two ticks for the current tick is never executed. Proved for all other accepted calls."
  },
  {
   "property": "C13",
   "status": "partial",
   "theorems": [
    "C13_no_rank_ahead_partial",
    "C13_no_rank_ahead_refuted"
   ],
   "note": "False of the code: schedule_stop does not refresh next_tick, so a rank that only called schedule_stop(5) executes tick 5 before another rank's event at 1. Proved for all runs whose ranks' next_tick is up to date at the start of execute."
  },
  {
   "property": "C14",
   "status": "proved",
   "theorems": [
    "C14_stop_finishes_tick",
    "C14_end_events",
    "C14_end_callable"
   ],
   "note": "One rank in an arbitrary environment of global minima, any callables."
  },
  {
   "property": "C15",
   "status": "partial",
   "theorems": [
    "C15_empty_rank_refuted",
    "C15_progress_partial"
   ],
   "note": "False of the code: an empty queue has next tick -1, the global minimum; proved that then no round ever changes anything. Proved progress when every rank has something scheduled."
  },
  {
   "property": "C16",
   "status": "partial",
   "theorems": [
    "C16_stop_together_partial",
    "C16_stop_together_refuted"
   ],
   "note": "False of the code for ranks that call nothing but schedule_stop (stale next_tick). Proved when next_tick is up to date at the start."
  },
  {
   "property": "C17",
   "status": "partial",
   "theorems": [
    "C17_pending",
    "C17_future_partial",
    "C17_future_refuted"
   ],
   "note": "Pending events, end events and tick proved identical for every save between ticks. Same future proved for all continuations if no voided event is pending; with one, the shuffle draws differ and the order changes (refuted). Saves from inside a running tick: see C66."
  },
  {
   "property": "C18",
   "status": "proved",
   "theorems": [
    "C18_order_after_restore"
   ],
   "note": "Also C18_between_restores_refuted: an event scheduled between two restore_schedule calls gets a duplicate order number."
  },
  {
   "property": "C19",
   "status": "proved",
   "theorems": [
    "C19_by_tags",
    "C19_all_tags"
   ],
   "note": "For every list of distinct tags; also characterises tag subsets and ignored events."
  },
  {
   "property": "C20",
   "status": "partial",
   "theorems": [
    "C20_stop_at_ignored",
    "C20_stop_restored_refuted"
   ],
   "note": "False of the code: the flag has no effect, stop events are always restored."
  },
  {
   "property": "C22",
   "status": "proved",
   "theorems": [
    "C22_ghost_kept",
    "C22_ghost_gone",
    "C22_requested_kept"
   ],
   "note": "For all call sequences, with any calls on other agents in between. Outside the hypotheses: a ghost added with incr=0 (as request_agents and networks do) and then released once has -1 references and is never dropped."
  },
  {
   "property": "C23",
   "status": "proved",
   "theorems": [
    "C23_ghosted_tracked",
    "C23_ghosted_balanced",
    "C23_untag_untagged",
    "C23_deleted_not_ghosted"
   ],
   "note": "An untag of an untagged agent raises KeyError; the exact characterisation covers such histories too."
  },
  {
   "property": "C30",
   "status": "proved",
   "theorems": [
    "C30_sticky_in_bounds",
    "C30_sticky_identity",
    "C30_sticky_nearest"
   ],
   "note": "Discrete grid, 1 to 3 dimensions."
  },
  {
   "property": "C31",
   "status": "partial",
   "theorems": [
    "C31_periodic_in_bounds_partial",
    "C31_periodic_partial",
    "C31_periodic_dimension_partial",
    "C31_congruence_refuted",
    "C31_unused_dimension_refuted"
   ],
   "note": "False of the code in two ways: distances above 2^53 are rounded by the conversion to double before fmod, and in 1 or 2 dimensions the unused coordinates of the result are those of an earlier query. Proved for three dimensions (and for each dimension separately in any space) up to 2^53."
  },
  {
   "property": "C33",
   "status": "partial",
   "theorems": [
    "C33_agents_and_locations_partial",
    "C33_order_of_arrival_partial",
    "C33_added_twice_refuted"
   ],
   "note": "False if a located agent is added again (it stays in the cell's list forever). Proved for all histories without that, with one Python object per id, for both occupancy types and any border transformation."
  },
  {
   "property": "C34",
   "status": "proved",
   "theorems": [
    "C34_single_occupancy",
    "C34_occupied_refused",
    "C34_refused_unchanged"
   ],
   "note": "No assumption on the history."
  },
  {
   "property": "C35",
   "status": "partial",
   "theorems": [
    "C35_moved",
    "C35_multi_moves",
    "C35_membership",
    "C35_others",
    "C35_lists",
    "C35_missing",
    "C35_point",
    "C35_stale_coordinate_refuted",
    "C35_flat_partial"
   ],
   "note": "All parts proved, except that on periodic spaces of 1 or 2 dimensions the point depends on the unused coordinates of earlier queries (refuted; proved when these are 0)."
  },
  {
   "property": "C37",
   "status": "proved",
   "theorems": [
    "C37_tiling",
    "C37_inside"
   ],
   "note": "Also C37_empty_bounds_refuted: with fewer cells than processes in a dimension two ranks contain the same cell."
  },
  {
   "property": "C38",
   "status": "proved",
   "theorems": [
    "C38_balanced",
    "C38_nonempty"
   ],
   "note": ""
  },
  {
   "property": "C39",
   "status": "proved",
   "theorems": [
    "C39_routed",
    "C39_moved_back",
    "C39_recorded_partial"
   ],
   "note": "For all histories of calls on the space between synchronizations. C39_recorded_partial (nothing else is recorded) assumes that no agent is added while it is in the space; C39_added_twice_refuted shows why."
  },
  {
   "property": "C40",
   "status": "proved",
   "theorems": [
    "C40_neighbors",
    "C40_symmetric",
    "C40_self",
    "C40_coordinates"
   ],
   "note": "Exact characterisation for 1 to 3 dimensions, both border types."
  },
  {
   "property": "C41",
   "status": "partial",
   "theorems": [
    "C41_covered_partial",
    "C41_exact_partial",
    "C41_undefined",
    "C41_undefined_refuted",
    "C41_corner_refuted",
    "C41_wide_refuted",
    "C41_sent_twice_refuted"
   ],
   "note": "Coverage and exactness proved for all process grids except: 2D periodic with 1 process in one dimension and 3 or more in the other (undefined behaviour), 3D periodic with 2 processes in two dimensions (corner missing), buffer wider than the local bounds. The exceptions are refuted. With 2 periodic processes a cell can be sent twice."
  },
  {
   "property": "C24",
   "status": "partial",
   "theorems": [
    "C24_population",
    "C24_appended",
    "C24_order_kept",
    "C24_agent",
    "C24_agent_found",
    "C24_agents_partial",
    "C24_contains_type",
    "C24_size_total",
    "C24_size_partial",
    "C24_unknown_type",
    "C24_unknown_type_refuted",
    "C24_in_projections"
   ],
   "note": "Holds for all histories; agents(agent_type=t) and size([t]) raise KeyError for a type no agent of which was ever added (C24_unknown_type, C24_unknown_type_refuted), the two _partial theorems exclude exactly this case."
  },
  {
   "property": "C25",
   "status": "proved",
   "theorems": [
    "C25_selected",
    "C25_all",
    "C25_any_order",
    "C25_negative_count"
   ],
   "note": "Counts >= 0 for the min(count, n) statement; a negative count is Python's slice. Unknown types: see C24."
  },
  {
   "property": "C29",
   "status": "proved",
   "theorems": [
    "C29_refused",
    "C29_found",
    "C29_unknown",
    "C29_distinct"
   ],
   "note": ""
  },
  {
   "property": "C26",
   "status": "partial",
   "theorems": [
    "C26_synchronize",
    "C26_move_agents",
    "C26_conserved",
    "C26_one_space",
    "C26_removed_returns_refuted",
    "C26_duplicate_refuted",
    "C26_move_to_ghost_refuted"
   ],
   "note": "Proved for synchronize, move_agents and whole histories of any number of ranks, agents, calls: every agent is local on exactly one rank, the one of its new location or the one it was sent to. Hypotheses: an agent's locations in several spaces belong to the same rank, and no synchronization without ghosts while copies are in buffers (both follow for models with one space, C26_one_space); without them the property is false of the code, with witnesses."
  },
  {
   "property": "C27",
   "status": "partial",
   "theorems": [
    "C27_refuted",
    "C27_move_agents_refuted",
    "C27_sent_twice_refuted",
    "C27_requests_partial",
    "C27_requests_static_partial",
    "C27_buffers_partial"
   ],
   "note": "False of the code, with witnesses: a ghost in a buffer that is then requested is not registered with its owner; move_agents discards the list of ghosts of agents that arrive because of their location; an agent sent twice to the same rank stays in its cell. Proved for requested ghosts in models without buffers, for any number of ranks and histories in which agents move while they are ghosts elsewhere: after synchronize every ghost is of a living agent whose rank knows of the ghost, removed agents have none. Proved for copies in buffers in models with one space and without requests (hypotheses of C58). Missing: both kinds of ghosts in one model, several spaces."
  },
  {
   "property": "C28",
   "status": "partial",
   "theorems": [
    "C28_two_spaces_refuted",
    "C28_occupied_refuted",
    "C28_one_space_partial"
   ],
   "note": "False of the code with several bounded projections, and with single occupancy when the cell is taken on the new rank. Proved for one space with multiple occupancy (hypotheses of C58)."
  },
  {
   "property": "C50",
   "status": "proved",
   "theorems": [
    "C50_rows",
    "C50_buffer_size",
    "C50_prefix"
   ],
   "note": "For any number of ranks, columns, calls and buffer sizes; numpy's growth of the arrays is modelled. A data set without columns raises IndexError."
  },
  {
   "property": "C51",
   "status": "proved",
   "theorems": [
    "C51_file",
    "C51_once"
   ],
   "note": "The file is characterised exactly after any calls."
  },
  {
   "property": "C53",
   "status": "proved",
   "theorems": [
    "C53_total_order",
    "C53_equivalent",
    "C53_maps"
   ],
   "note": "The maps as search trees using the comparison only; rebalancing not modelled."
  },
  {
   "property": "C55",
   "status": "partial",
   "theorems": [
    "C55_constructed_partial",
    "C55_rank_refuted",
    "C55_dealloc_refuted",
    "C55_truncated"
   ],
   "note": "False of the code: the rank is truncated to 32 bits, and its upper half overwrites a pointer that is followed when the constructor raises. Proved for ranks from 0 to 2^32 - 1."
  },
  {
   "property": "C52",
   "status": "proved",
   "theorems": [
    "C52_free",
    "C52_fuel",
    "C52_no_name",
    "C52_is_empty"
   ],
   "note": "Paths without a name raise ValueError."
  },
  {
   "property": "C54",
   "status": "proved",
   "theorems": [
    "C54_params",
    "C54_seed",
    "C54_dump",
    "C54_returns",
    "C54_empty_file",
    "C54_empty_file_refuted"
   ],
   "note": "For files with a mapping; an empty file raises (C54_empty_file_refuted)."
  },
  {
   "property": "C42",
   "status": "proved",
   "theorems": [
    "C42_sticky_1d",
    "C42_sticky_2d",
    "C42_sticky_3d",
    "C42_periodic_1d",
    "C42_periodic_2d",
    "C42_periodic_3d",
    "C42_wrap_unique",
    "C42_periodic_distinct"
   ],
   "note": "Integers are unbounded in the model. A periodic dimension with fewer than three cells lists a cell more than once; with three or more the cells are distinct."
  },
  {
   "property": "C48",
   "status": "partial",
   "theorems": [
    "C48_total",
    "C48_balanced_partial",
    "C48_balanced_refuted"
   ],
   "note": "Total: proved. Balance: the list of ranks is cut after it is shuffled, so loads may differ by more than one (4 nodes on 3 ranks: 2, 2, 0); proved is the upper bound, the exact lower bound, and equality when the number of ranks divides the number of nodes."
  },
  {
   "property": "C49",
   "status": "partial",
   "theorems": [
    "C49_round_trip_partial",
    "C49_nodes",
    "C49_refused",
    "C49_nested_refuted",
    "C49_name_refuted"
   ],
   "note": "Proved for attributes whose json text has no closing brace but the last and names without white space; false otherwise (nested dictionaries, strings with a brace, names with a space). json is a parameter with loads (dumps a) = a."
  },
  {
   "property": "C43",
   "status": "partial",
   "theorems": [
    "C43_get_partial",
    "C43_total",
    "C43_initial",
    "C43_nghs",
    "C43_far_refuted"
   ],
   "note": "For a layer of one process (local bounds = global bounds, any origin and dimensions, sticky or periodic): get returns the value of the last set at the same place, every operation on the layer succeeds, unset points have the initial value, get_nghs returns the values and points of the neighbourhood. Missing: periodic coordinates beyond 2^53, where math.fmod on doubles rounds the integer coordinate (C43_far_refuted gives two coordinates of which the first reads the second's cell). Conversion to the dtype of the tensor is not modelled."
  },
  {
   "property": "C44",
   "status": "proved",
   "theorems": [
    "C44_isolated",
    "C44_swapped",
    "C44_not_set",
    "C44_first_swap"
   ],
   "note": "Writes go to the write layer and reads to the read layer for any layers; after swap_layers a get returns the last set before the swap. The periodic statements are for coordinates up to 2^53 (see C43). ReadWriteValueLayer.get_nghs and context synchronization of such a layer always raise (wrong attribute, wrong signature); these are modelled as failing."
  },
  {
   "property": "C45",
   "status": "partial",
   "theorems": [
    "C45_get_partial",
    "C45_cells_partial",
    "C45_set_seen_partial",
    "C45_total_partial",
    "C45_two_periodic_refuted",
    "C45_one_dimension_refuted",
    "C45_before_origin_refuted",
    "C45_narrow_refuted",
    "C45_origin_refuted",
    "C45_single",
    "C45_column_refuted",
    "C45_own_buffer_partial",
    "C45_row_refuted",
    "C45_no_buffer",
    "C45_one_process_refuted"
   ],
   "note": "After any calls and a synchronization every rank reads for each location within its buffer the value of the owning rank, for all process grids, buffer sizes and values with bounds from the origin, two or more processes in x (three in each periodic dimension) and local bounds larger than the buffer. False in general: two processes in a periodic dimension get the wrong slice, one periodic dimension is misindexed by the first process, cells before the origin cannot be read, bounds with another origin or one process cannot be synchronized."
  },
  {
   "property": "C46",
   "status": "proved",
   "theorems": [
    "C46_edges",
    "C46_attrs",
    "C46_nodes",
    "C46_symmetric",
    "C46_edge_list",
    "C46_num_edges",
    "C46_remove_result",
    "C46_update_result"
   ],
   "note": "Histories of add, remove, add_edge, update_edge, remove_edge and clear_edges on one process, also those that go on after an exception, with local and ghost agents. num_edges of a directed network counts edges in plus edges out, so an edge from an agent to itself counts twice (C46_loop_counted_twice). remove_edge removes the edge but raises KeyError for an edge to a ghost that was not synchronized and for an undirected edge from an agent to itself (C46_remove_result)."
  },
  {
   "property": "C47",
   "status": "partial",
   "theorems": [
    "C47_mirrored_partial",
    "C47_added_partial",
    "C47_removed_partial",
    "C47_update_refuted",
    "C47_remove_refuted",
    "C47_readd_refuted",
    "C47_both_refuted",
    "C47_two_edges_refuted",
    "C47_agent_refuted",
    "C47_remove_agent_refuted",
    "C47_order_refuted",
    "C47_object_refuted",
    "C47_clear_refuted",
    "C47_clear_updated_refuted"
   ],
   "note": "For any number of ranks and any history of agents added, agents requested, calls on the networks of the ranks and synchronizations that keeps to the rules of kept_to (only the creator of an edge updates it, it removes it after a synchronization and only if it is the agent's only synchronized edge to that rank, no re-adding between removal and synchronization, same order of agents, no removals of agents) no rank fails and after each synchronization both ranks have exactly the edges that were added and not removed since, with the last attributes written. The _refuted theorems show that the property fails without these rules. One network, no other projection, agents do not move."
  },
  {
   "property": "C32",
   "status": "partial",
   "theorems": [
    "C32_sticky_inside_partial",
    "C32_sticky_unchanged_partial",
    "C32_sticky_bounds_partial",
    "C32_sticky_large_refuted",
    "C32_sticky_unchanged_refuted",
    "C32_periodic_closed_partial",
    "C32_periodic_inside_partial",
    "C32_periodic_unchanged_partial",
    "C32_periodic_from_zero_partial",
    "C32_periodic_box_partial",
    "C32_periodic_negative_refuted",
    "C32_periodic_positive_refuted",
    "C32_periodic_unchanged_refuted",
    "C32_periodic_infinite_refuted"
   ],
   "note": "Doubles with rounding to nearest even, infinities and NaN. False as stated: sticky borders leave the space for bounds above 2^27 and move points within 1e-8 of the upper bound; periodic borders return the upper bound for tiny negative coordinates, may move points inside, and return NaN for infinities. Proved: sticky stays inside for bounds up to 2^27 and leaves points below the offset unchanged; periodic stays in the closed bounds for every finite double, inside the half-open bounds whenever the sum is exact, and leaves points unchanged when coordinate minus lower bound is exact."
  },
  {
   "property": "C36",
   "status": "partial",
   "theorems": [
    "C36_lattice_partial",
    "C36_depth_partial",
    "C36_moves_partial",
    "C36_sticky_partial",
    "C36_shared_refuted",
    "C36_lost_refuted",
    "C36_crash_refuted",
    "C36_one_dimension_refuted",
    "C36_flat_box_refuted",
    "C36_rounding_refuted",
    "C36_added_twice_refuted",
    "C36_whole_space_refuted"
   ],
   "note": "Tree, location map and mutable points on doubles with rounding. Proved for all histories, boxes, thresholds other than 0, 2 and 3 dimensions: exactly the agents in the box, each once, if bounds are up to 2^k and coordinates multiples of 2^-j with 2k + j <= 52, or as long as the tree is at most 53 - k deep; with multiple occupancy no two agents may ever share a point. False otherwise: agents that share a point are returned twice, lost, or crash the process when one moves; one-dimensional spaces crash; boxes with fewer dimensions than the space miss agents; deep trees lose agents by rounding."
  },
  {
   "property": "C21",
   "status": "partial",
   "theorems": [
    "C21_agents",
    "C21_values",
    "C21_no_value",
    "C21_sticky_grid_partial",
    "C21_periodic_grid_partial",
    "C21_sticky_continuous_partial",
    "C21_periodic_continuous_partial",
    "C21_round_trip_partial",
    "C21_reused_refuted",
    "C21_no_location_refuted",
    "C21_single_refuted",
    "C21_stale_coordinate_refuted",
    "C21_periodic_continuous_refuted"
   ],
   "note": "Agents (ids, states, order) and values are proved for all histories of one checkpoint with one save_agents. Locations are proved for sticky grids and sticky continuous spaces, for periodic grids whose unused coordinates stay 0, and for periodic continuous spaces with locations that the border keeps. False: a checkpoint used twice brings removed agents back; an agent without location makes save_space fail; occupied locations of single-occupancy spaces are silently not restored; coordinates leaked into periodic spaces of two dimensions are lost; agents at the upper bound of a periodic continuous space are restored at the lower bound."
  },
  {
   "property": "C56",
   "status": "partial",
   "theorems": [
    "C56_restored_partial",
    "C56_future_partial",
    "C56_directed_fails",
    "C56_synchronized_fails",
    "C56_directed_refuted",
    "C56_alias_refuted",
    "C56_remove_refuted",
    "C56_ghosts_refuted"
   ],
   "note": "Undirected networks, and directed ones without edges from agents of other ranks, are restored with the edges of the agents of each rank and their attributes, and later calls have the same effect on the edges. False otherwise: restoring a directed network with an edge between ranks always fails (proved for all of them); attributes changed between save_network and the writing of the checkpoint change it; remove_edge fails for restored edges between ranks; edges between two ghosts are lost."
  },
  {
   "property": "C57",
   "status": "proved",
   "theorems": [
    "C57_no_type_error",
    "C57_first_is_least",
    "C57_distinct",
    "C57_refines_sorted",
    "C57_sorted_refines"
   ],
   "note": "The heap algorithm is that of Lib/heapq.py; ticks are not NaN."
  },
  {
   "property": "C58",
   "status": "partial",
   "theorems": [
    "C58_ghosts",
    "C58_cells",
    "C58_offset_refuted"
   ],
   "note": "Proved for all histories without requests of agents and without synchronize(sync_ghosts=False), for multiple occupancy. False for a space of one or two dimensions whose bounds do not start at 0 in an unused dimension: the buffers stay empty. Process grids with a periodic dimension of two processes are excluded (see C41, C27)."
  },
  {
   "property": "C59",
   "status": "proved",
   "theorems": [
    "C59_one_model",
    "C59_at_home"
   ],
   "note": "Hypotheses: one space with multiple occupancy, unused dimensions start at 0, objects are not shared by ids, ids are not used twice, with a buffer no synchronize(sync_ghosts=False), no requests; the process grid as in C58. Queries between the calls are not among the operations."
  },
  {
   "property": "C60",
   "status": "proved",
   "theorems": [
    "C60_returns",
    "C60_synchronize",
    "C60_move_refuted"
   ],
   "note": "Hypotheses as in C59. C60_move_refuted: the last condition cannot be dropped, move_agents to a rank with a copy of the agent fails, which the documentation does not say. Negative rank numbers are excluded."
  },
  {
   "property": "C61",
   "status": "partial",
   "theorems": [
    "C61_both_refuted",
    "C61_swap_refuted",
    "C61_creator_refuted",
    "C61_cache_refuted",
    "C61_undirected_refuted",
    "C61_clear_refuted",
    "C61_again_refuted",
    "C61_second_refuted",
    "C61_unrequested_refuted",
    "C61_stale_refuted",
    "C61_local_partial",
    "C61_leave_partial",
    "C61_leavers_partial",
    "C61_arrive_partial",
    "C61_follow_partial",
    "C61_post_partial"
   ],
   "note": "False of the code in many ways, each with a witness in a model in which nodes are objects. C61_local_partial: true of one move if before it there were only edges between agents of the same rank (no requested agents, no earlier moves), no two agents of one edge are moved together, and create_agent returns new objects; then the edges are on exactly the ranks of their agents, with their attributes, for any number of ranks and moved agents. For one rank in any state: C61_leave_partial (where the agent leaves, its edges to agents of the rank and to requested ones are kept for the next phase, the others are removed with ghosts that have no other edge, and no other edge changes), C61_arrive_partial (where it arrives all edges of the ghost become edges of the agent, with direction and attributes), C61_follow_partial (elsewhere the edges to the ghost are to be sent to its new rank) and C61_post_partial (the kept edges are added again with their attributes, if the rank has their agents and no such edges). Missing: whole histories with ghosts before the move, of which most are refuted; the ones that work (for example C61_bridge) are only examples."
  },
  {
   "property": "C62",
   "status": "proved",
   "theorems": [
    "C62_one_model",
    "C62_at_home",
    "C62_ghosts",
    "C62_query",
    "C62_whole",
    "C62_returns"
   ],
   "note": "Conditions beyond the statement: the corners are at most 2^k in magnitude and targets multiples of 2^-j with 2k+j <= 52; the border leads the target to such a point whatever the internal working point of the space is (proved for targets in the bounds: inner_fits); parts are at least as wide as the buffer; leaf threshold negative or positive; ids are not used twice; an object determines the id of its agent; with a buffer no synchronize(sync_ghosts=False) (see C63); no move_agents, requests or other projections."
  },
  {
   "property": "C63",
   "status": "partial",
   "theorems": [
    "C63_shared_refuted",
    "C63_crash_refuted",
    "C63_stale_refuted",
    "C63_meeting_refuted",
    "C63_without_ghosts_refuted",
    "C63_one_dimension_refuted",
    "C62_one_model",
    "C62_query"
   ],
   "note": "False of the code, each part with a witness. Single occupancy: a rank refuses a move to a point that an agent of another rank has left, as long as the old copy is there; an agent sent to a point that another rank's agent took has no location after the synchronization. Multiple occupancy: if one of two agents at a point leaves, the other is not found and has no copies; queries may crash. What holds is C62."
  },
  {
   "property": "C64",
   "status": "partial",
   "theorems": [
    "C64_new_objects_partial",
    "C64_new_objects_one_space_partial",
    "C64_agents_partial",
    "C64_ghosts_partial",
    "C64_calls_partial",
    "C64_two_spaces_refuted",
    "C64_requested_refuted"
   ],
   "note": "False in general: with two buffered spaces and a restoring function that keeps one object per agent (as the examples of the project do) an agent loses a state it was given; a requested copy that was in a buffer is not updated. What holds: with a restoring function that makes new objects local agents keep their states in all proper histories; if no space has a buffer the function may also keep objects, and all ghosts are current after synchronize and move_agents (careful: no agent comes during move_agents because of its location to a rank that has a ghost of it). One buffered space with kept objects: C59, C58. Missing: copies in buffers of several spaces."
  },
  {
   "property": "C65",
   "status": "partial",
   "theorems": [
    "C65_copies_partial",
    "C65_nodes_partial",
    "C65_requested_refuted",
    "C65_edge_refuted"
   ],
   "note": "False in general: the owner of an agent stops sending its state to a rank when one of its edges with that rank is removed, although the rank requested the agent or has its own edge with it. What holds: the statement for all histories without removals of edges between ranks and of agents (removals of edges within a rank are allowed), for any number of ranks and any order of agents, requests, edges and synchronizations."
  },
  {
   "property": "C66",
   "status": "partial",
   "theorems": [
    "C66_every_call",
    "C66_restored",
    "C66_which",
    "C66_last_partial",
    "C66_future_partial",
    "C66_step_refuted",
    "C66_own_refuted"
   ],
   "note": "False in general: events of the tick that are not yet called when the save is made are not saved, so a repeating step is lost if it comes after the save in the order of its tick; a repeating event that makes saves is not in its own checkpoints. What is restored (tick, pending events, end events) and which events these are is proved for every save at any point of a tick. The full statement (same pending events as after the tick, same future) is proved for saves that are the last act of a one-time event that is called last in its tick, if no voided event is pending (C17)."
  },
  {
   "property": "C67",
   "status": "partial",
   "theorems": [
    "C67_created",
    "C67_file",
    "C67_text_partial",
    "C67_directory",
    "C67_no_directory",
    "C67_numbers_partial",
    "C67_numbers_refuted",
    "C67_text_refuted",
    "C67_directory_refuted"
   ],
   "note": "Columns, names, rows and ValueError are proved for all dataclasses, calls and histories. False: a path without a directory makes the constructors of ReducingDataSet and TabularLogger raise (os.makedirs of the empty string); names of columns with the delimiter in them are not quoted; integers above 2^53 in float fields are rounded and floats in int fields are cut off. Proved without these."
  },
  {
   "property": "C68",
   "status": "partial",
   "theorems": [
    "C68_replay_partial",
    "C68_isolated_partial",
    "C68_unswapped_partial",
    "C68_synch_partial",
    "C68_swap_synch_partial",
    "C68_synch_swap_partial",
    "C68_context",
    "C68_context_shared",
    "C68_others_refuted",
    "C68_context_refuted",
    "C68_nghs_refuted"
   ],
   "note": "Proved for all histories of the layers and locations of C45 (bounds from the origin, two or more processes in x, three in each periodic dimension, local bounds larger than the buffer, locations that get can access); the calls come to an end exactly if all ranks have swapped equally often, modulo 2, at each synchronization. False: a context with such a layer cannot be synchronized at all (TypeError), get_nghs always raises, and values that a rank sets for locations of other ranks in its buffer are lost when the ranks synchronize before the swap."
  },
  {
   "property": "C69",
   "status": "partial",
   "theorems": [
    "C69_read_partial",
    "C69_nodes_partial",
    "C69_nodes_refuted",
    "C69_remove_refuted"
   ],
   "note": "Proved for files of simple graphs with the names and attributes of C49, read into a new context by the ranks the file is for or by a single process, and functions that do not return one object for two agents. False: an agent is requested once for each of its edges to a rank, and if restore_agent makes a new object each time, each of them becomes a node; and if both ranks of an edge of the file remove it before a synchronization, the synchronization fails. With a restore_agent that has a cache there are no other nodes."
  },
  {
   "property": "C70",
   "status": "partial",
   "theorems": [
    "C70_read_partial",
    "C70_refused"
   ],
   "note": "The limits of C69: simple graphs, the names and attributes of C49, a new context, the ranks that the file is for or a single process. What nxmetis returns is an arbitrary partition of the nodes."
  },
  {
   "property": "C71",
   "status": "proved",
   "theorems": [
    "C71_iterators",
    "C71_loop",
    "C71_next_moved"
   ],
   "note": "Proved for all programs on a model with objects, reference counts, list nodes and iterators. C71_next_moved: the body moves the next agent, and next() follows a freed pointer."
  },
  {
   "property": "C72",
   "status": "proved",
   "theorems": [
    "C72_points",
    "C72_same_object",
    "C72_saved_location",
    "C72_meddling"
   ],
   "note": "Proved for all programs. C72_saved_location and C72_meddling are witnesses: moving an agent back to a saved location leaves it where it is; a program that resets a returned point makes get_location and get_agents disagree."
  },
  {
   "property": "C73",
   "status": "proved",
   "theorems": [
    "C73_safe",
    "C73_held",
    "C73_counts",
    "C73_nothing_left",
    "C73_single_freed",
    "C73_leak"
   ],
   "note": "Proved for all programs. C73_nothing_left for one object per id, agents that are not added while they are in the grid, and returned points that are not reset; C73_leak: an agent that is added twice is never freed."
  },
  {
   "property": "C74",
   "status": "proved",
   "theorems": [
    "C74_results",
    "C74_context",
    "C74_loop",
    "C74_broken",
    "C74_chosen"
   ],
   "note": "Proved for all histories and any number of iterators on a model of CPython's OrderedDict with its iterators (Objects/odictobject.c). The dictionaries are those of C24."
  },
  {
   "property": "C75",
   "status": "partial",
   "theorems": [
    "C75_points_partial",
    "C75_equality_partial",
    "C75_not_equal_partial",
    "C75_memory_partial",
    "C75_ne_refuted",
    "C75_nan_refuted",
    "C75_half_refuted",
    "C75_tuple_refuted",
    "C75_strided_refuted",
    "C75_neighbours_refuted"
   ],
   "note": "Proved for all programs without !=, whose arguments are numbers (or the first one already is none), tuples of at least three numbers and contiguous arrays. What happens otherwise: != compares objects, strides are ignored, failing resets change coordinates, short tuples are read beyond their end."
  },
  {
   "property": "C76",
   "status": "partial",
   "theorems": [
    "C76_no_exception_partial",
    "C76_raised_partial",
    "C76_scheduled_partial",
    "C76_after",
    "C76_thrown_away",
    "C76_runner",
    "C76_later_refuted"
   ],
   "note": "The exception itself: proved for all schedules. Going on after it is false of the code: proved for all continuations that no event is ever called again, that execute throws away the events of a tick, and that the loop of the runner never ends."
  },
  {
   "property": "C77",
   "status": "partial",
   "theorems": [
    "C77_exact_partial",
    "C77_forward",
    "C77_common_partial",
    "C77_drift_partial",
    "C77_stuck",
    "C77_tenth_refuted",
    "C77_stuck_refuted"
   ],
   "note": "Proved exactly for times and intervals that are multiples of a power of two, up to 2^53 of it; for all other non-negative intervals the error of the n-th time is at most n * 2^-53 of it. False in general: an interval of 0.1 never gets to 1.0, and an interval that is too small for the tick stops the schedule (proved for all continuations). Overflow to infinity is not modelled."
  },
  {
   "property": "C78",
   "status": "partial",
   "theorems": [
    "C78_grid",
    "C78_grid_all",
    "C78_grid_move",
    "C78_cspace_partial",
    "C78_cspace_inside_partial",
    "C78_upper_refuted",
    "C78_empty_refuted"
   ],
   "note": "Grids: proved for all topologies with at least one cell for each rank. Continuous spaces: always in the closed bounds; in the local bounds if they start at 0 or the draws are not among the largest ones (with explicit bound). False in general: the upper bound can be drawn, which another rank owns or which is outside of the space; with more ranks than cells the point is outside or the call raises."
  },
  {
   "property": "C79",
   "status": "partial",
   "theorems": [
    "C79_values_partial",
    "C79_distinct_partial",
    "C79_dict",
    "C79_rest",
    "C79_round_trip_partial",
    "C79_readable",
    "C79_text",
    "C79_names_partial",
    "C79_names_refuted",
    "C79_unreadable",
    "C79_readable_refuted",
    "C79_keys_refuted",
    "C79_tuples",
    "C79_tuples_refuted",
    "C79_surrogates_refuted"
   ],
   "note": "The writer and reader of JSON are modelled character by character; the values come back if all keys are strings, there are no tuples and no surrogate pairs. A written file is readable exactly if no attribute contains a dictionary or a closing brace. False in general: integers as keys, tuples and surrogate pairs come back as other values, dictionaries and closing braces make the file unreadable. Attributes of edges that are named like parameters of add_edge make the file unreadable for the ranks of the edge (exact condition proved); those of create_agent are not modelled."
  },
  {
   "property": "C80",
   "status": "partial",
   "theorems": [
    "C80_written",
    "C80_read_partial",
    "C80_kept_refuted"
   ],
   "note": "False of the code: proved for all graphs with the attributes of C49 that the file is replaced by the nodes before the refused one, and that every rank reads it without an exception as a network without edges. Kept only if there are no ranks. Exceptions of json.dumps and of the file system are not modelled."
  },
  {
   "property": "C81",
   "status": "partial",
   "theorems": [
    "C81_leave_partial",
    "C81_leavers_partial",
    "C81_kept",
    "C81_both_ways",
    "C81_both_ways_refuted"
   ],
   "note": "False of the code for directed networks with edges in both directions between the leaving agent and the copy: the copy stays without edges. Otherwise proved for one leaving agent and any state of the rank, and by induction for all agents that leave in a call. The later phases of move_agents are not covered."
  }
 ]
}