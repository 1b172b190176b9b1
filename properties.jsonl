{"id": "C01", "title": "Ticks never go backwards", "statement": "While a schedule is executed, the sequence of ticks at which callables are invoked is non-decreasing, whatever the callables do (schedule more events, void events, stop), provided repeating intervals do not move time backwards. The tick reported by tick() during a callable is the tick of that invocation.", "quantifier": "all initial schedules, all callable behaviours (any function of the whole history), all RNG draws, all numbers of execute steps", "why_tests_cant": "Callables may schedule arbitrary further events, so the space of histories is infinite; a test fixes one history.", "anchors": ["src/repast4py/schedule.py: Schedule._push_event", "src/repast4py/schedule.py: Schedule.execute", "src/repast4py/schedule.py: RepeatingEvent.reschedule"]}
{"id": "C02", "title": "One-time event runs exactly once, at its own tick", "statement": "An event scheduled with schedule_event(at) for a tick later than the current one is invoked exactly once, at tick `at`, if the schedule is run past `at` and the event is not voided; it is never invoked at any other tick and never twice.", "quantifier": "all histories, all events, all RNG draws", "why_tests_cant": "Needs a conservation argument over queue, group and in-tick additions for every history.", "anchors": ["src/repast4py/schedule.py: Schedule.schedule_event", "src/repast4py/schedule.py: Schedule.execute", "src/repast4py/schedule.py: ScheduleGroup.execute_evts"]}
{"id": "C03", "title": "Events scheduled in the past are ignored", "statement": "schedule_event / schedule_repeating_event with `at` smaller than the current tick changes nothing that can be observed later: that callable is never invoked and every other event is executed as if the call had not been made.", "quantifier": "all states, all at < tick, all later histories", "why_tests_cant": "Non-interference quantifies over every continuation.", "anchors": ["src/repast4py/schedule.py: Schedule._push_event"]}
{"id": "C04", "title": "Repeating event runs at at, at+interval, ... exactly once each", "statement": "A repeating event scheduled at `at` with a positive `interval` is invoked exactly once at each of at, at+interval, at+2*interval, ... that the run reaches, in that order, until voided, and at no other tick.", "quantifier": "all histories, all at/interval with interval > 0, all numbers of repetitions", "why_tests_cant": "Unbounded repetition interleaved with arbitrary other events.", "anchors": ["src/repast4py/schedule.py: RepeatingEvent.reschedule", "src/repast4py/schedule.py: Schedule.execute"]}
{"id": "C05", "title": "FIRST before RANDOM/BY_PRIORITY before LAST", "statement": "At every invocation in a tick, no FIRST event that is pending for that tick is overtaken by a non-FIRST event, and a LAST event is invoked only when no FIRST, RANDOM or BY_PRIORITY event is pending for the tick. This holds also when callables schedule more events for the current tick.", "quantifier": "all group contents, all RNG draws, all callable behaviours", "why_tests_cant": "Every interleaving of in-tick additions must be covered.", "anchors": ["src/repast4py/schedule.py: ScheduleGroup.sort", "src/repast4py/schedule.py: ScheduleGroup.execute"]}
{"id": "C06", "title": "FIRST (and LAST) events run in scheduling order", "statement": "Among FIRST events pending for the same tick the one that was scheduled earliest is invoked next; the same holds among LAST events. A repeating event keeps the position of its original schedule call.", "quantifier": "all histories and group contents", "why_tests_cant": "Order depends on a counter over the entire history, including reschedules.", "anchors": ["src/repast4py/schedule.py: ScheduleGroup.sort", "src/repast4py/schedule.py: Schedule._push_event"]}
{"id": "C07", "title": "BY_PRIORITY events run in priority order, ties in scheduling order", "statement": "If no callable schedules an event for the tick being executed, the BY_PRIORITY events of a tick are invoked in non-decreasing priority, ties in the order in which they were scheduled, wherever RANDOM events are interleaved.", "quantifier": "all priorities (non-NaN), all numbers of RANDOM events, all RNG draws", "why_tests_cant": "RNG draws decide the interleaving; all draws must be covered.", "anchors": ["src/repast4py/schedule.py: ScheduleGroup.sort"]}
{"id": "C08", "title": "Every pending event of a tick is invoked exactly once in it", "statement": "Executing a tick invokes a permutation of the events pending for it together with the events that callables add for that tick: RANDOM shuffling and interruption neither drop nor duplicate an event.", "quantifier": "all group contents, RNG draws, callable behaviours", "why_tests_cant": "Loss would need a specific interleaving of interruption and list state.", "anchors": ["src/repast4py/schedule.py: ScheduleGroup.execute_evts", "src/repast4py/schedule.py: ScheduleGroup.sort", "src/repast4py/schedule.py: ScheduleGroup._add_during_ex_evts"]}
{"id": "C09", "title": "An event scheduled for the current tick by a running callable runs in that tick", "statement": "If a callable running at tick t schedules an event at t, then that event is invoked in tick t, after the scheduling callable and before any later tick.", "quantifier": "all histories, all nesting depths of such additions", "why_tests_cant": "Unbounded chains of same-tick additions.", "anchors": ["src/repast4py/schedule.py: ScheduleGroup.add_evt", "src/repast4py/schedule.py: ScheduleGroup.execute_evts", "src/repast4py/schedule.py: Schedule.execute"]}
{"id": "C10", "title": "BY_PRIORITY order survives same-tick additions", "statement": "Also when a callable schedules an event for the current tick, the remaining BY_PRIORITY events of the tick run in non-decreasing priority order.", "quantifier": "all group contents, RNG draws, same-tick additions", "why_tests_cant": "Depends on where NaN-priority RANDOM events happen to sit in the list when it is sorted again.", "anchors": ["src/repast4py/schedule.py: ScheduleGroup.sort", "src/repast4py/schedule.py: ScheduleGroup._add_during_ex_evts"]}
{"id": "C11", "title": "A voided event never runs again", "statement": "After void() on the event returned by schedule_event or schedule_repeating_event, its callable is never invoked again and it is never rescheduled, whether it is voided before the run, by another event in the same tick, or by itself; all other events run as before.", "quantifier": "all histories, all moments of voiding", "why_tests_cant": "The moment of voiding ranges over every state.", "anchors": ["src/repast4py/schedule.py: RepeatingEvent.void", "src/repast4py/schedule.py: OneTimeEvent.void"]}
{"id": "C12", "title": "An accepted event is not lost", "statement": "An event that is accepted by schedule_event (at >= current tick) is eventually invoked if the schedule runs past `at`, also when the call is made between ticks.", "quantifier": "all states between and within ticks, all at >= tick", "why_tests_cant": "Needs an arbitrary state between two execute calls.", "anchors": ["src/repast4py/schedule.py: Schedule._push_event", "src/repast4py/schedule.py: ScheduleGroup.reset"]}
{"id": "C13", "title": "No rank runs ahead of another", "statement": "With SharedScheduleRunner on any number of ranks, whenever a rank invokes a callable at tick t, no rank still has a pending event earlier than t: in each collective round only events at the global minimum next tick run, and ticks are non-decreasing over all ranks together.", "quantifier": "all numbers of ranks, all schedules, all callable behaviours", "why_tests_cant": "The number of ranks and rounds is unbounded.", "anchors": ["src/repast4py/schedule.py: SharedScheduleRunner.execute"]}
{"id": "C14", "title": "Stop finishes the tick, then end events run once in order", "statement": "After stop() is invoked in tick t all remaining events of t on that rank are invoked, no event of a later tick is, and then every end event is invoked exactly once in the order of the schedule_end_event calls.", "quantifier": "all histories, all positions of the stop event in a tick", "why_tests_cant": "Position of the stop event within the tick is random.", "anchors": ["src/repast4py/schedule.py: SharedScheduleRunner.stop", "src/repast4py/schedule.py: SharedScheduleRunner.execute", "src/repast4py/schedule.py: SharedScheduleRunner.schedule_end_event"]}
{"id": "C15", "title": "A rank with nothing scheduled does not block the others", "statement": "If one rank has no events scheduled, the events of the other ranks are still executed.", "quantifier": "all distributions of events over ranks", "why_tests_cant": "Non-termination cannot be observed by a test.", "anchors": ["src/repast4py/schedule.py: SharedScheduleRunner.execute", "src/repast4py/schedule.py: Schedule.next_tick"]}
{"id": "C16", "title": "schedule_stop(T) on every rank stops every rank at T", "statement": "If every rank calls schedule_stop(T), all ranks leave the loop after the same collective round, at tick T, and none is left waiting in a collective call.", "quantifier": "all schedules, all T, any number of ranks", "why_tests_cant": "A mismatched collective is a hang that depends on the combination of all ranks' schedules.", "anchors": ["src/repast4py/schedule.py: SharedScheduleRunner.schedule_stop", "src/repast4py/schedule.py: SharedScheduleRunner.execute"]}
{"id": "C17", "title": "Restored schedule replays the same future", "statement": "save_schedule followed by restore_schedule into a fresh runner (all tags restored with the same callables) reproduces the pending events: same tick, interval, priority type, priority and relative scheduling order, the end events in order, and the tick; so the restored run invokes the same events in the same order as the original would have (for the same RNG draws).", "quantifier": "all reachable schedule states between ticks, all later histories", "why_tests_cant": "Equivalence of futures ranges over all continuations.", "anchors": ["src/repast4py/checkpoint.py: Checkpoint.save_schedule", "src/repast4py/checkpoint.py: Checkpoint.restore_schedule", "src/repast4py/checkpoint.py: Checkpoint._schedule_evt"]}
{"id": "C18", "title": "Events scheduled after a restore come after restored ones", "statement": "Events scheduled after restore_schedule get a scheduling order later than every restored event.", "quantifier": "all checkpoints", "why_tests_cant": "Order numbers depend on the whole history before the save.", "anchors": ["src/repast4py/checkpoint.py: Checkpoint.restore_schedule"]}
{"id": "C19", "title": "Restore by tags restores each event exactly once", "statement": "Restoring a checkpoint tag by tag, with disjoint tags covering all events, restores every non-voided event exactly once, and voided events never.", "quantifier": "all checkpoints, all partitions of the events into tags", "why_tests_cant": "All partitions must be covered.", "anchors": ["src/repast4py/checkpoint.py: Checkpoint.restore_schedule", "src/repast4py/checkpoint.py: Checkpoint.save_schedule"]}
{"id": "C20", "title": "restore_stop_at=False does not restore stop events", "statement": "restore_schedule with restore_stop_at=False restores no stop event.", "quantifier": "all checkpoints containing a stop event", "why_tests_cant": "The documented effect must hold for every checkpoint.", "anchors": ["src/repast4py/checkpoint.py: Checkpoint.restore_schedule"]}
{"id": "C21", "title": "Checkpointed agents, values and space locations survive a round trip", "statement": "restore after save yields the same agents (uid and saved state) in the same order, the same key/value pairs, and every agent at the location it had in each saved space.", "quantifier": "all agent populations, all saved spaces", "why_tests_cant": "Arbitrary populations and locations.", "anchors": ["src/repast4py/checkpoint.py: Checkpoint.save_agents", "src/repast4py/checkpoint.py: Checkpoint.restore_agents", "src/repast4py/checkpoint.py: Checkpoint.save_space", "src/repast4py/checkpoint.py: Checkpoint.restore_space"]}
{"id": "C22", "title": "A ghost stays while any projection references it", "statement": "A ghost agent obtained n times with reference counting (get_ghost(..., incr=1)) stays available until remove_ghost has been called n times, and is gone afterwards; a ghost obtained by request_agents is not dropped by remove_ghost at all.", "quantifier": "all sequences of AgentManager operations", "why_tests_cant": "Arbitrary interleavings of operations on many agents.", "anchors": ["src/repast4py/core.py: AgentManager.add_ghost", "src/repast4py/core.py: AgentManager.get_ghost", "src/repast4py/core.py: AgentManager.remove_ghost"]}
{"id": "C23", "title": "The ranks an agent is ghosted to are tracked exactly", "statement": "After any sequence of tag_as_ghosted / untag_as_ghosted calls, is_ghosted_to(r, u) holds iff more tags than (successful) untags were recorded for (u, r); untagging an untagged agent raises an error and changes nothing; other agents' records are unaffected.", "quantifier": "all call sequences", "why_tests_cant": "Histories of any length.", "anchors": ["src/repast4py/core.py: AgentManager.tag_as_ghosted", "src/repast4py/core.py: AgentManager.untag_as_ghosted", "src/repast4py/core.py: AgentManager.delete_ghosted"]}
{"id": "C24", "title": "Context population is consistent", "statement": "After any sequence of add / remove / move-out / move-in on a rank: agent(uid) finds exactly the agents added and not removed; agents() yields each of them once in insertion order; agents(agent_type=t) those of type t; size and contains_type agree with these.", "quantifier": "all operation sequences, all agent types", "why_tests_cant": "Two indexes (by uid, by type) must agree after every history.", "anchors": ["src/repast4py/context.py: SharedContext.add", "src/repast4py/context.py: SharedContext.remove", "src/repast4py/context.py: SharedContext.agents", "src/repast4py/context.py: SharedContext.size", "src/repast4py/context.py: SharedContext.contains_type"]}
{"id": "C25", "title": "agents(count, shuffle) selects distinct agents", "statement": "agents(agent_type, count, shuffle) yields min(count, n) distinct local agents of the requested type; with shuffle a permutation prefix, without shuffle the first ones in insertion order.", "quantifier": "all populations, counts and RNG draws", "why_tests_cant": "All shuffles.", "anchors": ["src/repast4py/context.py: SharedContext.agents"]}
{"id": "C26", "title": "Moving agents between ranks conserves the population", "statement": "After move_agents / synchronize on all ranks every agent is local on exactly one rank: the one it was sent to, or, if not sent, the one where it was; none is lost or duplicated, and its type index follows.", "quantifier": "all numbers of ranks, all populations, all destinations", "why_tests_cant": "Global invariant over any number of ranks.", "anchors": ["src/repast4py/context.py: SharedContext.move_agents", "src/repast4py/context.py: SharedContext._process_recv_oob_data", "src/repast4py/context.py: SharedContext._agents_moved"]}
{"id": "C27", "title": "Removing an agent removes its ghosts everywhere", "statement": "If an agent is removed from its context, then after the next synchronize no rank holds a ghost of it.", "quantifier": "all ranks, all ghost distributions", "why_tests_cant": "Distribution of ghosts over ranks is arbitrary.", "anchors": ["src/repast4py/context.py: SharedContext.remove", "src/repast4py/context.py: SharedContext._update_removed_ghosts"]}
{"id": "C28", "title": "An agent that leaves the rank leaves all its projections there", "statement": "If synchronize moves an agent to another rank, it is no longer in any space of the old rank, and is in every space of the new rank at its location, also with several bounded projections.", "quantifier": "all numbers of spaces, all locations", "why_tests_cant": "Depends on the combination of projections.", "anchors": ["src/repast4py/context.py: SharedContext._gather_oob_data", "src/repast4py/context.py: SharedContext._process_recv_oob_data"]}
{"id": "C29", "title": "Projection names are unique", "statement": "add_projection refuses a name already in use, leaves the context unchanged in that case, and get_projection returns exactly the projection added under the name.", "quantifier": "all sequences of additions", "why_tests_cant": "Histories of any length.", "anchors": ["src/repast4py/context.py: SharedContext.add_projection", "src/repast4py/context.py: SharedContext.get_projection"]}
{"id": "C30", "title": "Sticky borders clamp into the space", "statement": "A location passed to move() on a sticky grid is mapped to the nearest cell of the grid: the result is in bounds, locations in bounds are unchanged.", "quantifier": "all bounds with positive extents, all integer points, 1 to 3 dimensions", "why_tests_cant": "Unbounded integer domain.", "anchors": ["src/repast4py/borders.h: StickyBorders::transform"]}
{"id": "C31", "title": "Periodic borders wrap into the space", "statement": "On a periodic grid the result of the border transformation is in bounds, congruent to the input modulo the extent in each dimension, and is the only such cell; locations in bounds are unchanged.", "quantifier": "all bounds with positive extents, all integer points, 1 to 3 dimensions", "why_tests_cant": "Negative coordinates and offsets of any size.", "anchors": ["src/repast4py/borders.h: PeriodicBorders"]}
{"id": "C32", "title": "Continuous borders keep agents in the space", "statement": "The border transformation of a continuous space returns a point inside the half-open bounds, for every double input; points inside are unchanged.", "quantifier": "all bounds, all double coordinates", "why_tests_cant": "Rounding cases are a negligible fraction of the inputs.", "anchors": ["src/repast4py/borders.h: StickyBorders::transform", "src/repast4py/borders.h: transformX"]}
{"id": "C33", "title": "Grid: get_location and get_agents agree", "statement": "After any sequence of add / move / remove operations, get_agents(pt) contains exactly the agents whose get_location is pt, each once, in order of arrival, and get_agent(pt) is one of them (None iff empty).", "quantifier": "all operation sequences, all occupancy types, any number of agents", "why_tests_cant": "Two indexes must agree after every history.", "anchors": ["src/repast4py/grid.h: BaseGrid::move", "src/repast4py/space.h: BaseSpace::remove", "src/repast4py/occupancy.h: MultiOccupancyAccessor", "src/repast4py/occupancy.h: SingleOccupancyAccessor"]}
{"id": "C34", "title": "Single occupancy is never violated", "statement": "On a single-occupancy space no two agents are ever at the same location; a move to an occupied location returns None and leaves all agents where they were.", "quantifier": "all operation sequences", "why_tests_cant": "Histories of any length.", "anchors": ["src/repast4py/occupancy.h: SingleOccupancyAccessor", "src/repast4py/grid.h: BaseGrid::move"]}
{"id": "C35", "title": "A move changes only the moved agent", "statement": "move(agent, pt) places the agent at the border-transformed point and returns that point; every other agent's location and membership is unchanged; moving an agent that is not in the space raises an error and changes nothing.", "quantifier": "all states and points", "why_tests_cant": "Frame property over all other agents.", "anchors": ["src/repast4py/grid.h: BaseGrid::move", "src/repast4py/cspace.h: BaseCSpace::move"]}
{"id": "C36", "title": "get_agents_within returns exactly the agents in the box", "statement": "On a continuous space get_agents_within(box) yields exactly the agents whose location is in the box, each once, after any sequence of add/move/remove.", "quantifier": "all operation sequences, all boxes, all tree thresholds", "why_tests_cant": "The quad/oct-tree splits depending on the history; all shapes must be covered.", "anchors": ["src/repast4py/SpatialTree.h", "src/repast4py/cspace.h: BaseCSpace::getAgentsWithin"]}
{"id": "C37", "title": "Local bounds tile the global bounds", "statement": "The local bounds of the ranks of a Cartesian topology are pairwise disjoint and together cover the global bounds: every cell is owned by exactly one rank.", "quantifier": "all global bounds, all process grids (1D to 3D) with at least one cell per process in each dimension", "why_tests_cant": "All combinations of extents and process counts.", "anchors": ["src/repast4py/distributed_space.cpp: CartesianTopology::getBounds", "src/repast4py/distributed_space.cpp: CartesianTopology::adjust_min_extent"]}
{"id": "C38", "title": "Local extents are balanced", "statement": "Local extents in one dimension differ by at most one cell between ranks, whatever the number of processes.", "quantifier": "all extents and process counts", "why_tests_cant": "All combinations.", "anchors": ["src/repast4py/distributed_space.cpp: CartesianTopology::adjust_min_extent"]}
{"id": "C39", "title": "An agent that moves out of local bounds is routed to the owner", "statement": "If an agent is moved to a point outside the local bounds but inside the global bounds, the next synchronize sends it to the unique rank whose local bounds contain the point, and to no other; an agent moved back before synchronize is not sent.", "quantifier": "all process grids, all sequences of moves between synchronizations", "why_tests_cant": "History of moves plus arbitrary process grid.", "anchors": ["src/repast4py/distributed_space.h: DistributedCartesianSpace::move", "src/repast4py/distributed_space.h: getAllBounds"]}
{"id": "C40", "title": "Neighbourhood is symmetric", "statement": "If rank a lists rank b as a neighbour, then rank b lists rank a; a rank that is not adjacent (or wrapped, if periodic) is not listed.", "quantifier": "all process grids, both border types", "why_tests_cant": "All process grids.", "anchors": ["src/repast4py/distributed_space.cpp: CartesianTopology::getNeighbors"]}
{"id": "C41", "title": "Buffer regions cover exactly the shared halo", "statement": "For a neighbour at a given offset the buffer region is exactly the part of the local bounds within buffer_size of that border, so that after synchronize a rank sees every agent within buffer_size of its bounds.", "quantifier": "all process grids, buffer sizes, border types", "why_tests_cant": "All process grids, including the degenerate ones with 1 or 2 processes in a dimension.", "anchors": ["src/repast4py/distributed_space.cpp: compute_buffer_bounds", "src/repast4py/distributed_space.cpp: compute_neighbor_buffers"]}
{"id": "C42", "title": "Neighbour finders return exactly the Moore neighbourhood", "statement": "find_1d/2d/3d_nghs_sticky return exactly the in-bounds cells at Chebyshev distance at most 1 of the point, each once; the periodic versions return the 3^d wrapped neighbours, all in bounds.", "quantifier": "all bounds, all points in bounds", "why_tests_cant": "All points and extents, including extents 1 and 2.", "anchors": ["src/repast4py/geometry.py: find_2d_nghs_sticky", "src/repast4py/geometry.py: find_2d_nghs_periodic", "src/repast4py/geometry.py: find_3d_nghs_sticky"]}
{"id": "C43", "title": "Value layer get returns the last value set at the location", "statement": "After any sequence of set(pt, v) on a value layer, get(pt) returns the last value set at any location equal to pt under the border transformation, and the initial value if none.", "quantifier": "all call sequences, bounds with arbitrary origin, sticky and periodic borders", "why_tests_cant": "Aliasing between locations depends on all coordinates.", "anchors": ["src/repast4py/value_layer.py: ValueLayer.get", "src/repast4py/value_layer.py: ValueLayer.set"]}
{"id": "C44", "title": "Read/write layers are isolated until swap", "statement": "On a ReadWriteValueLayer, set() never changes what get() returns until swap_layers(), after which get() returns the values written.", "quantifier": "all sequences of set/get/swap", "why_tests_cant": "Histories of any length.", "anchors": ["src/repast4py/value_layer.py: ReadWriteValueLayer.swap_layers", "src/repast4py/value_layer.py: ReadWriteValueLayer.set", "src/repast4py/value_layer.py: ReadWriteValueLayer.get"]}
{"id": "C45", "title": "Value layer ghost cells equal the neighbour's values after synchronize", "statement": "After synchronize every buffered cell of a SharedValueLayer holds the value the owning rank has for that location.", "quantifier": "all process grids, buffer sizes and values", "why_tests_cant": "All process grids including wrap-around.", "anchors": ["src/repast4py/value_layer.py: SharedValueLayer._synch_ghosts"]}
{"id": "C46", "title": "Network edges reflect the operation history", "statement": "After any sequence of add / add_edge / update_edge / remove_edge / remove(agent): contains_edge(u, v) holds iff the edge was added and not removed since; num_edges and edges agree; attributes are the last ones written; an undirected network is symmetric.", "quantifier": "all operation sequences on any number of nodes", "why_tests_cant": "Histories of any length.", "anchors": ["src/repast4py/network.py: SharedNetwork", "src/repast4py/network.py: UndirectedSharedNetwork", "src/repast4py/network.py: DirectedSharedNetwork"]}
{"id": "C47", "title": "Edges between ranks are mirrored by synchronize", "statement": "After synchronize an edge between a local and a ghost agent exists with the same attributes on the ghost's rank; a removed edge is removed there.", "quantifier": "all edge sets, all ranks", "why_tests_cant": "All histories on both sides.", "anchors": ["src/repast4py/network.py: SharedNetwork._sync_edges", "src/repast4py/network.py: SharedNetwork._sync_vertices"]}
{"id": "C48", "title": "Network partition is total and balanced", "statement": "write_network with the random partition method assigns every node to exactly one rank in range, and the numbers of nodes per rank differ by at most one.", "quantifier": "all graphs and rank counts, all shuffles", "why_tests_cant": "All sizes.", "anchors": ["src/repast4py/network.py: _random_partition", "src/repast4py/network.py: write_network"]}
{"id": "C49", "title": "Network file round trip", "statement": "Reading a file written by write_network yields the same nodes (id, type, rank, attributes) and the same edges with attributes.", "quantifier": "all graphs", "why_tests_cant": "All graphs and attribute values.", "anchors": ["src/repast4py/network.py: write_network", "src/repast4py/network.py: read_network"]}
{"id": "C50", "title": "Logged data does not depend on the buffer size", "statement": "The file written by a ReducingDataSet after close contains one row per log(tick) call, in order, with each source's reduced value, whatever buffer_size is.", "quantifier": "all numbers of rows, all buffer sizes, all data", "why_tests_cant": "Flush points vary with the buffer size and the internal growth step.", "anchors": ["src/repast4py/logging.py: ReducingDataSet.log", "src/repast4py/logging.py: ReducingDataSet.write", "src/repast4py/logging.py: ReducingDataLogger"]}
{"id": "C51", "title": "Tabular rows are written exactly once", "statement": "Every row passed to TabularLogger.log_row on any rank is written exactly once over the write() calls, by rank and then in log order; rows are cleared after write.", "quantifier": "all row sequences, all ranks, all placements of write()", "why_tests_cant": "Histories of any length.", "anchors": ["src/repast4py/logging.py: TabularLogger"]}
{"id": "C52", "title": "find_free_filename never returns an existing file", "statement": "find_free_filename returns the path itself if it does not exist, otherwise the first stem_k+suffix, k = 1, 2, ..., that does not exist; it terminates on every file system with finitely many files.", "quantifier": "all file systems and paths", "why_tests_cant": "All sets of existing files.", "anchors": ["src/repast4py/util.py: find_free_filename"]}
{"id": "C53", "title": "Agent ids are totally ordered", "statement": "Agents are distinguished exactly by (id, type, rank): two ids are equivalent for the agent maps iff all three components are equal, and the comparison is a strict total order.", "quantifier": "all ids", "why_tests_cant": "Order laws quantify over all triples.", "anchors": ["src/repast4py/core.h: agent_id_comp"]}
{"id": "C54", "title": "Parameters: command line overrides file", "statement": "init_params returns for each key the value in the JSON string if present there, otherwise the value in the file, and no other keys; the RNG is seeded with the resulting random.seed if present.", "quantifier": "all parameter files and strings", "why_tests_cant": "All key sets.", "anchors": ["src/repast4py/parameters.py: init_params"]}
{"id": "C55", "title": "An agent has the unique id it was constructed with", "statement": "Agent(id, type, rank) either raises or creates an agent whose uid is (id, type, rank), for all integer arguments; an agent whose constructor raised can be deallocated.", "quantifier": "all integers id, type, rank", "why_tests_cant": "The constructor stores a long into a 32 bit field; only unusual ranks show the truncation and the overwritten pointer.", "anchors": ["src/repast4py/coremodule.cpp: Agent_init", "src/repast4py/coremodule.cpp: Agent_dealloc"]}
{"id": "C56", "title": "Checkpointed networks survive a round trip", "statement": "Restoring a saved network into contexts with the restored agents gives every rank the edges that its agents had when the network was saved, with the same attributes, also for edges between ranks; later calls on the restored network have the same effect.", "quantifier": "all networks reached by any calls on any number of ranks, directed and undirected", "why_tests_cant": "Arbitrary networks and histories; the repository tests restore undirected networks only on several processes.", "anchors": ["src/repast4py/checkpoint.py: Checkpoint.save_network", "src/repast4py/checkpoint.py: Checkpoint.restore_network", "src/repast4py/checkpoint.py: NetworkRestorer"]}
{"id": "C57", "title": "The heap of waiting events never compares events and always has the next event first", "statement": "Whatever is scheduled, voided and executed, the heapq operations on Schedule.queue never have to compare two event objects, so no call raises TypeError; the entries have different order indices; queue[0] is the only entry with the least tick and, within it, the least order index, so next_tick() is the earliest waiting tick; and the schedule behaves as if the queue were a sorted list.", "quantifier": "all sequences of API calls and executes, all callable behaviours, all intervals (also zero and negative ones), all RNG draws", "why_tests_cant": "The shape of the heap depends on the whole history; a tie between two entries would show up only in some histories.", "anchors": ["src/repast4py/schedule.py: Schedule._push_event", "src/repast4py/schedule.py: RepeatingEvent.reschedule", "src/repast4py/schedule.py: Schedule.execute", "src/repast4py/schedule.py: Schedule.next_tick"]}
{"id": "C58", "title": "After synchronize the buffers show exactly the agents near the rank", "statement": "After synchronize() of a model with one shared grid with a buffer, the ghosts of each rank are exactly the agents of other ranks whose location is at most buffer_size cells away (in each dimension, across periodic borders) from the rank's local bounds, each with the current state and location of the agent; get_agents at any location of that region returns every agent of the model that is there once, and nothing at other locations.", "quantifier": "all numbers of ranks, dimensions and process grids in which no two ranks are neighbors twice, all buffer sizes up to the smallest local bounds, all histories of add, remove, move, state changes, synchronize and move_agents", "why_tests_cant": "The content of the buffers depends on the history, on the process grid and on the borders; stale copies show up only after particular sequences.", "anchors": ["src/repast4py/space.py: SharedGrid._fill_send_data", "src/repast4py/space.py: SharedGrid._process_recv_data", "src/repast4py/space.py: SharedGrid._pre_synch_ghosts", "src/repast4py/context.py: SharedContext.synchronize", "src/repast4py/distributed_space.h: compute_neighbor_buffers"]}
{"id": "C59", "title": "The ranks together behave like one process", "statement": "In a model with one shared grid of multiple occupancy the state and the location of every agent are those that the calls would give on a single process, whatever is synchronized and moved between ranks: each agent is local to exactly one rank with this state and location (move_agents drops the location), and after synchronize it is the rank that owns the location.", "quantifier": "all numbers of ranks and process grids as in C58, all histories of add, remove, move, state changes, synchronize (with ghosts, if there is a buffer) and move_agents in which ids and objects are not reused", "why_tests_cant": "A refinement between all distributed executions and a sequential one.", "anchors": ["src/repast4py/context.py: SharedContext.synchronize", "src/repast4py/context.py: SharedContext.move_agents", "src/repast4py/context.py: SharedContext._gather_oob_data", "src/repast4py/context.py: SharedContext._process_recv_oob_data", "src/repast4py/space.py: SharedGrid._agent_moving_rank", "src/repast4py/space.py: SharedGrid._agents_moved_rank"]}
{"id": "C60", "title": "Calls of a distributed model fail only through their arguments", "statement": "In a model with one shared grid of multiple occupancy, in any reachable state: synchronize() returns on all ranks; add, remove, move and changes of state return exactly if the agent is local to the rank; move_agents returns exactly if each rank lists only its local agents, each once, with existing destination ranks, none of which holds a copy of the agent in its buffer.", "quantifier": "all numbers of ranks and process grids as in C58, all histories of add, remove, move, state changes, synchronize (with ghosts, if there is a buffer) and move_agents in which ids and objects are not reused, all arguments of the next call", "why_tests_cant": "A KeyError in one phase of a collective call, which leaves the other ranks waiting, needs a particular history of copies, counts of references and moves.", "anchors": ["src/repast4py/context.py: SharedContext.synchronize", "src/repast4py/context.py: SharedContext.move_agents", "src/repast4py/context.py: SharedContext._gather_oob_data", "src/repast4py/context.py: SharedContext._process_recv_oob_data", "src/repast4py/space.py: SharedGrid._fill_send_data", "src/repast4py/space.py: SharedGrid._pre_synch_ghosts"]}
{"id": "C61", "title": "Edges follow agents that move to other ranks", "statement": "If move_agents moves agents of a shared network then afterwards every edge of the network, with its attributes, is on the rank of each of its two agents, and on no other rank, whichever agents of whichever ranks were moved; the call does not raise.", "quantifier": "all numbers of ranks, directed and undirected networks, all histories of agents, requested ghosts, edges and synchronizations, all lists of moved agents", "why_tests_cant": "An edge may be local, created here to a ghost, or received; either end, both ends or neighbours of them may move to ranks that have or do not have a copy of the agent: the combinations with earlier calls are unbounded.", "anchors": ["src/repast4py/network.py: SharedNetwork._agent_moving_rank", "src/repast4py/network.py: SharedNetwork._agents_moved_rank", "src/repast4py/network.py: SharedNetwork._post_agents_moved_rank", "src/repast4py/context.py: SharedContext.move_agents"]}
{"id": "C62", "title": "A model with a shared continuous space is one model", "statement": "In a model with one SharedCSpace, of single or multiple occupancy, sticky or periodic: every agent is local to exactly one rank, with the state and the location that the calls determine, whatever the ranks did; after synchronize() that rank is the one to whose part the location belongs, and each rank has copies of exactly the agents of other ranks within the buffer distance of its part (across periodic borders), with their current states and locations; get_agents_within() of a rank returns, once each, the local agents and the copies located in the box, hence after synchronize(), for boxes within the part and the buffer, exactly what a single process would return; synchronize() returns, and add, remove, move and changes of state return exactly if the agent is local to the rank.", "quantifier": "all numbers of ranks and process grids with two or three dimensions (at least three processes along a periodic dimension that is divided), all histories of add, remove, move, state changes and synchronize, all queries; targets are multiples of a power of two in the bounds, different agents have different targets", "why_tests_cant": "Which agents a rank finds depends on the shape of its tree after insertions and removals of copies in every synchronization, on roundings of cell borders, and on the buffer ranges towards up to 26 neighbours.", "anchors": ["src/repast4py/space.py: SharedCSpace._fill_send_data", "src/repast4py/space.py: SharedCSpace._process_recv_data", "src/repast4py/space.py: SharedCSpace._pre_synch_ghosts", "src/repast4py/space.py: SharedCSpace.synch_ghosts", "src/repast4py/cspace.h: ContinuousSpace::getAgentsWithin", "src/repast4py/distributed_space.h: DistributedCartesianSpace::move", "src/repast4py/context.py: SharedContext.synchronize"]}
{"id": "C63", "title": "Agents of a shared continuous space may meet", "statement": "C62 also holds if agents go to points where other agents are (multiple occupancy), or to points that no other agent occupies at the time (single occupancy), if a model with a buffer is synchronized without ghosts, and for spaces of one dimension.", "quantifier": "all histories of add, remove, move, state changes and synchronize with targets in the bounds", "why_tests_cant": "Two agents of different ranks at the same real point are rare in tests; the failure shows only in a query or a synchronization after one of them has left.", "anchors": ["src/repast4py/space.py: SharedCSpace._pre_synch_ghosts", "src/repast4py/space.py: SharedCSpace._process_recv_data", "src/repast4py/SpatialTree.h: MOItems", "src/repast4py/context.py: SharedContext.synchronize"]}
{"id": "C64", "title": "Agents keep their state on all ranks", "statement": "The state of an agent is the one it was given last, on whatever rank it is, after any number of moves between ranks by location or by move_agents, of requests and of synchronizations with any number of shared spaces; the copies of it on other ranks show that state after synchronize.", "quantifier": "all numbers of ranks, agents and shared grids with or without buffers, all histories of add, remove, move, state changes, synchronize, move_agents and request_agents, all functions that restore agents", "why_tests_cant": "Whether a state survives depends on the identity of the objects that the restoring function returns, on the order of the phases of a synchronization and on which ranks have copies; tests fix a few agents and one restoring function.", "anchors": ["src/repast4py/context.py: SharedContext.synchronize", "src/repast4py/context.py: SharedContext.move_agents", "src/repast4py/context.py: SharedContext.request_agents", "src/repast4py/context.py: SharedContext._update_ghosts", "src/repast4py/space.py: SharedGrid._process_recv_data"]}
{"id": "C65", "title": "Copies of agents in a network are kept up to date", "statement": "Whenever a rank has a copy of an agent of another rank, because it requested it or because of an edge in the network, and after synchronize() whenever an agent of another rank is in its network, the rank of the agent sends its state to that rank in the next synchronization.", "quantifier": "all numbers of ranks, directed and undirected networks, all histories of creating agents, requesting agents, adding nodes, adding, updating and removing edges, clear_edges and synchronize", "why_tests_cant": "Which ranks are told depends on a table of ghosted agents that requests, new edges and removed edges change on different ranks; the failure is a stale state, not an error, and needs two reasons for the same copy.", "anchors": ["src/repast4py/network.py: SharedNetwork._pre_synch_ghosts", "src/repast4py/network.py: SharedNetwork._sync_removed", "src/repast4py/network.py: SharedNetwork._sync_vertices", "src/repast4py/core.py: AgentManager.tag_as_ghosted", "src/repast4py/core.py: AgentManager.untag_as_ghosted", "src/repast4py/context.py: SharedContext.request_agents", "src/repast4py/context.py: SharedContext.synchronize"]}
{"id": "C66", "title": "A checkpoint saved by a scheduled event", "statement": "When a scheduled event saves the schedule and the random state, restoring them gives the same pending events, and the restored run continues as the saved one does.", "quantifier": "all schedules and callables, saves at any call of any event of a tick, all end events, tags, registries of callables and continuations of the restored run", "why_tests_cant": "Which events are in the queue in the middle of a tick depends on the priorities and on the random order of the tick; with a different seed the same test loses another event, and the loss shows only in later ticks of the restored run.", "anchors": ["src/repast4py/checkpoint.py: Checkpoint.save_schedule", "src/repast4py/checkpoint.py: Checkpoint.restore_schedule", "src/repast4py/checkpoint.py: Checkpoint.save_random", "src/repast4py/checkpoint.py: Checkpoint.restore_random", "src/repast4py/schedule.py: Schedule.execute", "src/repast4py/schedule.py: ScheduleGroup.execute"]}
{"id": "C67", "title": "From a dataclass to the log file", "statement": "The file of a ReducingDataSet with the loggers that create_loggers makes for a dataclass has a column for each chosen field, in the order of the fields and under the chosen name, and for each call of log a row with the reductions of the values that the fields have on all ranks at that time. create_loggers raises a ValueError if no field is chosen. The file is made under a free name in the directory that was given.", "quantifier": "all dataclasses, names arguments, reductions, numbers of ranks, calls of create_loggers that are combined, assignments to the fields, calls of log and write, buffer sizes, file systems and paths", "why_tests_cant": "Tests check a few dataclasses with small integers and files in an existing directory; which of the values at which time ends in which column depends on the interleaving of assignments, logs and writes.", "anchors": ["src/repast4py/logging.py: DCDataSource", "src/repast4py/logging.py: create_loggers", "src/repast4py/logging.py: ReducingDataSet.__init__", "src/repast4py/logging.py: ReducingDataSet.write", "src/repast4py/logging.py: TabularLogger.__init__", "src/repast4py/util.py: find_free_filename"]}
{"id": "C68", "title": "Shared value layers with a read and a write layer", "statement": "On a ReadWriteValueLayer that is shared between ranks, values set are not read by any rank before a swap. After the owner of a location sets a value, all ranks swap and the layer is synchronized (in either order), every rank whose buffer contains the location reads that value. Every get returns what a replay of the calls of all ranks says. A layer in a context is synchronized by the context.", "quantifier": "all bounds, numbers of processes, buffer sizes, border types and initial values, all sequences of set, get, swap_layers and synchronizations by all ranks", "why_tests_cant": "The tests of the project swap and read on a few small layers of 4 or 9 ranks; which of the two tensors holds which value of which rank depends on the order of the sets, swaps and synchronizations of all ranks.", "anchors": ["src/repast4py/value_layer.py: ReadWriteValueLayer", "src/repast4py/value_layer.py: SharedValueLayer._synch_ghosts", "src/repast4py/context.py: SharedContext._synch_ghosts"]}
{"id": "C69", "title": "A network file read by all ranks", "statement": "After all ranks call read_network on a file that write_network wrote, no rank has failed and the network is directed as written; every agent of the file is on the rank that the file gives it (all on the one rank of a single process); each rank has copies of exactly those agents of other ranks that have an edge to one of its agents, and is sent their state from then on; it has exactly the edges of its agents, with the attributes of the file, under either order of the ends if the network is undirected; the nodes of its network are its agents and copies. The edges can then be updated and removed by their ranks.", "quantifier": "all simple graphs, attributes, names, numbers of ranks, assignments of ranks to nodes, and create_agent and restore_agent functions", "why_tests_cant": "The test files have a few nodes and at most one edge between an agent and another rank; the requests, the edges that both ranks of an edge add, and their exchange depend on the assignment of the nodes to the ranks.", "anchors": ["src/repast4py/network.py: read_network", "src/repast4py/network.py: _parse_edge", "src/repast4py/network.py: _request_remote_agents", "src/repast4py/network.py: _create_edges", "src/repast4py/context.py: SharedContext.request_agents", "src/repast4py/context.py: SharedContext.synchronize"]}
{"id": "C70", "title": "Network files with the partition of metis", "statement": "write_network with partition_method='metis' writes each node with the number of its part as its rank. After all ranks read the file, each rank has the agents of its part, copies of exactly the agents of other parts with an edge to them, and exactly the edges of its agents with their attributes. The call is refused exactly if the partition has something that is not a node or a node with a bad type.", "quantifier": "all simple graphs, partitions of their nodes, attributes, names, and create_agent and restore_agent functions", "why_tests_cant": "The tests need nxmetis and are for one graph with one partition; the order of the nodes in the file is that of the parts, and the parts are arbitrary.", "anchors": ["src/repast4py/network.py: _metis_partition", "src/repast4py/network.py: write_network", "src/repast4py/network.py: read_network"]}
{"id": "C71", "title": "Loops over the agents at a location", "statement": "A loop over grid.get_agents(pt) gets the agents that were at the location at its start, each once, in order of arrival, and then ends, if the body neither moves agents to the location nor moves or removes agents there that the loop has not come to (moving or removing the agent it has come to is fine); other locations may change in any way, and other loops may run at the same time. In general an iterator is a cursor in the row of the agents of the location: arrivals go to the end of the row (behind the cursor if it is at the end), departures close the row, and next() after the departure of the agent that would be next follows a pointer to freed memory.", "quantifier": "all programs: sequences of calls with any agents, points, iterators, occupancy types and borders", "why_tests_cant": "The tests loop over locations that do not change; the behaviour depends on the interleaving of the body with the iterator, and undefined behaviour may look right.", "anchors": ["src/repast4py/core.h: TAgentIter", "src/repast4py/coremodule.cpp: AgentIter_iter", "src/repast4py/coremodule.cpp: AgentIter_next", "src/repast4py/occupancy.h: MultiOccupancyAccessor", "src/repast4py/spacemodule.cpp: Grid_getAgents"]}
{"id": "C72", "title": "Points returned by a grid", "statement": "move and get_location of a grid return, for an agent, the same point object each time, and its coordinates are the location of the agent at every later moment, also after further moves, until the agent is removed or added again; after that they stay. A saved location therefore does not keep its value. Points made by the program never change by a call of the grid.", "quantifier": "all programs: sequences of calls with any agents, points, occupancy types and borders", "why_tests_cant": "A test reads the coordinates right after the call; that they follow the agent, and when they stop to, needs all continuations.", "anchors": ["src/repast4py/grid.h: BaseGrid.move", "src/repast4py/space.h: BaseSpace.getLocation", "src/repast4py/space.h: BaseSpace.remove", "src/repast4py/spacemodule.cpp: Grid_move", "src/repast4py/spacemodule.cpp: Grid_getLocation", "src/repast4py/geometry.cpp: update_point"]}
{"id": "C73", "title": "References to agents and points", "statement": "No call of a grid follows a pointer to a freed agent or point, except next() of an iterator whose next agent has left the location (multiple occupancy), or whose agent has left the grid with no reference left (single occupancy). If no agent is added while it is in the grid, the reference count of an agent is that of the program plus one for the grid and one for each location it is at, and that of a point is that of the program plus one if it is the location of an agent; when all agents are removed and the program has no references, everything is freed.", "quantifier": "all programs: sequences of calls, in which references may be dropped at any moment", "why_tests_cant": "Tests cannot see reference counts going wrong by one until memory is reused.", "anchors": ["src/repast4py/space.h: BaseSpace.add", "src/repast4py/space.h: BaseSpace.remove", "src/repast4py/space.h: BaseSpace.move", "src/repast4py/occupancy.h: MultiOccupancyAccessor", "src/repast4py/occupancy.h: SingleOccupancyAccessor", "src/repast4py/spacemodule.cpp: Grid_getAgent", "src/repast4py/coremodule.cpp: AgentIter_next"]}
{"id": "C74", "title": "Loops over the agents of a context", "statement": "A loop over context.agents() or context.agents(agent_type) visits the agents (of the type) that are in the context when the loop starts, each exactly once and in the order of insertion, if no visit but the last adds or removes an agent (of the type); agents of other types may be added and removed, and an agent that is replaced by one with the same id is visited as the new object. If a visit other than the last adds or removes an agent (of the type), the loop raises RuntimeError right after it. A loop over context.agents with count or shuffle visits the agents that were chosen when it started, whatever is added or removed meanwhile.", "quantifier": "all histories of agents added, removed, moved to and received from other ranks; any number of iterators used in any order; all bodies of loops", "why_tests_cant": "Tests fix one body and one population; that a removal in the last visit is not noticed hides the error for small populations.", "anchors": ["src/repast4py/context.py: SharedContext.agents", "src/repast4py/context.py: SharedContext.add", "src/repast4py/context.py: SharedContext.remove", "src/repast4py/core.py: AgentManager"]}
{"id": "C75", "title": "Points are values", "statement": "A DiscretePoint or ContinuousPoint is three numbers. The constructor and the reset methods set the given coordinates (from numbers, a tuple of three numbers or the first three elements of an array, also when the array is the point's own) and leave the others, or raise and change nothing; reading x, y, z and the coordinates array gives the numbers last set, and a number written into the coordinates array is the point's. p == q is True exactly for points of the same type with equal coordinates, none NaN, and p != q is its negation. No call reads memory outside of the arrays.", "quantifier": "all programs of constructors, arrays, resets, reads, writes and comparisons; all numbers, tuples and views of arrays", "why_tests_cant": "Tests reset points from fresh contiguous arrays and compare with ==; strided views, partial failures and != are not tried.", "anchors": ["src/repast4py/spacemodule.cpp: DiscretePoint_init", "src/repast4py/spacemodule.cpp: DiscretePoint_reset1D", "src/repast4py/spacemodule.cpp: DiscretePoint_reset2D", "src/repast4py/spacemodule.cpp: DiscretePoint_reset3D", "src/repast4py/spacemodule.cpp: DiscretePoint_reset", "src/repast4py/spacemodule.cpp: DiscretePoint_reset_from_array", "src/repast4py/spacemodule.cpp: DiscretePoint_richcmp", "src/repast4py/spacemodule.cpp: ContinuousPoint_reset", "src/repast4py/spacemodule.cpp: ContinuousPoint_reset_from_array", "src/repast4py/spacemodule.cpp: ContinuousPoint_richcmp"]}
{"id": "C76", "title": "Events that raise", "statement": "If the callable of an event raises an exception, Schedule.execute raises it at once: everything that happened before is as without the exception, no other event of the tick is called, the events at later ticks are still scheduled, except the event that raised. If the program catches the exception and calls execute again, the events at later ticks are executed as if the events of the tick that were not called did not exist.", "quantifier": "all schedules, callables, random draws and exceptions; all programs that go on after the exception", "why_tests_cant": "Tests do not go on after an exception; that nothing is ever executed afterwards is a statement about all continuations.", "anchors": ["src/repast4py/schedule.py: ScheduleGroup.execute", "src/repast4py/schedule.py: ScheduleGroup.execute_evts", "src/repast4py/schedule.py: ScheduleGroup.reset", "src/repast4py/schedule.py: ScheduleGroup.add_evt", "src/repast4py/schedule.py: Schedule.execute", "src/repast4py/schedule.py: SharedScheduleRunner.execute"]}
{"id": "C77", "title": "The times of repeating events", "statement": "A repeating event scheduled at `at` with a positive interval is executed at the ticks at, at + interval, at + 2 * interval, ... up to the current tick, in the arithmetic of the real numbers: it meets other events scheduled for these ticks, and the schedule gets to every later tick.", "quantifier": "all schedules, callables and random draws; all doubles as times and intervals (without overflow)", "why_tests_cant": "Tests use small integers, for which doubles are exact; rounding accumulates over long runs and most intervals.", "anchors": ["src/repast4py/schedule.py: RepeatingEvent.reschedule", "src/repast4py/schedule.py: Schedule.execute", "src/repast4py/schedule.py: Schedule.schedule_repeating_event"]}
{"id": "C78", "title": "Random local points", "statement": "get_random_local_pt of a SharedGrid or SharedCSpace returns a point of the local bounds of the rank (lower bounds included, upper bounds excluded, 0 in unused dimensions), which no other rank owns. For a grid every such point can be drawn, and an agent that is moved to the point is at exactly this point, if it is not occupied, and is not moved to another rank.", "quantifier": "all topologies, ranks, borders, histories of the space and draws of the random number generator", "why_tests_cant": "The draws for which rounding gives the upper bound have a probability of about 2^-50; tests use a few draws.", "anchors": ["src/repast4py/space.py: SharedGrid._create_random_pt_func", "src/repast4py/space.py: SharedGrid.get_random_local_pt", "src/repast4py/space.py: SharedCSpace._create_random_pt_func", "src/repast4py/space.py: SharedCSpace.get_random_local_pt", "src/repast4py/geometry.py: get_num_dims"]}
{"id": "C79", "title": "Attributes in network files", "statement": "The attributes of nodes and edges that write_network writes as JSON are read by read_network as the same values: numbers, strings of all characters, constants, lists and dictionaries come back equal, and every graph whose attributes can be written can be read again.", "quantifier": "all graphs, numbers of ranks, reading ranks and attribute values (strings of all code points, numbers, constants, nested lists and dictionaries)", "why_tests_cant": "Tests use a few flat dictionaries with short ASCII strings; the pattern that splits the lines and the escapes of JSON matter for all nestings and code points.", "anchors": ["src/repast4py/network.py: _write_node", "src/repast4py/network.py: _write_edges", "src/repast4py/network.py: _parse_node", "src/repast4py/network.py: _parse_edge", "src/repast4py/network.py: _create_edges", "src/repast4py/network.py: _LINE_P"]}
{"id": "C80", "title": "Network files that cannot be written", "statement": "If write_network raises because of a node whose agent_type is not a non-negative integer, then the file is as it was before the call, or at least it cannot be mistaken for a complete network description.", "quantifier": "all graphs, names, numbers of ranks, shuffles and earlier contents of the file", "why_tests_cant": "Tests check that the exception is raised, not what is left in the file for each position of the node.", "anchors": ["src/repast4py/network.py: _random_partition", "src/repast4py/network.py: _write_node", "src/repast4py/network.py: read_network"]}
{"id": "C81", "title": "Copies that no edge needs", "statement": "When an agent of a shared network leaves a rank by move_agents, the copies of agents of other ranks that were on the rank only for edges with this agent are removed from the network of the rank: a copy that was not requested and is still a node afterwards has an edge on the rank.", "quantifier": "all states of a rank and its network, directed and undirected, all leaving agents and all their edges", "why_tests_cant": "Tests move agents with a few edges and look at the edges, not at nodes left without edges; it depends on the directions of all edges of the neighbours.", "anchors": ["src/repast4py/network.py: SharedNetwork._agent_moving_rank", "src/repast4py/network.py: UndirectedSharedNetwork.num_edges", "src/repast4py/network.py: DirectedSharedNetwork.num_edges"]}
