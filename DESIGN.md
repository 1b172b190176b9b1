# Formal model of repast4py in Rocq: design

The code modelled is `/repo/src/repast4py` (Python and C++) at the pinned commit. It was read as text; nothing of it
was built or run. The properties are in `properties.jsonl`; the status of each is in `MANIFEST.json`.

## Layout (`rocq/theories`)

One model file per source module (`*Model.v`: definitions only, each citing the file and lines it models), one file of
lemmas (`*Proofs.v`), and the property theorems (`*Props.v`), each closed by `exact <lemma>` and followed by
`Print Assumptions` and by an `Example` showing that its hypotheses are met. Small specifications that do not use the model's
helpers are in `*Spec.v` or at the top of the `Props` file.

## Modelling conventions

* Python/C++ integers are `Z`. Lengths, list indices, fuel are `nat`.
* Doubles used as ticks and priorities: only `<`, `==` and `+` are applied to them. A non-NaN double is represented by an
  integer `Z` that is order-isomorphic to it (for instance its sign/magnitude bit pattern, both zeros being 0);
  the addition in `RepeatingEvent.reschedule` is an arbitrary function `fadd : Z -> Z -> Z` (a Section variable, so
  every theorem is for all additions, including the rounding one of binary64). NaN priorities are `None`.
* Doubles that are computed with (borders of continuous spaces, the spatial tree, periodic grids): `FloatModel.v`. Every finite
  double is an integer multiple of 2^-1074; `Fin v` is v * 2^-1074, and each operation is the exact one followed by rounding to
  nearest, ties to even (`to_double`), with infinities and NaN. The two zeros are identified.
* Callables, RNG, MPI: a callable is an oracle from the complete history to a list of API calls; RNG draws are an arbitrary stream;
  collectives are functions of the vector of all ranks' values (lock-step rounds). Ranks that disagree on whether to enter
  a collective give the outcome `Deadlock`.
* Exceptions are values (`Err ...`); loops without structural bound take fuel, and running out of fuel is a separate outcome that
  theorems exclude.

## Plan per property

| id | modelled | proof |
|----|----------|-------|
| C01-C12 | `ScheduleGroup`, `Schedule`, events with heap order, `sort` incl. CPython's small-list sort for NaN keys, `execute_evts` with interruption; callables as oracles | invariant over in-tick execution and over `execute` steps: sorted queue, all queued times > tick, conservation of pending events (multiset), group order invariant. C10, C12: refutation by computation plus the theorem under the exact guard |
| C13-C16 | `SharedScheduleRunner` on n ranks, allreduce as minimum of a list, lock-step rounds | invariant over rounds; C15/C16 refutations plus guarded theorems |
| C17-C20 | `Checkpoint.save_schedule/_schedule_evt/restore_schedule` on the schedule model | round trip (equality of the restored state up to handles), then equality of futures as a corollary; C20 refuted by computation |
| C21 | agents/kv/space save and restore over the context and grid models | round trip by induction on the lists |
| C22-C23 | `AgentManager` as association maps | refinement to a counting specification over op lists |
| C24-C25, C29 | `SharedContext` single-rank operations | refinement to a list of agents |
| C26-C28 | all ranks as a list of contexts, `alltoall` as transposition | global invariant; C28 refuted for two bounded projections plus theorem for one |
| C30-C32 | `StickyBorders`, `PeriodicBorders` on `Z` (with the conversion to double before `fmod`) and on doubles with rounding (`FloatModel.v`) | arithmetic; C32 refuted by computation in binary64, proved under exact guards |
| C33-C35 | `BaseSpace`, `BaseGrid::move`, both accessors | invariant over op lists, refinement to a map agent -> location |
| C36 | `SpatialTree` (2D and 3D), `SOItems`, `MOItems`, with the mutable point identity of the MO map keys | tree invariant (node boxes, counts) for single occupancy; refutations for multi occupancy |
| C37-C41 | `CartesianTopology::getBounds/adjust_min_extent/getNeighbors`, `compute_buffer_bounds`, `compute_neighbor_buffers`, `DistributedCartesianSpace::move/getAllBounds` | arithmetic on process grids; refutations for degenerate periodic grids |
| C42 | `geometry.py` neighbour finders | list membership, NoDup |
| C43-C45 | value layer get/set/border/translation, RW layer, ghost exchange | map laws, refinement; refutations for the overlapping slices |
| C46-C47 | networkx graph as adjacency map, `SharedNetwork` bookkeeping | refinement to a set of edges; refutations for the KeyErrors |
| C48-C49 | `_random_partition`, `write_network`/`read_network` at token level | counting; round trip |
| C50-C51 | loggers with array growth, data set, tabular logger | refinement to a list of rows |
| C52 | `find_free_filename` over a finite set of existing names | fuelled loop, termination by counting |
| C53 | `agent_id_comp` | order laws |
| C54 | `parameters.init_params`, `random.init` | map laws |
| C55 | `Agent` construction in C (`core.cpp`) | arithmetic modulo 2^32 |
| C56 | `Checkpoint.save_network/restore_network`, `NetworkRestorer` on all ranks of the network model | graph growth by edges with attributes of the saved graph; failure of directed networks proved in general |
| C57 | `heapq.heappush/heappop` with both sift loops and the schedule on top of them | heap property with a hole, then a simulation of the sorted-list schedule; order indices of waiting events distinct |
| C58 | buffers of `SharedGrid`: `_fill_send_data`, `_process_recv_data`, `_pre_synch_ghosts`, in the world model | invariant of each rank (agents of the space = local agents and copies, counts of references, cells), what each phase does to state and location of each agent, ranges of C41 |
| C59 | the same | refinement of a sheet (id to state and location) that ignores ranks, by induction on the history |
| C60 | the same | each phase is total under the invariant of C58; the converse from what success of each phase implies |
| C61 | `_agent_moving_rank`, `_agents_moved_rank`, `_post_agents_moved_rank`, `move_agents`, on objects | refutations by computation; for histories without ghosts, invariants of the phases of one move; for ranks with ghosts, invariants of the loops over the edges of the ghost |
| C62 | `SharedCSpace` on all ranks: continuous space with its tree, buffers, `get_agents_within` | invariant of each rank (the tree holds the agents of the space at distinct lattice points, from C36), phases total as in C60, geometry of C37-C41 on the cells of real points, refinement of a sheet as in C59 |
| C63 | the same | computation |
| C64 | states of agents in the world model with requests, `move_agents` and several spaces | invariant of each rank: the objects of local agents are distinct from those of ghosts and of later calls, or objects belong to one agent; induction on the history |
| C65 | which states the ranks of a network send | invariant: each copy of a rank is in the table of ghosted agents of its owner, through each phase of synchronize; induction on the history |
| C66 | `save_schedule` called by an event of a running tick: states inside of `execute` as an inductive relation | the invariant of the schedule holds inside of ticks; the saved events are the queue; simulation of C17 from the end of the tick |
| C67 | `create_loggers`, the text of the file of a `ReducingDataSet`, its directory | reduction to C50 with the values that the fields have at each `log`; induction on the calls; parsing of the text |
| C68 | shared `ReadWriteValueLayer`: set, get, swap on each rank, synchronization by all; the value layers of a context | simulation by a replay of the calls on two values for each rank and location |
| C69 | `read_network` on all ranks: the reading of C49, `request_agents`, `add_edge` and `synchronize` in the model with objects of C61 | what each phase leaves on every rank; the edges that arrive are those that are there; the file gives both ranks of an edge the same line |
| C70 | `_metis_partition` with an arbitrary partition | the file is that of the graph with its nodes in the order of the parts; then C69 |
| C71 | a grid with its memory: objects with reference counts, `std::list` nodes, iterators; programs as sequences of calls | simulation by a specification on values, in which an iterator is a cursor; a condition on the calls of a loop |
| C72 | the same | the specification has points as values or as locations of agents |
| C73 | the same | invariant: counts are the references of the program and of the grid; freed memory is followed only by lost iterators |
| C74 | the two `OrderedDict`s of a context with `od_state`, and `odictiter` as in CPython | each iterator follows a life: ids at the start, number returned, altered or not; loops by induction on what is left |
| C75 | blocks of memory, views of numpy arrays, argument parsing that stores as it goes, `do_richcompare` | a world of whole points; simulation with one array per point, copies with aliasing by induction; witnesses for what differs |
| C76 | the schedule of C01 with callables that raise | a run that raises is `inside` (C66) a run that does not; after it `executing` stays set, invariant over all continuations |
| C77 | the schedule of C01 with the addition of doubles of the continuous spaces (`TreeModel.fadd`) | induction over the times, error of one rounding; invariant of the queue for the tick that is never left |
| C78 | `get_random_local_pt` on the local bounds of C37 | tiling of C37, rounding errors of `uniform` on doubles, the routing of C39 |
| C79 | `json.dumps` and `json.loads` of the attributes, on the files of C49 | scanner on texts that the writer makes, by induction on nested values; where the pattern `_LINE_P` splits a line |
| C80 | the file of a `write_network` that raises, read as in C49 | the nodes before the first one that is refused; the lines of C49 |
| C81 | the ranks of C61 | the effect of `_agent_moving_rank` from C61; counting the edges of a node of the graph |

## What each model leaves out

Everything that is not in the list of files of `_CoqProject` is not modelled. In general: memory management (reference counts of
CPython objects), NumPy/PyTorch internals, YAML parsing, JSON (except in C79), MPI transport (assumed reliable and ordered as in the MPI
standard), METIS, wall-clock time, exceptions raised by user callables (except in C76), re-entrant calls of `execute` from a callable, C
`long`/`double` overflow unless a property says otherwise. Per model:

* **Schedule, runner** (`Schedule*`, `Runner*`, C01-C16): the queue is a sorted list; `Heap*` (C57) has the same schedule with the
  binary heap of `Lib/heapq.py` and proves both equivalent. Events are
  numbered by the call that made them; the sort of CPython for short lists is modelled exactly because of the NaN keys (`PySort.v`).
  `Counter` event names, `print`-ing of events are not modelled.
* **Checkpoints of schedules** (`Checkpoint*`, `CkptInside*`, C17-C20, C66): callables are numbers; `dill` gives an equal copy; the registries of
  callables are total.
* **Checkpoints of agents, values, spaces** (`CkptState*`, C21): `dill` gives an equal copy; values and agent states are immutable data.
* **Checkpoints of networks** (`CkptNet*`, C56): one network, which is the only projection; the agents are those that were saved; the
  kind of an exception is not modelled. The documented `ValueError` for missing agents is never raised (see below).
* **Agent manager, agents** (`Agent*`, `Id*`, C22, C23, C53, C55): `std::map` rebalancing is not modelled. Agents are objects with an id.
* **Context** (`Context*`, C24, C25, C29): projections are grids. Iterators are lists: a change of the context while it is iterated is
  not modelled. Ranks are not negative.
* **World** (`World*`, C26-C28, C64): all ranks with contexts and any number of shared grids; a Cartesian rank is the rank of the world
  communicator. Agents have an integer state. Networks are in a separate model.
* **Buffers** (`Buffer*`, C58, C59, C60, parts of C27, C28): the world model with one shared grid that every rank adds first. An object determines
  the id of its agent (`owner`). Queries are not operations of the history (in periodic spaces with unused dimensions they matter, see 16).
* **Worlds with a continuous space** (`CWorld*`, `CSpaceFacts`, C62, C63): one `SharedCSpace` and no other projection; no `move_agents`, no
  requested agents, one exchange per phase. Coordinates are exact reals (integers times 2^-1074) that are doubles; the float arithmetic is that of
  the tree model.
* **Spaces** (`Space*`, C30, C31, C33-C35): `long` coordinates unbounded except where converted to double. Object identity is modelled
  (`a_obj`) where the code compares pointers.
* **Borders on doubles, spatial tree** (`Float*`, `Border*`, `Tree*`, C32, C36): no overflow to infinity in the tree; the threshold
  `INT_MAX` of the leaf level is treated as unlimited; the ordered map of `MOItems` is searched by equality of the (mutable) coordinates
  it was built with; a null pointer or a missing key that is dereferenced is `None`.
* **Topology** (`Topology*`, C37-C41): `MPI_Dims_create` is not modelled (any process grid is allowed); `MPI_Cart_create` does not
  reorder ranks.
* **Geometry** (`Geometry*`, C42): integers are unbounded.
* **Value layers** (`Value*`, `ValueSync*`, `ValueRW*`, C43-C45, C68): values are integers; the conversion to the dtype of the tensor and the overflow of
  int32 metadata are not modelled; a layer is a function on the cells of a box; `grid` slices copy their cells at once.
* **Networks** (`Net*`, `NetWorld*`, C46, C47): the parts of networkx that are used, as ordered dictionaries of dictionaries with
  attribute dictionaries by reference. Nodes are compared by the identity of their objects (the C type of agents has no hash and no
  comparison). `NetWorld*`: one network and no other projection, agents do not move, each collective operation is
  done phase by phase on all ranks; nodes are ids, which is faithful as long as a rank has one object of each agent, that is, if
  `create_agent` has a cache (the documented scheme); `C47_object_refuted` shows what happens otherwise. `NetMove*` (C61): nodes are
  objects, `local_rank` is kept for each object, `create_agent` is an arbitrary function, agents move; their state is not modelled.
* **Network files** (`NetFile*`, `NetRead*`, `NetMetis*`, C48, C49, C69, C70): text is ASCII; `json` is a parameter with `loads (dumps a) = a` (proved for a model of it in C79). `NetRead*`: a new context
  without other projections; `create_agent` and `restore_agent` are arbitrary functions to objects that differ for different agents.
* **A grid with its memory** (`Mem*`, C71-C73): objects are numbers that are not used again; a call that follows a pointer to freed memory has no
  result. `agent_map.find` is taken to read all keys. Not modelled: the end of the grid itself while its iterators are used, overflow of
  counts, cycles, points of subclasses, continuous spaces (they have the same code in `space.h`), threads.
* **Loops over a context** (`Loop*`, C74): `OrderedDict` and its iterators as in CPython's `Objects/odictobject.c` (a counter of changes that
  does not overflow); only the dictionaries of local agents are in the model, `C74_context` shows they are those of C24.
* **Points** (`Point*`, C75): blocks of memory of one type of numbers, a read outside of a block has no result; arrays are views with offset and
  stride; keyword arguments, `repr`, objects with `__index__` or `__float__` and reference counts of the arrays are not modelled; doubles as in C32 (-0.0 is 0.0).
* **Exceptions of events** (`Raise*`, C76): a callable raises after its API calls, or not; the program catches the exception outside of `execute`.
  Exceptions that the library itself raises inside of a callable are exceptions of the callable. Other ranks are an arbitrary sequence of minima.
* **Times** (`Times*`, C77): times are multiples of 2^-1074 (`unit1` is 1.0), addition rounds to the nearest double, ties to even; overflow to infinity and NaN are left out. The tick before the first `execute` is another order code, below all times that are not negative. The hypothesis `forward` of the theorems about the schedule (C01-C16) is not an assumption about doubles: `C77_forward` derives it from the times given being doubles and the intervals not being negative (and the strict one from intervals of at least 2^j units below the tick 2^53 * 2^j).
* **Random points** (`Random*`, C78): a draw is an arbitrary integer; `Generator.integers` is any integer of its range, `Generator.uniform` is `lo + (hi - lo) * u` in doubles with `u` a multiple of 2^-53 (as in numpy, without fused multiply-add). Nothing is said about distributions.
* **JSON** (`Json*`, `NetTextModel`, C79): CPython's `json` is modelled from its documentation and its Python sources as remembered, as it is not in `/repo`. Strings are lists of code points, the files are text with line feeds (written on a system that does not translate them; the encoding is not modelled), doubles are the texts of their `repr` (that `float(repr(x))` is `x` is trusted), the text is ASCII. Not modelled: keys other than strings and integers, objects that `dumps` refuses, limits on nesting and on the digits of integers, and names of attributes of nodes that are parameters of `create_agent`, for which the call raises when the file is read. The parameters of `add_edge` of networkx (`u_of_edge`, `v_of_edge`) are taken from its documentation.
* **Failed writes** (`NetFail*`, C80): the exceptions of `_write_node` for `agent_type`, with the random partition; what is written before an exception is in the file, as `with` closes it.
* **Logging, utilities, parameters** (`Logging*`, `LogClass*`, `Util*`, C50-C52, C54, C67): files are lists of lines, file names are as in `pathlib`; the YAML
  file is given as the mapping it contains (or nothing).

## Findings

False properties, with the theorem that refutes each for the faithful model. Line numbers are of `/repo/src/repast4py`.

Schedule and runner

1. `C10_priority_order_refuted`: after an event is added to the running tick the rest of the tick is sorted again with the NaN priorities
   of RANDOM events as keys, so that events run in the wrong order.
2. `C12_not_lost_refuted`: an event scheduled between two ticks for the current tick is never executed.
3. `C13_no_rank_ahead_refuted`, `C16_stop_together_refuted`: `schedule_stop` does not update `next_tick`; a rank that only called it
   executes that tick before the earlier events of other ranks.
4. `C15_empty_rank_refuted`: the next tick of an empty queue is -1, which is the global minimum: the run never ends.
5. Zero or negative intervals are accepted: the tick stays or goes back (the guards of C01, C09).

Checkpoints

6. `C17_future_refuted`: voided events that are pending are not saved, and the shuffle of the tick draws other numbers. Saves
   between ticks only; see 6a for the others.
   6a. `C66_step_refuted`, `C66_own_refuted`: a save by an event of a tick loses all events of that tick that are not yet called, for good if
   they repeat, and the event that makes the save. `C66_which` says exactly which events are saved. The save is complete (`C66_last_partial`,
   `C66_future_partial`) if a one-time event makes it as the last one of its tick.
7. `C18_between_restores_refuted`: the second `restore_schedule` resets the counter, and order numbers are used twice.
8. `C20_stop_restored_refuted`: `restore_stop_at=False` has no effect.
9. `C21_reused_refuted`: a checkpoint that is used for a second save keeps the agents of the first, removed agents come back.
   `C21_no_location_refuted`: an agent without location makes `save_space` fail. `C21_single_refuted`: an agent whose cell is taken
   is silently not restored. `C21_stale_coordinate_refuted`, `C21_periodic_continuous_refuted`: see 16 and 18.
10. `C56_directed_fails`, `C56_synchronized_fails`, `C56_directed_refuted`: a directed network with an edge from an agent of another rank
    cannot be restored: `_make_pre_edge` puts the local agent where `create_ghost_edges` looks for the requested one
    (checkpoint.py 405-406, 431), `KeyError`. Every synchronized directed network with an edge between ranks is of this kind.
    `C56_alias_refuted`: `save_network` keeps the attribute dictionaries of the network. `C56_remove_refuted`: both ranks restore an edge
    between ranks as new and in their own order, `remove_edge` then raises `KeyError`. `C56_ghosts_refuted`: edges between two ghosts are lost.
    The documented `ValueError` for missing agents is not raised: it replaces a `KeyError` (checkpoint.py 446-447), but `context.agent` returns
    `None`, and the use of that for an agent with edges is an `AttributeError`. (By reading; the kind of exception is not in the model.)

Agents, contexts, worlds

11. `C55_rank_refuted`, `C55_dealloc_refuted`: the rank of an id is parsed as `long` into an `int`; ranks of 2^32 and more are truncated and
    the upper half overwrites the next field, which is followed by the destructor if the constructor raises.
12. `C24_unknown_type_refuted`: `agents(agent_type=t)` and `size([t])` raise `KeyError` for a type that was never added.
13. `C26_removed_returns_refuted`, `C26_duplicate_refuted`, `C26_move_to_ghost_refuted`: agents with locations on different ranks in two
    spaces are duplicated; a synchronization without ghosts while copies are in buffers, and a move to a rank that has a ghost of the
    agent, break the population.
14. `C27_refuted`: a ghost in a buffer that is then requested is not registered with its owner and stays after the owner removed the
    agent. `_req_ghosts` is never cleared. `C27_move_agents_refuted`: `move_agents` discards `ghosts_to_remove` of the agents that arrive
    because of their location, the rank then has the agent and a ghost of it. `C27_sent_twice_refuted`: an agent that is sent twice to the
    same rank (see C41) is put twice into its cell there and removed once.
15. `C28_two_spaces_refuted`, `C28_occupied_refuted`: an agent that moves to another rank loses its location in the second space, and in a
    single occupancy space if the cell is taken there. `synchronize` also loops over the projections twice (context.py, nested loop over
    `non_bounded_projs`).
    `C60_move_refuted`: `move_agents` to a rank whose buffer has a copy of the agent raises `KeyError` in the following
    `_pre_synch_ghosts` on that rank (the copy is deleted from the manager, but not from the list of the space).
    `C58_offset_refuted`: the buffers of a space of one or two dimensions are searched at coordinate 0 of the unused dimensions
    (space.py 221, 236), a sticky space puts the agents at the lower bound of those: if that is not 0 no copies are made.

Spaces

16. `C31_unused_dimension_refuted`, `C35_stale_coordinate_refuted`: periodic spaces of 1 or 2 dimensions return the unused coordinates of
    an earlier query. `C31_congruence_refuted`: distances above 2^53 are rounded before `fmod`.
17. `C33_added_twice_refuted`, `C39_added_twice_refuted`, `C36_added_twice_refuted`: an agent that is added again loses its location but stays
    in the cell, in the list of agents to send and in the tree.
18. `C32_*_refuted`: sticky continuous borders leave the space for bounds above 2^27 and move points within 1e-8 of the upper bound;
    periodic ones return the upper bound for tiny negative coordinates, may move points inside, return NaN for infinities.
19. `C36_shared_refuted`, `C36_lost_refuted`, `C36_crash_refuted`: agents of a continuous space that share a point are returned twice, are
    lost from queries, or crash the process when one of them moves (the keys of the map are the mutable points).
    `C36_one_dimension_refuted`: one-dimensional continuous spaces have no tree, `move` crashes. `C36_flat_box_refuted`: boxes with fewer
    dimensions than the space miss agents. `C36_rounding_refuted`: deep trees lose agents by rounding.
    `C36_whole_space_refuted`: periodic borders can put an agent on the upper bound, which queries of the whole space leave out.
20. `C37_empty_bounds_refuted`: with fewer cells than processes in a dimension two ranks contain the same cell.
21. `C41_undefined_refuted`: the buffers of a 2D periodic grid with one process in one dimension and three or more in the other are
    undefined. `C41_corner_refuted`: a corner is missing with two periodic processes in two of three dimensions. `C41_wide_refuted`: buffers
    wider than the local bounds. `C41_sent_twice_refuted`: two periodic processes send a cell twice.

Value layers, networks, files

22. `C43_far_refuted`: periodic coordinates above 2^53. `C68_nghs_refuted`, `C68_context_refuted`: `ReadWriteValueLayer.get_nghs` always raises (there is
    no attribute `read`), and so does the synchronization of a context that has such a layer (`_synch_ghosts` takes two arguments, the context
    passes none); each layer has communicators of its own, so that ranks that swap differently wait for each other (`C68_replay_partial`, modelled
    as `None`); `C68_others_refuted`: values set in the buffer are lost. `C45_*_refuted`: two processes in a periodic dimension get the wrong slice; one periodic dimension is misindexed by the first
    process; cells before the origin cannot be read; narrow local bounds, another origin or a single process cannot be synchronized; a single
    process in x gets no columns. One process in a periodic dimension: `C45_own_buffer_partial` (each rank repeats its own cells in the buffer),
    `C45_row_refuted` (undefined, see 21), `C45_no_buffer` (a buffer of size 0 cannot be created, since the slice `-0:` is the whole grid),
    `C45_one_process_refuted` (a single process shifts its points by a buffer that it does not have: the last cells raise `IndexError`).
23. `C46_remove_result`: `remove_edge` raises `KeyError` for edges to ghosts that were not synchronized and for undirected loops, although
    the edge is removed.
24. `C47_*_refuted`: an update by the rank that did not create the edge, a removal before the synchronization, a removal and a re-adding
    between two synchronizations, adding by both ranks, removing two edges of an agent to the same rank, removing an agent, and a
    re-adding in the other order break the mirror or make the synchronization fail.
    `C47_clear_refuted`: `clear_edges` of the rank that did not create an edge leaves it on the creator. `C47_clear_updated_refuted`: if a new
    edge to a ghost was updated and then cleared before the synchronization, `synchronize` raises `KeyError` (`edges_to_update` keeps the key).
    `C47_object_refuted`: if `create_agent` makes a new object each time, as in docs/guide/tutorial_network.adoc 391-393, a rank may get a
    second object of an agent that it requested; the edges that it added to the first one are then not seen through the second.
    `C61_*_refuted` (agents of a network that move): moving both agents of an edge in one call fails; moving them one after the other fails
    (after a synchronization) or loses the edge; if the agent of the rank that created an edge to a ghost moves to a third rank, the edge is
    not there but stays on the rank that it left; an agent that moves to a rank where it is a ghost vanishes from the network there if
    `create_agent` has a cache (the ghost that is removed is the same object), and without one updating and removing its edges fail in
    undirected networks (`_add_edge_key` is not called) and `clear_edges` makes the next synchronization fail in directed ones
    (`ghosted_edges` keeps the edge); edges to ghosts that were not requested are lost when the own agent moves; the ghost of a requested
    agent without edges keeps the old rank, and the first synchronization after adding an edge to it fails. `C61_local_partial`: one move is
    right if no rank has ghosts before it, no two agents of one edge move and `create_agent` makes new objects. `C61_leave_partial`,
    `C61_arrive_partial`, `C61_follow_partial`, `C61_post_partial`: what the ranks do that the agent leaves, that it arrives at as a ghost, and
    that have it as a ghost, and how the kept edges are added again, in any state, one rank at a time.
    `C61_leavers_partial`: what a rank does when any number of agents leave it in one call.
    `C63_*_refuted` (several ranks with a continuous space): see the statements in `CWorldDemo.v`. Copies stay until the next synchronization, so
    with single occupancy an agent cannot go to a point that an agent of the neighbour rank has left, although it is free; two ranks may both
    accept an agent at the same point, and the one that arrives second has no location after the synchronization (no error is raised). With
    multiple occupancy the defect of finding 19 in the tree also removes agents from the buffers of other ranks.
    `C64_two_spaces_refuted` (two buffered spaces): `synchronize` removes an agent that leaves a rank only from the space it left by
    (context.py 152-159); the other space keeps it and sends this old object to the buffers of neighbours in every synchronization. If
    `restore_agent` keeps an object for each agent, as in the examples, the old state is written into the agent itself. `C64_requested_refuted`:
    requesting an agent of which the rank has a copy in a buffer leaves a ghost that is never updated (the owner does not learn of it).
    `C65_*_refuted` (states of copies in networks): a rank that removes an edge with a ghost stops sending its agent to that rank
    (network.py 299-303), although that rank requested the agent or has an edge of its own with it; its copy is then never updated again.
25. `C48_balanced_refuted`: the list of ranks is cut after it is shuffled, loads may differ by more than one.
26. `C49_nested_refuted`, `C49_name_refuted`: attributes with a closing brace inside and network names with white space are not read back.
27. `C54_empty_file_refuted`: an empty parameter file raises.
28. `C67_directory_refuted`: a log file name without a directory raises in `os.makedirs('')` (for `TabularLogger` also './log.csv', as pathlib
    drops the dot). `C67_text_refuted`: names of columns are not quoted. `C67_numbers_refuted`: values are converted to the type of the field,
    which rounds large integers and cuts off fractions. A data set without loggers raises `IndexError` (C50).
29. `C69_nodes_refuted`: `requested` is a new set for every line (network.py 944), so an agent with several edges to a rank is requested several
    times; unless `restore_agent` has a cache, each copy is a node, and stays one when the agent is removed. `C69_remove_refuted`: both ranks have
    an edge of the file as their own; if both remove it, `synchronize` fails.
30. `C71_next_moved`: a loop over `get_agents` whose body moves or removes the agent that would be next follows a pointer to an erased list
    node (core.h 91-95). `C73_single_freed`: with single occupancy the iterator has a list of its own without references to the agents
    (occupancy.h 160-169), so the agent may be freed before `next`. `C72_saved_location`: `get_location` returns the grid's own point, which
    follows the agent; moving an agent back to a saved location does nothing. `C72_meddling`: resetting a returned point makes `get_location` and
    `get_agents` disagree, and `remove` then leaves the agent at its location. `C73_leak`: an agent that is added twice is never freed (space.h 95-104).
31. `C75_*_refuted`: `p != q` is True for all pairs of different point objects, equal or not, because only `Py_EQ` is answered
    (spacemodule.cpp 243-254, 489-500). `_reset_from_array` ignores the stride of the array (151-170, 401-414): for a reversed slice it reads
    beyond the array, for a column of what `geometry.find_2d_nghs_sticky` returns it takes two x coordinates. `_reset((1, 2.5, 3))` sets
    y to -1 and ends in a `SystemError`, and a tuple of two items is read beyond its end (123-135). A `_reset2D` or `_reset3D` that raises
    a `TypeError` may have changed the first coordinates.
32. `C76_later_refuted`: `ScheduleGroup.execute` sets `executing` and resets it only at its end (schedule.py 261, 271), `reset` does not (178-185).
    After an event raised an exception that the program catches, the events of every later tick are put into the list of events that
    were added during the execution, and none is ever executed (`C76_after`, `C76_thrown_away`); as stop events are among them,
    `SharedScheduleRunner.execute` never returns (`C76_runner`).

33. `C77_tenth_refuted`, `C77_stuck_refuted`: `RepeatingEvent.reschedule` adds the interval to the last time (schedule.py 108-122), so roundings add up:
    an event at 0 with interval 0.1 is executed at 0.9999999999999999 instead of 1.0, in another tick than an event at 1.0. If the interval is less
    than half the distance of the doubles at the tick, the event is rescheduled for the same tick forever and no later event is ever executed.

34. `C78_upper_refuted`, `C78_empty_refuted`: `SharedCSpace.get_random_local_pt` (space.py 313-332) can return the upper bound of the rank, as `rng.uniform`
    rounds up to it unless the bounds start at 0: for [1, 2) the largest draw gives 2.0, which is another rank's, and for the last rank a point outside of the space
    that periodic borders move to the other end. If a rank has no cells in a dimension then `get_num_dims` of its local bounds is smaller than that of the
    space, and the random points are not in the space, or `rng.integers` raises.

35. `C79_readable_refuted`, `C79_keys_refuted`, `C79_tuples_refuted`, `C79_surrogates_refuted`: `write_network` writes every dictionary of attributes, but
    `_LINE_P` (network.py 907) ends an attribute at the first closing brace. `C79_readable` says exactly which files can be read: those without dictionaries in the
    attributes and without closing braces in names and strings. One such attribute makes the file unreadable for every rank. Integers as keys and tuples come back
    as strings and lists. `C79_names_refuted`: an edge with an attribute named `u_agent`, `v_agent`, `self`, `u_of_edge` or `v_of_edge` is written, and the ranks of its
    agents cannot read the file, as `add_edge` gets two values for the parameter (network.py 961, 1001); `C79_names_partial` says that these names are the only ones.

36. `C80_kept_refuted`: `_random_partition` opens the file, which empties it, and checks `agent_type` node by node while writing (network.py 1134-1138, 1086-1095).
    After the `ValueError` the file has the nodes before the refused one and no `EDGES` line. `read_network` does not need that line, so it reads such a file
    on every rank as a network with some of the nodes and no edges (`C80_read_partial`).

37. `C81_both_ways_refuted`: when an agent leaves a rank, the copy of an agent it has edges with is removed only if `num_edges(other) == 1` (network.py 514). In a directed
    network with edges in both directions the count is 2 for both edges, as edges are removed after the loop. Both edges go and the copy stays as a node and a ghost without
    edges, though it was not requested. `C81_leave_partial`: otherwise a copy that stays has another edge. `C81_leavers_partial`: so also after all agents of a call left. `C81_both_ways` says this for every state of the
    rank, and `C81_kept` that edges among the others and their agents are kept.

## Trusted base

Coq 8.16.1's kernel and checker, and the reading of the source. There are no axioms in the development: `Print Assumptions` follows each
theorem named in `MANIFEST.json` and prints `Closed under the global context` for all of them (this includes the lemmas they use). No kernel
check is switched off. The checker also lists axioms of `Coq.ssr.ssrunder`, which belong to loaded libraries; no theorem of the manifest uses them.
`vm_compute` is used for examples and refutations.
