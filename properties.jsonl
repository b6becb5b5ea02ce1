{"id": "C01", "title": "dedup keeps exactly the first element of every key", "statement": "dedup(l, f) returns a subsequence of l that contains, for each key value occurring in map(f, l), exactly the first element of l with that key, and nothing else; the order of l is preserved.", "quantifier": "every list and every key function", "why_tests_cant": "the claim is about every list, including all duplicate patterns; a test samples finitely many", "anchors": ["verse/utils/utils.py:dedup"]}
{"id": "C02", "title": "wrap_to_pi normalises every angle", "statement": "wrap_to_pi(x) lies in [-pi, pi), differs from x by an integer multiple of 2*pi, and applying it twice changes nothing; it is the only number with the first two properties.", "quantifier": "every real angle", "why_tests_cant": "the range is the continuum; boundary angles -pi and pi are measure zero", "anchors": ["verse/utils/utils.py:wrap_to_pi"]}
{"id": "C03", "title": "Polygon intersection test never reports a separation that is not there", "statement": "If are_polygons_intersecting reports that two polygons do not intersect and will not intersect under the displacement, then no point of the convex hull of the first polygon is a point of the convex hull of the second, and none is after moving the first polygon by the displacement.", "quantifier": "every pair of vertex lists and every displacement", "why_tests_cant": "all pairs of polygons, including degenerate ones", "anchors": ["verse/utils/utils.py:are_polygons_intersecting", "verse/utils/utils.py:project_polygon", "verse/utils/utils.py:interval_distance"]}
{"id": "C04", "title": "A rotated rectangle contains its own corners", "statement": "Every vertex returned by rect_corners(center, length, width, angle) is accepted by point_in_rotated_rectangle with the same centre, size and angle.", "quantifier": "every centre, size and angle", "why_tests_cant": "all angles", "anchors": ["verse/utils/utils.py:rect_corners", "verse/utils/utils.py:point_in_rotated_rectangle"]}
{"id": "C05", "title": "The decision-logic parser loses no controller behaviour", "statement": "For every decision logic built from assignments, if/else and asserts, and for every state, the value that running the Python function gives to an output variable is the value of some extracted path whose condition holds in that state (or the variable is left unchanged).", "quantifier": "every program of the modelled statement language, every state", "why_tests_cant": "programs are unbounded trees; path merging interacts with nesting and order of statements", "anchors": ["verse/parser/parser.py:proc", "verse/parser/parser.py:merge_if", "verse/parser/parser.py:merge_if_val", "verse/parser/parser.py:ControllerIR.from_env"]}
{"id": "C06", "title": "Extracted paths are justified", "statement": "When the condition of an extracted path holds in a state, running the decision logic on that state executes an assignment of that path's value to that path's variable; a path whose condition holds in no state never fires.", "quantifier": "every program, every extracted path", "why_tests_cant": "unbounded programs", "anchors": ["verse/parser/parser.py:merge_if_val", "verse/parser/parser.py:merge_conds"]}
{"id": "C07", "title": "Assertions extracted from decision logic fail exactly when Python's do", "statement": "For every decision logic whose tests read only the pre-state, an extracted assertion's precondition holds and its condition fails in a state exactly when running the Python function on that state reaches the corresponding assert statement with a false condition.", "quantifier": "every program and every state", "why_tests_cant": "unbounded nesting and number of asserts", "anchors": ["verse/parser/parser.py:merge_assert", "verse/parser/parser.py:proc"]}
{"id": "C08", "title": "Early returns in helper functions and controllers are honoured", "statement": "The value the parser computes for a helper function or a controller body is the value of the return statement that Python would execute.", "quantifier": "every function body", "why_tests_cant": "unbounded bodies; the violation needs a return inside a branch", "anchors": ["verse/parser/parser.py:Lambda.from_ast", "verse/parser/parser.py:proc"]}
{"id": "C09", "title": "Chained comparisons and filtered any/all keep their meaning", "statement": "a < b < c is represented as (a<b) and (b<c); any(e for x in xs if c) as any(e and c); all(e for x in xs if c) as all(e or not c); for every list xs and every truth assignment the rewritten expression has the same truth value.", "quantifier": "every comparison chain length, every list of other agents, every predicate", "why_tests_cant": "unbounded chains and lists", "anchors": ["verse/parser/parser.py:proc", "verse/parser/parser.py:Reduction"]}
{"id": "C10", "title": "Guard checking over a box is exact", "statement": "For guards built from and/or/not over continuous comparisons and resolved discrete tests, the pair (satisfiable, contained) computed for a box of states is (some state of the box satisfies the guard, every state of the box satisfies the guard) whenever the solver answers correctly.", "quantifier": "every guard expression, every box", "why_tests_cant": "unbounded formula depth and a continuum of states", "anchors": ["verse/automaton/guard.py:evaluate_guard_cont", "verse/automaton/guard.py:generate_z3_expression", "verse/automaton/guard.py:_generate_z3_expression_node"]}
{"id": "C11", "title": "Evaluating the discrete part of a guard preserves the guard", "statement": "evaluate_guard_disc answers False only if no assignment of the continuous variables satisfies the guard under the current modes, and the rewritten guard it leaves behind has the same truth value as the original for every assignment of the continuous variables.", "quantifier": "every guard expression, every mode assignment, every continuous assignment", "why_tests_cant": "unbounded nesting of and/or/not mixing discrete and continuous tests", "anchors": ["verse/automaton/guard.py:evaluate_guard_disc", "verse/automaton/guard.py:_evaluate_guard_disc"]}
{"id": "C12", "title": "any/all over other agents unrolls to the right finite formula", "statement": "For every number of other agents the unrolled guard is true exactly when any (resp. all) of the per-agent instances is true; zero agents gives False for any and True for all.", "quantifier": "every list of other agents, every element expression", "why_tests_cant": "unbounded number of agents and nested quantifiers", "anchors": ["verse/automaton/guard.py:parse_any_all_new", "verse/automaton/guard.py:unroll_any_all_new", "verse/automaton/guard.py:_parse_elt_new", "verse/automaton/guard.py:ValueSubstituter"]}
{"id": "C13", "title": "Map-dependent guards are over-approximated", "statement": "When a guard uses the lateral or longitudinal lane coordinate, the interval substituted for it contains the coordinate of every position in the agent's box, so a guard that some state satisfies is never discarded.", "quantifier": "every lane segment, every position box, every position inside", "why_tests_cant": "continuum of boxes and positions", "anchors": ["verse/automaton/guard.py:_handle_longitudinal_set", "verse/automaton/guard.py:_handle_lateral_set", "verse/automaton/guard.py:_evaluate_guard_hybrid"]}
{"id": "C14", "title": "The sensor gives every agent an aligned and complete view", "statement": "For every scenario state, sensing agent a yields a's own state under ego and, for every other agent exactly once and in a fixed order, one entry per variable, so index i of every sensed list belongs to the same agent; a never appears among its own others.", "quantifier": "every set of agents, every state", "why_tests_cant": "unbounded number of agents and variables", "anchors": ["verse/sensor/base_sensor.py:BaseSensor.sense"]}
{"id": "C15", "title": "verify reports every violation of an assertion", "statement": "If a state in the computed tube before the reported truncation violates a user assertion (its path condition holds and its condition fails), verify reports an assertion hit for that agent at or before that time index.", "quantifier": "every assertion, every tube", "why_tests_cant": "continuum of states in a box and arbitrarily long tubes", "anchors": ["verse/analysis/verifier.py:get_transition_verify_opt"]}
{"id": "C16", "title": "The tube scan visits every index until a gap or a certain transition", "statement": "The guard hits that verify collects are exactly the tube indices, with the hits of each index, of the scan prefix that ends at the first index after a hit at which nothing fires, or at an index where some guard is certain to fire, or at the end of the tube; no earlier index is skipped and an assertion index is reported before any later one.", "quantifier": "every tube length and every pattern of hits, containments and asserts", "why_tests_cant": "exponentially many hit patterns of unbounded length", "anchors": ["verse/analysis/verifier.py:get_transition_verify_opt"]}
{"id": "C17", "title": "Reset boxes contain every reset state and no slack for multi-affine resets", "statement": "For every reset expression that is affine in each variable separately and is written over names none of which occurs inside another (names that do are the subject of C19), without raising a possibly negative variable to a power (also C19), the box computed after a transition contains the reset value of every state in the pre-transition box and both its ends are attained; variables that are not reset keep their bounds.", "quantifier": "every multi-affine expression, every box, every state in the box", "why_tests_cant": "continuum of states, unbounded expressions", "anchors": ["verse/analysis/verifier.py:apply_reset", "verse/analysis/verifier.py:_get_combinations"]}
{"id": "C18", "title": "Reset boxes contain every reset state for arbitrary arithmetic resets", "statement": "The same containment for every arithmetic reset expression a decision logic may contain.", "quantifier": "every expression in +,-,*,**; every box", "why_tests_cant": "needs the right box and expression", "anchors": ["verse/analysis/verifier.py:apply_reset"]}
{"id": "C19", "title": "Substituting values for names in a reset replaces exactly the variables", "statement": "Evaluating a reset expression after textual substitution of the sensed values yields the value of the expression under those values.", "quantifier": "every expression text and every set of variable names", "why_tests_cant": "name sets where one name is a prefix of another are easily missed", "anchors": ["verse/analysis/verifier.py:apply_reset"]}
{"id": "C20", "title": "A verification step builds exactly one child per reported transition", "statement": "Each child of a verified node has the destination mode for the transiting agent and the parent's mode for all others, starts at the time of the first hit row, inherits the suffix of the parent's trace for the other agents, and has height one more; the parent's trace is cut right after the last hit row; nothing is cut when nothing fires.", "quantifier": "every node, every list of transitions", "why_tests_cant": "unbounded numbers of agents, transitions and rows", "anchors": ["verse/analysis/verifier.py:compute_full_reachtube_step", "verse/analysis/analysis_tree.py:AnalysisTreeNode.new_child"]}
{"id": "C21", "title": "Tubes started from several initial sets cover every start", "statement": "When the initial sets of a node are the reset boxes of successive hit rows, the tube computed for the node contains, at every row, the states at that time of every execution that started from any of those initial sets at its own row.", "quantifier": "every list of initial sets, every segment length, every flow the engine over-approximates", "why_tests_cant": "unbounded lists of initial sets and segment lengths", "anchors": ["verse/analysis/verifier.py:calculate_full_bloated_tube_simple"]}
{"id": "C22", "title": "verify covers every execution", "statement": "Every execution of the hybrid system (one whose transitions are taken at rows where the guard holds) is contained, row by row, in some node of the tree that verify returns.", "quantifier": "every execution of every scenario", "why_tests_cant": "infinitely many executions", "anchors": ["verse/analysis/verifier.py:compute_full_reachtube", "verse/analysis/verifier.py:compute_full_reachtube_step", "verse/analysis/verifier.py:get_transition_verify_opt"]}
{"id": "C23", "title": "Hull operations on tubes are sound and tight", "statement": "combine_rect, _union_traces and combine_all return per-dimension bounds that contain every input box and each bound is attained by one of the inputs.", "quantifier": "every non-empty list of boxes / traces", "why_tests_cant": "unbounded lists and dimensions", "anchors": ["verse/analysis/verifier.py:combine_rect", "verse/analysis/verifier.py:_union_traces", "verse/analysis/incremental.py:combine_all"]}
{"id": "C24", "title": "Partitioning an initial set covers it and stays inside it", "statement": "For n >= 1 and all valid dimension lists, every point of the rectangle lies in one of the pieces of _partition_rect, every piece lies inside the rectangle, dimensions not listed (and dimension 0) are not split, there are n**k pieces and two pieces overlap only on a shared face.", "quantifier": "every rectangle, n, dimension list, point", "why_tests_cant": "continuum of points, unbounded n and dimension", "anchors": ["verse/analysis/verifier.py:_partition_rect"]}
{"id": "C25", "title": "verify_partitioned starts children from the whole hitting set", "statement": "The child created for a transition by partitioned verification contains the reset image of the tube at every index at which the transition can fire.", "quantifier": "every transition with its hit indices", "why_tests_cant": "needs transitions that can fire at more than one index", "anchors": ["verse/analysis/verifier.py:compute_full_reachtube_step_partitioned"]}
{"id": "C26", "title": "unsafe_continue lets verify continue past a violated assertion", "statement": "With unsafe_continue set, a verification step whose tube violates an assertion still returns a result with its children instead of failing.", "quantifier": "every configuration and node", "why_tests_cant": "combination of configuration and data", "anchors": ["verse/analysis/verifier.py:compute_full_reachtube_step", "verse/scenario/scenario.py:ScenarioConfig"]}
{"id": "C27", "title": "The work list processes every node once and gives it a unique id", "statement": "In every run, sequential or parallel with any completion order, each node created is dequeued at most once, ids are 0..n-1 without gaps or repetition, the node table is indexed by id, and at the end no created node is left in the queue or in flight.", "quantifier": "every step function (any branching), every completion order", "why_tests_cant": "interleavings of unbounded length", "anchors": ["verse/analysis/verifier.py:compute_full_reachtube", "verse/analysis/verifier.py:proc_result", "verse/analysis/simulator.py:simulate", "verse/analysis/simulator.py:proc_result"]}
{"id": "C28", "title": "The result tree does not depend on the completion order", "statement": "Two complete runs of the work list from the same root, with any completion orders and any parallelism, produce the same tree up to node ids.", "quantifier": "every pair of schedules", "why_tests_cant": "exponentially many schedules", "anchors": ["verse/analysis/verifier.py:compute_full_reachtube", "verse/analysis/simulator.py:simulate"]}
{"id": "C29", "title": "max_height and the time horizon bound the tree", "statement": "No node at depth max_height or more is created; no node is expanded whose start time is at or beyond the horizon; if every transition advances time by at least one step the run terminates.", "quantifier": "every scenario, every max_height and horizon", "why_tests_cant": "unbounded trees", "anchors": ["verse/analysis/verifier.py:compute_full_reachtube", "verse/analysis/simulator.py:simulate", "verse/analysis/simulator.py:simulate_simple"]}
{"id": "C30", "title": "Parallel runs report the same assertion hits as sequential runs", "statement": "The assertion hits recorded on every node are the same whether a node was processed locally or remotely.", "quantifier": "every assignment of nodes to local/remote processing", "why_tests_cant": "depends on schedule and configuration", "anchors": ["verse/analysis/simulator.py:proc_result", "verse/analysis/simulator.py:simulate_one", "verse/analysis/verifier.py:proc_result"]}
{"id": "C31", "title": "simulate stops at the first event", "statement": "In every simulated node the trace is cut at the first row at which some agent's assertion fails or some agent's guard holds; if an assertion fails there no child is created; otherwise the children are exactly the combinations of the transitions enabled at that row; if neither ever happens the whole trace is kept and there are no children.", "quantifier": "every trace length, any number of agents and guards", "why_tests_cant": "unbounded traces and event patterns", "anchors": ["verse/analysis/simulator.py:get_transition_simulate", "verse/analysis/simulator.py:simulate_one"]}
{"id": "C32", "title": "Simulated traces are continuous across nodes", "statement": "The first row of every child's trace is at the time of the last row of its parent's trace, an agent that does not transition continues its parent's trajectory unchanged, and gluing parent and child traces of such an agent gives back the original trajectory.", "quantifier": "every tree path, every agent", "why_tests_cant": "unbounded trees", "anchors": ["verse/analysis/simulator.py:simulate_one"]}
{"id": "C33", "title": "Transitions respect the map", "statement": "Every transition that simulate or verify keeps either changes neither the agent mode nor the track, or leads to the track the map prescribes for that mode change; every transition satisfying this is kept (up to equal destinations).", "quantifier": "every list of candidate transitions and every map function", "why_tests_cant": "unbounded candidate lists", "anchors": ["verse/analysis/simulator.py:get_transition_simulate", "verse/analysis/verifier.py:get_transition_verify_opt", "verse/analysis/analysis_tree.py:get_mode", "verse/analysis/analysis_tree.py:get_track"]}
{"id": "C34", "title": "simulate checks the assertions of every agent", "statement": "A failing assertion of any agent is reported by simulate at the first row where it fails, no matter whether that agent has any transition.", "quantifier": "every set of agents", "why_tests_cant": "agents without transitions are a corner case", "anchors": ["verse/analysis/simulator.py:get_transition_simulate"]}
{"id": "C35", "title": "AnalysisTree lists every node exactly once", "statement": "tree.nodes contains every node reachable from the root exactly once with parents before children and in order of depth; leaves() is the number of nodes without children and agrees with get_leaf_nodes; height(root) is the length of the longest root-to-leaf path.", "quantifier": "every tree", "why_tests_cant": "unbounded trees", "anchors": ["verse/analysis/analysis_tree.py:AnalysisTree._get_all_nodes", "verse/analysis/analysis_tree.py:leaves", "verse/analysis/analysis_tree.py:get_leaf_nodes", "verse/analysis/analysis_tree.py:height"]}
{"id": "C36", "title": "dump followed by load gives back the tree", "statement": "For every tree with distinct node ids and root id 0, loading a dumped file yields a tree with the same shape and the same contents in every node.", "quantifier": "every tree", "why_tests_cant": "unbounded trees", "anchors": ["verse/analysis/analysis_tree.py:AnalysisTree.dump", "verse/analysis/analysis_tree.py:AnalysisTree.load"]}
{"id": "C37", "title": "A tree contains itself", "statement": "tree.contains(tree) is True and is_equal is reflexive for every reachability tree that verify can produce.", "quantifier": "every reachability tree", "why_tests_cant": "unbounded trees", "anchors": ["verse/analysis/analysis_tree.py:contains", "verse/analysis/analysis_tree.py:is_equal"]}
{"id": "C38", "title": "contains is sound", "statement": "If a.contains(b) returns True then at every time row every state of tree b is within tol of tree a.", "quantifier": "every pair of trees", "why_tests_cant": "unbounded trees", "anchors": ["verse/analysis/analysis_tree.py:contains"]}
{"id": "C39", "title": "first_transitions returns the earliest transition of each agent", "statement": "For every agent that transitions somewhere in the tree the returned time is the minimum start time over all children in which its mode differs from the parent's; agents that never transition are absent.", "quantifier": "every tree", "why_tests_cant": "unbounded trees", "anchors": ["verse/analysis/analysis_tree.py:first_transitions"]}
{"id": "C40", "title": "A tube-cache hit contains the queried set", "statement": "If the tube cache answers a query for (agent, mode, box) with a tube, that tube was stored for the same agent and mode with a box that contains the queried box up to 1e-6 per bound.", "quantifier": "every history of insertions and every query", "why_tests_cant": "histories of unbounded length and all boxes", "anchors": ["verse/analysis/incremental.py:TubeCache.add_tube", "verse/analysis/incremental.py:TubeCache.check_hit"]}
{"id": "C41", "title": "The tube cache finds a stored tube that contains the queried set", "statement": "If some stored box for the same agent and mode contains the queried box, the query is a hit.", "quantifier": "every history of insertions and every query", "why_tests_cant": "needs histories in which the greedy descent goes wrong", "anchors": ["verse/analysis/incremental.py:TubeCache.check_hit"]}
{"id": "C42", "title": "A simulation-cache hit is for an initial state within 1e-6", "statement": "If the simulation cache answers a query, the segment returned was stored for the same agent and mode with an initial state within 1e-6 in every coordinate, and if any stored segment is strictly closer than that the query is a hit.", "quantifier": "every history of insertions and every query", "why_tests_cant": "unbounded histories", "anchors": ["verse/analysis/incremental.py:SimTraceCache.add_segment", "verse/analysis/incremental.py:SimTraceCache.check_hit", "verse/analysis/incremental.py:SimTraceCache.query_cont"]}
{"id": "C43", "title": "Cached tubes are aligned with the initial sets they belong to", "statement": "With the incremental cache on, a node whose initial sets are partly cached gets the same tube as with the cache off (or a larger one).", "quantifier": "every pattern of cached and missing segments", "why_tests_cant": "exponentially many hit patterns", "anchors": ["verse/analysis/verifier.py:check_cache_bloated_tube", "verse/analysis/verifier.py:calculate_full_bloated_tube_simple"]}
{"id": "C44", "title": "A cached tube is long enough for the node it is used for", "statement": "A tube or trace returned from the cache spans the remaining time of the node that uses it.", "quantifier": "every pair of runs with possibly different horizons", "why_tests_cant": "needs two runs with different settings", "anchors": ["verse/analysis/incremental.py:TubeCache", "verse/analysis/incremental.py:SimTraceCache", "verse/analysis/verifier.py:compute_full_reachtube"]}
{"id": "C45", "title": "Re-verification re-checks every changed path", "statement": "When the decision logic changed between runs, cached transitions of an agent are reused only if no path that produced them was removed or had its condition changed, and every added path is checked again.", "quantifier": "every pair of old and new path lists, every cache", "why_tests_cant": "unbounded path lists", "anchors": ["verse/analysis/incremental.py:to_simulate"]}
{"id": "C46", "title": "DryVR tube covers the initial set and its training traces", "statement": "The DryVR piecewise tube contains the whole initial box at time 0 and every simulated training trace it was computed from at every sampled time.", "quantifier": "every set of traces, every initial box", "why_tests_cant": "continuum of boxes and traces", "anchors": ["verse/analysis/dryvr.py:get_reachtube_segment", "verse/analysis/dryvr.py:all_sensitivities_calc", "verse/analysis/dryvr.py:calcCenterPoint", "verse/analysis/dryvr.py:calcDelta"]}
{"id": "C47", "title": "Discrete mixed-monotone tubes contain every trajectory", "statement": "If the decomposition function is mixed-monotone for the dynamics, the computed tube contains at every step every trajectory from the initial box under every disturbance sequence in the uncertain box.", "quantifier": "every initial state, disturbance sequence and number of steps", "why_tests_cant": "unbounded steps and a continuum of sequences", "anchors": ["verse/analysis/mixmonotone.py:compute_reachtube_mixmono_disc"]}
{"id": "C48", "title": "Star sets represent exactly the intended sets", "statement": "rect_to_star/from_poly represent exactly the given box, an affine map of a star (post_cont / apply_reset) represents exactly the image, intersection with a half-space represents exactly the intersection, and overapprox_rectangle is the tightest enclosing box.", "quantifier": "every star, every affine map, every point", "why_tests_cant": "continuum of points, all dimensions", "anchors": ["verse/stars/starset.py:StarSet"]}
{"id": "C49", "title": "Star-set emptiness and satisfaction answer for the represented set", "statement": "is_empty() is True exactly when the star represents no point, and satisfies/contains_point answer for the represented set.", "quantifier": "every star", "why_tests_cant": "needs stars whose predicate allows negative coefficients only", "anchors": ["verse/stars/starset.py:is_empty", "verse/stars/starset.py:is_feasible", "verse/stars/starset.py:contains_point", "verse/stars/starset.py:satisfies"]}
{"id": "C50", "title": "Combining stars covers all of them", "statement": "combine_stars returns a star that contains every point of every input star.", "quantifier": "every non-empty list of stars", "why_tests_cant": "unbounded lists, continuum of points", "anchors": ["verse/stars/starset.py:combine_stars"]}
{"id": "C51", "title": "Straight-lane coordinates and positions are inverse", "statement": "On a straight lane position(longitudinal, lateral) and local_coordinates(position) are mutually inverse, and the lane's start and end have longitudinal coordinate 0 and length.", "quantifier": "every lane with distinct end points, every coordinate pair", "why_tests_cant": "continuum", "anchors": ["verse/map/lane_segment.py:StraightLane"]}
{"id": "C52", "title": "A lane reports the segment that the position is on", "statement": "If exactly one segment of a lane contains a position, the lane answers longitudinal and lateral queries with that segment.", "quantifier": "every lane, every position", "why_tests_cant": "unbounded number of segments, continuum of positions", "anchors": ["verse/map/lane.py:Lane.get_lane_segment", "verse/map/lane.py:get_longitudinal_position", "verse/map/lane.py:get_lateral_distance"]}
{"id": "C53", "title": "Longitudinal coordinates increase along a lane", "statement": "Segment i of a lane starts at the sum of the lengths of the previous segments, so longitudinal positions along consecutive segments meet exactly at the joints.", "quantifier": "every list of segments", "why_tests_cant": "unbounded lists", "anchors": ["verse/map/lane.py:_set_longitudinal_start"]}
{"id": "C54", "title": "3d lane neighbourhood relations stay symmetric", "statement": "After every sequence of add_lanes and pair_lanes calls, lane b is registered as left (up) of a exactly as often as a is registered as right (down) of b, and a failing call does not disturb other lanes.", "quantifier": "every sequence of calls", "why_tests_cant": "unbounded call sequences", "anchors": ["verse/map/lane_map_3d.py:pair_lanes", "verse/map/lane_map_3d.py:add_lanes"]}
{"id": "C55", "title": "Setting initial conditions is isolated and complete", "statement": "set_init_single stores a copy: later changes to the caller's lists do not affect the scenario; a single point becomes a degenerate box; other agents are untouched; unknown agents or wrong lengths are rejected without any change.", "quantifier": "every sequence of calls and caller-side mutations", "why_tests_cant": "unbounded histories", "anchors": ["verse/scenario/scenario.py:set_init_single", "verse/scenario/scenario.py:set_init"]}
{"id": "C56", "title": "Adding an agent gives it every lane of the map", "statement": "After add_agent, the track-mode list of the agent's decision logic contains every mode it had, in the same order, and every lane of the map, each new one once.", "quantifier": "every map and agent", "why_tests_cant": "unbounded lists", "anchors": ["verse/scenario/scenario.py:_update_agent_lane_mode"]}
{"id": "C57", "title": "Fixed-point containment check answers for the represented sets", "statement": "contain_all_fix returns True exactly when every state (with its mode) of the first list of reach sets is in the union of the second, and distinct mode combinations are never confused.", "quantifier": "every pair of lists of reach sets", "why_tests_cant": "continuum of states", "anchors": ["verse/utils/fixed_points.py:contain_all_fix", "verse/utils/fixed_points.py:reach_at_fix"]}
{"id": "C58", "title": "Piecewise-function bounds cover the function", "statement": "For every piecewise function and input box, the interval returned contains the function's value at every point of the box covered by a piece; conditions are translated with Python's meaning.", "quantifier": "every piecewise function and box", "why_tests_cant": "continuum", "anchors": ["verse/analysis/parsed_wrap/bounded_piecewise.py:bounded_piecewise_z3", "verse/analysis/parsed_wrap/bounded_piecewise.py:ast_to_z3_condition"]}
{"id": "C59", "title": "Simulated traces have one row per time step with exact time stamps", "statement": "TC_simulate returns rows stamped 0, dt, 2dt, ... with as many rows for every agent class for the same horizon and step, so that row i of every agent has the same time.", "quantifier": "every horizon and step", "why_tests_cant": "all horizon/step ratios", "anchors": ["verse/agents/base_agent.py:TC_simulate", "verse/agents/example_agent/car_agent.py:TC_simulate"]}
{"id": "C60", "title": "Transitions with the same destination keep their own initial sets", "statement": "Two different resets that lead to the same destination mode in the same step are both represented, at the right rows, in the child node.", "quantifier": "every pair of paths with equal destination", "why_tests_cant": "needs two paths hitting at overlapping indices", "anchors": ["verse/analysis/verifier.py:get_transition_verify_opt", "verse/analysis/simulator.py:get_transition_simulate"]}
{"id": "C61", "title": "near_split bins add up", "statement": "near_split(x, num_bins=n) returns n bins that sum to x and differ by at most one; near_split(x, size_bins=s) returns positive bins of at most s that sum to x and differ by at most one.", "quantifier": "every total, bin count and bin size", "why_tests_cant": "all integers", "anchors": ["verse/utils/utils.py:near_split"]}
{"id": "C62", "title": "Scalar range helpers", "statement": "lmap sends range ends to range ends, is order preserving and inverted by swapping the ranges; constrain returns the closest point of the interval; not_zero never returns a value closer to zero than eps, keeps larger values and the sign.", "quantifier": "every rational argument", "why_tests_cant": "all numbers", "anchors": ["verse/utils/utils.py:lmap", "verse/utils/utils.py:constrain", "verse/utils/utils.py:not_zero"]}
{"id": "C63", "title": "index_of finds the first occurrence", "statement": "index_of(l, x) is the first position of x in l, or None exactly when x does not occur.", "quantifier": "every list and item", "why_tests_cant": "all lists", "anchors": ["verse/analysis/analysis_tree.py:index_of"]}
{"id": "C64", "title": "Queries do not change stored tubes", "statement": "Looking a node's initial sets up in the tube cache and assembling its tube leaves every stored tube as it was, so that a later query for the same set returns the tube that was stored.", "quantifier": "every history of insertions and queries", "why_tests_cant": "the damage only shows in later runs of unbounded histories", "anchors": ["verse/analysis/verifier.py:check_cache_bloated_tube", "verse/analysis/verifier.py:calculate_full_bloated_tube_simple"]}
{"id": "C65", "title": "A transition's destinations are exactly the modes its resets allow", "statement": "After a transition the possible destination modes are exactly the tuples in which every mode variable that is reset takes one of the values its reset allows (a constant, a declared mode member, or any result of a map query) and every other mode variable keeps its value.", "quantifier": "every list of resets with at most one per variable, every mode tuple", "why_tests_cant": "unbounded lists of variables and map results", "anchors": ["verse/analysis/verifier.py:apply_reset"]}
{"id": "C66", "title": "Guard hits are grouped without loss into transitions", "statement": "The transitions found on a tube are one per agent, destination and number of resets; each lists as many reset sets as tube indices, in nondecreasing index order, and its source is the agent's current mode.", "quantifier": "every tube, every pattern of hits and every reset result", "why_tests_cant": "the grouping depends on which of unboundedly many hits share a destination", "anchors": ["verse/analysis/verifier.py:get_transition_verify_opt"]}
{"id": "C67", "title": "Rectangle intersection test is exact", "statement": "rotated_rectangles_intersect(a, b) is true exactly when the two rectangles share a point.", "quantifier": "every pair of rectangles", "why_tests_cant": "all positions, sizes and angles of two rectangles", "anchors": ["verse/utils/utils.py:rotated_rectangles_intersect", "verse/utils/utils.py:has_corner_inside"]}
{"id": "C68", "title": "Cached transitions are found and belong to a containing set", "statement": "If the transition cache answers a query for (agent, mode, box), the entry was stored for the same agent and mode with a box that contains the queried one up to 1e-6; if a stored box contains the queried box the query is a hit, and no other matching entry has more transitions that suit the query.", "quantifier": "every history of insertions and every query", "why_tests_cant": "unbounded histories and all boxes", "anchors": ["verse/analysis/incremental.py:ReachTubeCache.add_tube", "verse/analysis/incremental.py:ReachTubeCache.query_cont", "verse/analysis/incremental.py:ReachTubeCache.check_hit"]}
{"id": "C69", "title": "Star-set verification tubes start from every initial star", "statement": "The tube of stars computed for a list of initial stars is the box tube of a box that contains every point of every initial star, one star per step.", "quantifier": "every list of initial stars, every tube computation", "why_tests_cant": "lists longer than the segment length and a continuum of points", "anchors": ["verse/stars/starset.py:calc_reach_tube", "verse/analysis/verifier.py:calculate_full_bloated_tube_stars"]}
{"id": "C70", "title": "Stars fitted to sample points contain them", "statement": "The star post_cont_pca returns contains every point it was given, and the fallback predicate lets each parameter range over [-1, 1].", "quantifier": "every star, basis and list of points", "why_tests_cant": "continuum", "anchors": ["verse/stars/starset.py:post_cont_pca", "verse/stars/starset.py:new_pred"]}
{"id": "C71", "title": "Lane names denote their physical lane", "statement": "get_phys_lane maps a transition name Mij to Ti and an intersection name ROAD_i_j to ROAD_i, for all digits and roads, and maps every physical lane name to itself.", "quantifier": "every lane name, of any length", "why_tests_cant": "the road and index strings are unbounded and the patterns are matched by prefix", "anchors": ["verse/map/lane_map.py:LaneMap.get_phys_lane", "verse/map/lane_map_3d.py:LaneMap_3d.trans_func"]}
{"id": "C72", "title": "Parsed sensor bounds cover the sensor", "statement": "For every sensor function made of assignments, the bounds that the statement-by-statement analysis returns for a variable contain the variable's value for every input inside the input bounds.", "quantifier": "every function made of assignments, every input box and every input in it", "why_tests_cant": "continuum of inputs; depends on how each expression is dispatched", "anchors": ["verse/analysis/parsed_wrap/parser_wrapper.py:parse_function", "verse/analysis/parsed_wrap/parser_wrapper.py:compute_expression_bounds_with_parsed_sensor"]}
{"id": "C73", "title": "Difference of angular bounds covers the differences", "statement": "angular_bounds_diff_correct returns intervals that contain, up to full turns, the difference of any angle within the first bounds and any angle within the second.", "quantifier": "every pair of angular bounds and every pair of angles in them", "why_tests_cant": "continuum of angles; wrap-around at plus and minus pi", "anchors": ["verse/analysis/parsed_wrap/bounded_angular.py:angular_bounds_diff_correct"]}
{"id": "C74", "title": "Angular spans of rectangles cover the directions", "statement": "The angular span computed for two rectangles (or for bounds of the two arguments of atan2) contains the direction from every point of the one to every point of the other; for rectangles apart in some coordinate the span is the smallest such arc.", "quantifier": "every pair of rectangles and every pair of points in them", "why_tests_cant": "continuum of points", "anchors": ["verse/analysis/parsed_wrap/bounded_angular.py:angular_span_between_rects", "verse/analysis/parsed_wrap/bounded_angular.py:angular_span_rect_parser", "verse/analysis/parsed_wrap/bounded_angular.py:angular_bounds_rectangle"]}
{"id": "C75", "title": "Unions of angular bounds cover their members", "statement": "The bounds combine_angular_bounds returns contain every angle of every set of bounds it was given.", "quantifier": "every list of angular bounds", "why_tests_cant": "unbounded lists of intervals and a continuum of angles", "anchors": ["verse/analysis/parsed_wrap/bounded_angular.py:combine_angular_bounds"]}
{"id": "C76", "title": "Position error bounds of ranged sensors are exact", "statement": "For an error of at most eps_r in the measured range and at most eps in each measured angle, the per-coordinate error bounds contain the error of every reading and are attained by some reading.", "quantifier": "every position, every error radius and every reading", "why_tests_cant": "continuum of readings; maxima of products of sines", "anchors": ["verse/analysis/parsed_wrap/bounded_angular.py:point_error_general", "verse/analysis/parsed_wrap/bounded_angular.py:projection_bounds_general"]}
{"id": "C77", "title": "Cached sensor bounds cover the sensor", "statement": "Over any history of analyses (any boxes, any number of splits, with or without caching) and cache clearings, the bounds returned for a variable contain its value for every input in the box asked about.", "quantifier": "every history of calls, every box, every input in it", "why_tests_cant": "unbounded histories of a persistent cache; continuum of inputs", "anchors": ["verse/analysis/parsed_wrap/parser_wrapper.py:parse_function_array", "verse/analysis/parsed_wrap/parser_wrapper.py:parse_function"]}
{"id": "C78", "title": "The sensor-bounds cache is stable", "statement": "Once a result is cached, asking for the same function and box returns the same bounds, whatever happens in between, until the cache is cleared; calls without caching store nothing; after clearing, answers are those of an empty cache.", "quantifier": "every history of calls and clearings", "why_tests_cant": "unbounded histories", "anchors": ["verse/analysis/parsed_wrap/parser_wrapper.py:parse_function_array", "verse/analysis/parsed_wrap/parser_wrapper.py:clear_parse_cache"]}
{"id": "C79", "title": "Bounds combined over several intervals cover the value", "statement": "When the arguments of a sensor expression have several intervals each, the bounds returned for a map function, an atan2 or a general expression contain its value for all arguments within the intervals, provided the per-box bounds do.", "quantifier": "every expression, every list of intervals, every value", "why_tests_cant": "continuum; unbounded number of intervals", "anchors": ["verse/analysis/parsed_wrap/parser_wrapper.py:handle_map_function", "verse/analysis/parsed_wrap/parser_wrapper.py:handle_crown_function", "verse/analysis/parsed_wrap/parser_wrapper.py:handle_angular_function"]}
{"id": "C80", "title": "Lane changes at a crossing stay on the map", "statement": "Whatever sequence of modes is requested from a car on a lane of an Intersection map, the lane map answers without an error; a switch leads to the neighbouring lane on the named side and is refused at the edge of the road or during another switch; the physical lane is always a lane of the map on the same route, and so is the lane itself whenever the car is not switching.", "quantifier": "every size of crossing, route, lane and sequence of requested modes", "why_tests_cant": "unbounded histories and numbers of lanes", "anchors": ["verse/map/example_map/intersection.py:Intersection.h", "verse/map/lane_map.py:LaneMap.get_phys_lane"]}
{"id": "C81", "title": "The roads of a crossing are continuous", "statement": "An Intersection can be made exactly when its numbers are positive and its lanes fit; it then has one lane for every ordered pair of different arms and number; each lane leads from the one arm to the other without a gap or a kink, on the right-hand side of the road, and neighbouring lanes run side by side at the distance of a lane's width.", "quantifier": "every width, size, length and number of lanes; every route and lane", "why_tests_cant": "continuum of parameters and positions", "anchors": ["verse/map/example_map/intersection.py:Intersection.__init__", "verse/map/lane.py:Lane"]}
{"id": "C82", "title": "Highway maps answer lane changes consistently", "statement": "On the example highways, a lane change is answered exactly when the map says it has an entry; switching left (right) and ending the switch leads to the lane that runs one lane width to the left (right) over its whole length, and is offered wherever there is such a lane; after any sequence of admissible requests the car is on a lane of the map and can end its switch; the neighbours the map names are those lanes.", "quantifier": "every example highway, lane and sequence of requested modes; every position along the lanes", "why_tests_cant": "unbounded histories; continuum of positions", "anchors": ["verse/map/example_map/simple_map2.py:SimpleMap3", "verse/map/example_map/simple_map2.py:SimpleMap4Switch2", "verse/map/example_map/map_tacas.py:M1", "verse/map/lane_map.py:LaneMap.h"]}
{"id": "C83", "title": "Car controllers keep their limits and follow the lane", "statement": "The commands of the example cars stay within the steering and acceleration limits, do not depend on full turns of the heading, and steer an aligned car towards the middle of its lane; a switching car is steered like one driving on the target lane; simulated speeds stay between 0 and the car's speed for any number of steps; rows are consecutive solver steps from the initial state to the time bound.", "quantifier": "every state, mode, map and number of steps", "why_tests_cant": "continuum of states; unbounded traces", "anchors": ["verse/agents/example_agent/car_agent.py:CarAgent.action_handler", "verse/agents/example_agent/car_agent.py:NPCAgent.action_handler", "verse/agents/example_agent/car_agent.py:CarAgent.TC_simulate"]}
{"id": "C84", "title": "Straight 3d lanes have exact cylindrical coordinates", "statement": "For every point of space the longitudinal and lateral coordinates of a straight 3d lane are those of the closest point of its axis; positions made from coordinates are cylindrical and have these coordinates again; converting a point to coordinates and back gives the point up to a small tolerance.", "quantifier": "every lane and every point of space", "why_tests_cant": "continuum of points and directions; the tolerance depends on the direction", "anchors": ["verse/map/lane_segment_3d.py:StraightLane_3d.local_coordinates", "verse/map/lane_segment_3d.py:StraightLane_3d.position", "verse/map/lane_segment_3d.py:get_theta_by_coor"]}
{"id": "C85", "title": "Circular 3d lanes are arcs with toroidal coordinates", "statement": "The middle of a circular 3d lane runs along the circle with the given center, radius and normal from the first phase to the second, at unit speed; its length is the radius times the angle swept; the lateral coordinate of a point is its distance from the circle, the longitudinal one names the closest point; converting to coordinates and back gives the point.", "quantifier": "every circle, pair of phases and point", "why_tests_cant": "continuum of circles, phases and points", "anchors": ["verse/map/lane_segment_3d.py:CircularLane_3d_v1", "verse/map/lane_segment_3d.py:get_rtp_by_coor"]}
{"id": "C86", "title": "Bends between two points join them", "statement": "A circular 3d lane made from two points, a normal and an angle runs along a circle through both points, begins at the first, ends at the second, and turns by the given angle.", "quantifier": "every pair of points, normal and angle", "why_tests_cant": "continuum of points and angles", "anchors": ["verse/map/lane_segment_3d.py:CircularLane_3d_v2", "verse/map/lane_segment_3d.py:get_center_radius"]}
{"id": "C87", "title": "Coordinates on 3d lanes of several segments", "statement": "On a 3d lane made of several segments a point is measured on the closest of the segments it is beside (the first of them on a tie); the longitudinal position adds the lengths of the segments before it; a point in the middle of a straight segment has its distance from the segment's start and lateral 0; a point beside no segment raises; the altitude of a lane of level segments is their height.", "quantifier": "every lane of any number of segments and every point", "why_tests_cant": "continuum of points; unbounded numbers of segments", "anchors": ["verse/map/lane_3d.py:Lane_3d.get_lane_segment", "verse/map/lane_3d.py:Lane_3d.get_longitudinal_position", "verse/map/lane_map_3d.py:LaneMap_3d.get_longitudinal_position"]}
{"id": "C88", "title": "Waypoints follow the lane", "statement": "Over any history of waypoint requests of any agents, the waypoints recorded for an agent are those returned to it, each begins where its last one ended (or at the given position), and other agents have no influence; on a straight lane a waypoint is speed times time away, its lateral distance shrinks by 0.7 of that until it is 0; past the end of a segment it leads to the start of a following one that agrees best with the velocity; the guard box holds exactly when every coordinate is within half a side of the destination.", "quantifier": "every history of calls, every agent, lane, position, velocity and time", "why_tests_cant": "unbounded histories; continuum of positions", "anchors": ["verse/map/lane_map_3d.py:LaneMap_3d.get_next_point", "verse/map/lane_map_3d.py:LaneMap_3d.get_curr_waypoint", "verse/map/lane_map_3d.py:LaneMap_3d.check_guard_box"]}
{"id": "C89", "title": "3d example maps move between parallel levels", "statement": "On the 3d example maps moving up (down) and ending the move leads to the lane that runs exactly one level above (below) over its whole length, and is offered wherever there is one; after any sequence of admissible requests the agent is on a lane of the map and can end its move; the figure-eight lanes are closed loops without gaps or kinks.", "quantifier": "every 3d example map, lane and sequence of requested modes; every position along the lanes", "why_tests_cant": "unbounded histories; continuum of positions", "anchors": ["verse/map/example_map/map_tacas.py:M5", "verse/map/example_map/map_tacas.py:M6"]}
{"id": "C90", "title": "Star diameters are the largest Manhattan distance", "statement": "star_manhattan_distance returns the largest Manhattan distance between two points of a star, for every star that has a point; time_step_diameter returns, for every time step that has stars and in time order, the largest diameter of the stars of that step over all nodes and agents.", "quantifier": "every star of every dimension; every tree of star traces, horizon and step", "why_tests_cant": "continuum of points; unbounded dimension and numbers of nodes", "anchors": ["verse/utils/star_manhattan.py:star_manhattan_distance", "verse/utils/star_diams.py:time_step_diameter", "verse/utils/star_diams.py:reach_star"]}
{"id": "C91", "title": "Split sensor bounds cover the sensor", "statement": "Over any history of parsed_sensor and parsed_sensor_expr calls and cache clearings, the bounds returned for a sensor function contain its outputs for every input in the box asked about, for any number of splits; nothing is added to the bounds of the pieces; repeated questions get the same answer until the cache is cleared.", "quantifier": "every history of calls, every box, number of splits, and input in the box", "why_tests_cant": "unbounded histories of a persistent cache; continuum of inputs; unbounded number of pieces", "anchors": ["verse/analysis/parsed_wrap/sensor_parser.py:parsed_sensor", "verse/analysis/parsed_wrap/sensor_parser.py:parsed_sensor_expr", "verse/analysis/parsed_wrap/sensor_parser.py:clear_sensor_cache"]}
{"id": "C92", "title": "Replacements of atan2 and norm agree with them", "statement": "The function substituted for atan2 in analysed sensors has its value, and the one substituted for norm is within a ten-thousandth of it.", "quantifier": "every pair of numbers, every list of numbers", "why_tests_cant": "continuum; boundaries between quadrants", "anchors": ["verse/analysis/parsed_wrap/sensor_parser.py:atan2_crown_safe", "verse/analysis/parsed_wrap/sensor_parser.py:norm"]}
{"id": "C93", "title": "Directly run controllers see their agent and the others", "statement": "In simulate_simple a controller is called with its own agent's state (numbers, members of the enumerations, parameters), the map, and all other agents in order; nothing happens exactly when it returns its agent's state unchanged; otherwise the discrete fields it returns are the new mode and the others the new state, in the declared order; a failed assertion is reported by its label.", "quantifier": "every controller (as a function of its arguments), every declared state type, every number of agents and every state", "why_tests_cant": "controllers are arbitrary programs; unbounded numbers of agents and variables", "anchors": ["verse/analysis/simulator.py:pack_env", "verse/analysis/simulator.py:convertStrToEnum", "verse/analysis/simulator.py:Simulator.get_transition_simulate_simple"]}
{"id": "C94", "title": "A simple simulation is one chain of first events", "statement": "The tree of simulate_simple is a chain of nodes from the given states at time 0; each node holds the trajectories up to and including the first row where a controller acts; a failing assertion ends the run; otherwise the next node starts at that row's time with the new modes and states of the agents that act and the states of that row for all others.", "quantifier": "every scenario, horizon, depth limit and family of trajectories", "why_tests_cant": "arbitrary controllers and trajectories; unbounded numbers of nodes and rows", "anchors": ["verse/analysis/simulator.py:Simulator.simulate_simple", "verse/analysis/simulator.py:Simulator.get_transition_simulate_simple", "verse/scenario/scenario.py:Scenario.simulate_simple"]}
{"id": "C95", "title": "Simple simulations end", "statement": "simulate_simple ends with a depth limit, with at most that many nodes; without one it ends whenever time passes between rows and no controller acts in the first row after its own action, within about horizon over time step nodes.", "quantifier": "every scenario, horizon, depth limit, time step and family of trajectories", "why_tests_cant": "termination over unbounded runs", "anchors": ["verse/analysis/simulator.py:Simulator.simulate_simple"]}
{"id": "C96", "title": "Resets of star sets are exact", "statement": "When reachable sets are star sets, the set after a transition is exactly the set of states that its resets lead to from the states of the star: right-hand sides are evaluated in the state before the transition, other variables keep their values; the destination modes are those the mode resets allow.", "quantifier": "every star of every dimension, every list of resets, every state in the star", "why_tests_cant": "continuum of states; right-hand sides of any size, substituted as text", "anchors": ["verse/analysis/verifier.py:Verifier.apply_reset_stars", "verse/stars/starset.py:StarSet.apply_reset"]}
{"id": "C97", "title": "Guards on star sets are decided exactly", "statement": "When reachable sets are star sets, checking a guard reports it satisfiable exactly when some choice of states in the agents' stars makes it true, and contained exactly when every choice does, provided the solver's answers are right; a positive answer can be relied upon even when the solver leaves queries open.", "quantifier": "every guard without lane coordinates, every number of agents, every star of every dimension, every right solver", "why_tests_cant": "continuum of states; unbounded guards and numbers of agents", "anchors": ["verse/automaton/guard.py:GuardExpressionAst.evaluate_guard_cont", "verse/automaton/guard.py:GuardExpressionAst.get_agent_dictionaries", "verse/stars/starset.py:StarSet.add_constraints"]}
{"id": "C98", "title": "Star sensing gives every variable its agent's star", "statement": "The star sensor binds each of the ego's variables to the ego's star, and each attribute that a guard reads of the i-th other agent is bound to that agent's star before the guard is checked, whatever the order and number of agents.", "quantifier": "every scenario, every order and number of agents, every guard", "why_tests_cant": "unbounded numbers of agents, variables and any/all", "anchors": ["verse/sensor/base_sensor_stars.py:BaseStarSensor.sense", "verse/analysis/verifier.py:Verifier.apply_cont_var_updater", "verse/automaton/guard.py:GuardExpressionAst.parse_any_all_new"]}
{"id": "C99", "title": "Simulations start in the initial set, and seeds make them repeatable", "statement": "After any history of calls, a simulation starts at time 0, for every agent of the scenario and no other, at a point of the agent's initial set, in its initial mode and with its parameters; simulate_multi returns as many as asked for; with a seed the starting states depend only on the seed and the initial sets, and run i of simulate_multi with seed s starts where simulate with seed s + i does; initial states given to simulate_multi are used as they are.", "quantifier": "every history of scenario and agent calls, every generator of random numbers, seed, number of agents and runs", "why_tests_cant": "unbounded histories; the random generator is global state shared with the user's program", "anchors": ["verse/scenario/scenario.py:Scenario.simulate", "verse/scenario/scenario.py:Scenario.simulate_multi", "verse/scenario/scenario.py:Scenario._get_init_from_agent", "verse/utils/utils.py:sample_rect", "verse/analysis/analysis_tree.py:AnalysisTreeNode.root_from_inits"]}
{"id": "C100", "title": "Verifications start from the initial sets, and runs are recorded", "statement": "After any history of calls, a verification starts at time 0 from the initial set of every agent and no other; running an analysis changes no initial condition an agent has, even when it raises; the record of past runs is exactly the trees finished since the last cleanup_cache, in order, and each run's number is its position in it.", "quantifier": "every history of scenario and agent calls, including calls that raise", "why_tests_cant": "unbounded histories with failures in between", "anchors": ["verse/scenario/scenario.py:Scenario.verify", "verse/scenario/scenario.py:Scenario.verify_partitioned", "verse/scenario/scenario.py:Scenario.cleanup_cache", "verse/agents/base_agent.py:BaseAgent.set_initial"]}
{"id": "C101", "title": "The reach-tube plot shows the tube", "statement": "reachtube_tree with its default sampling and grouping succeeds on every finished tree, leaves the tree as it was, and fills exactly the projections of the states of the tubes, in addition to what the figure showed, provided no node looks as if it stood still; nothing else is ever filled or dotted; with up to seven agents and the default colours the points in an agent's shade are exactly its own; with scale_type trace everything lies within the axes; with labels on, every violation and every mode is marked, truthfully.", "quantifier": "every tree, number of agents and boxes, pair of dimensions, figure and colours", "why_tests_cant": "the set of plotted points is infinite and the tree unbounded", "anchors": ["verse/plotter/plotter2D.py:reachtube_tree", "verse/plotter/plotter2D.py:reachtube_tree_single", "verse/plotter/plotter2D.py:check_dim", "verse/plotter/plotter2D.py:get_text_pos"]}
{"id": "C102", "title": "The simulation plot draws the simulated states", "statement": "simulation_tree succeeds with every positive sampling rate; every node gives one line for every agent, through every sample_rate-th state of the node from the first, in order, in a shade of the agent, and there are no other lines; each violation is marked at the last sampled state of its node, labels or not; with the default rate the tree is left as it was.", "quantifier": "every tree, number of agents and states, sampling rate, figure and colours", "why_tests_cant": "unbounded trees and rates", "anchors": ["verse/plotter/plotter2D.py:simulation_tree", "verse/plotter/plotter2D.py:simulation_tree_single", "verse/plotter/plotter2D.py:sample_trace"]}
{"id": "C103", "title": "A slice of a tube shows the boxes of its interval of time", "statement": "reachtube_tree_slice with its default grouping fills exactly the projections of the states of the boxes that start no earlier than t_lower (0 if not given) and end no later than t_upper (if given).", "quantifier": "every tree, interval, figure and colours", "why_tests_cant": "the set of plotted points is infinite and the tree unbounded", "anchors": ["verse/plotter/plotter2D.py:reachtube_tree_slice", "verse/plotter/plotter2D.py:reachtube_tree_single_slice"]}
{"id": "C104", "title": "Each frame of a reach-tube video shows what is reached so far", "statement": "reachtube_tree_video on a finished tree gives a video whose frames are in the order of time, each at a time at which a box starts, rounded to the digits asked for; each frame shows, in the colours of the agents, exactly the states of the boxes that start at or before its rounded time; with no limit, or one that suffices, every such time has a frame, and there are never more frames than the limit (150 for a page by default); if at least two frames are allowed the last one shows all that is reached; the slider only leads to frames; the boxes lie within the axes.", "quantifier": "every tree, number of agents and boxes, pair of dimensions, palette, number of digits, limits", "why_tests_cant": "the set of shown points is infinite, and trees and limits unbounded", "anchors": ["verse/plotter/plotter2D.py:reachtube_tree_video"]}
{"id": "C105", "title": "Each frame of a reach-tube animation shows what is reached then", "statement": "reachtube_anime gives one frame for every time at which a box starts, rounded to the digits asked for, and it shows exactly the states of the boxes that start then; the frames are in the order of time.", "quantifier": "every tree, number of agents and boxes, pair of dimensions and number of digits", "why_tests_cant": "the set of shown points is infinite and the tree unbounded", "anchors": ["verse/plotter/plotter2D.py:reachtube_anime"]}
{"id": "C106", "title": "Each frame of a simulation animation marks the states of that time", "statement": "simulation_anime on a tree with a state at time 0 gives one frame for every rounded time of a state; it has markers for exactly the agents with a state at that time, in the agent's colour, one for each of its different states then; the animation starts with the picture of time 0.", "quantifier": "every tree, number of agents and states, pair of dimensions and number of digits", "why_tests_cant": "unbounded trees, with states repeated in different nodes", "anchors": ["verse/plotter/plotter2D.py:simulation_anime"]}
{"id": "C107", "title": "A DryVR tube with the global discrepancy contains what it was trained on", "statement": "With bloating_method GLOBAL, if the library for convex hulls is correct, every tube that calc_bloated_tube returns, for continuous and for discrete time, contains the whole initial box at its start and, at every sampled time, the simulation from the centre and every training simulation.", "quantifier": "every dimension, box, simulation function, list of samples and list of times, and every correct library for convex hulls", "why_tests_cant": "exponentials fitted to infinitely many possible sensitivities; any number of rows and edges of the hull", "anchors": ["verse/analysis/dryvr.py:get_reachtube_segment", "verse/analysis/dryvr.py:calc_bloated_tube", "verse/analysis/dryvr_disc.py:get_reachtube_segment"]}
{"id": "C108", "title": "A mixed-monotone tube of a continuous system contains its runs", "statement": "For an agent with a decomposition function of its differential equation, if the integrator is exact, the tube that compute_reachtube_mixmono_cont returns contains every run from the (first) initial box under every disturbance that stays between its bounds: step k contains the states of the run at the times k*dt to (k+1)*dt.", "quantifier": "every dimension, differential equation, locally Lipschitz decomposition function, initial box, bounds and disturbance over time, step and horizon", "why_tests_cant": "infinitely many runs and disturbances over continuous time; a test compares a few simulations with the tube", "anchors": ["verse/analysis/mixmonotone.py:compute_reachtube_mixmono_cont", "verse/analysis/mixmonotone.py:calculate_bloated_tube_mixmono_cont"]}
{"id": "C109", "title": "Printed expressions read back as themselves", "statement": "unparse writes every expression that Python's parser can have built as a text that Python reads as the same expression, so that guards and resets kept as text mean what the user wrote, and two different expressions never print the same. Exceptions: a subscript of several slices is printed as a text that is not Python.", "quantifier": "every expression of any depth: arithmetic, comparisons, boolean operators, conditionals, lambdas, calls, attributes, subscripts and slices, lists, tuples, comprehensions", "why_tests_cant": "expressions of every shape and depth; a test prints a few of them", "anchors": ["verse/parser/astunparser.py:unparse", "verse/parser/astunparser.py:Unparser", "verse/parser/parser.py:unparse"]}
{"id": "C110", "title": "A plot of stars shows the stars", "statement": "plot_reachtube_stars draws, for every agent and node, a closed path around every filter-th star of the trace. Every vertex of the path is the projection of a point of the star and, for symmetric generators, no point of the star is further in the direction of the vertex.", "quantifier": "every star of any dimension, every direction, every tree of traces and sampling rate", "why_tests_cant": "stars of every shape and dimension; a plot shows a few of them and a wrong outline looks plausible", "anchors": ["verse/stars/starset.py:StarSet.get_verts", "verse/stars/starset.py:StarSet.maximize", "verse/plotter/plotterStar.py:plot_reachtube_stars"]}
{"id": "C111", "title": "Diameters of simulations and tubes bound distances", "statement": "sim_traces_to_diameters returns, for every history of modes and every time, the sum of the sides of the smallest box around the joint states of the simulations with that history, so two simulations with equal histories are never further apart. time_step_diameter_rect returns for every step of the time grid the greatest such sum over the boxes of the nodes.", "quantifier": "every list of simulation trees with any agents, modes and times, every hash function; every verified tree, horizon and step", "why_tests_cant": "any number of simulations of any shape can meet at a time; the code groups them by hashes of strings", "anchors": ["verse/utils/star_diams.py:sim_traces_to_dict_composed", "verse/utils/star_diams.py:sim_traces_to_diameters", "verse/utils/star_diams.py:time_step_diameter_rect"]}
{"id": "C112", "title": "Star tubes fitted with PCA contain the sampled simulations", "statement": "Sampling a star halts, and returns the requested number of its points or raises after too many points in a row outside; a star that is a box never raises. The tube computed with pca=True contains at every step the states of the 100 sampled simulations. sim_star fits one star per step before the horizon, each containing the states after a step of sampled points of the one before.", "quantifier": "every star, number of points, tolerance, random generator, exact solver, principal basis and simulator", "why_tests_cant": "sampling is random, and any point may be drawn", "anchors": ["verse/stars/starset.py:sample_star", "verse/stars/starset.py:gen_starsets_post_sim", "verse/stars/starset.py:sim_star", "verse/stars/starset.py:StarSet.calc_reach_tube"]}
{"id": "C113", "title": "A verification step on star sets follows every transition", "statement": "Of the tubes of a step with STAR_SETS, inherited ones are kept and the others start from all initial stars of the agent at the start time of the node. A step without an assertion violation follows every enabled path of every state in the visited part of the tubes: the reset state lies in an initial star of a child in the right mode, and the child takes over the other agents' tubes from a step not later than that state's. A reported assertion ends the tubes with the violating step and leaves no children.", "quantifier": "every node, map, number of agents, and every tube computation, guard and reset evaluation on stars that is sound", "why_tests_cant": "the hits depend on all states of all agents in all steps", "anchors": ["verse/analysis/verifier.py:Verifier.compute_full_reachtube_step", "verse/analysis/verifier.py:Verifier.get_transition_verify_opt"]}
{"id": "C114", "title": "Distances along rays and segments to circles and rectangles are right", "statement": "distance_to_rect is infinite exactly if no point of the segment is in the rectangle, and otherwise, from outside, the distance to the first point of the segment in it. distance_to_circle is the first time a ray from the origin is in the disc, and infinite if it never is. point_in_ellipse says whether a point is in the turned ellipse.", "quantifier": "all segments, rays, circles of positive radius, rectangles of any orientation, ellipses and angles", "why_tests_cant": "real-valued inputs, with special cases for parallel and touching lines", "anchors": ["verse/utils/utils.py:distance_to_rect", "verse/utils/utils.py:distance_to_circle", "verse/utils/utils.py:solve_trinom", "verse/utils/utils.py:point_in_ellipse"]}
{"id": "C115", "title": "The sensors of the examples show each agent the states of all agents", "statement": "sense of ThermoSensor, CraftSensor and QuadrotorSensor binds the agent's own variables to its values, and each variable of others to the list of the other agents' values in the order of the scenario, and nothing else; for agents declared with exactly these variables it returns what the base sensor returns. SingleSensor shows the only other agent.", "quantifier": "all agents, numbers of agents, states and modes, simulating and verifying", "why_tests_cant": "depends on the number and order of agents and on the declared variables", "anchors": ["verse/sensor/example_sensor/thermo_sensor.py:ThermoSensor", "verse/sensor/example_sensor/craft_sensor.py:CraftSensor", "verse/sensor/example_sensor/quadrotor_sensor.py:QuadrotorSensor", "verse/sensor/example_sensor/single_sensor.py:SingleSensor"]}
{"id": "C116", "title": "Queries of lane segments agree with their geometry", "statement": "distance is at least the distance to some point of the centre line, at most sqrt 2 times the distance to any point of a straight one, and 0 exactly on the centre line; distance_with_heading is 0 exactly for vehicles that follow it. on_lane, is_reachable_from and after_end say whether the position is inside the width and the ends of the segment, whether the coordinates are given or computed.", "quantifier": "all straight and circular segments, positions, headings, margins and weights", "why_tests_cant": "real-valued geometry of every segment and position", "anchors": ["verse/map/lane_segment.py:AbstractLane.on_lane", "verse/map/lane_segment.py:AbstractLane.is_reachable_from", "verse/map/lane_segment.py:AbstractLane.after_end", "verse/map/lane_segment.py:AbstractLane.distance", "verse/map/lane_segment.py:AbstractLane.distance_with_heading"]}
{"id": "C117", "title": "Lane segments are rebuilt from their configuration", "statement": "from_config applied to the configuration that to_config wrote gives the same segment back; constructors keep every given parameter and use the documented defaults for the others.", "quantifier": "all five lane segment classes, all keyword arguments, all numerical functions of the arcs in space", "why_tests_cant": "every class and every combination of given and omitted parameters", "anchors": ["verse/map/lane_segment.py:StraightLane.from_config", "verse/map/lane_segment.py:StraightLane.to_config", "verse/map/lane_segment.py:CircularLane.to_config", "verse/map/lane_segment_3d.py:StraightLane_3d.to_config", "verse/map/lane_segment_3d.py:CircularLane_3d_v1.to_config"]}
{"id": "C118", "title": "Simulations of the example agents follow their differential equations", "statement": "With an exact integrator the rows of TC_simulate are at the multiples of the step and hold the solution: the thermostat's temperature is T exp(+-t/10) and its clocks run, robots, balls and points on a line move uniformly, a passive spacecraft keeps the integrals of its equations, the Van der Pol oscillator's distance from the origin grows at most like exp t; modes that an agent does not have are an error.", "quantifier": "all initial states, horizons, steps, integrators that return points of solutions, roundings that keep the multiples of the step", "why_tests_cant": "solutions of differential equations at every step count", "anchors": ["verse/agents/example_agent/origin_agent.py:thermo_agent.TC_simulate", "verse/agents/example_agent/origin_agent.py:craft_agent.TC_simulate", "verse/agents/example_agent/origin_agent.py:vanderpol_agent.TC_simulate", "verse/agents/example_agent/robot_agent.py:RobotAgent.TC_simulate", "verse/agents/example_agent/ball_agent.py:BallAgent.dynamics", "verse/agents/example_agent/line_agent.py:LineAgent.dynamics", "verse/agents/example_agent/ballg_agent.py:Ball_g_agent.dynamics", "verse/agents/base_agent.py:BaseAgent.TC_simulate"]}
{"id": "C119", "title": "Pictures of the tree show its nodes, edges and mode changes", "statement": "visualize draws each node of the tree once, with its start time, and an edge for each child; visualize_dot does the same and labels each edge with exactly the agents whose modes change, with the modes before and after. Colours follow the number of rows of the longest branch below a node, relative to the root's: the root is blue and a child is redder than its parent.", "quantifier": "all trees of results whose ids tell nodes apart, whose nodes have rows and whose agents have modes", "why_tests_cant": "trees of any depth and branching", "anchors": ["verse/analysis/analysis_tree.py:AnalysisTree.visualize", "verse/analysis/analysis_tree.py:AnalysisTree.visualize_dot", "verse/analysis/analysis_tree.py:AnalysisTree._get_len"]}
{"id": "C120", "title": "Experiments from the command line do what their switches say", "statement": "The second word of the command line sets incremental (i), parallel (l), try_local (t), compare (c), plot (p), dump (d) and verification instead of simulation (v), whatever the order of the letters; the other letters and words are kept. A run analyses the scenario once with the given horizon and step and records the number of steps, nodes and leaves and the counters of the caches; a report gives the percentage of lookups that hit; a comparison is two successive runs with their reports and containments.", "quantifier": "all command lines, scenarios, horizons, steps and results", "why_tests_cant": "words, scenarios and trees of any size", "anchors": ["verse/scenario/scenario.py:ExprConfig.from_arg", "verse/scenario/scenario.py:Benchmark.run", "verse/scenario/scenario.py:Benchmark.compare_run", "verse/scenario/scenario.py:Benchmark.replace_scenario", "verse/scenario/scenario.py:Benchmark.report"]}
{"id": "C121", "title": "The report of the simulation cache lists what is cached", "statement": "After any history of incremental simulations of agents with n + 1 continuous variables, SimTraceCache.get_cached_inits(n) succeeds; each row it lists for an agent is the mode and the exact initial state of a segment that was stored for it, with the length of its trace and numbers of transitions recorded for that agent and mode; every state that was looked up or stored has a row within 1e-6 of it, and there is exactly one row for each stored segment.", "quantifier": "every history of cache updates, number of agents, modes, variables and every iteration order of the interval sets", "why_tests_cant": "the trees are nested to any depth and filled by any history of runs", "anchors": ["verse/analysis/incremental.py:SimTraceCache.get_cached_inits", "verse/analysis/incremental.py:SimTraceCache.iter_tree", "verse/analysis/incremental.py:ReachTubeCache.get_cached_inits", "verse/analysis/incremental.py:ReachTubeCache.iter_tree"]}
{"id": "C122", "title": "The consistency check of a derived star never reports one of its points", "statement": "With a z3 that answers correctly, check_unsat(old_star, derived_basis, point, ncenter) is False for every point of the star with centre ncenter, generators derived_basis and the predicate of old_star, and True for the points outside of it.", "quantifier": "every star, list of generators, centre and point of any dimension", "why_tests_cant": "the number of generators, constraints and dimensions is unbounded and the answer depends on real unknowns", "anchors": ["verse/stars/starset.py:check_unsat"]}
{"id": "C123", "title": "Confidence regions stay within the prior box and accept what they explain", "statement": "confidence_polytope(data, parameter_box) moves the estimate and each of the 2^d corners into the box, leaves those that are in it, and loses no parameter of the region within the box; is_valid_observation accepts every observation that some parameter of the ellipsoid explains with an error below sigma, and is_consistent_dataset judges the last observation by the region of those before it.", "quantifier": "every dataset, box, Gramian with positive least eigenvalue, radius and observation of any dimension", "why_tests_cant": "dimensions, numbers of observations and real values are unbounded", "anchors": ["verse/utils/utils.py:confidence_polytope", "verse/utils/utils.py:is_valid_observation", "verse/utils/utils.py:is_consistent_dataset"]}
{"id": "C124", "title": "Incremental verification with star sets computes the tubes it does not find", "statement": "With star sets, looking up the cached tubes of a node takes no tube of other stars, reports each segment of initial stars that it does not find exactly once and in order and counts a miss for it; the tube of the node is then computed, incremental or not.", "quantifier": "every list of initial stars, segment length, cache, count of hits and misses, and solver", "why_tests_cant": "numbers of stars and segments and contents of the cache are unbounded", "anchors": ["verse/analysis/verifier.py:Verifier.check_cache_bloated_tube_stars", "verse/analysis/verifier.py:Verifier.calculate_full_bloated_tube_stars", "verse/analysis/incremental.py:TubeCache.check_hit"]}
