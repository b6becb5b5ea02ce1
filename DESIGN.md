# A Rocq model of Verse-library

`properties.jsonl` lists the properties (C01 ...).  `rocq/theories` holds the model and the proofs.
For each area `X` there is

* `X.v`: the executable model, one Gallina definition per Python function, each with a comment
  naming the file and lines it models and what was simplified;
* `XSpec.v`: the specification, in terms that do not mention the model's helpers;
* `XProofs.v` (and `XMain.v`, ...): lemmas;
* `XProps.v`: the property theorems `Cnn_...`, each followed by `Print Assumptions`, with examples
  that meet the hypotheses.

`Base`, `BaseFacts`, `Dict`, `PyText` and `Round` hold shared material: exceptions as `option`, Python
dictionaries as association lists, text operations, Python's `round`.  `Toy`, `ParserToy` and `CoverToy`
hold the concrete scenarios of examples and refutations.

## Conventions

* **Numbers.** Floats are modelled by exact rationals (`Q`) where only arithmetic and comparison
  are used, and by the stdlib reals (`R`) where norms, pi or trigonometry occur.  Floating-point
  rounding is not modelled, except the explicit calls to Python's `round`.
* **Exceptions.** A Python exception is a value (`None`, or a constructor naming the exception).
  Theorems say when it occurs.
* **Oracles.** z3, the flow of an agent, linear programming, user-written sensors, maps and decision
  functions are universally quantified arguments.  The assumption on their answers is stated in the
  theorem, and only for the queries that are made.
* **Mutation.** A method that mutates its object is a function returning the new object.  Aliasing is
  modelled with an explicit heap where a property depends on it (scenario set-up, tube cache, node table).
* **Concurrency.** The work list of `verify` and `simulate` with ray is a transition system: a step
  starts a task or receives the result of any task in flight.  Theorems hold for every sequence of steps.
* **False properties.** If the faithful model violates a property, a theorem `..._refuted` exhibits a
  witness, and the strongest true part we found is proved as `..._partial`.

## Properties

"Proved" means the theorems together say what the English statement says.  "Partial" means the
statement is false of the code in some cases, or proved only under the conditions named in the last column.

| Property | Status | Model | How it is proved | What is missing or false |
|---|---|---|---|---|
| C01 dedup keeps exactly the first element of every key | proved | `Utils.v` | induction on the list |  |
| C02 wrap_to_pi normalises every angle | proved | `Angle.v` | real modulus via `up`; range, congruence and uniqueness by an integer bound |  |
| C03 Polygon intersection test never reports a separation that is not there | proved | `Polygon.v` | separating axis: a strict gap between projections contradicts a common convex combination |  |
| C04 A rotated rectangle contains its own corners | partial | `Polygon.v` | rotation algebra over R | the test turns the point the wrong way; refuted by a 3-4-5 rotation, true for the opposite angle and for unturned rectangles |
| C05 The decision-logic parser loses no controller behaviour | partial | `Parser.v`, `PySem.v` | simulation between Python's evaluation and path sets, induction on programs | false for a value assigned equally in both branches and for assignments outside of ifs |
| C06 Extracted paths are justified | partial | `Parser.v`, `PySem.v` | same simulation, read backwards | same restriction to tidy programs |
| C07 Assertions extracted from decision logic fail exactly when Python's do | partial | `Parser.v`, `PySem.v` | same simulation, with assertion labels | same restriction to tidy programs |
| C08 Early returns in helper functions and controllers are honoured | partial | `Parser.v`, `PySem.v` | induction on helper bodies | false for early returns: the value is that of the last return |
| C09 Chained comparisons and filtered any/all keep their meaning | proved | `Parser.v`, `PySem.v` | evaluation of the rewritten expression |  |
| C10 Guard checking over a box is exact | partial | `Guard.v` | induction on the guard; solver oracle exact on the two queries made; positive answers also with an oracle that may answer unknown | an unknown answer counts as unsatisfiable (refuted) |
| C11 Evaluating the discrete part of a guard preserves the guard | proved | `Guard.v` | induction on the guard |  |
| C12 any/all over other agents unrolls to the right finite formula | proved | `Guard.v` | induction on the list of agents |  |
| C13 Map-dependent guards are over-approximated | partial | `Lane.v`, `Guard.v` | linear functions on boxes attain bounds at corners; guard part by induction | false when the two corners of the box are on one segment and other points of it on another, and on circular segments at the branch cut |
| C14 The sensor gives every agent an aligned and complete view | partial | `Sensor.v` | fold over the state dictionary | false when an agent has fewer variables than the type declares |
| C15 verify reports every violation of an assertion | partial | `Step.v`, `Scan.v` | scan theorem of C16 plus hull coverage | false when the path condition holds on a part of the box only, and when the map rejects all hits |
| C16 The tube scan visits every index until a gap or a certain transition | proved | `Scan.v` | induction on the row scan, exact description of where it stops and what it reports |  |
| C17 Reset boxes contain every reset state and no slack for multi-affine resets | proved | `Reset.v` | vertex argument for multi-affine functions |  |
| C18 Reset boxes contain every reset state for arbitrary arithmetic resets | partial | `Reset.v` | interval ends suffice when values stay between them along each axis | false for a square |
| C19 Substituting values for names in a reset replaces exactly the variables | partial | `Reset.v`, `PyText.v` | text replacement over characters, tokens and Python's expression grammar | false when a name is inside another one and for powers of negative values |
| C20 A verification step builds exactly one child per reported transition | proved | `Step.v`, `Scan.v` | definition of a step followed through search, cut and children |  |
| C21 Tubes started from several initial sets cover every start | partial | `Overlay.v` | induction on segments | proved for one initial set per segment; for longer segments only up to L-1 rows early, and the exact claim is refuted |
| C22 verify covers every execution | partial | `Step.v`, `Scheduler.v`, `Cover*.v` | induction on executions: a node that follows the execution, C16 for where it stops, C21/C60 for the entry row | needs: sound tubes, guards and resets, one variable per agent, a map that permits the destinations, hits without gaps, no certain guard before all starts have entered, aligned hits. Each is shown necessary by a refutation |
| C23 Hull operations on tubes are sound and tight | proved | `Boxes.v` | lists of bounds |  |
| C24 Partitioning an initial set covers it and stays inside it | proved | `Boxes.v` | lists of bounds |  |
| C25 verify_partitioned starts children from the whole hitting set | partial | `Partitioned.v` | step theorem for partitioned verification | only the first index of a transition and one path combination are used; refuted for the others |
| C26 unsafe_continue lets verify continue past a violated assertion | partial | `Step.v`, `Partitioned.v` | evaluation of the step | unsafe_continue with a violation raises; refuted by one node |
| C27 The work list processes every node once and gives it a unique id | proved | `Scheduler.v` | invariant over all interleavings |  |
| C28 The result tree does not depend on the completion order | proved | `Scheduler.v` | canonical unfolding of the root; every final state of every schedule represents it |  |
| C29 max_height and the time horizon bound the tree | proved | `Scheduler.v` | invariant; termination by a measure on pending nodes |  |
| C30 Parallel runs report the same assertion hits as sequential runs | partial | `Scheduler.v` | invariant with the hits | false for parallel simulate: hits of remote workers are lost |
| C31 simulate stops at the first event | partial | `Sim.v` | induction on rows | a hit rejected by the map stops the scan; transitions with equal destination are merged (both refuted) |
| C32 Simulated traces are continuous across nodes | proved | `Sim.v` | induction on the tree |  |
| C33 Transitions respect the map | proved | `Scan.v`, `Sim.v` | membership in the filtered list of destinations |  |
| C34 simulate checks the assertions of every agent | partial | `Sim.v` | induction on rows | agents without paths are not checked (refuted) |
| C35 AnalysisTree lists every node exactly once | proved | `Tree.v` | breadth-first queue invariant, permutation with the preorder list |  |
| C36 dump followed by load gives back the tree | partial | `Tree.v` | heap of JSON objects, induction on trees | agents come back as class descriptions; simulate_simple trees with a grandchild load forever (refuted) |
| C37 A tree contains itself | partial | `Contains.v` | merge of sorted grids | false when a branch stops early |
| C38 contains is sound | partial | `Contains.v` | same | false for branches that stop early, for whole states and for simulation trees |
| C39 first_transitions returns the earliest transition of each agent | partial | `Tree.v` | breadth-first order | breadth-first first is not earliest (refuted) |
| C40 A tube-cache hit contains the queried set | proved | `Cache.v` | induction on the dimensions and on the insertion history |  |
| C41 The tube cache finds a stored tube that contains the queried set | partial | `Cache.v` | same | greedy descent misses entries (refuted) |
| C42 A simulation-cache hit is for an initial state within 1e-6 | proved | `Cache.v` | same |  |
| C43 Cached tubes are aligned with the initial sets they belong to | partial | `Overlay.v` | induction on segments with a heap of arrays | false when the first initial set misses and a later one hits |
| C44 A cached tube is long enough for the node it is used for | partial | `Cache.v` | induction on the history | horizon and step are not part of the key; simulation cache returns absolute times (refuted) |
| C45 Re-verification re-checks every changed path | partial | `Cache.v` | comparison of the path lists | segments without transitions, additional paths, changed values (refuted) |
| C46 DryVR tube covers the initial set and its training traces | partial | `Dryvr.v` | arithmetic on rows; powers as an abstract monotone function | traces from the outermost 1e-10th of the box, and boxes thinner than 2e-10 in discrete time (refuted) |
| C47 Discrete mixed-monotone tubes contain every trajectory | partial | `MixMono.v` | induction on steps | minimiser that is only locally optimal and further initial sets (refuted) |
| C48 Star sets represent exactly the intended sets | partial | `Star.v`, `StarCenter.v` | linear algebra on lists over Q; a corner minimises a positive sum over a box | half-space intersection uses the basis untransposed, `get_true_center` and `overapprox_rectangles` are wrong for most stars (refuted) |
| C49 Star-set emptiness and satisfaction answer for the represented set | partial | `Star.v` | same; linear programming oracle | bounds alpha >= 0 (refuted) |
| C50 Combining stars covers all of them | proved | `Star.v` | same |  |
| C51 Straight-lane coordinates and positions are inverse | proved | `Lane.v` | trigonometry over R |  |
| C52 A lane reports the segment that the position is on | partial | `Lane.v` | induction on segments | smallest signed lateral distance (refuted) |
| C53 Longitudinal coordinates increase along a lane | partial | `Lane.v` | induction on segments | segment object shared between lanes (refuted) |
| C54 3d lane neighbourhood relations stay symmetric | partial | `LaneMap3d.v` | invariant over histories | failing pairings, re-added lanes (refuted) |
| C55 Setting initial conditions is isolated and complete | partial | `Scenario.v` | heap of lists, invariant over histories | set_init not atomic; constructor not checked (refuted) |
| C56 Adding an agent gives it every lane of the map | proved | `Scenario.v` | same |  |
| C57 Fixed-point containment check answers for the represented sets | partial | `FixedPoints.v` | region query exact iff the solver is exact on the query made | two trees number modes independently (refuted) |
| C58 Piecewise-function bounds cover the function | partial | `Piecewise.v` | translation of Python conditions to z3, optimiser oracle sound on the queries made | chained comparisons, argument names, statements before the if (refuted) |
| C59 Simulated traces have one row per time step with exact time stamps | partial | `TimeGrid.v` | integer division over Q | row count for horizons that are not a multiple of the step (refuted across agents) |
| C60 Transitions with the same destination keep their own initial sets | partial | `Step.v`, `Overlay.v` | from C21 and the grouping of hits | several reset sets at one row, or rows without one (refuted) |
| C61 near_split bins add up | proved | `Utils.v` | integer division |  |
| C62 Scalar range helpers | proved | `Utils.v` | cases |  |
| C63 index_of finds the first occurrence | proved | `Utils.v` | induction on the list |  |
| C64 Queries do not change stored tubes | partial | `Overlay.v` | heap of arrays | the array in the cache is the accumulator (refuted) |
| C65 A transition's destinations are exactly the modes its resets allow | proved | `Scan.v` | membership |  |
| C66 Guard hits are grouped without loss into transitions | proved | `Scan.v` | induction on the hits |  |
| C67 Rectangle intersection test is exact | partial | `Polygon.v` | rectangles as products of intervals | crossing rectangles are missed (refuted) |
| C68 Cached transitions are found and belong to a containing set | proved | `Cache.v` | induction on the dimensions and the history |  |
| C69 Star-set verification tubes start from every initial star | partial | `Star.v` | induction on segments | more than 1000 stars (refuted) |
| C70 Stars fitted to sample points contain them | proved | `Star.v` | z3 optimiser oracle |  |
| C71 Lane names denote their physical lane | partial | `LaneMap3d.v`, `Scan.v` | characters of the names | names with several digits (refuted) |
| C72 Parsed sensor bounds cover the sensor | partial | `Piecewise.v` | interpretation of the parsed function, oracles sound on the queries made | special function inside a larger expression (refuted) |
| C73 Difference of angular bounds covers the differences | partial | `Angular.v` | trigonometry over R, wrap-around by turns | differences whose bounds span more than a turn (refuted) |
| C74 Angular spans of rectangles cover the directions | partial | `Angular.v` | trigonometry over R; least and greatest of the corner angles | same rectangle, origin on an edge, zero on an axis (refuted) |
| C75 Unions of angular bounds cover their members | partial | `Angular.v` | membership in the pieces | bounds that wrap, or several pieces of one sign (refuted) |
| C76 Position error bounds of ranged sensors are exact | partial | `Angular.v` | extrema of the spherical coordinates on arcs | eps >= pi (refuted) |
| C77 Cached sensor bounds cover the sensor | partial | `ParseArray.v`, `Piecewise.v` | invariant over histories: every entry bounds its function on its box; keys assumed free of collisions | variables with several intervals under splitting when the union loses values, as that of the code does (refuted); same-named functions and changed options (refuted) |
| C78 The sensor-bounds cache is stable | partial | `ParseArray.v` | invariant over histories | first call returns a pair, later ones the bounds alone (refuted) |
| C79 Bounds combined over several intervals cover the value | partial | `Handlers.v`, `Angular.v`, `Piecewise.v` | membership in the product of the intervals; per-box oracles | arguments with several intervals give wrong bounds for atan2 when y crosses 0, and minus_angular loses values when the intervals are together longer than half a turn (both refuted); angular and piecewise functions in whole functions (see C72-C75) |
| C80 Lane changes at a crossing stay on the map | proved | `Intersection.v`, `LaneMap3d.v` | invariant over histories; decimal names are injective | - |
| C81 The roads of a crossing are continuous | partial | `Intersection.v`, `Lane.v` | lookup in the dictionaries built by assignments; cosines and sines at quarter turns | the longitudinal start stored in shared segments (refuted) |
| C82 Highway maps answer lane changes consistently | partial | `TableMap.v`, `Lane.v` | cases of the tables; invariant over histories; parallel segments | a braking car on M1 can do nothing else; SwitchLeft on SimpleMap4Switch2 (refuted) |
| C83 Car controllers keep their limits and follow the lane | partial | `Car.v`, `Lane.v`, `Angle.v` | analysis of the controller over R; induction on the steps with the solver as an oracle | braking in mode Accel is not limited; NPCAgent and full turns (refuted); bends around the joints |
| C84 Straight 3d lanes have exact cylindrical coordinates | partial | `Lane3d.v` | vector algebra and trigonometry over R; rounding bounded by half a unit of the last digit | the angle is blurred for directions close to the plane y = 0 (refuted); on_lane and distance raise (refuted) |
| C85 Circular 3d lanes are arcs with toroidal coordinates | partial | `Lane3d.v` | rotations of an orthonormal frame; closest point of a circle | angles of lanes with right_rotate false are mirrored, and angles flip where a lane on an upright circle runs straight up (both refuted) |
| C86 Bends between two points join them | partial | `Lane3d.v` | geometry of the bisector; rotations | angles other than left turns below pi and right turns of 3/2 pi, normals not of length 1 (both refuted) |
| C87 Coordinates on 3d lanes of several segments | partial | `Lane3d.v` | loop invariant over the segments; induction on the lane | the longitudinal position on M6 falls back at the crossing (refuted) |
| C88 Waypoints follow the lane | proved | `Waypoint.v`, `Lane3d.v` | invariant over histories of calls; algebra of the step; loop invariant of the choice | waypoints that raise; rounding of the angle while the lateral distance is not 0 |
| C89 3d example maps move between parallel levels | proved | `Map3d.v`, `Lane3d.v`, `LaneMap3d.v` | cases of the tables; translation invariance of segments; invariant over histories | - |
| C90 Star diameters are the largest Manhattan distance | partial | `StarDiam.v` | rows of the program as block sums; both directions between points of the program and pairs of points of the star; induction over the steps | stars wider than N/2 = 524287.5 in a coordinate (refuted) |
| C91 Split sensor bounds cover the sensor | partial | `SplitSensor.v` | discrete intermediate value over the split points; hull invariant of the fold; invariant of the cache over histories | functions of the same name (refuted); bounds changed by the conversion to 32 bits (refuted) |
| C92 Replacements of atan2 and norm agree with them | partial | `SplitSensor.v`, `Angle.v` | cases of the signs; monotonicity of the root | the axes and the strip left of the second axis (refuted) |
| C93 Directly run controllers see their agent and the others | partial | `SimpleEnv.v`, `Sensor.v` | the view of C14 packed into namespaces; conversion field by field; equality of namespaces | static variables, shared names of discrete variables, single other agents, assertions without a label (refuted) |
| C94 A simple simulation is one chain of first events | partial | `SimpleSim.v`, `SimpleEnv.v` | first row with an event; one combination of transitions; invariant of the work list | controllers without transitions (refuted) |
| C95 Simple simulations end | partial | `SimpleSim.v`, `SimpleEnv.v` | decreasing measure along the chain; rounding error of the start times | controllers that are still enabled after their action (refuted) |
| C96 Resets of star sets are exact | partial | `StarReset.v`, `Star.v`, `Reset.v` | textual substitution as in C19; the image of a star under an affine map (C48) | products and powers of variables, names that begin with another, right-hand sides over other agents (refuted) |
| C97 Guards on star sets are decided exactly | partial | `StarGuard.v`, `StarLane.v`, `Guard.v`, `Star.v` | each agent's constraints hold for exactly the states of its star; formulas as in C10; a coordinate is a star over sound bounds, added to the parts | queries left open, state variables named like coefficients, variables of others with "ego" in their names, other agents whose variables are not ordered like the ego's in guards with lane coordinates (refuted) |
| C98 Star sensing gives every variable its agent's star | proved | `StarGuard.v`, `Sensor.v` | the view of C14 with stars; invariant over the entries of the updater | other agents not called others, single other agents |
| C99 Simulations start in the initial set, and seeds make them repeatable | proved | `Runs.v`, `Scenario.v` | invariant of the scenario over histories; sampling by induction over coordinates; determinism from the freshly seeded generator | independence between agents under a seed, single points given to the constructor, given states outside the set (refuted) |
| C100 Verifications start from the initial sets, and runs are recorded | proved | `Runs.v`, `Scenario.v` | induction over histories | agents given their set after they were added cannot be verified before a simulation; an agent's own set_initial is ignored later (refuted) |
| C101 The reach-tube plot shows the tube | partial | `Plot.v` | winding number of a rectangle; the loops as folds over the nodes; for grouped boxes the two chains of corners telescope; without grouping the path around the boxes, corner by corner | grouped boxes only when they move right and down or left and up (refuted otherwise); nodes of one box are drawn as dots, violations not marked without labels, the default figure is shared between calls, two of nine agents have the same colours (refuted) |
| C102 The simulation plot draws the simulated states | proved | `Plot.v` | induction over the tree for sampling, over the list of nodes for lines | rates above 1 change the caller's tree, misplace the marks of violations and keep only lower corners of tubes (refuted) |
| C103 A slice of a tube shows the boxes of its interval of time | partial | `Plot.v` | induction over the boxes, using the order of their times | combine_rect None raises, groups read the times of the first group, nodes standing still are always drawn (refuted) |
| C104 Each frame of a reach-tube video shows what is reached so far | proved | `PlotAnime.v` | the loops as folds that collect events; the sorted times; winding number of a rectangle; the positions kept by linspace | one allowed frame shows only what is earliest; rounding shows boxes up to half a unit early; the figure passed is dropped (refuted) |
| C105 Each frame of a reach-tube animation shows what is reached then | partial | `PlotAnime.v` | the loops as folds that collect events by time and agent | the first four boxes of a node starting after time 0 are left out, and the order of frames is the order of insertion (refuted) |
| C106 Each frame of a simulation animation marks the states of that time | proved | `PlotAnime.v` | as C105, with equality of rows | raises without a state at time 0; with a trail no frame before the eleventh time (refuted) |
| C107 A DryVR tube with the global discrepancy contains what it was trained on | partial | `DryvrGlobal.v` | the edges of the hull as lines above all points; the last point is a corner and its edge ends at the last row; the loop that fills the rows leaves none out | training traces from the outermost 1e-10th of the box, traces that start after time 0 (both refuted); that the assertions hold is not claimed |
| C108 A mixed-monotone tube of a continuous system contains its runs | partial | `MixMonoCont.v` | a comparison theorem for differential equations, proved by induction along the reals: the embedding system, widened by a growing exponential, never touches a run; then let the width go to 0 | the times between two samples where a bounding curve turns round (refuted); the integrator is an exact oracle |
| C109 Printed expressions read back as themselves | partial | `Unparse.v` | the specification is a recursive-descent reader of Python's expression grammar with Python's precedences; by induction over expressions the reader, given enough fuel, returns the printed expression and the rest of the text; what the reader returns satisfies the hypothesis of that theorem | subscripts of several slices (refuted); statements, f-strings, sets, dictionaries, starred arguments, parameter defaults |
| C110 A plot of stars shows the stars | partial | `StarPlot.v` | the objective handed to the linear program is compared with the direction in state space; the walk over the tree is characterised by paths | stars whose generators are not symmetric (refuted), dimensions other than the first two (refuted), leaving the tree unchanged (refuted) |
| C111 Diameters of simulations and tubes bound distances | partial | `Spread.v`, `FixedPoints.v` | the dictionary of histories is characterised by the nodes visited; keys are decoded when the hash is injective; the first rows of reach_at_fix are computed from C57's lemmas | joint states of different dimensions at a time (refuted), modes whose names run together (refuted), later steps in a window (refuted) |
| C112 Star tubes fitted with PCA contain the sampled simulations | partial | `StarSample.v`, `Star.v`, `Runs.v` | induction on the draws with the misses left as measure; C70 gives the fitted stars; induction on the steps of sim_star | the states of points that were not sampled (refuted): a PCA tube is not an over-approximation |
| C113 A verification step on star sets follows every transition | partial | `StarStep.v`, `Scan.v`, `Star.v` | the transitions of the scan (C16, C66) for the star evaluation; the child per transition | executions that leave later than the first hit (refuted), transitions in the last step of a tube with several agents (refuted: the step raises) |
| C114 Distances along rays and segments to circles and rectangles are right | partial | `Ray.v`, `Polygon.v` | each side gives the interval of times between its two lines; three intervals that overlap pairwise have a point in common; roots of the quadratic | segments along a side and inside the rectangle, rays that start on the circle, ellipses turned by an angle other than 0 (all refuted; the ellipse is that of the opposite angle) |
| C115 The sensors of the examples show each agent the states of all agents | partial | `FixedSensor.v`, `Sensor.v` | a sensor with fixed names is the base sensor for a type with these names (C14); lookups after sets of distinct keys | SingleSensor with several others, static variables (refuted) |
| C116 Queries of lane segments agree with their geometry | partial | `LaneQuery.v`, `Lane.v` | lane coordinates are inverse to positions (C51); a chord is shorter than its arc; derivatives are unique | arcs of half a turn or more (refuted), after_end with the coordinate 0 (refuted) |
| C117 Lane segments are rebuilt from their configuration | partial | `LaneConfig.v` | keyword arguments are filled in the order of the signature; the names written by to_config are computed; case analysis on classes | the configuration alone, without the identifier (refuted for every class); arcs in space even with it (refuted) |
| C118 Simulations of the example agents follow their differential equations | partial | `ExampleAgents.v` | mean value theorem for the conserved quantities and for the solution times an exponential; induction on the rounds | the ball under gravity (refuted: its dynamics cannot be called); the integrators are exact oracles |
| C119 Pictures of the tree show its nodes, edges and mode changes | partial | `TreeGraph.v` | induction on the tree for the dictionary of branch lengths; folds over the nodes for the graph | that newer nodes are redder (refuted); layout, fonts and tooltips are not modelled |
| C120 Experiments from the command line do what their switches say | partial | `Bench.v` | induction on the letters for what is left of the switches; case analysis on a run with the lemmas on nodes and leaves of trees | that comparisons of two configurations work, keywords reach simulations, reports of incremental runs never fail, and a replacement keeps try_local (refuted); times and sizes in memory are not modelled, int(a / b) is exact |
| C121 The report of the simulation cache lists what is cached | partial | `CacheInits.v` | the middle of each nested interval is the stored coordinate, by induction over the variables; the index and the heap grow together, by induction over the history | no depth works if agents have different numbers of variables; the report of the cache for reachable sets raises as soon as anything is stored (both refuted) |
| C122 The consistency check of a derived star never reports one of its points | partial | `StarUnsat.v` | the question to z3 is unfolded; a scale that satisfies every row is built by induction over the rows | the scale of the predicate is a free unknown, so that points outside of the star are not reported; the default centre raises (both refuted) |
| C123 Confidence regions stay within the prior box and accept what they explain | partial | `Confidence.v` | clipping by induction over the coordinates; Cauchy-Schwarz on lists | the corners are clipped one by one, so that parameters within the box are lost; the default box raises (both refuted); confidence_ellipsoid and the eigenvalues are oracles, outputs are numbers |
| C124 Incremental verification with star sets computes the tubes it does not find | partial | `StarCache.v` | induction over the segments; case analysis | an incremental verification with star sets raises for every node, so nothing is ever computed or found; lookups raise for a mode that has an entry and for segments of several stars (all refuted); stars, tubes, combine_stars and calc_reach_tube are any |

## Trusted base

* Coq 8.16.1's kernel, and the axioms of its standard library listed below.
* The translation of Python into Gallina: each definition cites the lines it models.  `/repo` was read as
  text; the Python was not run.
* The meaning given to Python and library primitives: dictionaries keep insertion order, `round` is
  round-half-to-even on exact decimals, numpy slicing clips, list and `ndarray` arguments alias.
* The oracle assumptions stated in the theorems.  z3's `unknown` is treated by the code, and by the model, as
  "unsatisfiable".

### What is modelled

| Code | Model |
|---|---|
| `verse/utils/utils.py`: dedup, near_split, wrap_to_pi, lmap, constrain, not_zero, index_of, rotated rectangles, polygons | `Utils`, `Angle`, `Polygon` |
| `verse/utils/fixed_points.py` | `FixedPoints` |
| `verse/parser/parser.py`: environments, merging, helper functions, any/all, assertions, paths | `Parser`, `PySem` |
| `verse/parser/astunparser.py`: the text of the expressions used in resets | `PyText` |
| `verse/automaton/guard.py`: three evaluation passes, any/all unrolling, solver queries, lane coordinates | `Guard`, `Lane` |
| `verse/automaton/reset.py` and the reset functions of the verifier | `Reset`, `PyText` |
| `verse/analysis/verifier.py`: tubes, incremental tubes, scan, step, children, partitioning, work list, star tubes | `Overlay`, `Boxes`, `Scan`, `Step`, `Partitioned`, `Scheduler`, `Star`, `Cover*` |
| `verse/analysis/simulator.py`: steps, events, children, work list | `Sim`, `Scheduler` |
| `verse/analysis/simulator.py`: `pack_env`, `convertStrToEnum`, `convertEnumToStr`, `disc_field`, `simulate_simple`, `get_transition_simulate_simple` | `SimpleEnv`, `SimpleSim` |
| `verse/analysis/analysis_tree.py`: traversal, dump, load, contains, first_transitions | `Tree`, `Contains` |
| `verse/analysis/incremental.py` | `Cache`, `Overlay` |
| `verse/analysis/dryvr.py`, `dryvr_disc.py`, `mixmonotone.py` | `Dryvr`, `MixMono` |
| `verse/analysis/parsed_wrap`: piecewise functions, statement-by-statement bounds, angular bounds, result cache and domain splitting | `Piecewise`, `Angular`, `ParseArray`, `Handlers` |
| `verse/stars/starset.py`, `verifier.py`: `apply_reset_stars` | `Star`, `StarReset` |
| `verse/automaton/guard.py`: `get_agent_dictionaries`, the star branch of `evaluate_guard_cont`; `starset.py`: `add_constraints`; `verse/sensor/base_sensor_stars.py`; `verifier.py`: `apply_cont_var_updater` | `StarGuard` |
| `verse/map`: lanes, segments, 2d and 3d lane maps | `Lane`, `LaneMap3d` |
| `verse/map/lane_segment_3d.py`, `verse/map/lane_3d.py` | `Lane3d` |
| `verse/map/lane_map_3d.py`: waypoints | `Waypoint` |
| `verse/map/example_map/map_tacas.py`: M5, M6 | `Map3d` |
| `verse/utils/star_manhattan.py`, `verse/utils/star_diams.py`: `star_manhattan_distance`, `time_step_diameter`, `reach_star` | `StarDiam` |
| `verse/analysis/parsed_wrap/sensor_parser.py`: `parsed_sensor`, `parsed_sensor_expr`, the cache, `atan2_crown_safe`, `norm` | `SplitSensor` |
| `verse/sensor/base_sensor.py` | `Sensor` |
| `verse/scenario/scenario.py`: agents, maps, initial sets | `Scenario` |
| verse/analysis/verifier.py 66-236 (lookup and tubes of star sets, incremental) | `StarCache` |
| verse/utils/utils.py 271-342 (confidence regions; the numerics of 242-268 are oracles) | `Confidence` |
| verse/stars/starset.py 742-769 (check_unsat) | `StarUnsat` |
| verse/stars/starset.py 122-143, 493-502 (centre, second rectangle) | `StarCenter` |
| verse/analysis/incremental.py 202-228, 380-402 (reports of the caches) | `CacheInits` |
| `verse/scenario/scenario.py`: `ExprConfig`, `Benchmark` (without times, sizes and Ray's timeline) | `Bench` |
| `verse/analysis/analysis_tree.py`: `visualize`, `visualize_dot`, `_get_len` | `TreeGraph` |
| `verse/agents/example_agent/origin_agent.py`, `robot_agent.py`, `ball_agent.py`, `line_agent.py`, `ballg_agent.py`; `BaseAgent.TC_simulate` | `ExampleAgents` |
| `verse/map/lane_segment.py`, `verse/map/lane_segment_3d.py`: `to_config`, `from_config`, constructor defaults | `LaneConfig` |
| `verse/map/lane_segment.py`: `on_lane`, `is_reachable_from`, `after_end`, `distance`, `distance_with_heading` | `LaneQuery` |
| `verse/sensor/example_sensor/`: `ThermoSensor`, `CraftSensor`, `QuadrotorSensor`, `SingleSensor` | `FixedSensor` |
| `verse/utils/utils.py`: `point_in_ellipse`, `solve_trinom`, `distance_to_circle`, `distance_to_rect` | `Ray` |
| `verse/automaton/guard.py`: `get_agent_variable_indices`, `evaluate_guard_hybrid` for star sets | `StarLane` |
| `verse/analysis/verifier.py`: `compute_full_reachtube_step` for star sets | `StarStep` |
| `verse/stars/starset.py`: `sample_star`, `gen_starset`, `gen_starsets_post_sim`, `sim_star`, `calc_reach_tube` with `pca` (scikit-learn's PCA and the solvers are parameters) | `StarSample` |
| `verse/utils/star_diams.py`: `sim_traces_to_dict_composed`, `sim_traces_to_diameters`, `time_step_diameter_rect` (hash is a parameter) | `Spread` |
| `verse/plotter/plotterStar.py`, `verse/stars/starset.py`: `get_verts`, `maximize` (the directions and linprog are parameters) | `StarPlot` |
| `verse/parser/astunparser.py`: expressions (no statements, f-strings, sets, dictionaries, starred arguments or parameter defaults) | `Unparse` |
| `verse/analysis/mixmonotone.py`: continuous time (the integrator is an oracle) | `MixMonoCont` |
| `verse/analysis/dryvr.py`, `verse/analysis/dryvr_disc.py`: the global discrepancy (`PWGlobal`; the convex hull is an oracle) | `DryvrGlobal` |
| `verse/plotter/plotter2D.py`: `reachtube_tree_video`, `reachtube_anime`, `simulation_anime` (traces, frames and visibility; layout, sliders' texts and durations are not modelled) | `PlotAnime` |
| `verse/plotter/plotter2D.py`: `reachtube_tree`, `reachtube_tree_single`, `reachtube_tree_slice`, `reachtube_tree_single_slice`, `simulation_tree`, `simulation_tree_single`, `sample_trace`, `check_dim`, `get_text_pos` (figures as lists of marks; `draw_map` a parameter) | `Plot` |
| `verse/scenario/scenario.py`: `_get_init_from_agent`, `simulate`, `simulate_multi`, `simulate_simple`, `verify`, `verify_partitioned`, `cleanup_cache` (the analyses themselves opaque); `verse/utils/utils.py`: `sample_rect`; `verse/analysis/analysis_tree.py`: `root_from_inits`; `verse/agents/base_agent.py`: setters | `Runs` |
| `verse/agents`: the time grid of `TC_simulate`; the car agents | `TimeGrid`, `Car` |
| `verse/map/example_map`: `intersection.py`, the two-dimensional highways of `simple_map2.py` and `map_tacas.py` | `Intersection`, `TableMap` |

### What is not modelled

* Plotting, the OpenDRIVE reader, spiral and spline lane segments, the other example maps, `astunparser` beyond
  expressions, star plotting and star tests.
* The numerics of scipy's ODE integrator and optimisers, z3, linear programming, CROWN and PCA: oracles.
* NEU_REACH (needs a network), DryVR's choice of sensitivity constants beyond the bounds used.
* Floating-point rounding, floating-point overflow, NaN.
* Time and memory, and ray's own behaviour when a worker crashes.
* Python's import of decision logic files, and syntax the parser rejects.

### Print Assumptions

Every theorem is followed by `Print Assumptions` in its file.  The results:

* Closed under the global context: all theorems not listed below (377).
* `ClassicalDedekindReals.sig_forall_dec`: C82_brake_refuted, C82_double_histories, C82_neighbours.
* `ClassicalDedekindReals.sig_forall_dec`, `FunctionalExtensionality.functional_extensionality_dep`: C107_line, C107_order, C111_tubes, C118_ball_g_refuted, C123_bound, C123_clipped_refuted, C123_polytope, C57_reach, C57_two_trees_refuted, C58_answers, C58_argument_names_refuted, C58_assignment_refuted, C58_chained_refuted, C58_condition_partial, C58_contains_partial, C72_parse_partial, C77_history_partial, C77_options_refuted, C77_same_name_refuted, C77_split_covers, C79_expression, C79_map, C79_parse_partial, C83_trace, C87_starts, C88_guard, C91_cover, C91_names_refuted, C91_representable, C91_rounding_refuted, C91_tight.
* `Classical_Prop.classic`, `Description.constructive_definite_description`: C97_alpha_refuted, C97_ego_name_refuted, C97_order_refuted.
* `ClassicalDedekindReals.sig_forall_dec`, `ClassicalDedekindReals.sig_not_dec`, `FunctionalExtensionality.functional_extensionality_dep`: C02_wrap_idempotent, C02_wrap_normalises, C03_separation_sound, C04_corner_points, C04_corners_partial, C04_opposite_angle_partial, C04_refuted, C108_between_refuted, C114_along_refuted, C114_circle, C114_ellipse_partial, C114_ellipse_refuted, C114_inside_refuted, C114_rect_first, C114_rect_meets, C114_touch_refuted, C123_consistent, C123_default_refuted, C123_invalid, C123_valid, C51_straight_isometry, C53_shared_refuted, C53_starts, C53_starts_stay, C67_crossing_refuted, C67_intersect_right_partial, C67_points, C73_difference_partial, C75_union_partial, C77_keeps_refuted, C79_one_minus_partial, C80_histories, C81_made, C81_neighbours, C82_histories, C82_left, C82_offered, C82_right, C82_single_left_refuted, C83_dynamics, C84_straight_cylinder, C85_arc, C86_angle_partial, C86_angle_refuted, C86_circle, C87_altitude, C92_norm.
* `ClassicalDedekindReals.sig_forall_dec`, `Classical_Prop.classic`, `FunctionalExtensionality.functional_extensionality_dep`: C57_contains, C57_fixed_points.
* `ClassicalDedekindReals.sig_forall_dec`, `ClassicalDedekindReals.sig_not_dec`, `Classical_Prop.classic`, `FunctionalExtensionality.functional_extensionality_dep`: C107_boundary_trace_refuted, C107_initial_box, C107_late_refuted, C107_training_traces_partial, C108_between_partial, C108_sampled_states_partial, C116_after_end_partial, C116_after_end_zero_refuted, C116_centre_line_on_partial, C116_distance_far, C116_distance_near, C116_distance_zero_partial, C116_heading_partial, C116_long_arc_refuted, C116_on_lane_known, C116_on_lane_partial, C116_reachable_partial, C118_ball, C118_craft_clocks, C118_craft_passive, C118_line, C118_modes, C118_robot, C118_thermo, C118_vanderpol, C13_circular_refuted, C13_corners_refuted, C13_lane_interval_partial, C13_lateral_interval, C13_longitudinal_interval_partial, C13_position, C13_position_lateral, C13_position_longitudinal, C13_straight_map_partial, C51_circular_inverse, C51_heading, C51_straight_ends, C51_straight_inverse, C52_only_segment_partial, C52_refuted, C52_segment_chosen, C53_joints, C72_mixed_refuted, C73_wide_refuted, C74_atan2_partial, C74_axis_refuted, C74_between_partial, C74_edge_refuted, C74_same_refuted, C74_tight, C74_to_origin_partial, C75_pieces_refuted, C75_wrapped_refuted, C76_error_exact, C76_wide_refuted, C77_several_refuted, C79_atan2_partial, C79_one_atan2_partial, C79_one_minus_refuted, C79_several_refuted, C81_smooth, C81_starts_refuted, C82_smooth, C83_answers, C83_bend_partial, C83_limit_refuted, C83_limits, C83_npc_steers_partial, C83_npc_turns_refuted, C83_others, C83_speed, C83_steers, C83_switch, C83_switch2, C83_turns, C84_on_lane_known, C84_on_lane_refuted, C84_straight_back, C84_straight_coordinates, C84_straight_inverse_partial, C84_straight_inverse_refuted, C84_straight_level, C85_back, C85_closest, C85_inverse_partial, C85_inverse_refuted, C85_upright_refuted, C86_ends_partial, C86_ends_refuted, C87_coordinates, C87_middle, C87_monotone_refuted, C87_segment, C87_single, C88_begin, C88_converge, C88_history, C88_independent, C88_straight, C88_turn, C89_down, C89_histories, C89_loop, C89_offered, C89_up, C92_atan2, C92_atan2_refuted.

All of these are axioms of Coq's standard library (its construction of the reals uses them).  No axiom is
declared in `rocq/theories`.

## Findings

What the model showed about the code.  Items with a property number are backed by a theorem.

**Verifier.**
* The scan stops at the first gap after a possible transition.  Executions that graze a guard and go on are lost (C22).
* A guard that is certain in an early step of a node stops the scan there, although later initial sets have not been entered (C22).
* When several variables may be assigned, only the combination of all that may fire in the box is explored (C22).
* After a reset the agent's clock is counted from the beginning of the row, so continuous-time coverage is off by up to one row.
* Transitions of one agent with the same destination and the same number of resets are merged, so position in the list is not the row offset (C60).
* With the default `combine_seg_length` of 1000, trajectories that start in a later initial set are placed too early (C21).
* An assertion whose path condition holds on a part of the box only is not reported; assertions behind hits that the map rejects are not checked (C15).
* `unsafe_continue` with a violated assertion raises in `verify` and explores nothing further when partitioned (C26).
* A destination of None raises a TypeError in `get_mode`.
* A mode reset to an unsupported expression is dropped silently.  Mode variables are recognised by the substring "mode".
* DRYVR_DISC and NEU_REACH use the first initial set only.
* Partitioned verification uses the first index of the hitting set, and one path combination per merged transition (C25).
* A cached guard result has a tuple of the wrong size in incremental verification.

**Resets.**
* Reset intervals are computed from the box corners only: `ego.x * ego.x` over [-1, 1] gives [1, 1] (C18).
* Values are substituted as text: `ego.x2` becomes `32` when `ego.x` is 3, and `ego.x ** 2` with -3 gives -9 (C19).

**Incremental verification.**
* A miss followed by a hit misplaces the cached tube (C43).  A lookup widens the cached array (C64).
* The greedy descent misses stored boxes (C41).  Keys lack horizon and step (C44).
* The simulation cache returns the absolute times of the node that filled it (C44).
* Segments without transitions are never compared; more paths per variable raise; changed values reuse old results (C45).
* Inserting an inverted box raises after some levels have been inserted.

**Simulator.**
* A hit that the map rejects stops the row scan, and transitions are deduplicated by destination only (C31).
* Agents without paths have no assertions checked (C34).  Assertion hits of remote workers are lost (C30).
* The trace of a node that fails an assertion excludes the failing row.

**Parser.**
* A value assigned equally in both branches is lost, and assignments outside of ifs give no path (C05-C07).
* Early returns in helpers are ignored (C08).
* Also seen: variable capture when helpers are inlined, comprehension variables overwrite outer ones, labels are not compared when assertions are merged, `ifs` of comprehensions and conditional expressions are not processed.

**Guards and lanes.**
* Lane coordinates of a box use the segments of its two corners only, and corner angles on circular segments (C13).
* The lane segment with the smallest signed lateral distance is chosen (C52).
* Segment objects shared between lanes have their start overwritten (C53).
* A failed pairing leaves half of a registration; re-adding a lane empties its lists; `up_lane` and `down_lane` test the left dictionary (C54).
* Lane names with more than two digits are matched by prefix, and 2d and 3d maps use different digits (C71).
* Symbols are matched by substring; the node returned for `or` is discarded.

**Trees.**
* `dump` keeps class descriptions of agents only; trees of `simulate_simple` with a grandchild load forever (C36).
* `first_transitions` returns the first in breadth-first order, not the earliest (C39).
* `contains` compares coordinates separately, drops rows of late children, uses tubes for simulations and raises on branches that stop early (C37, C38).

**Reachability engines.**
* DryVR: a training trace on the boundary of the box misses the tube by a factor 1/(1+1e-10) (C46).
* Mixed monotone: the decomposition comes from a local optimiser, and only the first initial set is used (C47).
* Stars: `intersection_poly` multiplies by the untransposed basis (C48); `is_empty` searches alpha >= 0 only (C49); `satisfies` answers strict inequality; more than 1000 initial stars keep the last segment only (C69).

**Scenario, sensors, agents, utilities.**
* `set_init` is not atomic; the constructor's initial set is neither copied into box form nor checked (C55).
* Sensed lists shift when an agent has fewer variables than its type (C14).
* Row counts of agent classes differ when the horizon is not a multiple of the step (C59).
* `point_in_rotated_rectangle` turns the wrong way (C04); `rotated_rectangles_intersect` misses crossing rectangles (C67).
* Fixed points: modes are numbered per tree (C57).  The time bound is that of the first leaf only.
* Piecewise functions: chained comparisons, argument names, statements before the `if` (C58); special functions inside larger expressions (C72).
* Angular bounds: differences wider than a turn (C73); the span of a rectangle with itself, with the origin on an edge, or with an integer zero on an axis misses directions (C74); unions of bounds that wrap or have several pieces of one sign drop angles (C75); error bounds are wrong for eps >= pi (C76).
* A z3 answer `unknown` is treated as unsatisfiable, so a guard the solver cannot decide is never taken (C10).
* The parse cache is keyed by function name and bounds only: redefined functions and other track modes, maps or piecewise functions get stale bounds (C77); `cache=False` still reads the cache, and the first call returns a pair where later ones return a dictionary (C78).
* `Intersection`: the ways out are segment objects shared by the lanes of three routes, so the longitudinal start that guards use is right only for the route made last (C81).
* `SimpleMap4Switch2.h` never grants "SwitchLeft": the first `if` is not part of the chain that follows it (C82).  On `M1` nothing follows "Brake" (C82).
* `CarAgent` in mode "Accel" brakes without limit when it is faster than its speed; `NPCAgent` does not wrap the heading error, so a full turn saturates the steering (C83).
* 3d lanes: `on_lane`, `is_reachable_from` and `distance` unpack two of three coordinates and always raise; the angle around a lane whose direction is close to, but not in, the plane y = 0 can come out on the opposite side (C84); angles of circular lanes with `right_rotate=False` are mirrored between `local_coordinates` and `position`, and `right_rotate` never changes the direction of travel about the normal (C85).
* `get_center_radius` gives the requested angle only for left turns below pi and right turns of 3/2 pi; for pi the radius is half of the right one; `CircularLane_3d_v2` computes phases with a normal that was not scaled to length 1, so the lane need not begin at its start (C86).
* 3d lanes of several segments: the segments of M6 and SimpleMap6 are not listed in the order of travel and the first of the closest segments wins, so the longitudinal position falls back by 20 at the crossing of the figure of eight (C87); outside all segments the queries raise.
* `get_next_point`: on a lane of one segment the last waypoints cannot be planned (it raises past the end); the segment remembered for an agent is not updated when the agent changes lanes; without a position and an earlier waypoint it raises (C88).
* `M5` and `SimpleMap7` do not register their lanes as neighbours, so `up_lane` and `down_lane` raise on them; during a move the 3d maps name the target as the physical lane, the 2d maps the source (C89).
* `star_manhattan_distance` encodes the absolute value with the constant N = 1048575, which caps every coordinate of the answer at N/2 without any failure status: the interval [0, N] gets the diameter N/2 (C90). For a star without points the fallback to `overapprox_rectangle` raises.
* `parsed_sensor` names its cache files by the function's `__name__`, the box and the number of splits: a different function of the same name gets the old bounds (C91). Bounds are converted to 32-bit floats before they are analysed, so a lower bound that is rounded up leaves inputs of the box uncovered (C91). `num_splits=0` returns (and caches) `(None, None)`. With `sim=True` it raises, because `model` is not yet assigned.
* `atan2_crown_safe` is 0 instead of pi on the negative x-axis, plus or minus pi instead of half of it on the y-axis, and has the wrong arctangent sign for -1e-8 < x < 0; `norm` is up to 1e-4 too large (C92).
* `simulate_simple`: a static variable of the ego type is appended (as a string) to the next initial state; two state types of a controller file that share a discrete variable make the conversion raise a KeyError, because the value is converted once per type; one other agent declared without `List` has lists as fields; an assertion without a label raises an IndexError instead of being reported (C93).  Controllers that have assertions but no transitions are never asked, so their failures are not reported, and transitions are not filtered by the map (C94).  A controller that stays enabled after its own transition keeps the run at one instant forever when there is no depth limit (C95).
* `apply_reset_stars` evaluates the resets only at the centre and at the centre plus each generator: `x := x * y` from the box 1 <= x, y <= 3 (centre 0, unit generators) gives x = 0 only, although `apply_reset` is exact for it; a variable whose name begins with another's is substituted wrongly; a right-hand side over another agent's state raises (C96).
* Guards on stars: the variables of the ego are those with "ego" in their name, so that a variable `ego_gap` of the other agents receives the ego's constraint and the ego's own is left free: with 0 <= ego.x <= 1 the guard `ego.x > 5` is reported satisfiable; a state variable `alpha_1` is the same solver variable as the first coefficient, so that a guard all states satisfy is discarded; a query the solver leaves open counts as unsatisfiable (C97).
* With a seed, `sample_rect` reseeds the generator for every agent: agents with equal initial sets always start in the same state, in `simulate_multi` too, so that most joint initial states are never simulated (C99).  A single initial point given to an agent's constructor passes `_check_init` but makes `simulate` raise an IndexError; initial states given to `simulate_multi` are not checked (C99).
* `verify` does not take over initial sets from the agents as `simulate` does: an agent initialised with `set_initial` after `add_agent` cannot be verified until some simulation has been run; later calls of the agent's own `set_initial` have no effect (C100).
* The test for a node that stands still ignores the last row, so that a node with one box is always drawn as a single dot at its lower corner (C101).  With `combine_rect` 2 or more, or None, corners of boxes moving up and right are not filled, and of boxes moving right only the last one of each group is not (C101).
* `fig=go.Figure()` as a default argument is evaluated once: all plots made without a figure are drawn into the same one (C101).  Violations are only marked in reach-tube plots if `label_mode` is not the default (C101).  Colour themes three and eight have the same fill (C101).
* `sample_trace` compares `root.type` with a string, which is never equal: tubes are sampled like simulations, which with a rate of 2 leaves only lower corners; it also overwrites the traces of the caller's tree (C102).
* `reachtube_tree_slice` with `combine_rect=None` always raises an IndexError; with groups it compares the times of the first group's rows for every group; nodes that look still are drawn in every slice (C103).
* `reachtube_tree_video` ignores the figure it is given, and with `max_frame_steps=1` shows only the boxes that start first (C104).
* `reachtube_anime` drops the first eight rows of each trace that starts after time 0, whatever their number, so that short nodes are not shown at all; its frames are in the order in which times were met, with the last child first, so that time jumps back (C105).
* `simulation_anime` reads the entry for time 0 and raises a KeyError for a tree that starts later; in trail mode frames start at position `min(10, number of times)`, so that a run of ten times or fewer has none (C106).
* With the global discrepancy of DryVR the exponentials are fitted to times since the first row, but evaluated at the times of the rows, so that traces that do not start at time 0 get a wrong tube, which may miss the initial box (C107).
* The continuous mixed-monotone tube takes the hull of the bounding curves at the two ends of each step only: if a bounding curve turns round within a step, runs leave the tube between the samples (C108).
* unparse prints x[1:2, 3] as x[(1:2, 3)], which is not Python, and prints a negative constant (which Python's parser does not build, but a program that rewrites expressions can) without parentheses, so that (-1)**2 becomes -(1**2) (C109).
* StarSet.maximize multiplies the direction by the untransposed matrix of generators: in more than two dimensions the drawn outline of a star can miss most of it. plot_reachtube_stars ignores x_dim and y_dim, and it removes the rows it does not draw from the tree it is given (C110).
* sim_traces_to_diameters concatenates the modes of an agent without separators, so simulations in different modes can be put together, and it drops joint states of smaller dimension; time_step_diameter_rect looks at the first box in a window only (C111).
* The star tubes that calc_reach_tube computes with pca=True only contain the sampled simulations: with exact solvers and a system that does not move, the first star of the tube can miss points of the initial star (C112).
* With star sets, the initial stars of a child all start at the time of the first hit, although the later ones are reached later; unlike with boxes they are not shifted, so the tree misses executions (C113).
* With star sets and several agents, a transition in the last entry of a tube raises an IndexError: the child wants two entries of the other agents' tubes (C113).
* Incremental verification with star sets raises as soon as a tube is computed: calculate_full_bloated_tube_stars records it under names it never assigns (C113, not modelled).
* On a 3d circular lane in an upright plane, the direction in which local_coordinates and position measure angles flips where the lane runs straight up; rounding makes the two disagree there, and a point on one side comes back on the other side (C85).
* With star sets, a lane coordinate of another agent is computed from the wrong variables if its state type does not start with the ego's variables in the ego's order: `get_agent_variable_indices` lists the variables of all agents in the ego's order; the guard then misses transitions (C97).
* `point_in_ellipse` turns the point the wrong way, like `point_in_rotated_rectangle` (C114).
* `distance_to_rect` misses rectangles the segment touches along the far sides (0/0), and is negative from inside; `distance_to_circle` is infinite for a ray that starts on the circle and leaves it (C114).
* `SingleSensor.sense` overwrites the values of one other agent with those of the next when verifying: with several others only the last is seen (C115).
* The sensors of the examples never show static variables (C115).
* `FakeSensor4.sense` takes no argument `simulate` and unpacks states without static variables, and `CraftStarSensor.sense` indexes a pair of a time and a star with two indices when verifying: neither can be used by the library as it is.
* `AbstractLane.distance` of a point on an arc longer than half a turn is positive: its longitudinal coordinate wraps to before the start (C116).
* `AbstractLane.after_end` ignores a given longitudinal coordinate that is 0 (C116).
* `to_config` of every lane segment leaves out the identifier, so `from_config` of its result raises TypeError (C117).
* `CircularLane_3d_v1.to_config` leaves out `norm_vec`, and `CircularLane_3d_v2` inherits it although its constructor takes other parameters; neither can be rebuilt even with the identifier (C117).
* `Ball_g_agent.dynamics` is a static method with a parameter `self`, so every simulation of it raises TypeError (C118).
* Colours of `visualize` and `visualize_dot` go by the longest branch below a node, not by start time as in the documentation: a leaf from time 1 can be redder than a node from time 2 (C119).
* `Benchmark.compare_run` with words after the switches always raises: it passes a word of the command line as the new scenario (C120).
* `Benchmark.run` drops its keywords when it simulates, so `compare_run(40, 0.05, seed=4)` (demo/quadrotor/m6_2q/m6_2q_sim.py) ignores the seed (C120).
* `Benchmark.report` divides by zero after an incremental run without lookups; `replace_scenario` resets `try_local`; the letter `t` is left in `args` although it has been read (C120).
* `parse_array_function` with a split domain can lose values of angles: for `minus_angular(x, z)` with x in [-1, 3] and z in [-2, 0] split in two, each box has right bounds, but `combine_angular_bounds` drops the interval [-1, 2] that starts below and ends above 0 (C77).
* The bounds of `minus_angular(x, z)` in a sensor function lose values as soon as the two intervals are together longer than half a turn and the difference passes PI: for x in [-3, 5/2] and z in [1/2, 1] they do not contain the difference 0 (C79).
* The bounds of `atan2(y, x)` lose values if `x` has intervals on both sides of 0 and `y` crosses 0: for y in [-1, 1] and x = 1 or x = -1 the angle 0 is not in them (C79).
* `ReachTubeCache.get_cached_inits` reads `run_num` and `node_id` of a stored `CachedRTTrans`, which has neither: it raises as soon as anything is stored (C121).
* `SimTraceCache.get_cached_inits(n)` descends to the same depth for every agent: with agents of different numbers of variables it raises for every `n` (C121).
* `StarSet.get_true_center` computes `max - min / 2`: the centre of the interval [-2, -1] is said to be 0 (C48).
* `StarSet.overapprox_rectangles` solves one program for the sum of the columns of the basis: the rectangle of the star with generators (1,-1) and (1,1) misses (1,-1); on the star of a box it is right (C48).
* `simulation_anime` with a trail raises if an agent has no state at one of the times after the first ten (C106).
* `check_unsat` leaves the scale `u` of the predicate free: for positive right-hand sides it only tests whether the point is in the affine hull, so 5 is said to fit to the interval [-1, 1]; its default centre `None` raises (C122).
* `confidence_polytope` clips the corners of the region one by one: the hull of the clipped corners loses parameters of the region that are within the box (C123).
* `is_consistent_dataset` raises with its default `parameter_box=None` as soon as there are two observations (C123).
* With star sets an incremental verification always raises: `calculate_full_bloated_tube_stars` appends `combined_rect` and `cur_bloated_tube`, which are never assigned (C124).
* `check_cache_bloated_tube_stars` raises for segments of two or more stars and for every agent and mode that has an entry (C124).
