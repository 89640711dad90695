# Formal model of crowddynamics in Rocq (Coq 8.16.1)

## 1. Overall approach

`/repo` is read as text. Each Python function is transcribed by hand into a
small Gallina definition under `rocq/theories/Model/`. Every definition cites
the file and lines it models and names its simplifications. Properties are
stated in `rocq/theories/Props/`, with independent specifications (sets of
points, distances to a segment, permutations, "first time", ...) in
`rocq/theories/Spec/`. Proof scripts live in `rocq/theories/Proofs/`.

Numbers: `float64` is idealised as Coq's real numbers `R`, except in
`Model/Floats.v` (C113 and later), where every operation rounds to a nearest double. Where the program
branches on NaN, or produces it (0/0, sqrt of a negative number), NaN is a
value of the model (`None`). Scalar division by zero in numba's default error
model raises; the model returns `Err ZeroDivisionError`. Discrete code (block
list, trees, coroutines, file names, placement loop, observers, process loop)
is modelled exactly.

Randomness, shapely, skfmm, scipy, cell_lists, the file system: explicit
parameters (oracles), universally quantified in the theorems. Hypotheses on an
oracle (for instance "a uniform draw lies in [0,1)") are written in the theorem.

Exceptions: values of `res A := Ok a | Err e`.

Beside each theorem an `Example` shows a concrete case that meets its hypotheses.

Cannot be expressed:

* Randomness as such: probability is replaced by the measure of the set of draws
  that choose an index (an interval length), or by "for every draw".
* Rounding, outside `Model/Floats.v`: the other theorems are about exact arithmetic.
  Nowhere modelled: overflow to infinity, signed zeros.
* Performance, the pictures bokeh draws, the terminal output of click.

## 2. Plan per property

Model files are in `rocq/theories/Model/`.

| id | property | model | proof | status |
|---|---|---|---|---|
| C01 | wrap_to_pi normalises every angle | Vector2D: vector functions over R, `%` as floor-mod, arctan2 by quadrant | case analysis, `nra`, trigonometry | proved |
| C02 | 90 and 270 degree rotations | Vector2D: vector functions over R, `%` as floor-mod, arctan2 by quadrant | case analysis, `nra`, trigonometry | proved |
| C03 | normalize and truncate keep direction and bound length | Vector2D: vector functions over R, `%` as floor-mod, arctan2 by quadrant | case analysis, `nra`, trigonometry | proved |
| C04 | unit_vector and angle are inverse | Vector2D: vector functions over R, `%` as floor-mod, arctan2 by quadrant | case analysis, `nra`, trigonometry | proved |
| C05 | polygon_area is the shoelace area | Geom2D: loops over vertex lists, segment predicate | list induction, linear algebra | proved |
| C06 | line_intersect decides proper segment intersection | Geom2D: loops over vertex lists, segment predicate | list induction, linear algebra | proved |
| C07 | Line of sight test | Geom2D: loops over vertex lists, segment predicate | list induction, linear algebra | proved |
| C08 | Skin-to-skin distance of circles | Distance: as in the code, NaN for a degenerate wall | convexity and projection, folds over the nine pairs of circles | proved |
| C09 | Distance of two three-circle agents | Distance: as in the code, NaN for a degenerate wall | convexity and projection, folds over the nine pairs of circles | partial |
| C10 | Distance of a circle to a wall | Distance: as in the code, NaN for a degenerate wall | convexity and projection, folds over the nine pairs of circles | proved |
| C11 | Distance of a three-circle agent to a wall | Distance: as in the code, NaN for a degenerate wall | convexity and projection, folds over the nine pairs of circles | proved |
| C12 | Overlap predicates | Distance: as in the code, NaN for a degenerate wall | convexity and projection, folds over the nine pairs of circles | proved |
| C13 | Block list neighbourhood lookup | BlockList: association-list dict with `setdefault` on lookup | induction over histories of operations | proved |
| C14 | Reading a block list has no effect | BlockList: association-list dict with `setdefault` on lookup | induction over histories of operations | proved |
| C15 | Placed circular agents never overlap | Placement: loop with its own termination measure as fuel, agent objects with lazily cached shoulders | loop invariant | proved |
| C16 | Placed three-circle agents never overlap | Placement: loop with its own termination measure as fuel, agent objects with lazily cached shoulders | loop invariant | partial |
| C17 | Placement terminates, extends the array and leaves existing agents alone | Placement: loop with its own termination measure as fuel, agent objects with lazily cached shoulders | loop invariant | proved |
| C18 | Group members | Placement: groups as observed trait objects | induction over assignments | partial |
| C19 | Body radii stay consistent | Body: trait values with their observers | invariant over assignment histories | proved |
| C20 | Drawn body properties stay within their configured range | Body: trait values with their observers | invariant over assignment histories | proved |
| C21 | Adjusting force pulls velocity to the target velocity | Motion: adjusting force and torque | algebra, periodicity | proved |
| C22 | Adjusting torque turns the short way | Motion: adjusting force and torque | algebra, periodicity | proved |
| C23 | Contact force | Motion: contact force | algebra, inner products | partial |
| C24 | Time to collision | PowerLaw: time to collision | quadratic equations, first-time argument | proved |
| C25 | Social force of circular agents | PowerLaw: social forces | algebra, scan over nine pairs, witnesses | proved |
| C26 | Social force of three-circle agents | PowerLaw: social forces | algebra, scan over nine pairs, witnesses | partial |
| C27 | Fluctuation bounded | Motion: fluctuation with oracle draws | trigonometry, induction over rows | proved |
| C28 | Agent-agent interaction is local and touches only forces | Interactions: pair loops as folds over the enumerated pairs | commutation of updates, permutations | proved |
| C29 | Momentum conservation | Interactions: pair loops as folds over the enumerated pairs | commutation of updates, permutations | proved |
| C30 | Cell list misses no interacting pair | Interactions: pair loops as folds over the enumerated pairs | commutation of updates, permutations | proved |
| C31 | Obstacle interaction | Interactions: pair loops as folds over the enumerated pairs | commutation of updates, permutations | proved |
| C32 | Adaptive time step | Integrator: steps over lists of rows | algebra, invariants over steps | proved |
| C33 | Integrators reproduce uniformly accelerated motion | Integrator: steps over lists of rows | algebra, invariants over steps | partial |
| C34 | Rotational state after a step | Integrator: steps over lists of rows | algebra, invariants over steps | partial |
| C35 | Grid indices | Steering: grids as functions with a shape | floor and truncation arithmetic | proved |
| C36 | Direction maps | Steering: grids as functions with a shape | floor and truncation arithmetic | proved |
| C37 | Obstacle handling | Steering: obstacle handling | algebra of blends | proved |
| C38 | Nearest neighbours for herding | Collective: neighbour arrays and pair scans as folds | scan invariants, permutations | partial |
| C39 | Following directions | Collective: neighbour arrays and pair scans as folds | scan invariants, permutations | proved |
| C40 | Leader choice | Collective: neighbour arrays and pair scans as folds | scan invariants, permutations | proved |
| C41 | Exit capacity | Evacuation: capacity, ranking, exit detection | floor arithmetic, permutations, list induction | proved |
| C42 | Rank of agents by distance to exit | Evacuation: capacity, ranking, exit detection | floor arithmetic, permutations, list induction | proved |
| C43 | Exit detection | Evacuation: capacity, ranking, exit detection | floor arithmetic, permutations, list induction | proved |
| C44 | Poisson clock | Rand: clock driven by a stream of draws | induction over draws | proved |
| C45 | Polygon sampling | Sampling: triangulation as an oracle | measure of the set of draws, bijection with constant Jacobian | partial |
| C46 | Geometry to segments | Geometry: geometries as an inductive type | structural induction | partial |
| C47 | Logic tree stays a forest | LogicTree: heap of nodes with parent and children | invariants over histories, tree induction | proved |
| C48 | Update order | LogicTree: heap of nodes with parent and children | invariants over histories, tree induction | proved |
| C49 | Injecting a node | LogicTree: heap of nodes with parent and children | invariants over histories, tree induction | partial |
| C50 | Node lookup by name | LogicTree: heap of nodes with parent and children | invariants over histories, tree induction | proved |
| C51 | Run loop and counters | LogicTree, Simulation: run loop, process loop, logic nodes as state transformers | induction over iterations | proved |
| C52 | Worker process always signals its end | LogicTree, Simulation: run loop, process loop, logic nodes as state transformers | induction over iterations | partial |
| C53 | Force bookkeeping over iterations | LogicTree, Simulation: run loop, process loop, logic nodes as state transformers | induction over iterations | partial |
| C54 | Inactive counter | Simulation, TargetCount: counters | induction over iterations | partial |
| C55 | Target counter | Simulation, TargetCount: counters | induction over iterations | partial |
| C56 | Saved trajectories are what was sent | Storage: coroutines as state machines over a heap and a file system | induction over histories, string lemmas | partial |
| C57 | Loading reads files in index order | Storage: coroutines as state machines over a heap and a file system | induction over histories, string lemmas | partial |
| C58 | CSV log | Storage: coroutines as state machines over a heap and a file system | induction over histories, string lemmas | proved |
| C59 | Geometry JSON round trip | Storage: coroutines as state machines over a heap and a file system | induction over histories, string lemmas | partial |
| C60 | Field caches agree with the field | Field: memo tables keyed by the arguments | induction over histories | partial |
| C61 | Spawn samples are admissible | Field: sampling of spawns with shapely as oracle | convexity | partial |
| C62 | Agent record round trip | AgentObject: rows and trait objects | record algebra over all columns | proved |
| C63 | Command line runs the named simulation | CommandLine: closure environment with a shared cell | list induction | partial |
| C64 | Density grids | Quantities: histograms and cell sums | induction over agents, sums over cells | partial |
| C65 | Plot aspect | Aspect | real arithmetic | proved |
| C66 | Orientation follows target direction | Steering: orientation node | list induction | partial |
| C67 | Working directory restored | WorkDir: context manager over a file system | case analysis over bodies | partial |
| C68 | Gradient of the time to collision | PowerLaw: gradient | derivatives of Reals | partial |
| C69 | Three-circle agents turn towards their target orientation | Integrator and Body together | invariant over steps | partial |
| C70 | Three-circle social force is the gradient of the interaction energy | PowerLaw: three-circle force | derivatives, witness | partial |
| C71 | Configured interaction range and force cap take effect | Interactions: traits of the node | equality of runs under different traits | partial |
| C72 | Who may be followed | Collective: visibility predicate | algebra of angles | partial |
| C73 | Navigation node | Steering: navigation node | list induction, index ranges | proved |
| C74 | Continuous obstacle handling | Steering: continuous obstacle handling | algebra, witness | partial |
| C75 | Logic trees run as written | LogicExpr, Simulation: written trees and their nodes | structural induction on expressions, frame lemmas | proved |
| C76 | Nodes change only their own columns | LogicExpr, Simulation: written trees and their nodes | structural induction on expressions, frame lemmas | proved |
| C77 | Incomplete placement | Placement | loop invariant | proved |
| C78 | Truncated normal draws stay within the absolute scale | Rand | algebra, trigonometry | partial |
| C79 | Random vectors | Rand | algebra, trigonometry | proved |
| C80 | Geometry arrays can be read back | Geometry: arrays, drawing, union | structural induction | partial |
| C81 | Drawing marks the covered cells | Geometry: arrays, drawing, union | structural induction | partial |
| C82 | Union of geometries | Geometry: arrays, drawing, union | structural induction | proved |
| C83 | Saved simulation data | Saving: saving node over the storage model | induction over iterations | partial |
| C84 | Saving comes last | Saving: saving node over the storage model | induction over iterations | proved |
| C85 | CSV values stand under their names | Saving: saving node over the storage model | induction over iterations | partial |
| C86 | Values given explicitly are kept | Body | invariant over assignment histories | proved |
| C87 | Rotational inertia fits mass and radius | Body | invariant over assignment histories | partial |
| C88 | Field shapes stay valid | Field: validators, hull | case analysis with shapely as oracle | proved |
| C89 | Convex hull of a field | Field: validators, hull | case analysis with shapely as oracle | proved |
| C90 | Agent objects accept exactly valid values | TraitTypes, AgentObject: validators, dtype, click options | list induction | proved |
| C91 | Columns of the agent array | TraitTypes, AgentObject: validators, dtype, click options | list induction | partial |
| C92 | Options of traits | TraitTypes, AgentObject: validators, dtype, click options | list induction | partial |
| C93 | Example fields follow their parameters | ExampleFields: geometry expressions; Spec/Rooms.v gives their points | plane geometry over R, histories of assignments | partial |
| C94 | Example fields are left through targets only | ExampleFields: geometry expressions; Spec/Rooms.v gives their points | plane geometry over R, histories of assignments | proved |
| C95 | Targets of the example fields are open and can be reached | ExampleFields: geometry expressions; Spec/Rooms.v gives their points | plane geometry over R, histories of assignments | partial |
| C96 | The domain of an example field contains its shapes | ExampleFields: geometry expressions; Spec/Rooms.v gives their points | plane geometry over R, histories of assignments | partial |
| C97 | Example simulations start with the agents asked for | ExampleSims over Placement and AgentObject | loop invariant of placement, per example | partial |
| C98 | Agents of the example simulations start apart and off the walls | ExampleSims over Placement and AgentObject | loop invariant of placement, per example | partial |
| C99 | Every free place has a direction along the shortest path | Maps: masked grids, drawing, solver as oracle; Field for the queries | grid case analysis, nearest point argument | partial |
| C100 | Navigation leads along the shortest path and away from walls | Maps: masked grids, drawing, solver as oracle; Field for the queries | grid case analysis, nearest point argument | partial |
| C101 | A field answers navigation with the maps of its geometry | Maps: masked grids, drawing, solver as oracle; Field for the queries | grid case analysis, nearest point argument | partial |
| C102 | People on whom nothing acts walk straight on | Validation: held notifications of Body, crowds, tree of TestMovement | induction over arguments, invariant over updates | proved |
| C103 | Somebody alone outdoors ends up walking as they want | Simulation: the outdoor tree with one agent | contraction estimate for the two step recursion of velocity Verlet | proved |
| C104 | Agents turn towards where they walk | ExampleSims defaults; Simulation: outdoor tree | refutation: induction over updates | partial |
| C105 | Completed Voronoi regions belong to their own agent | Model/Voronoi.v: the ridges of a point, the new corners, the sorting by angle, the areas read by region number; the diagram and argsort are parameters | hull edges: the mean of the points is strictly on the inner side, so the sign picks the outward normal; induction over ridges and points; convexity of half planes; the overrun by counting region numbers | partial |
| C106 | Plots show the field that is simulated | Model/Plot.v: figures as lists of glyphs, slices of grids, splitext, the dot exporter of anytree | induction over nested geometries; arithmetic of strides; uniqueness of the last dot and slash; preorder of forests | partial |
| C107 | Plots and pictures of trees end up in the right file, complete | Model/Plot.v: figures as lists of glyphs, slices of grids, splitext, the dot exporter of anytree | induction over nested geometries; arithmetic of strides; uniqueness of the last dot and slash; preorder of forests | partial |
| C108 | Loading a configuration checks it | Model/Config.v: files as sections of raw values, the verdict of ConfigObj.validate, signatures as lists of parameters, function attributes | the two flags of validate as conjunctions over the entries; induction over signatures | partial |
| C109 | Signatures and deprecated functions | Model/Config.v: files as sections of raw values, the verdict of ConfigObj.validate, signatures as lists of parameters, function attributes | the two flags of validate as conjunctions over the entries; induction over signatures | partial |
| C110 | The origin and the axes are arbitrary | Simulation: all nodes, the update of any tree, run; no new model | a relation between states that every row, array and node function preserves (equivariance); induction over trees and updates; explicit images | partial |
| C111 | Groups far from each other do not influence each other | Model/Simulation.v run on all agents and on some of them (Spec/Parts.v: picked rows, same world, groups apart). | Every node but the pair forces treats rows one by one; the pair forces are sums over pairs, of which those across groups vanish and those outside do not concern the group; then induction over the nodes of an update and over the updates. | partial |
| C112 | The order of the agents is arbitrary | The same relation when no agent is left out. | As C111, with the time step, the count of inactive agents and the pair sums invariant under permutations; the other direction by the inverse order. | proved |
| C113 | Wrapping of angles in double precision | wrap_to_pi with every operation rounded to the nearest double; fmod exact. | Cases of the code; fmod of doubles is a double, the rounded sum is off by half a unit in the last place; pi is enclosed by Machin's formula computed in rationals. | proved |
| C114 | The clock in double precision | The clock as a fold of rounded sums. | Induction on the updates with a relative error of 2^-53 per sum (Flocq); above 2^47 a step of 0.01 is less than half a unit in the last place. | proved |
| C115 | Unit vectors and cut forces in double precision | normalize and truncate with rounded quotients and products; hypot an input. | Relative error analysis, then the triangle inequality. | proved |
| C116 | The cells of block lists in double precision | Floor division of floats as CPython computes it. | The remainder is exact, the quotient is off by less than a quarter, the final correction picks the nearest integer. | proved |
| C117 | Capacity of narrow exits in double precision | narrow_exit_capacity on the floor division of C116. | From C116; explicit doubles nearest to 1.2 and 0.4 for the refutation. | proved |
| C118 | Concatenating the numbered files | concat_npy on the files of a directory (Model/Storage.v). | From the order of loading (C57); the new name has no number, so reading its number fails wherever it is listed. | partial |
| C119 | Options of the run command | Model/CommandLine.v: levels, click's choice, the chained group. | Induction over the names; the imported simulations as in C63. | partial |
| C120 | Potential, bounding boxes and rectangles | Model/Extras.v: potential, bounding_box, rectangle. | Derivatives of the standard library; folds of minima and maxima by induction over the points. | partial |
| C121 | The csv file reads back | Model/CsvText.v: csv writer (quoting) and csv reader (state machine over characters), excel dialect. | The reader consumes what the writer makes of a field, a row and all rows, by induction; then C58. | proved |
| C122 | Properly set up simulations go on | No new model; Spec/GoesOn.v says what agents, field and nodes must provide. | An invariant of the agents (nothing divided by is zero, leaders are agents) kept by every node; induction over nodes and updates; the step is the fixed 0.01 of the shipped trees; C77 for the unplaced. | proved |
| C123 | Runs do not mix their results | Model/SavePaths.v: str of moments, os.path.join and abspath, str.format of the array file, saving nodes of several processes on one disk. | Stamps have two lengths and fixed digits, so they can be cut off; a frame argument: an action touches only files of its own directory and depends on nothing else; then C83 for one process alone. | partial |
| C124 | The version tells the checkout | Model/Version.v: the functions of _version.py on texts; git is an oracle for the output of its commands. | The pattern of git describe is read from the right, where hyphens cannot occur; a version is cut at its first plus and its dots; sorting puts the least tag first. | partial |
| C125 | Every simulation of the example modules can be run | Model/Offered.v: the classes of the example modules with their default logic and agents, either of which may be missing; the ranges of the traits of the nodes. | The shipped logics and crowds are those of C122 and C102, so the same invariant carries every update; without agents the first node of the tree raises. | partial |
| C126 | The documentation of a class lists its traits | Model/Docs.v: the rows of the table written with csv.writer, textwrap.indent on the lines of str.splitlines, and the percent formatting of the documentation text. | Splitting into lines and joining are inverse on chains of lines; indentation keeps such chains, so the csv text is recovered and read back as in C121. Induction over the text for the formatting. | partial |
| C127 | The strategies for test data draw what was asked for | Model/Strategies.v: the strategies as functions of a stream of floats; filters try three draws; arrays round to their type; holes come from polygon_sample. | Induction over the tries and the entries; the rounding of float16 with Flocq for the counterexamples; C45 for the holes. | partial |
| C128 | Overlap tests in double precision | Model/FloatSteps.v: distance_circles and overlapping_circles with every operation rounded; hypot is an input. | Relative errors of sums of doubles; the sign of a rounded difference is exact; norms of close vectors are close. | proved |
| C129 | The adaptive time step in double precision | adaptive_timestep with every operation rounded. | Cases of the clamp; relative errors of products and quotients in the normal range; subnormal speeds separately. | proved |
| C130 | Moves in double precision | translational_euler and translational_verlet for one coordinate, every operation rounded. | A calculus of nearness (relative plus absolute error) for sums, products and roundings; induction over the steps. | proved |
| C131 | Grid indices in double precision | The length of np.arange and the index of indicer, every operation rounded. | Quotients are off by at most a sixteenth; floor and ceiling of numbers at least 7/8 apart. | proved |
| C132 | Nobody steps over a wall | The shipped logic trees of Model/Simulation.v with all nodes; the walls of the field; the test of sight. | A run of an undisturbed agent is a linear recurrence with bounded inputs; the stride bound is compared with the clearance of the body. | partial |
| C133 | Speeds stay limited | The same; directions from navigation, following and herding. | The velocity obeys the recurrence of C103 with drive, fluctuation and avoidance as input; induction over the number of updates for scattered crowds. | proved |
| C134 | Which files are loaded, and in which order | io.py find_npy_files and load_npy on any listing, with Python's int() on ASCII texts (Model/Storage.v); texts of numbers and stable order in Spec/Indices.v | inversion of the stripping and of the reader of digits, uniqueness of stable orders | proved |
| C135 | A wall holds a single walker | The shipped logic trees with agent_circular_obstacle, force_contact, the distance to a wall and the integrator (Model/Simulation.v, Motion.v, Interactions.v, Distance.v, Integrator.v). | The distance to the wall obeys a semi-implicit recurrence with bounded drive; a region of position and velocity that no update leaves (Proofs/HeldStep.v); induction over the updates. | proved |
| C136 | A run can be continued from a stored state | simulation_update of every tree of modelled nodes; the random draws indexed by the updates of Fluctuation (Model/Simulation.v, LogicTree.v). | A relation between the two simulations (same agents; clock, counter and draws shifted) that every node and so every update keeps, in both directions (Proofs/ResumeProofs.v). | proved |
| C137 | Walls may be drawn in any way | distance_circle_line and its three-circle version, line_intersect, is_obstacle_between_points, the nodes that read the walls, simulation_update (Model/Distance.v, Geom2D.v, Simulation.v). | The distance in coordinates along and across the wall is symmetric and splits at the joint; contributions of walls add up in any order; sight tests are disjunctions (Proofs/WallProofs.v). | partial |
| C138 | Somebody alone goes where they want at their own pace | The tree of Outdoor with one agent: fluctuation, adjusting, velocity Verlet (Model/Simulation.v, Motion.v, Integrator.v). | Summing the recursion exactly: the deviation from the wanted place is the sum of the random accelerations times the time to adjust, plus terms in the latest velocity and force (Proofs/PaceProofs.v); bounds from C103. | proved |
| C139 | A crowd as a whole goes where its members want | The tree of Outdoor with any number of agents: fluctuation, orientation, adjusting, interactions over the pairs of the cell lists, velocity Verlet, reset (Model/Simulation.v, Interactions.v, Integrator.v). | The pushes of an update cancel in the sum (momentum, as in C29), so the sums of places, velocities and forces obey the recursion of a single walker, for which the bounds of C103 and C138 are proved (Proofs/WholeProofs.v). | proved |
| C140 | Somebody alone who is led along a free way gets along it | The tree of Hallway with one agent: domain, fluctuation, navigation map, orientation, adjusting, interactions with agents and walls, velocity Verlet, reset (Model/Simulation.v, Steering.v, Motion.v, Integrator.v). | While the map says one direction and no wall is in reach an update is that of somebody alone outdoors with this target direction, up to the mark of the domain (Proofs/LedProofs.v); the bound of C138 keeps the person where these conditions hold, by induction; the first update at which the end is reached. | proved |
| C141 | An agent gets what it is made from, in whatever order | Construction of a body from keyword arguments: values stored under held notifications, then the observers in the order of the arguments (Model/Built.v, Body.v). | The observers before that of the body type, that of the body type and those after it keep a form in which only the radii of the parts and the inertia are open (Proofs/BuiltProofs.v); the observer of the radius, or its draw, settles them. The result is an explicit record of what was given, so the order drops out. | proved |
| C142 | Recording a run | The simulation of Model/Simulation.v with a SaveSimulationData node put into its tree by add_to_simulation_logic, whose update sends to the coroutines of Model/Storage.v (Model/Recorded.v). | The tree with the new node has the old order followed by the new node (names of nodes survive the construction, so that Reset is found); one update is then the old update followed by one of the saver, and induction over the history gives the events sent; their effect is that of the saver alone (Proofs/SavingProofs.v). Groups of f updates by induction on the list with the residue of the counter. | proved |
| C143 | Lines of sight and areas in double precision | line_intersect, is_obstacle_between_points and polygon_area with every operation rounded to the nearest double (Model/FloatGeom.v). | On a grid differences, products and sums are integers below 2^53 times a power of two, hence exact, and a quotient of integers up to 2^51 is rounded to the right side of 0 and 1. Otherwise the errors of differences, products and cross products are bounded one after the other, and the margins keep the rounded quotient on its side. The symmetry holds because rounding is odd. The missed crossing is computed. | proved |
| C144 | Symmetric crowds stay symmetric | The whole update of circular agents in symmetric surroundings; symmetry is a change of coordinates together with a permutation of the agents (Spec/Symmetry.v). | The image of the run under the change of coordinates (C110), with the agents renumbered (C112) and the walls and targets in their old order (C137), starts from the same state, so it is the same run. | proved |
| C145 | Forces between agents in double precision | force_social_circular, force_contact, interaction_agent_agent_circular and the loop over the pairs with every operation rounded to the nearest double (Model/FloatForces.v). | Rounding is odd, so every vector changes its sign with the order of the pair. Everybody's force is the rounded sum of the forces of their pairs, whose error is bounded by induction over the pairs; the exact sums cancel. | proved |
| C146 | Walking at the wanted speed in double precision | Model/FloatWalk.v: one coordinate of force_adjust and of the Verlet step, rounded (Flocq) | Proofs/FloatWalkProofs.v: |u + A/2| + |A|/2 shrinks by 1 - h/4 per step up to rounding, u the deviation and A the last acceleration times the step; induction over the steps | proved |
| C147 | The unit of mass is arbitrary | Spec/Masses.v: the crowd with all masses, inertias, contact constants, forces and torques times c; the whole update of Model/Simulation.v with any tree of nodes | Proofs/MassProofs.v: every force and torque is linear in mass and contact constants (the cut at 2000 N excepted), accelerations divide the factor out; node by node, then induction over the updates | proved |
| C148 | Contact with walls in double precision | Model/FloatWalls.v: distance_circle_line and interaction_agent_circular_obstacle with every operation rounded; force_contact of Model/FloatForces.v | Proofs/FloatContact.v: an error calculus (rounding, sums, products with exact factors) along the expression. Proofs/FloatWallsProofs.v: along an axis the direction of the wall is exact, the projection stays between the ends because rounding is monotone, and a rounded difference keeps its sign | proved |
| C149 | The same crowd on moving ground | the model of C01-C60; Spec/Moving.v: the relation between the two crowds | Proofs/MovingProofs.v: each node commutes with the relation (differences of positions and velocities are unchanged, the integrator moves the offset by u dt); a lifting lemma carries node steps to updates in both directions; the cell lists are exchanged for all pairs by the completeness of cells (C20) | proved |
| C150 | Poisson clock in double precision | Model/FloatClock.v: the loop of poisson_clock with the sum rounded; the draws are inputs | Proofs/FloatClockProofs.v: induction over the rounds; a sum of doubles has a relative error of 2^-53 without underflow, and a sum that stays below dt errs by at most 2^-53 dt | proved |
| C151 | Sampling polygons in double precision | Model/FloatSampling.v: triangle_area_cumsum, the normalisation of the weights, random_sample_triangle and polygon_sample with every operation rounded | Proofs/FloatSamplingProofs.v: the last weight is exactly 1 because x/x is exact, the weights do not decrease because rounding is monotone, so the binary search picks by intervals; errors of sums as for the clock (C114); forward error analysis of the convex combination | proved |
| C152 | Distance to walls at any angle in double precision | f_distance_circle_line and f_obstacle_circular of Model/FloatWalls.v (as for C148), walls at any angle | Proofs/FloatDistance.v: forward error analysis of the direction, the projections and the choice of branch; a wrong branch is taken only where the distances of both branches agree up to the error, shown in coordinates along and across the wall | proved |
| C153 | Three-circle agents at walls in double precision | Model/FloatBodies.v: distance_three_circle_line and interaction_agent_three_circle_obstacle with every operation rounded | Props/P54_FloatBodies.v: the scan returns one of the three computed gaps and none is less; C152 for each circle; forward error analysis of lever arm and cross product | proved |
| C154 | The overlap tests of placement in double precision | Model/FloatPlacement.v: distance_three_circles and the three overlap tests with every operation rounded | Props/P55_FloatPlacement.v: invariant of the scan over the nine pairs; the error of each pair from C128 and of each wall from C152 | proved |
| C155 | Ranks at an exit and nearest exits in double precision | Model/FloatExits.v: agent_closer_to_exit and exit_detection with every operation rounded | Props/P56_FloatExits.v: the ranks are those of points on a line at the computed distances (C42); invariant of the loop over the exits; error of a distance as for C152 | proved |

A claim the code violates gets a theorem `..._refuted` with a witness or a general
statement of the failure, plus the strongest part that does hold (suffix `_partial`
when it is only a part of the property).  `partial` in the table means that at
least one theorem of the property carries one of these suffixes.

## 3. Where the code departs from the property

* **C04** unit_vector and angle are inverse. The statement is proved. The refuted theorem is about a further claim of the docstrings: weighted_average of unit vectors is not of unit length.
* **C06** line_intersect decides proper segment intersection. The statement is proved. The refuted theorem is about the stronger claim that overlapping collinear segments intersect: line_intersect answers False for them.
* **C09** Distance of two three-circle agents. distance.py:103 indexes the wrong body: second lever arm refuted; distance, normal and first lever arm proved.
* **C16** Placed three-circle agents never overlap. Refuted: the shoulders of a three-circle agent are cached at the first position tried, so after a rejected draw bodies overlap. Proved for agents whose shoulders are in place, and that fresh members placed without rejected draws are.
* **C18** Group members. Refuted as stated: a group built with its three keyword arguments is rebuilt three times, so a callable is called 3*size times, an iterator with exactly size items raises StopIteration, and a collection ignores size. Proved: size members, consecutive draws in order.
* **C23** Contact force. Refuted clause: the damping part has power damping*(v.n)^2 >= 0, so it adds energy. The other clauses are proved.
* **C26** Social force of three-circle agents. Refuted: the scan keeps the first defined root even when it is negative, which hides later collisions (witness). Proved when the first crossing pair is on a collision course; cap and opposite forces proved unconditionally.
* **C33** Integrators reproduce uniformly accelerated motion. Refuted clauses: the Verlet step adds a*dt^2 too much to the position (exact error proved for any number of steps), and inactive agents are moved. The Euler integrator is exact for any number of steps.
* **C34** Rotational state after a step. Refuted only for euler_integrator on arrays whose dtype object is not the module's own (line 158 tests identity); proved for all other steps from any state.
* **C38** Nearest neighbours for herding. Refuted only for size_nearest_other = 0, which the trait allows: a pair in sight then raises (numba versions without the empty-array check write out of bounds instead). Proved for k >= 1.
* **C45** Polygon sampling. Polygon clauses proved (membership, triangle chance, uniformity in the triangle by constant Jacobian of a bijection) with scipy's Delaunay as an oracle returning index triples. The linestring clause on chances is refuted for every two-segment path: the lengths are not accumulated; membership on the path is proved.
* **C46** Geometry to segments. Proved without holes; with holes only outer lines are returned, so the full statement is refuted.
* **C49** Injecting a node. Refuted clause: inject_before appends the new node to the former parent's children, so the branch moves behind its younger siblings and their order changes. All other clauses proved, with the exact new order.
* **C52** Worker process always signals its end. Refuted for exceptions that are not CrowdDynamicsException (for instance ZeroDivisionError from a node): they leave run before the marker is put. Proved for a normal end and for CrowdDynamicsException; never more than one marker.
* **C53** Force bookkeeping over iterations. Proved for every tree whose order ends integrator, then other nodes, then Reset, which covers all shipped trees except TestMovement (validation.py), where it is refuted: the integrator runs before the force nodes and Reset discards the forces.
* **C54** Inactive counter. Refuted: the counter adds every change of state in either direction, so an agent that leaves and returns counts twice, and an unplaced slot counts. Proved when no inactive agent is seen inside again.
* **C55** Target counter. Refuted: the name template has a keyword field but is formatted with a positional argument, so the constructor raises KeyError for every field with a polygon target.
* **C56** Saved trajectories are what was sent. Proved when no array is changed between being sent and the dump. Refuted in general: the buffer keeps references, so one array sent again and again (as SaveSimulationData does) gives files whose rows are all alike.
* **C57** Loading reads files in index order. Proved for base names without digits when no foreign file matches; refuted for base names with digits (str.lstrip takes a set of characters) and for base names that are prefixes of others.
* **C59** Geometry JSON round trip. Proved for None and lists of geometries, given that shape undoes mapping; refuted for single geometries (AttributeError), multipart geometries (come back as lists) and files saved to twice.
* **C60** Field caches agree with the field. Holds when a field is not changed after it was first asked, whatever happens to other fields. Refuted otherwise: the caches keep the answer of the field as it was (C60_stale_refuted), and a float target number is refused or answered depending on what was asked before. shapely and the solvers behind the maps are parameters.
* **C61** Spawn samples are admissible. Holds for convex spawns, and away from obstacles when what they leave of the spawn is convex. Refuted in general: samples come from the convex hull, so a pillar in the middle of a spawn is hit. shapely operations and Delaunay are parameters whose meaning is stated in Spec/Regions.v.
* **C63** Command line runs the named simulation. Only one class without own traits works, and only when cli.py is run as a script. The lambda in the loop reads the loop variable when it is called, so all commands run the last class; a command with options calls a callback that takes no arguments; an unsupported trait stops everything; the console script never adds the commands. Imports and os.listdir are inputs.
* **C64** Density grids. Voronoi cells and their intersections with grid cells are inputs with their meaning as hypotheses. density_voronoi_1 keeps the number of agents whenever it returns; its grid has jmax - imin + 1 columns, so it raises when the leftmost column is above the lowest row. density_voronoi_2 reads areas with scipy's region numbers although they are in the order of the points. density_classical passes floats to np.zeros and never returns (numpy 1.12). Truncation merges the cells around the axes.
* **C66** Orientation follows target direction. Refuted clause: an agent with zero target direction is turned to orientation 0. The other clauses are proved for every array.
* **C67** Working directory restored. Holds whenever the directory still exists; refuted when the body removed it: the clean-up raises and hides the exception of the body.
* **C68** Gradient of the time to collision. Refuted: the returned vector is minus the gradient (proved for all inputs on a collision course); the social force is right because its sign is negated again.
* **C69** Three-circle agents turn towards their target orientation. Refuted: no assignment sets target_angular_velocity, so created agents at rest never turn, for any number of steps.
* **C70** Three-circle social force is the gradient of the interaction energy. Refuted with a shoulder-shoulder contact (power_law.py:149 and the offsets in lines 337-350 have the wrong sign and weight). Proved for contacts with equal displacement from the torsos.
* **C71** Configured interaction range and force cap take effect. Refuted: both traits are ignored except through the cell size.
* **C72** Who may be followed. Refuted for exactly head-on neighbours (strict < 1.0 in the comparison); proved otherwise.
* **C74** Continuous obstacle handling. Refuted: obstacle_handling.py:89 reads the y component of the direction for both components. Proved outside the radius and for directions with equal components.
* **C78** Truncated normal draws stay within the absolute scale. Proved for a positive absolute scale; abs_scale = 0 is treated as missing and refutes the statement.
* **C80** Geometry arrays can be read back. Proved for single geometries; every multipart geometry raises ValueError because the generator returns instead of yielding.
* **C81** Drawing marks the covered cells. Proved for geometries without holes inside the grid and for one polygon with holes; refuted for collections (a later hole erases earlier parts) and for cells left of or below the grid, which wrap around. skimage's rasterisers are oracles.
* **C83** Saved simulation data. The data file is right. Every array file has the right number of rows but all rows are the state at the save; right when every update saves.
* **C85** CSV values stand under their names. Proved when all rows have the same keys in the same order; refuted otherwise.
* **C87** Rotational inertia fits mass and radius. Right when mass and radius are both known for the first time; refuted after later changes: the inertia is never recomputed.
* **C91** Columns of the agent array. Default values are not modelled. Refuted for a class that redefines a trait of its base: the name comes twice and numpy raises ValueError.
* **C92** Options of traits. Refuted for tuples with a Unicode member: 'raise str' instead of 'return str'.
* **C93** Example fields follow their parameters. Shapely's predicates are parameters with the few facts in Spec/Rooms.v (predicates); sizes are positive. Refuted: a width of 0 is refused with ValidationError but stays, with the old domain.
* **C95** Targets of the example fields are open and can be reached. Refuted for parameters the fields accept: Rounding with ratio 1 (nobody gets out), AvoidObstacle with ratio_obs 1 (exit shut), RoomWithOneExit with an exit wider than the room (walls in the exit). FourExitsField and HallwayField: proved without restriction on positive sizes.
* **C96** The domain of an example field contains its shapes. Refuted: AvoidObstacle with an exit wider than the room; PillarInTheMiddle, whose pillar is never inside the domain.
* **C97** Example simulations start with the agents asked for. Per example: the crowd is built without exception for every admissible size and endless draws, with the sizes, flags, targets, exits, directions, bodies and spawn areas stated. C97_everyone_*: draws far enough apart place everybody. Refuted: Hallway with an odd size starts with one agent less; AvoidObstacle accepts exits narrower than 1 but its field refuses them. Exceptions in agents that the first notifications of a group build and the last replaces are not modelled.
* **C98** Agents of the example simulations start apart and off the walls. Circular agents never overlap; three-circle agents do not if their shoulders are in place (stale shoulders are C16). Examples that hand their walls over (FourExits, Rounding, AvoidObstacle, FourExits herding and fixed) keep every agent clear of them; Hallway, RoomWithOneExit and ClosedRoom do not (refuted: the first draw is always taken).
* **C99** Every free place has a direction along the shortest path. path: what each node gets is exact; C99_free_nodes: every free node has a unit vector; C99_computed: the maps exist whenever something is unreachable. Refuted: where every place can be reached (no obstacle drawn, radius too small for the grid) the program raises AttributeError. The solver, the rasterisers, buffer and intersection are parameters.
* **C100** Navigation leads along the shortest path and away from walls. C100_navigation: node by node; C100_agents: every agent. Refuted: midway between walls that are both within the radius the direction is NaN.
* **C101** A field answers navigation with the maps of its geometry. First query; later ones are about the caches (C60). Refuted: a field without obstacles cannot be navigated (AttributeError).
* **C104** Agents turn towards where they walk. Refuted: target_angular_velocity is 0 and nothing in the repository sets it, so the adjusting torque only brakes the rotation (every agent of every example crowd), the orientation of an agent alone outdoors does not depend on its target direction, and without random torque it never changes while the agent comes to walk in another direction.
* **C105** Completed Voronoi regions belong to their own agent. C105_finished: what becomes of every region (the record `finished` of Spec/Voronoi.v), with C105_default_radius for calls without radius. C105_inside, C105_disjoint, C105_shared: regions lie on their own side and meet in the same new corners. The diagram scipy returns is a parameter of which `is_voronoi` states what is required. Refuted: with the default radius an agent can be outside of its own region (C105_own_point_refuted), and density_voronoi_2 reads areas past their end whenever scipy's ownerless region is not the last one (C105_region_numbers_refuted).
* **C106** Plots show the field that is simulated. C106_every_part, C106_refused, C106_field, C106_plot_field, C106_arrows, C106_arrows_apart. C106_image_partial: the picture of the distances is in place if and only if the domain starts in the origin, because the upper right corner is passed as width and height. Refuted: holes are painted over (C106_holes_refuted); fields without domain or without obstacles, which the traits allow, cannot be drawn (C106_bare_field_refuted).
* **C107** Plots and pictures of trees end up in the right file, complete. C107_splitext states os.path.splitext on posix, which is modelled from the standard library. C107_figure, C107_html, C107_module_name, C107_lines, C107_any_node. Reading back is refuted for nodes with equal names (C107_same_names_refuted).
* **C108** Loading a configuration checks it. ConfigObj.validate and Validator are modelled from their documentation and source (configobj 5). C108_refused, C108_contents, C108_no_spec, C108_shipped. C108_accepted_partial: files with one section, or with no conforming one. Refuted for other files: validate returns a non-empty dictionary when only a part is invalid, and load_config takes that for success (C108_accepted_refuted); nan passes every range (C108_nan_refuted).
* **C109** Signatures and deprecated functions. C109_signature. Refuted: isinstance compares with the class that marks missing defaults instead of testing identity, so nothing is refused (C109_no_default_refuted); deprecated reads func_code, which functions do not have in Python 3, so import_simulation_callables cannot be called (C109_deprecated_refuted, C109_deprecated_partial).
* **C110** The origin and the axes are arbitrary. C110_update, C110_updates, C110_run: any logic tree, with cell lists that give the same pairs in both coordinate systems. C110_cells: any correct cell lists, for circular agents without herding. C110_images: every scene has an image (navigation maps only when the axes keep their directions, because the grid is parallel to the axes). C110_moved spells out the moved case. Three circle agents: without mirror images, and with turned axes only if they do not aim at an orientation. Refuted for turned axes otherwise: wrap_to_pi keeps -pi and pi apart, so an agent with its back to its target turns left in one coordinate system and right in another (C110_turned_refuted).
* **C111** Groups far from each other do not influence each other. C111_updates: both kinds of agents, cell lists that enumerate the same pairs of the group. C111_circular: circular agents, any correct cell lists with large enough cells. C111_alone: a group of one, with the simulation of that agent alone written out. Every theorem assumes equal random draws for the agents of the group, the forces between agents before the integrator (as in the shipped logics), no follower nodes and a fixed time step. Refuted for a variable time step: the fastest agent anywhere shortens the step of all (C111_step_refuted).
* **C113** Wrapping of angles in double precision. The statement is proved; the refuted theorem is about a stronger claim. The model rounds every operation (Flocq's round to nearest even with gradual underflow); np.pi is the nearest double to pi (proved, C113_case). Refuted: a small negative angle becomes zero (C113_negative_refuted), unlike in the idealised model of C01.
* **C114** The clock in double precision. The statement is proved; the refuted theorem is about a stronger claim. C114_error: the exact bound (1+2^-53)^n - 1. Refuted: with steps of 0.01 the clock stops at 2^47 seconds (C114_keeps_running_refuted).
* **C115** Unit vectors and cut forces in double precision. The statement is proved; the refuted theorem is about a stronger claim. hypot of the C library is an input with the stated accuracy; a correctly rounded one satisfies it (C115_case). C115_truncate is for bounds of at least 1 (the code uses 2000) and lengths up to 2^1000. Refuted for subnormal vectors (C115_subnormal_refuted).
* **C117** Capacity of narrow exits in double precision. The statement is proved; the refuted theorem is about a stronger claim. Refuted for decimal widths: a door of 1.2 has room for two agents of 0.4 (C117_decimal_refuted).
* **C118** Concatenating the numbered files. Proved for base names without digits (C57) and files of this base name directly in the directory: the file written holds the rows of all files by number, the other files are kept. Refuted: afterwards every load of the base name and every second call raises ValueError, since the new file has no number.
* **C119** Options of the run command. Proved: the named simulations are run once each in the order given, and nothing is run when a name is unknown. Refuted: --num changes nothing; a level given as a number or misspelled raises TypeError instead of a usage error, and so does --help, because the choices mix numbers and names.
* **C120** Potential, bounding boxes and rectangles. Proved: slope of the potential (k times magnitude), tight bounding boxes in the plane, area of the rectangle. Refuted: points with three columns get two pairs only.
* **C123** Runs do not mix their results. Refuted: two simulations given the same save_directory overwrite each other's arrays, a save_directory that starts with a slash makes the base directory ignored, and a brace anywhere in the directory sends the arrays elsewhere or raises. Proved for default directories without braces. The time zone is the default UTC; each write of a file takes place at once; the geometry file is left to C59.
* **C124** The version tells the checkout. git is an oracle that answers the commands; C124_checkout, C124_untagged, C124_archive, C124_release_first, C124_directory, C124_unknown, C124_styles, C124_as_described, C124_misread. C124_tells_apart_partial: tags without a plus. Refuted: a tag with a plus reads like another state (C124_lookalike_refuted); an archive of a commit without tags reports the name of a branch that holds a digit (C124_branch_refuted); a git that answers but then fails to count commits or to tell the date makes the import raise (C124_broken_git_refuted).
* **C125** Every simulation of the example modules can be run. C125_runs, C125_complete (which classes have logic and crowd), C125_missing_part, C125_traits. Refuted: AroundCircle and AvoidPillar have no agents and raise AttributeError on the first update (C125_unfinished_refuted), the validation classes do so until agent_type is set (C125_no_kind_refuted), AvoidObstacle accepts widths and ratios with which its logic cannot be made (C125_too_narrow_refuted, C125_accepted_refuted); a process running a simulation without agents never puts the end marker into the queue (C125_missing_part). The maps and cell lists are as in C122.
* **C126** The documentation of a class lists its traits. C126_table_partial (the csv inside the indented table reads back to the header and one row per trait, for default values that are no tuples of several items), C126_listed, C126_lines, C126_rest_kept, C126_unknown, C126_no_text, C126_percent (percent signs of other kinds). Refuted: a trait defined anew is listed with both default values (C126_overridden_refuted), a default value that is a tuple makes the decorator raise (C126_tuple_refuted), and the table starts in the first column, so the indentation of the rest of the text is no longer removed (C126_indentation_refuted).
* **C127** The strategies for test data draw what was asked for. C127_reals_partial and C127_nothing_missing (scalars of every float type), C127_array (arrays of doubles), C127_refused, C127_nothing_left, C127_unit_vectors, C127_points, C127_linestrings, C127_few_points, C127_polygons_partial (holes in the convex hull of the corners), C127_agents, C127_agents_refused. Refuted: narrower arrays round after the filter, so float16 entries can be zero, infinite and out of bounds (C127_narrow_refuted); a misspelt choice keeps the zeros (C127_misspelt_refuted); holes of polygons that are not convex can lie outside (C127_hole_outside_refuted) and polygons can have no area (C127_no_area_refuted).
* **C128** Overlap tests in double precision. The statement is proved; the refuted theorem is about a stronger claim: overlaps smaller than the rounding of the sum of the radii are accepted (C128_exact_refuted).
* **C129** The adaptive time step in double precision. The statement is proved; the refuted theorem is about a stronger claim: the bound of C32 is exceeded by a rounding error (C129_exact_bound_refuted).
* **C130** Moves in double precision. The statement is proved; the refuted theorem is about a stronger claim: an agent walking at 2^53 from the origin never moves (C130_gets_anywhere_refuted). dt ** 2 is one rounded product.
* **C131** Grid indices in double precision. The statement is proved; the refuted theorem is about a stronger claim: without the bound on the coordinates the corner of the domain has an index outside the grid (C131_far_domain_refuted).
* **C132** Nobody steps over a wall. Proved for agents whose greatest stride at that bound of the speed is less than their radius (that of the torso with three circles); refuted for fast agents, who pass a wall in one update without touching it before or after (C132_fast_refuted).
* **C134** Which files are loaded, and in which order. Characterises load_npy on every listing; C134_foreign_file_refuted shows files of others that are taken for numbered ones. Only ASCII digits and blanks are modelled.
* **C137** Walls may be drawn in any way. C137_order_direction for every logic, with the same exceptions; C137_pieces_between for sight; C137_pieces_partial: circular agents, shipped logics, nobody nearer to the joint than their radius. C137_joint_refuted: somebody touching the wall right at the joint is pushed with twice the force of the undivided wall.
* **C143** Lines of sight and areas in double precision. The statement is proved; the refuted theorem is about a stronger claim: without the bound on the angle two segments that cross in their middle are not seen to cross (C143_missed_refuted). No overflow is modelled: a coordinate times another must stay below 2^1023.
* **C150** Poisson clock in double precision. The statement is proved; the refuted theorems are about stronger claims (no two ticks ever coincide, the clock always ends). The exponential draws themselves, shuffle and argsort are inputs (any doubles from 0 on, any permutation, any sorting).

## 4. Trusted base

### 4.1 What is trusted

* Coq 8.16.1's kernel, and that the statements in `Props/` with the definitions of
  `Spec/` say what the English properties say.
* That `Model/` transcribes `/repo` faithfully. Nothing of `/repo` was run.
* The axioms of the standard library that `Print Assumptions` lists (4.2). They come
  with the real numbers (`ClassicalDedekindReals.sig_forall_dec`,
  `ClassicalDedekindReals.sig_not_dec`,
  `FunctionalExtensionality.functional_extensionality_dep`) and with
  `Classical_Prop.classic`. There are no axioms of our own, no axioms of other
  libraries, no section-less variables, no module types or functors of our own.
  A tool that lists module parameters also shows the sealed modules of the standard
  library that the reals are defined with (`RbaseSymbolsImpl`, `RinvImpl`) and of
  ssreflect (`ssrunder`); they are interfaces of existing definitions.
* Flocq's definition of rounding (`round radix2 (FLT_exp (-1074) 53) ZnearestE`), for the
  theorems about double precision; `rounding_is_nearest` in `Props/P26_Floats.v` shows
  that it gives a nearest double in the sense of `Spec/Doubles.v`. Flocq has no axioms.

Parameters of the model (universally quantified; what a theorem needs of them is a
hypothesis in its statement):

| parameter | stands for | assumed, where needed |
|---|---|---|
| pairs | `cell_lists.iter_nearest_neighbors` | every pair within the cell size comes exactly once |
| draws | `np.random` uniform, normal, exponential, randint, shuffle, scipy `truncnorm.rvs` | range of the distribution |
| argsort | `np.argsort` | a sorting permutation |
| triangles | scipy `Delaunay` | the triangles cover the polygon |
| voronoi | scipy `Voronoi`, shapely intersections of its cells | areas of the cells add up |
| line, fill, perimeter | `skimage.draw` | none |
| solver | `skfmm.distance` | answers with a grid of the same shape |
| nearest | scipy `NearestNDInterpolator` | a nearest point is found |
| geometry operations and predicates | shapely | the few facts in `Spec/Rooms.v`, `Spec/Fields.v`, `Spec/Regions.v` |
| file system, imports | `os`, `json`, `importlib` | stated per theorem |
| hypot | `hypot` of the C library (`np.hypot`) | correct to one part in 2^52, or 2^-1074 |
| floats | numbers drawn by hypothesis 3.8.2 | between the bounds given |
| contains | matplotlib `Path.contains_points` | none |

Semantics of libraries written into the model: numpy indexing, `searchsorted`, floor
division, masked arrays of numpy 1.12 (a masked operand or a quotient that is not a
number masks the result); traitlets 4.3 observers (called on change, in the order they
were declared), validators, dynamic defaults (computed on first access, then kept);
anytree 2.1.4 (`parent` setter, pre- and post-order, `find`); click 6.7 options;
hypothesis 3.8.2 `filter` (three tries) and `arrays` (entry by entry);
Python generators, context managers, closures, `str.format`, `str.lstrip`.

Simplifications that hold throughout (others are in the comment of the definition):

* The arrays a call leaves behind when it raises are modelled only where a comment says so.
* An out-of-range read in numba code without bounds checks is an error value.
* `float64` overflow and signed zeros are not modelled; rounding is modelled only in
  `Model/Floats.v`, `FloatSteps.v`, `FloatGeom.v`, `FloatForces.v`, `FloatWalk.v`,
  `FloatWalls.v`, `FloatClock.v`, `FloatSampling.v`, `FloatBodies.v`, `FloatPlacement.v` and `FloatExits.v`.
* Threads: `MultiAgentProcess` is a sequential program with a queue; what the consumer
  does in between is not modelled, since it only reads.

### 4.2 What Print Assumptions lists for each theorem

Every `Theorem` of `Props/` is followed by `Print Assumptions`.  The theorems by the axioms they list:

**none: closed under the global context** (151 theorems)

C18_callable_members_partial, C18_iterator_members_partial, C18_one_item_per_member_refuted, C18_collection_ignores_size_refuted, C18_rebuild_takes_next_items_partial, C18_same_size, C18_resized, C18_emptied_refuted, C26_pairs_are_all_pairs, C35_getdefault, C46_segments_partial, C46_chain, C46_outer_lines, C46_holes_refuted, C46_obstacles, C46_refused, C47_stays_a_forest, C47_failures_raise, C47_attach, C47_lshift, C48_update_order, C48_any_node, C49_inject_after, C49_inject_before_root, C49_inject_before_child_partial, C49_order_kept_refuted, C50_lookup, C51_run_loop, C51_iterations, C52_end_marker_partial, C52_at_most_one, C52_no_marker_refuted, C55_never_constructed_refuted, C55_never_updated_refuted, C55_names, C55_no_polygon_partial, C56_files_hold_what_was_sent_partial, C56_same_array_refuted, C56_sent_states_lost_refuted, C56_other_length_refused, C57_index_order_partial, C57_round_trip_partial, C57_digits_refuted, C57_other_base_names_refuted, C58_header_and_rows, C59_round_trip_partial, C59_single_geometry_refuted, C59_saved_twice_refuted, C59_multipart_refuted, C59_refused, C62_row_holds_traits, C63_commands_listed, C63_single_partial, C63_last_class_refuted, C63_options_refuted, C63_bad_trait_refuted, C63_installed_refuted, C67_restored, C67_removed_refuted, C67_nowhere, C75_written_tree, C80_array_multipart_refuted, C81_outside_refuted, C82_union, C83_data_file, C83_array_files_partial, C83_save_every_update_partial, C83_states_lost_refuted, C84_saves_after_all_others, C85_values_under_names_partial, C85_other_keys_refuted, C88_shapes_stay_valid, C88_assignment_effect, C91_columns, C91_traits, C91_override_refuted, C91_named_twice, C92_option, C92_supported_partial, C92_tuple_text_refuted, C106_every_part, C106_refused, C106_field, C106_palette, C106_holes_refuted, C107_splitext, C107_figure, C107_html, C107_module_name, C107_lines, C107_any_node, C107_same_names_refuted, C109_signature, C109_no_default_refuted, C109_refused, C109_deprecated_refuted, C109_deprecated_partial, C118_concatenates_partial, C118_again_refuted, C118_nothing_there, C118_no_basename, C119_once_each_partial, C119_unknown_name, C119_num_refuted, C119_level_refuted, C119_help_refuted, C119_no_names, C119_named_levels, C120_no_points, C121_written_rows_are_read, C121_plain_fields, C121_file_is_read, C123_directories_differ, C123_metadata, C123_same_directory_refuted, C123_base_ignored_refuted, C123_clean_paths, C123_braces_refuted, C124_checkout, C124_untagged, C124_tells_apart_partial, C124_lookalike_refuted, C124_archive, C124_release_first, C124_branch_refuted, C124_directory, C124_unknown, C124_as_described, C124_styles, C124_styles_untagged, C124_broken_git_refuted, C124_misread, C124_at_the_root, C126_table_partial, C126_listed, C126_lines, C126_rest_kept, C126_unknown, C126_no_text, C126_percent, C126_overridden_refuted, C126_tuple_refuted, C126_indentation_refuted, C127_agents, C127_agents_refused, C134_loads, C134_refused, C134_one_number, C134_int, C134_own_names, C134_foreign_file_refuted

**`ClassicalDedekindReals.sig_forall_dec`** (2 theorems)

C80_refused, C89_hull_of_all

**`Classical_Prop.classic`** (4 theorems)

C81_draw_partial, C81_draw_polygon, C81_hole_erases_refuted, C81_refused

**`ClassicalDedekindReals.sig_forall_dec`, `FunctionalExtensionality.functional_extensionality_dep`** (88 theorems)

C04_weighted_average, C05_polygon_area, C05_area_invariant, C05_area_triangle, C05_area_cut, C05_area_small, C06_line_intersect, C06_line_intersect_symmetric, C06_collinear_refuted, C07_line_of_sight, C07_line_of_sight_laws, C13_block_list_needs_positive_cells, C13_getitem_same_cell, C13_nearest_cells_within, C13_nearest_finds_everything_close, C14_reads_have_no_effect, C21_zero_at_target_only, C21_force_value, C21_all_agents, C21_zero_adjusting_time_raises, C23_third_law, C23_friction_power, C23_damping_adds_energy_refuted, C27_torque_bounded, C35_indices, C35_extent, C35_steps, C35_outside, C41_zero_exactly_when_too_narrow, C41_simple_formula, C41_layer_formula, C41_formulas_agree, C41_no_width_refused, C41_nonnegative, C41_monotone, C43_exit_is_its_middle, C44_clock_yields_arrivals, C44_clock_increases, C44_clock_ends, C44_timings, C44_timings_count, C45_triangle_chance, C53_shipped_trees_partial, C64_voronoi_1_total, C64_voronoi_1_entries_partial, C64_voronoi_1_raises_refuted, C64_flat_cell, C64_voronoi_2_partial, C64_voronoi_2_area_refuted, C64_negative_refuted, C64_classical_refuted, C64_raised, C65_ranges, C65_no_points, C73_navigation, C75_shipped_orders, C75_found_by_name, C78_truncnorm_within_scale_partial, C78_truncnorm_zero_scale_refuted, C80_array_partial, C86_shipped_body_types, C93_out_of_range, C97_avoid_obstacle_refuted, C106_image_partial, C106_image_refuted, C108_refused, C108_accepted_partial, C108_accepted_refuted, C108_nan_refuted, C108_contents, C108_no_spec, C108_numbers, C108_shipped, C120_bounding_box, C120_three_dimensions_refuted, C120_rectangle_area, C125_accepted_refuted, C125_traits, C127_reals_partial, C127_nothing_missing, C127_misspelt_refuted, C127_refused, C127_three_draws, C127_gives_up, C127_points, C127_linestrings, C132_in_sight, C137_pieces_between

**`ClassicalDedekindReals.sig_forall_dec`, `ClassicalDedekindReals.sig_not_dec`, `FunctionalExtensionality.functional_extensionality_dep`** (185 theorems)

C01_wrap_to_pi, C01_wrap_to_pi_odd_multiples, C02_rotations, C03_normalize, C03_truncate, C04_weighted_average_unit_refuted, C08_distance_circles, C09_distance_three_circles_partial, C09_second_lever_arm_refuted, C09_lever_arm_far_side, C10_distance_circle_line, C10_degenerate_wall, C11_distance_three_circle_line, C12_overlapping_circles, C12_overlapping_three_circles, C12_overlapping_circle_line, C12_overlapping_three_circle_line, C12_zero_length_walls_unseen, C15_circular_agents_apart, C15_agents_clear_of_walls, C15_documented_cell_size_insufficient, C16_stale_shoulders_refuted, C16_three_circle_agents_apart_partial, C16_first_try_in_place_partial, C17_placement_frame, C17_free_rows, C17_wrong_agent_type, C19_radii_follow_ratios, C19_body_type_once, C20_shipped_bodies, C21_euler_converges, C21_verlet_converges, C21_verlet_closer_every_step, C21_shrunk_is_closer, C21_shrunk_converges, C22_torque_of_shortest_turn, C22_torque_at_rest, C22_shortest_turn_unique, C22_all_agents, C22_zero_adjusting_time_raises, C23_normal_and_tangential_part, C24_first_contact, C24_nan_otherwise, C25_no_collision_no_force, C25_capped, C25_opposite, C25_returns, C25_swapped_agents, C26_no_crossing_no_force, C26_capped, C26_opposite, C27_force_bounded, C27_fluctuation_node, C28_only_forces_of_listed_agents, C28_far_pairs_do_not_interact, C28_order_irrelevant, C28_superposition, C28_pair_of_circular_agents, C28_pair_of_three_circle_agents, C29_total_force_unchanged, C30_equals_all_pairs, C30_default_settings, C30_nothing_missed, C31_pushed_only_by_walls_it_hits, C31_push_of_one_wall, C31_walls_add_up, C31_order_irrelevant, C31_no_walls, C32_dt_max_when_nothing_moves, C32_longest_admissible_step, C32_fixed_step, C33_euler_step, C33_no_inertia, C33_euler_any_number_of_steps, C33_verlet_init_step, C33_verlet_step_partial, C33_verlet_position_refuted, C33_inactive_agents_moved_refuted, C34_verlet, C34_verlet_init, C34_euler, C34_euler_other_dtype_refuted, C36_direction_map, C36_plane, C38_nearest_neighbours, C38_no_neighbours_wanted_refuted, C39_herding_directions, C39_only_followers, C40_leader_choice, C40_stays_ready, C42_ranks, C43_closest_visible_exit, C43_followers_take_the_exit, C45_polygon_sample_in_triangle, C45_triangle_uniform, C45_linestring_on_path, C45_linestring_share_refuted, C61_in_convex_spawn_partial, C61_away_from_obstacles_partial, C61_hull_filled, C61_sample_in_obstacle_refuted, C62_round_trip, C62_traits_reproduced, C62_one_row_only, C68_contact_time_exists_partial, C69_never_turns_refuted, C71_longer_sight_has_no_effect, C71_cap_has_no_effect, C72_herding_relation, C72_head_on_refuted, C79_random_vector, C86_explicit_values_kept, C87_first_inertia_partial, C87_inertia_never_updated_refuted, C87_wrong_inertia_refuted, C90_accepts_exactly, C90_refusal, C93_outdoor, C93_outdoor_size, C93_refused_size_refuted, C93_hallway, C93_spawns_apart, C94_hallway, C94_closed_room, C94_room_with_one_exit, C94_four_exits, C95_hallway, C95_room_with_one_exit_partial, C95_room_with_one_exit_refuted, C95_four_exits, C96_hallway, C96_closed_room, C96_room_with_one_exit, C96_four_exits, C96_pillar_refuted, C97_outdoor, C97_room_with_one_exit, C97_four_exits, C97_outdoor_herding, C97_rounding, C97_avoid_obstacle, C97_closed_room, C97_four_exits_herding, C97_four_exits_fixed, C97_hallway_partial, C97_hallway_refuted, C97_refused, C97_no_targets_refused, C97_everyone_outdoor, C97_everyone_rounding, C97_any_direction, C97_any_choice, C98_clear_of_walls, C98_into_walls_refuted, C98_circular_apart, C98_three_circle_apart_partial, C99_shortest_path, C99_all_reachable_refuted, C99_too_narrow, C102_explicit_body, C102_drawn_body, C102_test_interaction_starts, C104_only_brakes_refuted, C106_arrows_apart, C120_magnitude_is_slope, C120_no_energy, C125_complete, C127_unit_vectors, C127_unit_vectors_refused, C127_few_points, C127_polygons_partial, C127_hole_outside_refuted, C127_no_area_refuted, C135_shipped_types, C137_joint_refuted, C141_built, C141_order, C141_refused, C141_unknown_type, C141_type_alone, C141_means_of_the_type, C144_centre, C147_limit_matters, C149_pair, C149_adaptive_steps_differ

**`ClassicalDedekindReals.sig_forall_dec`, `Classical_Prop.classic`, `FunctionalExtensionality.functional_extensionality_dep`** (2 theorems)

C99_distances, C127_nothing_left

**`ClassicalDedekindReals.sig_forall_dec`, `ClassicalDedekindReals.sig_not_dec`, `Classical_Prop.classic`, `FunctionalExtensionality.functional_extensionality_dep`** (230 theorems)

C04_unit_vector_angle, C25_energy_gradient, C26_reacts_to_earliest_partial, C26_blocked_by_passed_pair_refuted, C26_missed_collision_refuted, C27_own_draws, C37_obstacle_handling, C37_weight, C51_time, C53_force_is_sum_of_contributions_partial, C53_previous_force_partial, C53_steering_gives_no_force, C53_test_movement_refuted, C54_marks_and_adds_changes_partial, C54_no_return_partial, C54_return_counted_twice_refuted, C54_empty_slot_refuted, C60_answers_current_partial, C60_questions_change_nothing, C60_stale_refuted, C60_float_target_refuted, C60_asked_target, C66_orientation, C66_zero_direction_refuted, C68_gradient_is_negated_partial, C68_not_the_gradient_refuted, C70_gradient_for_aligned_contact_partial, C70_shoulder_contact_refuted, C71_settings_ignored_refuted, C74_continuous_partial, C74_wrong_component_refuted, C75_update_runs_written_order, C75_exception_not_counted, C75_updates_deterministic, C76_nodes_write_their_columns_only, C76_only_integrators_move, C76_bodies_are_constant, C77_unset_adjusting_time, C77_incomplete_placement, C94_rounding, C94_avoid_obstacle, C95_rounding_partial, C95_rounding_refuted, C95_avoid_obstacle_partial, C95_avoid_obstacle_refuted, C96_rounding, C96_avoid_obstacle_partial, C96_avoid_obstacle_refuted, C99_free_nodes, C99_computed, C100_navigation, C100_midway_refuted, C100_agents, C101_field_navigation, C101_no_obstacles_refuted, C101_no_obstacles_maps, C101_domain_removed, C102_straight, C102_test_movement, C103_lone_walker, C103_settles, C103_outdoor_alone, C104_target_ignored_refuted, C104_never_turns_refuted, C105_finished, C105_default_radius, C105_inside, C105_disjoint, C105_shared, C105_own_point_refuted, C105_region_numbers_refuted, C106_plot_field, C106_axes, C106_arrows, C106_bare_field_refuted, C110_update, C110_updates, C110_run, C110_cells, C110_moved, C110_images, C110_turned_refuted, C111_updates, C111_circular, C111_alone, C111_step_refuted, C112_updates, C112_circular, C113_range, C113_turns, C113_idempotent, C113_in_range, C113_odd_multiples, C113_negative_refuted, C114_error, C114_error_linear, C114_never_back, C114_keeps_running_refuted, C115_normalize, C115_zero, C115_truncate, C115_subnormal_refuted, C116_cells, C116_keys, C116_neighbours, C117_capacity, C117_layer_as_wide_as_agent, C117_decimal_refuted, C122_goes_on, C122_shipped, C122_run_until, C122_runs_for_ever, C122_worker, C125_runs, C125_missing_part, C125_unfinished_refuted, C125_no_kind_refuted, C125_too_narrow_refuted, C127_array, C127_narrow_refuted, C127_narrow_types, C128_distance, C128_normal, C128_swapped, C128_accepted, C128_rejected, C128_exact_refuted, C129_range, C129_longest_step, C129_nothing_moves, C129_exact_bound_refuted, C130_euler, C130_verlet, C130_standing, C130_walking, C130_gets_anywhere_refuted, C131_index_in_grid, C131_cell, C131_extent, C131_far_domain_refuted, C132_no_wall_stepped_over_partial, C132_fast_refuted, C133_speed, C133_settles, C133_scattered, C133_maps, C135_held, C135_not_crossed, C135_long_wall, C136_goes_on, C136_nothing_else, C136_same_exceptions, C137_order_direction, C137_pieces_partial, C138_pace, C138_gets_away, C138_outdoor_alone, C139_crowd_pace, C139_crowd_velocity, C139_interactions_cancel, C139_stays, C140_led, C140_arrives, C140_says, C142_same_run, C142_same_exceptions, C142_data_file, C142_clock, C142_array_files, C142_every, C142_resume, C143_swapped, C143_grid_sight, C143_grid_area, C143_clear, C143_along_axis, C143_missed_refuted, C144_symmetric, C144_without_noise, C144_middle, C144_noise, C145_swapped, C145_opposite, C145_momentum, C145_order, C145_two, C146_approach, C146_settles, C146_kept, C146_stalls, C147_update, C147_updates, C147_walls_only, C148_contact, C148_no_touch, C148_still, C148_slides, C148_on_the_line, C148_room, C149_updates, C149_cells, C150_ticks, C150_timings, C150_strict, C150_ends, C150_ends_refuted, C150_strict_refuted, C151_point, C151_near, C151_chance, C151_share, C152_distance, C152_site, C152_clear, C152_direction, C152_overlap, C152_push, C153_distance, C153_clear, C153_overlap, C154_gap, C154_accepted, C154_rejected, C154_wall_accepted, C154_wall_accepted_body, C154_wall_rejected, C154_wall_rejected_body, C155_ranks, C155_exit, C155_grid

### 4.3 Which parts of the code are modelled

Functions and classes of `/repo/crowddynamics` outside its tests, with the model file that cites them.

| file | modelled | not modelled |
|---|---|---|
| crowddynamics/_version.py | get_keywords (Version), versions_from_parentdir (Version), git_versions_from_keywords (Version), git_pieces_from_vcs (Version), plus_or_dot (Version), render_pep440 (Version), render_pep440_pre (Version), render_pep440_post (Version), render_pep440_old (Version), render_git_describe (Version), render_git_describe_long (Version), render (Version), get_versions (Version) | VersioneerConfig, get_config, NotThisMethod, register_vcs_handler, run_command, git_get_keywords |
| crowddynamics/cli.py | import_simulations (CommandLine), concat_npy (Storage), run (CommandLine), simulation_commands (CommandLine) | Colors, main, list_of_simulations |
| crowddynamics/config.py | load_config (Config) | import_simulation_callables |
| crowddynamics/conftest.py | - | attributes, agents_circular, agents_three_circle |
| crowddynamics/core/block_list.py | MutableBlockList.__init__ (BlockList), MutableBlockList._transform (BlockList, Floats), MutableBlockList._nearest_blocks (BlockList), MutableBlockList.__setitem__ (BlockList), MutableBlockList.__getitem__ (BlockList), MutableBlockList.nearest (BlockList) | MutableBlockList.__str__ |
| crowddynamics/core/distance.py | distance_circles (Distance, FloatSteps), distance_three_circles (Distance, FloatPlacement), distance_circle_line (Distance, FloatWalls), distance_three_circle_line (Distance, FloatBodies) | - |
| crowddynamics/core/evacuation.py | narrow_exit_capacity (Evacuation, Floats), agent_closer_to_exit (Evacuation, FloatExits), exit_detection (Evacuation, FloatExits) | - |
| crowddynamics/core/geom2D.py | polygon_area (FloatGeom, Geom2D), line_intersect (FloatGeom, Geom2D) | - |
| crowddynamics/core/geometry.py | GeomTypes (Geometry), _geom_to_array (Geometry), geom_to_array (Geometry), geom_to_linesegment (Geometry), geom_to_linear_obstacles (Geometry), draw_geom (Geometry), union (Geometry) | - |
| crowddynamics/core/integrator.py | adaptive_timestep (FloatSteps, Integrator), translational_euler (FloatSteps, Integrator), rotational_euler (Integrator), euler_integrator (Integrator), translational_verlet (FloatSteps, FloatWalk, Integrator), rotational_verlet (Integrator), velocity_verlet_integrator_init (Integrator), velocity_verlet_integrator (Integrator) | - |
| crowddynamics/core/interactions.py | interaction_agent_agent_circular (FloatForces, Interactions), interaction_agent_agent_three_circle (Interactions), interaction_agent_circular_obstacle (FloatWalls, Interactions), interaction_agent_three_circle_obstacle (FloatBodies, Interactions), agent_agent_circular (FloatForces, Interactions), agent_agent_three_circle (Interactions), agent_circular_obstacle (FloatWalls, Interactions), agent_three_circle_obstacle (FloatBodies, Interactions), agent_agent_block_list (Interactions), agent_obstacle (Interactions) | - |
| crowddynamics/core/motion/adjusting.py | force_adjust (FloatWalk, Motion), torque_adjust (FloatWalk, Motion), force_adjust_agents (FloatWalk, Motion), torque_adjust_agents (Motion) | - |
| crowddynamics/core/motion/contact.py | force_contact (FloatForces, Motion) | - |
| crowddynamics/core/motion/fluctuation.py | force_fluctuation (Motion), torque_fluctuation (Motion) | - |
| crowddynamics/core/motion/power_law.py | potential (Extras), magnitude (FloatForces, PowerLaw), gradient_circle_circle (FloatForces, PowerLaw), gradient_three_circle (PowerLaw), time_to_collision_circle_circle (PowerLaw), force_social_circular (FloatForces, PowerLaw), force_social_three_circle (PowerLaw) | - |
| crowddynamics/core/motion/subgroups.py | - | attractor_point, adjusting_force_intra_subgroup |
| crowddynamics/core/quantities.py | density_classical (Quantities), bounding_box (Extras), rectangle (Extras), voronoi_finite_polygons_2d (Voronoi), density_voronoi_1 (Quantities), density_voronoi_2 (Quantities, Voronoi), _core_2 (Quantities) | - |
| crowddynamics/core/rand.py | truncnorm (Body, Rand), random_vector (Rand), poisson_clock (FloatClock, Rand), poisson_timings (FloatClock, Rand) | estimate_number_poisson_timings |
| crowddynamics/core/sampling.py | linestring_length_cumsum (Sampling), random_sample_line (Sampling), linestring_sample (Sampling), triangle_area_cumsum (FloatSampling, Sampling), random_sample_triangle (FloatSampling, Sampling), polygon_sample (FloatSampling, Sampling) | - |
| crowddynamics/core/sensory_region.py | is_obstacle_between_points (FloatGeom, Geom2D) | - |
| crowddynamics/core/steering/collective_motion.py | normalize_nx2 (Collective), herding_relationship (Collective), set_neighbor (Collective, Offered), find_nearest_neighbors (Collective, Offered, Simulation), herding_interaction (Collective, Offered, Simulation), leader_follower_interaction_brute (Collective), leader_follower_interaction (Collective, Offered, Simulation), leader_follower_with_herding_interaction (Collective, Offered, Simulation) | - |
| crowddynamics/core/steering/navigation.py | static_potential (Maps), is_inside (Steering), getdefault (Steering) | - |
| crowddynamics/core/steering/obstacle_handling.py | obstacle_handling (Steering), obstacle_handling_continuous (Steering), direction_map_obstacles (Field, Maps) | - |
| crowddynamics/core/steering/orientation.py | orient_towards_target_direction (Steering) | orientation |
| crowddynamics/core/steering/quickest_path.py | meshgrid (FloatSteps, Steering), distance_map (Maps), direction_map (Maps, Steering), fill_missing (Maps), shortest_path (Field, Maps) | travel_time_map |
| crowddynamics/core/vector2D.py | wrap_to_pi (Floats, Vector2D), rotate90 (Vector2D), rotate270 (Vector2D), angle (Vector2D), length (Floats, Vector2D), dot (FloatForces, Vector2D), cross (Vector2D), normalize (Floats, Vector2D), truncate (FloatForces, Floats, Vector2D), unit_vector (Vector2D), weighted_average (Vector2D) | - |
| crowddynamics/examples/collective_motion.py | Outdoor.attributes (ExampleSims), Outdoor._default_logic (LogicExpr, Offered, Simulation), Outdoor._default_agents (ExampleSims), Rounding.attributes (ExampleSims), Rounding._default_logic (LogicExpr, Offered, Simulation), Rounding._default_agents (ExampleSims), AvoidObstacle.attributes (ExampleSims), AvoidObstacle._default_logic (Offered, Simulation), AvoidObstacle._default_field (ExampleSims), AvoidObstacle._default_agents (ExampleSims), ClosedRoom.attributes (ExampleSims), ClosedRoom._default_logic (Offered, Simulation), ClosedRoom._default_agents (ExampleSims), AroundCircle._default_logic (Offered, Simulation), AroundCircle._default_agents (Offered), AvoidPillar (Offered), FourExitsRandomPlacing.attributes (ExampleSims), FourExitsRandomPlacing._default_logic (Simulation), FourExitsRandomPlacing._default_agents (ExampleSims), FourExitsFixedPlacing.attributes (ExampleSims), FourExitsFixedPlacing._default_logic (Simulation), FourExitsFixedPlacing._default_agents (ExampleSims) | Outdoor._default_field, Rounding._default_field, ClosedRoom._default_field, AroundCircle._default_field, FourExitsRandomPlacing._default_field, FourExitsFixedPlacing._default_field |
| crowddynamics/examples/fields.py | rectangle (ExampleFields), OutdoorField._default_domain (ExampleFields), OutdoorField._default_spawns (ExampleFields), OutdoorField._observe_field (ExampleFields), HallwayField._default_obstacles (ExampleFields), HallwayField._default_targets (ExampleFields), HallwayField._default_spawns (ExampleFields), HallwayField._default_domain (ExampleFields), HallwayField._observe_field (ExampleFields), Rounding.__init__ (ExampleFields), AvoidObstacle.__init__ (ExampleFields, ExampleSims), ClosedRoom.__init__ (ExampleFields), RoomWithOneExit.__init__ (ExampleFields), FourExitsField.__init__ (ExampleFields), PillarInTheMiddle.__init__ (ExampleFields) | AvoidPillar.__init__ |
| crowddynamics/examples/simulations.py | Outdoor.attributes (ExampleSims), Outdoor._default_logic (LogicExpr, Offered, Simulation), Outdoor._default_agents (ExampleSims), Hallway.attributes1 (ExampleSims), Hallway.attributes2 (ExampleSims), Hallway._default_logic (LogicExpr, Offered, Simulation), Hallway._default_agents (ExampleSims), RoomWithOneExit.attributes (ExampleSims), RoomWithOneExit._default_logic (Offered, Simulation), RoomWithOneExit._default_agents (ExampleSims), FourExitsRandomPlacing.attributes (ExampleSims), FourExitsRandomPlacing._default_logic (Offered, Simulation), FourExitsRandomPlacing._default_agents (ExampleSims) | Outdoor._default_field, Hallway._default_field, RoomWithOneExit._default_field, FourExitsRandomPlacing._default_field |
| crowddynamics/examples/validation.py | TestMovement.attributes (Validation), TestMovement._default_logic (LogicExpr, Offered, Simulation), TestMovement._observe_agents (Offered, Validation), TestAgentInteraction._default_logic (Offered, Simulation), TestAgentInteraction._observe_agents (Validation) | TestMovement._default_field, TestAgentInteraction.attributes, TestAgentInteraction._default_field |
| crowddynamics/exceptions.py | CrowdDynamicsException (LogicTree), InvalidType (LogicTree), InvalidValue (LogicTree), ValidationError (LogicTree), deprecated (Config) | OverlappingError, AgentStructureFull, NotACrowdDynamicsDirectory, DirectoryIsAlreadyCrowdDynamicsDirectory |
| crowddynamics/io.py | save_npy (SavePaths, Storage), find_npy_files (Storage), load_npy (Storage), load_npy_concatenated (Storage), save_csv (CsvText, SavePaths, Storage), geometry_mapping (Storage), geometry_shape (Storage), save_geometry_json (Storage), load_geometry_json (Storage) | - |
| crowddynamics/logging.py | setup_logging (CommandLine) | format_numpy, format_pandas, user_info |
| crowddynamics/simulation/agents.py | States (Agent, AgentObject), Body (Body, Built, Validation), BodyType._truncnorm (Body, Built, Validation), BodyType._default_body_types (Body, Built, Validation), BodyType._observe_body_type (Body, Built, Validation), BodyType._observe_radius_truncnorm (Body, Built, Validation), BodyType._observe_radius (Body, Built, Validation), BodyType._observe_mass_truncnorm (Body, Built, Validation), BodyType._observe_target_velocity_truncnorm (Body, Built, Validation), BodyType._observe_inertia_rot (Body, Built, Validation), TranslationalMotion (Agent, AgentObject), RotationalMotion (Agent, AgentObject), AgentType.dtype (Agent, AgentObject), AgentType.__array__ (AgentObject, Placement), AgentType.overlapping (AgentObject), AgentType.overlapping_obstacles (AgentObject), AgentType.from_array (AgentObject), AgentType.__str__ (AgentObject), Circular.overlapping (Placement), Circular.overlapping_obstacles (Placement), ThreeCircle._default_position_ls (Placement), ThreeCircle._default_position_rs (Placement), ThreeCircle.overlapping (Agent), is_model (Agent), shoulders (Agent), overlapping_circles (Agent, FloatSteps), overlapping_three_circles (Agent, FloatPlacement), overlapping_circle_line (Agent, FloatPlacement), overlapping_three_circle_line (Agent, FloatPlacement), AgentGroup._observe_members (Body, Built, Placement), Agents.__init__ (Placement), Agents.add_non_overlapping_group (Agent, Placement) | ThreeCircle.overlapping_obstacles, Capsule |
| crowddynamics/simulation/base.py | CrowdDynamicsObject._default_name (Simulation), LogicNodeBase.inject_before (LogicTree), LogicNodeBase.inject_after (LogicTree), LogicNodeBase.add_children (LogicTree), LogicNodeBase.__lshift__ (LogicExpr, LogicTree), LogicNodeBase.__repr__ (LogicExpr, LogicTree), LogicNodeBase.__getitem__ (LogicTree), SimulationBase.__init__ (SavePaths), SimulationBase.name_with_timestamp (SavePaths), SimulationBase.run (LogicTree) | FieldBase, AgentsBase, LogicNodeBase.update, SimulationBase._default_timestamp, SimulationBase.update |
| crowddynamics/simulation/field.py | Field._valid_domain (Field, Plot), Field.convex_hull (ExampleFields, Field), Field._samples (Field), Field.sample_spawn (Field), Field.meshgrid (Field), Field.shortest_path_target (Field, Maps), Field.direction_map_obstacles (Field, Maps), Field.navigation_to_target (Field, Maps) | Field._valid_obstacles |
| crowddynamics/simulation/logic.py | LogicNode.__init__ (LogicTree), Reset.update (FloatWalk, Offered, Simulation), Integrator.update (Floats, Offered, Simulation), Fluctuation.update (Motion, Offered, Simulation), Adjusting.update (Interactions, Offered, Simulation), AgentAgentInteractions.update (Offered, Simulation), AgentObstacleInteractions.update (Offered, Simulation), Navigation.update (Offered, Simulation, Steering), LeaderFollower.update (Collective, Offered, Simulation), LeaderFollowerWithHerding.update (Collective, Offered, Simulation), ExitDetection.update (Evacuation, Offered, Simulation), Orientation.update (Offered, Simulation, Steering), SaveSimulationData.__init__ (Recorded, SavePaths, Saving), SaveSimulationData.full_path (SavePaths), SaveSimulationData._default_save_directory (SavePaths), SaveSimulationData.add_to_simulation_logic (Recorded, Saving), SaveSimulationData.update (Recorded, SavePaths, Saving), InsideDomain.__init__ (Recorded, Simulation), InsideDomain.update (Offered, Simulation), TargetReached.__init__ (TargetCount), TargetReached.update (TargetCount) | LogicNode.update, AgentAgentInteractions._default_cell_size |
| crowddynamics/simulation/multiagent.py | MultiAgentSimulation.__init__ (Floats, Recorded, Simulation), MultiAgentSimulation.update (LogicTree, Offered, Recorded, Simulation), MultiAgentProcess.run (LogicTree), MultiAgentProcess.stop (LogicTree) | MultiAgentProcess.EndProcess, MultiAgentProcess.__init__ |
| crowddynamics/testing.py | reals (Strategies), unit_vectors (Strategies), points (Strategies), linestrings (Strategies), polygons (Strategies), agents (Strategies) | multipart_geometries, obstacles |
| crowddynamics/traits.py | shape_validator (AgentObject), length_validator (AgentObject), trait_to_type (TraitTypes), trait_to_dtype (TraitTypes), trait_to_option (TraitTypes), class_own_traits (Docs, TraitTypes), class_traits (Docs, TraitTypes), class_to_struct_dtype (TraitTypes), Rst.math (Docs), Rst.literal (Docs), table_of_traits (Docs) | - |
| crowddynamics/utils.py | remember_cwd (WorkDir), interpolate_docstring (Docs), empty_to_none (Config), mkspec (Config), parse_signature (Config), import_module (Plot), filter_cls (CommandLine), import_subclasses (CommandLine) | - |
| crowddynamics/visualizations.py | set_aspect (Aspect), figure (Plot), add_geom (Plot), add_field (Plot), add_distance_map (Plot), add_direction_map (Plot), plot_field (Plot), render_tree (Plot) | - |

## 5. Testing the theorems

Realistic bugs were written into copies of the model, one at a time, and everything
rebuilt. `seeded/LOG.jsonl` has one line per bug (1840 so far): the definition, the edit,
the claim it breaks, the theorems that failed and those that were tightened because none
had failed.
