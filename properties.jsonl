{"id": "C01", "title": "wrap_to_pi normalises every angle", "statement": "wrap_to_pi(rad) always lies in [-pi, pi], differs from rad by an integer number of full turns, and returns rad itself when rad is already in [-pi, pi].", "quantifier": "all real angles rad", "why_tests_cant": "The branch boundaries (odd multiples of pi, negative arguments) cannot be enumerated; the claim is over a continuum.", "anchors": ["crowddynamics/core/vector2D.py:wrap_to_pi"]}
{"id": "C02", "title": "90 and 270 degree rotations", "statement": "rotate90 and rotate270 are inverse to each other, preserve length, are perpendicular to the input, turn counter-clockwise resp. clockwise, and four rotate90 calls are the identity.", "quantifier": "all plane vectors", "why_tests_cant": "Algebraic identity over a continuum of vectors.", "anchors": ["crowddynamics/core/vector2D.py:rotate90", "crowddynamics/core/vector2D.py:rotate270"]}
{"id": "C03", "title": "normalize and truncate keep direction and bound length", "statement": "normalize returns a unit vector pointing the same way, or the input when it is zero; truncate(v, l) never changes a vector of length <= l and otherwise shortens it to exactly length l without turning it.", "quantifier": "all vectors and all limits l >= 0", "why_tests_cant": "Continuum of vectors, boundary |v| = l.", "anchors": ["crowddynamics/core/vector2D.py:normalize", "crowddynamics/core/vector2D.py:truncate"]}
{"id": "C04", "title": "unit_vector and angle are inverse", "statement": "unit_vector(phi) has length one; angle(unit_vector(phi)) = phi for every phi in (-pi, pi]; for non-zero v, |v| * unit_vector(angle(v)) = v and angle(v) lies in (-pi, pi].", "quantifier": "all angles and all vectors", "why_tests_cant": "Quadrant case analysis of arctan2 over a continuum.", "anchors": ["crowddynamics/core/vector2D.py:unit_vector", "crowddynamics/core/vector2D.py:angle"]}
{"id": "C05", "title": "polygon_area is the shoelace area", "statement": "For a polygon of any number of vertices polygon_area equals half the absolute value of the cyclic cross-product sum; it is unchanged by translating the polygon, by starting at another vertex, by reversing the vertex order and by repeating the first vertex at the end (closed ring); it is 0 for fewer than 3 vertices and scales quadratically.", "quantifier": "all vertex lists of all lengths", "why_tests_cant": "Any number of vertices and any coordinates.", "anchors": ["crowddynamics/core/geom2D.py:polygon_area"]}
{"id": "C06", "title": "line_intersect decides proper segment intersection", "statement": "line_intersect(x0,x1,y0,y1) is True exactly when the segments are not parallel and share a point; it is symmetric in swapping the two segments and the end points of either. Overlapping collinear segments are reported as not intersecting.", "quantifier": "all four end points", "why_tests_cant": "Continuum of end points, touching and degenerate cases.", "anchors": ["crowddynamics/core/geom2D.py:line_intersect"]}
{"id": "C07", "title": "Line of sight test", "statement": "is_obstacle_between_points(p0,p1,obstacles) is True exactly when some obstacle segment properly meets the segment from p0 to p1; it is symmetric in p0 and p1, independent of obstacle order, and monotone in the obstacle set.", "quantifier": "all point pairs and all obstacle lists", "why_tests_cant": "Arbitrary obstacle lists of arbitrary length.", "anchors": ["crowddynamics/core/sensory_region.py:is_obstacle_between_points"]}
{"id": "C08", "title": "Skin-to-skin distance of circles", "statement": "distance_circles(x0,r0,x1,r1) returns h = |x0-x1| - (r0+r1), which for positive radii is negative exactly when the open discs have a common point, and a normal that is a unit vector pointing from x1 to x0 (zero when the centres coincide); swapping the circles keeps h and flips the normal.", "quantifier": "all centres and radii", "why_tests_cant": "Continuum of configurations.", "anchors": ["crowddynamics/core/distance.py:distance_circles"]}
{"id": "C09", "title": "Distance of two three-circle agents", "statement": "distance_three_circles returns the minimum of the nine pairwise circle distances with the normal of a minimising pair and, for each agent, the lever arm from its own centre to its contact point.", "quantifier": "all centres and radii of two three-circle bodies", "why_tests_cant": "Nine-way minimum over a continuum; lever arms differ from tests only when the minimising pair is not (torso, torso).", "anchors": ["crowddynamics/core/distance.py:distance_three_circles"]}
{"id": "C10", "title": "Distance of a circle to a wall", "statement": "distance_circle_line(x,r,p) returns the Euclidean distance from x to the closest point of the closed segment p, minus r, and the unit normal pointing from that closest point to x.", "quantifier": "all circles and all non-degenerate segments", "why_tests_cant": "Three regions of the plane and their boundaries; a continuum.", "anchors": ["crowddynamics/core/distance.py:distance_circle_line"]}
{"id": "C11", "title": "Distance of a three-circle agent to a wall", "statement": "distance_three_circle_line returns the minimum of the three circle-to-wall distances, with the normal and the lever arm of a minimising circle.", "quantifier": "all bodies and non-degenerate segments", "why_tests_cant": "Continuum and ties.", "anchors": ["crowddynamics/core/distance.py:distance_three_circle_line"]}
{"id": "C12", "title": "Overlap predicates", "statement": "overlapping_circles / overlapping_three_circles / overlapping_circle_line / overlapping_three_circle_line answer True exactly when some listed agent or obstacle (of positive length) has negative skin-to-skin distance to the given body.", "quantifier": "all agent arrays, obstacle arrays and bodies", "why_tests_cant": "Arrays of any length.", "anchors": ["crowddynamics/simulation/agents.py:overlapping_circles", "crowddynamics/simulation/agents.py:overlapping_three_circles", "crowddynamics/simulation/agents.py:overlapping_circle_line", "crowddynamics/simulation/agents.py:overlapping_three_circle_line"]}
{"id": "C13", "title": "Block list neighbourhood lookup", "statement": "After any sequence of insertions, indexing a block list returns exactly the values whose keys fall in the same grid cell, in insertion order, and nearest(key, r) returns exactly the values in cells at most r cells away in every dimension, each as often as it was inserted; every value whose key is closer than cell_size in every coordinate is among nearest(key, 1).", "quantifier": "all insertion histories, keys of any dimension (including negative coordinates), cell sizes and radii", "why_tests_cant": "Any history, any dimension; floor division boundaries.", "anchors": ["crowddynamics/core/block_list.py:MutableBlockList"]}
{"id": "C14", "title": "Reading a block list has no effect", "statement": "Any interleaving of lookups with insertions gives the same lookup results as the insertions alone.", "quantifier": "all operation histories", "why_tests_cant": "The underlying defaultdict inserts keys on lookup; histories are unbounded.", "anchors": ["crowddynamics/core/block_list.py:MutableBlockList"]}
{"id": "C15", "title": "Placed circular agents never overlap", "statement": "After any number of add_non_overlapping_group calls with circular agents whose radii pairwise sum to at most the cell size, no two placed agents overlap and no placed agent overlaps an obstacle passed in the call that placed it.", "quantifier": "all groups, position generators, obstacle lists and sequences of calls", "why_tests_cant": "Arbitrary random draws; whole history of placements.", "anchors": ["crowddynamics/simulation/agents.py:Agents.add_non_overlapping_group"]}
{"id": "C16", "title": "Placed three-circle agents never overlap", "statement": "After add_non_overlapping_group with three-circle agents the stored bodies do not overlap and every stored body has its shoulders at its stored position and orientation.", "quantifier": "all groups and position generators", "why_tests_cant": "Depends on the history of rejected draws of one agent object.", "anchors": ["crowddynamics/simulation/agents.py:Agents.add_non_overlapping_group", "crowddynamics/simulation/agents.py:ThreeCircle"]}
{"id": "C17", "title": "Placement terminates, extends the array and leaves existing agents alone", "statement": "add_non_overlapping_group with a group of size n draws at most 11 n positions, grows the array by exactly n rows, leaves every row placed before unchanged, fills the rows after them contiguously in member order (keeping every attribute but the position and shoulders), leaves all further rows zero, and raises without changing anything when the group's agent type differs.", "quantifier": "all groups, generators and prior states", "why_tests_cant": "Number of draws depends on random overlaps; needs a termination measure.", "anchors": ["crowddynamics/simulation/agents.py:Agents.add_non_overlapping_group"]}
{"id": "C18", "title": "Group members", "statement": "AgentGroup produces exactly size members, calling a callable attribute source once per member and reading an iterator once per member in order.", "quantifier": "all sizes and attribute sources", "why_tests_cant": "Any size; observable order of draws.", "anchors": ["crowddynamics/simulation/agents.py:AgentGroup"]}
{"id": "C19", "title": "Body radii stay consistent", "statement": "Under any sequence of assignments to body_type, radius and the ratios, the torso, shoulder and torso-shoulder radii of a body equal their ratios times the radius whenever these are positive; body type can be set only once.", "quantifier": "all assignment histories", "why_tests_cant": "Observer-driven updates; unbounded histories.", "anchors": ["crowddynamics/simulation/agents.py:BodyType"]}
{"id": "C20", "title": "Drawn body properties stay within their configured range", "statement": "A body created from a shipped body type has mass, target velocity and radius within mean +- scale and is positive, and its moment of inertia is 4 pi (mass/80)(radius/0.27)^2.", "quantifier": "all truncated normal draws, all shipped body types", "why_tests_cant": "Random draws over a continuum.", "anchors": ["crowddynamics/simulation/agents.py:BodyType", "crowddynamics/conf/body_types.cfg", "crowddynamics/core/rand.py:truncnorm"]}
{"id": "C21", "title": "Adjusting force pulls velocity to the target velocity", "statement": "force_adjust is zero exactly at the target velocity, and agents driven only by it approach their target velocity at every integrator step without changing the direction of the deviation, converging geometrically: with the Euler integrator for time steps below tau_adj, with the velocity Verlet integrator for time steps up to tau_adj / 3 starting from zero previous force.", "quantifier": "all agent states and all numbers of steps", "why_tests_cant": "Unbounded number of steps.", "anchors": ["crowddynamics/core/motion/adjusting.py:force_adjust", "crowddynamics/core/motion/adjusting.py:force_adjust_agents"]}
{"id": "C22", "title": "Adjusting torque turns the short way", "statement": "torque_adjust at rest has the sign of the shortest signed turn from the current to the target orientation, is zero exactly when orientations agree (target angular velocity positive), and is bounded.", "quantifier": "all orientations, inertia, tau_rot", "why_tests_cant": "Continuum, wrap-around boundary.", "anchors": ["crowddynamics/core/motion/adjusting.py:torque_adjust"]}
{"id": "C23", "title": "Contact force", "statement": "For overlapping bodies with non-negative parameters the elastic part of force_contact pushes apart along the normal, friction opposes the sliding velocity, reversing normal and relative velocity reverses the force (Newton's third law); damping must not add energy.", "quantifier": "all overlaps, normals, velocities and coefficients", "why_tests_cant": "Continuum; sign claims.", "anchors": ["crowddynamics/core/motion/contact.py:force_contact"]}
{"id": "C24", "title": "Time to collision", "statement": "time_to_collision_circle_circle returns the first moment at which two circles moving with constant velocity touch, the circles being disjoint from now until then; it returns NaN exactly when the circles touch or overlap now or will never overlap.", "quantifier": "all relative positions, velocities and radii", "why_tests_cant": "Quantifies over all later times.", "anchors": ["crowddynamics/core/motion/power_law.py:time_to_collision_circle_circle"]}
{"id": "C25", "title": "Social force of circular agents", "statement": "force_social_circular returns zero when no collision is predicted within 30 s, never exceeds 2000 in length, gives opposite forces to equal agents, and below the cap it is minus mass-scaled gradient of the interaction energy with respect to relative position.", "quantifier": "all pairs of circular agents", "why_tests_cant": "Continuum; a derivative.", "anchors": ["crowddynamics/core/motion/power_law.py:force_social_circular", "crowddynamics/core/motion/power_law.py:magnitude", "crowddynamics/core/motion/power_law.py:gradient_circle_circle"]}
{"id": "C26", "title": "Social force of three-circle agents", "statement": "force_social_three_circle reacts to the earliest predicted collision of any two circles of the two bodies.", "quantifier": "all pairs of three-circle agents", "why_tests_cant": "Order-sensitive nine-way scan with negative and undefined entries.", "anchors": ["crowddynamics/core/motion/power_law.py:force_social_three_circle"]}
{"id": "C27", "title": "Fluctuation bounded", "statement": "force_fluctuation produces a force of length at most 3 * mass * scale for each agent, torque_fluctuation a torque of absolute value at most 3 * inertia * scale.", "quantifier": "all random draws, all agent arrays", "why_tests_cant": "Random draws over a continuum.", "anchors": ["crowddynamics/core/motion/fluctuation.py:force_fluctuation", "crowddynamics/core/motion/fluctuation.py:torque_fluctuation"]}
{"id": "C28", "title": "Agent-agent interaction is local and touches only forces", "statement": "Processing any list of pairs changes nothing but the force (and torque) of agents that occur in the list; agents 3 m or more apart exert no force on each other; the result does not depend on the order in which pairs are processed.", "quantifier": "all agent arrays and all pair enumerations", "why_tests_cant": "Arrays of any size, any enumeration order.", "anchors": ["crowddynamics/core/interactions.py:agent_agent_block_list_circular", "crowddynamics/core/interactions.py:agent_agent_block_list_three_circle", "crowddynamics/core/interactions.py:interaction_agent_agent_circular"]}
{"id": "C29", "title": "Momentum conservation", "statement": "For agents of either type with equal mass, social and contact coefficients the agent-agent interaction adds zero total force.", "quantifier": "all arrays of such agents and all pair enumerations", "why_tests_cant": "Any number of agents.", "anchors": ["crowddynamics/core/interactions.py:interaction_agent_agent_circular"]}
{"id": "C30", "title": "Cell list misses no interacting pair", "statement": "With the default cell size, every pair of agents with bodies within max_agent_radius of their positions that interacts is processed: processing the other pairs too changes nothing, and for circular agents the result equals that of the list of all pairs.", "quantifier": "all agent arrays", "why_tests_cant": "Any number of agents; depends on radii bound.", "anchors": ["crowddynamics/core/interactions.py:agent_agent_block_list", "crowddynamics/simulation/logic.py:AgentAgentInteractions"]}
{"id": "C31", "title": "Obstacle interaction", "statement": "agent_obstacle pushes an agent only when it overlaps the obstacle, leaves agents not overlapping any obstacle unchanged, changes only force and torque, is independent of the order of obstacles, and does nothing without obstacles.", "quantifier": "all agent arrays and obstacle arrays", "why_tests_cant": "Arrays of any size.", "anchors": ["crowddynamics/core/interactions.py:agent_obstacle"]}
{"id": "C32", "title": "Adaptive time step", "statement": "adaptive_timestep returns dt_max when nothing moves and always a value in [dt_min, dt_max]; unless it returns dt_min, no agent travels farther in the step than 1.1 * dt_max * the greatest target velocity, and no larger step up to dt_max would keep that bound.", "quantifier": "all agent arrays and 0 < dt_min <= dt_max", "why_tests_cant": "Arrays of any size.", "anchors": ["crowddynamics/core/integrator.py:adaptive_timestep"]}
{"id": "C33", "title": "Integrators reproduce uniformly accelerated motion", "statement": "One step of euler_integrator / velocity_verlet_integrator under a constant force gives v + a dt and x + v dt + a dt^2/2; inactive agents are not moved; other fields are untouched.", "quantifier": "all agents and step sizes", "why_tests_cant": "Continuum.", "anchors": ["crowddynamics/core/integrator.py:euler_integrator", "crowddynamics/core/integrator.py:velocity_verlet_integrator"]}
{"id": "C34", "title": "Rotational state after a step", "statement": "After an integrator step of three-circle agents the orientation lies in [-pi, pi] and the shoulders sit at position +- r_ts times the unit vector orthogonal to the orientation, for any number of steps.", "quantifier": "all agent arrays and number of steps", "why_tests_cant": "Unbounded steps; wrap-around.", "anchors": ["crowddynamics/core/integrator.py:velocity_verlet_integrator", "crowddynamics/core/integrator.py:euler_integrator", "crowddynamics/simulation/agents.py:shoulders"]}
{"id": "C35", "title": "Grid indices", "statement": "MeshGrid.indicer maps every point of the domain to an index inside the grid whose node is within one step of the point; getdefault returns the map value for indices inside the grid and the given default otherwise.", "quantifier": "all domains, steps and points", "why_tests_cant": "Rounding boundaries over a continuum.", "anchors": ["crowddynamics/core/steering/quickest_path.py:meshgrid", "crowddynamics/core/steering/navigation.py:getdefault"]}
{"id": "C36", "title": "Direction maps", "statement": "direction_map yields at every grid node a unit vector along the gradient, or NaN where the gradient vanishes.", "quantifier": "all distance maps", "why_tests_cant": "Grids of any size.", "anchors": ["crowddynamics/core/steering/quickest_path.py:direction_map"]}
{"id": "C37", "title": "Obstacle handling", "statement": "Away from obstacles (distance >= radius) obstacle_handling returns the target direction; at distance 0 < d < radius it returns the normalised blend with weight strength^(d/radius).", "quantifier": "all maps and parameters", "why_tests_cant": "Grids of any size, degenerate blends.", "anchors": ["crowddynamics/core/steering/obstacle_handling.py:obstacle_handling", "crowddynamics/core/steering/obstacle_handling.py:obstacle_handling_continuous"]}
{"id": "C38", "title": "Nearest neighbours for herding", "statement": "find_nearest_neighbors gives each agent the k nearest other agents that are within sight and visible, without duplicates, padding with the missing marker.", "quantifier": "all positions, sights and obstacle sets", "why_tests_cant": "Any number of agents; order of discovery must not matter.", "anchors": ["crowddynamics/core/steering/collective_motion.py:find_nearest_neighbors"]}
{"id": "C39", "title": "Following directions", "statement": "Follower directions produced by the leader-follower and herding rules are unit vectors or zero; only followers' target directions are changed.", "quantifier": "all agent arrays", "why_tests_cant": "Any number of agents.", "anchors": ["crowddynamics/core/steering/collective_motion.py:leader_follower_interaction", "crowddynamics/core/steering/collective_motion.py:leader_follower_with_herding_interaction", "crowddynamics/simulation/logic.py:LeaderFollower"]}
{"id": "C40", "title": "Leader choice", "statement": "The nearest leader within sight that is either visible and not coming towards the follower, or hidden and the one it remembers, decides: in the first case the follower remembers it, drops its target and heads between the leader's position and velocity; in the second it takes over that leader's target. With no such leader it uses the target of the remembered leader, or its familiar exit if it remembers none.", "quantifier": "all agent arrays and obstacle sets in which nobody both leads and follows", "why_tests_cant": "Any number of agents.", "anchors": ["crowddynamics/core/steering/collective_motion.py:leader_follower_interaction"]}
{"id": "C41", "title": "Exit capacity", "statement": "narrow_exit_capacity is zero for doors too narrow for an agent, non-negative, non-decreasing in door width and equals the documented formula; without a width to divide by it fails.", "quantifier": "all widths, diameters and coefficients", "why_tests_cant": "Floor boundaries over a continuum.", "anchors": ["crowddynamics/core/evacuation.py:narrow_exit_capacity"]}
{"id": "C42", "title": "Rank of agents by distance to exit", "statement": "agent_closer_to_exit gives every agent the number of agents strictly ahead of it (ties broken by a total order): the result is a permutation of 0..n-1 monotone in distance.", "quantifier": "all agent arrays and exits", "why_tests_cant": "Any number of agents.", "anchors": ["crowddynamics/core/evacuation.py:agent_closer_to_exit"]}
{"id": "C43", "title": "Exit detection", "statement": "exit_detection returns for every agent the closest exit that is strictly within range and visible, and the missing marker with False exactly when there is none.", "quantifier": "all agents, exits, obstacles and ranges", "why_tests_cant": "Any number of exits; ties.", "anchors": ["crowddynamics/core/evacuation.py:exit_detection", "crowddynamics/simulation/logic.py:ExitDetection"]}
{"id": "C44", "title": "Poisson clock", "statement": "poisson_clock(interval, dt) yields strictly increasing times all below dt, and poisson_timings yields player indices in non-decreasing time order, each player as often as its own clock ticked.", "quantifier": "all random draws", "why_tests_cant": "Unbounded number of ticks.", "anchors": ["crowddynamics/core/rand.py:poisson_clock", "crowddynamics/core/rand.py:poisson_timings"]}
{"id": "C45", "title": "Polygon sampling", "statement": "Every point yielded by polygon_sample lies in one of the triangles of the triangulation, and every triangle is chosen with probability proportional to its area; linestring_sample yields points on the linestring, each segment with probability proportional to its length.", "quantifier": "all meshes and random draws", "why_tests_cant": "Random draws over a continuum; meshes of any size.", "anchors": ["crowddynamics/core/sampling.py:polygon_sample", "crowddynamics/core/sampling.py:linestring_sample"]}
{"id": "C46", "title": "Geometry to segments", "statement": "geom_to_linesegment yields exactly the consecutive coordinate pairs of a geometry, n-1 for n coordinates, and a chain of adjacent segments from first to last coordinate; collections give the concatenation.", "quantifier": "all geometries including nested collections", "why_tests_cant": "Unbounded nesting and sizes.", "anchors": ["crowddynamics/core/geometry.py:geom_to_linesegment", "crowddynamics/core/geometry.py:geom_to_linear_obstacles"]}
{"id": "C47", "title": "Logic tree stays a forest", "statement": "Any sequence of add_children, <<, inject_before and inject_after leaves every node with one parent, that lists it exactly once as a child, and no cycles; a failing call raises.", "quantifier": "all histories of tree operations", "why_tests_cant": "Unbounded histories.", "anchors": ["crowddynamics/simulation/base.py:LogicNodeBase"]}
{"id": "C48", "title": "Update order", "statement": "MultiAgentSimulation.update calls update of every node of the logic tree exactly once, children left to right before their parent, whichever node is stored as logic; then increments iterations by one.", "quantifier": "all trees and nodes", "why_tests_cant": "Trees of any shape.", "anchors": ["crowddynamics/simulation/multiagent.py:MultiAgentSimulation.update"]}
{"id": "C49", "title": "Injecting a node", "statement": "After n.inject_before(m), m runs directly after n's subtree and before n's former parent; after n.inject_after(m), m runs after n's former descendants and directly before n; the relative order of all other nodes is unchanged.", "quantifier": "all trees, all nodes", "why_tests_cant": "Trees of any shape.", "anchors": ["crowddynamics/simulation/base.py:LogicNodeBase.inject_before", "crowddynamics/simulation/base.py:LogicNodeBase.inject_after"]}
{"id": "C50", "title": "Node lookup by name", "statement": "tree[name] from any node returns the first node in pre-order of the whole tree having that name and raises KeyError exactly when there is none.", "quantifier": "all trees and names", "why_tests_cant": "Trees of any shape.", "anchors": ["crowddynamics/simulation/base.py:LogicNodeBase.__getitem__"]}
{"id": "C51", "title": "Run loop and counters", "statement": "run performs updates until the exit condition first holds, checks it before every update, and after it stops iterations equals the number of completed updates and time_tot equals the sum of the step sizes.", "quantifier": "all exit conditions and run lengths", "why_tests_cant": "Unbounded runs.", "anchors": ["crowddynamics/simulation/base.py:SimulationBase.run", "crowddynamics/simulation/multiagent.py:MultiAgentSimulation.update", "crowddynamics/simulation/logic.py:Integrator"]}
{"id": "C52", "title": "Worker process always signals its end", "statement": "A MultiAgentProcess puts exactly one end marker in the queue however the simulation ends.", "quantifier": "all runs, including failing ones", "why_tests_cant": "Every failure point of a run.", "anchors": ["crowddynamics/simulation/multiagent.py:MultiAgentProcess.run"]}
{"id": "C53", "title": "Force bookkeeping over iterations", "statement": "With the shipped logic trees, the force used by the integrator in an iteration is exactly the sum of the contributions of the force nodes in that iteration; nothing from earlier iterations leaks in.", "quantifier": "all numbers of iterations and agent states", "why_tests_cant": "Unbounded iterations.", "anchors": ["crowddynamics/simulation/logic.py:Reset", "crowddynamics/simulation/logic.py:Integrator", "crowddynamics/examples/simulations.py", "crowddynamics/examples/collective_motion.py"]}
{"id": "C54", "title": "Inactive counter", "statement": "data['inactive'] counts the agents outside the domain.", "quantifier": "all trajectories", "why_tests_cant": "Unbounded histories.", "anchors": ["crowddynamics/simulation/logic.py:InsideDomain"]}
{"id": "C55", "title": "Target counter", "statement": "TargetReached can be constructed for fields with polygon targets and counts the agents that ever reached each target.", "quantifier": "all fields and trajectories", "why_tests_cant": "Unbounded histories.", "anchors": ["crowddynamics/simulation/logic.py:TargetReached"]}
{"id": "C56", "title": "Saved trajectories are what was sent", "statement": "After any sequence of sends, the npy files written by save_npy, concatenated in index order, contain exactly the states sent up to the last dump, each as it was when sent.", "quantifier": "all histories of sends, dumps and later mutations", "why_tests_cant": "Unbounded histories; aliasing.", "anchors": ["crowddynamics/io.py:save_npy", "crowddynamics/simulation/logic.py:SaveSimulationData"]}
{"id": "C57", "title": "Loading reads files in index order", "statement": "find_npy_files / load_npy return the files saved under a base name in the order they were written, for any number of files and any directory listing order.", "quantifier": "all base names, numbers of files, listing orders", "why_tests_cant": "Lexicographic versus numeric order appears only with more than ten files; base names arbitrary.", "anchors": ["crowddynamics/io.py:find_npy_files", "crowddynamics/io.py:load_npy", "crowddynamics/io.py:load_npy_concatenated"]}
{"id": "C58", "title": "CSV log", "statement": "save_csv writes the header once and then each sent row exactly once, in order, up to the last dump.", "quantifier": "all histories of sends and dumps", "why_tests_cant": "Unbounded histories; buffer reuse.", "anchors": ["crowddynamics/io.py:save_csv"]}
{"id": "C59", "title": "Geometry JSON round trip", "statement": "load_geometry_json returns what save_geometry_json stored.", "quantifier": "all dictionaries of None, geometries and lists of geometries", "why_tests_cant": "Nested values of any size.", "anchors": ["crowddynamics/io.py:save_geometry_json", "crowddynamics/io.py:load_geometry_json"]}
{"id": "C60", "title": "Field caches agree with the field", "statement": "meshgrid, shortest path and navigation queries answer for the current domain, obstacles and targets of the field, whatever was queried before.", "quantifier": "all histories of queries and assignments", "why_tests_cant": "Cache staleness depends on the history.", "anchors": ["crowddynamics/simulation/field.py:Field"]}
{"id": "C61", "title": "Spawn samples are admissible", "statement": "Points drawn from sample_spawn lie in the spawn area and not in an obstacle.", "quantifier": "all fields and draws", "why_tests_cant": "Random draws over a continuum.", "anchors": ["crowddynamics/simulation/field.py:Field"]}
{"id": "C62", "title": "Agent record round trip", "statement": "Converting an agent to an array row and loading the row into any agent of the same type reproduces every field of the row.", "quantifier": "all agent states", "why_tests_cant": "Setting fields triggers observers; any prior state.", "anchors": ["crowddynamics/simulation/agents.py:AgentType.__array__", "crowddynamics/simulation/agents.py:AgentType.from_array"]}
{"id": "C63", "title": "Command line runs the named simulation", "statement": "Each generated command runs the simulation class it is named after with the given options.", "quantifier": "all lists of simulation classes", "why_tests_cant": "Closures over loop variables differ only with two or more classes.", "anchors": ["crowddynamics/cli.py:simulation_commands"]}
{"id": "C64", "title": "Density grids", "statement": "density_classical and density_voronoi return for each grid cell the number density of agents, so that the densities times cell area sum to the number of agents; every agent is counted in the cell containing it.", "quantifier": "all agent sets and cell sizes", "why_tests_cant": "Any number of agents; rounding boundaries.", "anchors": ["crowddynamics/core/quantities.py:density_classical", "crowddynamics/core/quantities.py:density_voronoi_1", "crowddynamics/core/quantities.py:density_voronoi_2"]}
{"id": "C65", "title": "Plot aspect", "statement": "set_aspect returns ranges that contain the data and have exactly the requested aspect ratio.", "quantifier": "all data ranges", "why_tests_cant": "Continuum.", "anchors": ["crowddynamics/visualizations.py:set_aspect"]}
{"id": "C66", "title": "Orientation follows target direction", "statement": "orient_towards_target_direction sets target_orientation to the angle of target_direction and changes nothing else; agents that have a zero target direction are not turned.", "quantifier": "all agent arrays", "why_tests_cant": "Any number of agents.", "anchors": ["crowddynamics/core/steering/orientation.py:orient_towards_target_direction"]}
{"id": "C67", "title": "Working directory restored", "statement": "remember_cwd restores the working directory however the body ends.", "quantifier": "all bodies including failing ones", "why_tests_cant": "Every exit path.", "anchors": ["crowddynamics/utils.py:remember_cwd"]}
{"id": "C68", "title": "Gradient of the time to collision", "statement": "The second value returned by time_to_collision_circle_circle is the gradient of the time to collision with respect to the relative position.", "quantifier": "all relative positions, velocities and radii on a collision course", "why_tests_cant": "A derivative of an implicitly defined function; the sign cannot be seen from magnitudes.", "anchors": ["crowddynamics/core/motion/power_law.py:time_to_collision_circle_circle", "crowddynamics/core/motion/power_law.py:gradient_circle_circle"]}
{"id": "C69", "title": "Three-circle agents turn towards their target orientation", "statement": "An agent created from a body type and driven by the adjusting torque turns from its orientation towards its target orientation.", "quantifier": "all body types, draws, orientations and numbers of steps", "why_tests_cant": "Any number of steps, any creation history.", "anchors": ["crowddynamics/simulation/agents.py:BodyType", "crowddynamics/core/motion/adjusting.py:torque_adjust_agents", "crowddynamics/core/integrator.py:velocity_verlet_integrator"]}
{"id": "C70", "title": "Three-circle social force is the gradient of the interaction energy", "statement": "Below the cap the force of force_social_three_circle is minus the gradient of the interaction energy with respect to the relative position of the two bodies.", "quantifier": "all pairs of three-circle agents on a collision course", "why_tests_cant": "A derivative; depends on which circles meet first.", "anchors": ["crowddynamics/core/motion/power_law.py:force_social_three_circle", "crowddynamics/core/motion/power_law.py:gradient_three_circle"]}
{"id": "C71", "title": "Configured interaction range and force cap take effect", "statement": "The traits sight_soc and f_soc_max of the agent-agent interaction node bound the interaction range and the social force.", "quantifier": "all values of the traits and all agent arrays", "why_tests_cant": "Ranges over trait values and arrays.", "anchors": ["crowddynamics/simulation/logic.py:AgentAgentInteractions", "crowddynamics/core/interactions.py:SIGTH_SOC", "crowddynamics/core/motion/power_law.py:F_SOC_MAX"]}
{"id": "C72", "title": "Who may be followed", "statement": "herding_relationship tells, symmetrically for both agents, whether the other one can be followed: both move and the other does not come towards it (within the angle phi, head-on included).", "quantifier": "all positions, velocities and angles", "why_tests_cant": "Angles over a continuum; the boundary cases have measure zero.", "anchors": ["crowddynamics/core/steering/collective_motion.py:herding_relationship"]}
{"id": "C73", "title": "Navigation node", "statement": "The Navigation node gives every agent whose target is one of the field's targets the direction stored for that target at the agent's grid cell; agents without target, with an unknown target or outside the grid keep their direction.", "quantifier": "all agent arrays, fields and direction maps", "why_tests_cant": "Any number of agents, targets and cells.", "anchors": ["crowddynamics/simulation/logic.py:Navigation", "crowddynamics/core/steering/navigation.py:getdefault"]}
{"id": "C74", "title": "Continuous obstacle handling", "statement": "obstacle_handling_continuous blends, within the radius of an obstacle, the agent's own direction with the direction away from the obstacle with weight strength^(d/radius); elsewhere it returns the direction unchanged.", "quantifier": "all maps, positions, directions and parameters", "why_tests_cant": "Directions over a continuum.", "anchors": ["crowddynamics/core/steering/obstacle_handling.py:obstacle_handling_continuous"]}
{"id": "C75", "title": "Logic trees run as written", "statement": "A simulation whose logic is written with << runs, in every update, first the operands of each node in the order written (each with its own operands first), then the node; an exception in a node stops the update there and the iteration is not counted.", "quantifier": "all logic expressions of any depth and width, all states", "why_tests_cant": "quantifies over all tree expressions", "anchors": ["crowddynamics/simulation/base.py:LogicNodeBase.__lshift__", "crowddynamics/simulation/multiagent.py:MultiAgentSimulation.update"]}
{"id": "C76", "title": "Nodes change only their own columns", "statement": "Each logic node changes only the columns of the agent array it is documented to change: only the integrator moves or turns agents, force nodes change force and torque, steering nodes change targets and directions; masses, sizes, target speeds, leader marks and familiar exits never change.", "quantifier": "all nodes, states, trees and numbers of updates", "why_tests_cant": "quantifies over all states and histories", "anchors": ["crowddynamics/simulation/logic.py"]}
{"id": "C77", "title": "Incomplete placement", "statement": "If placement gave up before every slot of a group was filled, the first update of any simulation using Adjusting raises and no iteration is counted.", "quantifier": "all groups, generators, obstacle sets and logic trees", "why_tests_cant": "quantifies over all placements", "anchors": ["crowddynamics/simulation/agents.py:Agents.add_non_overlapping_group", "crowddynamics/core/motion/adjusting.py:force_adjust"]}
{"id": "C78", "title": "Truncated normal draws stay within the absolute scale", "statement": "truncnorm(start, end, loc, abs_scale=k) returns size values, each within k of loc; without abs_scale the values fill loc + scale * [start, end].", "quantifier": "all bounds, locations, scales, sizes and random draws", "why_tests_cant": "Random draws over a continuum; the case k = 0.", "anchors": ["crowddynamics/core/rand.py:truncnorm"]}
{"id": "C79", "title": "Random vectors", "statement": "random_vector returns size vectors of the given magnitude whose directions lie in the given range.", "quantifier": "all sizes, ranges, magnitudes and draws", "why_tests_cant": "Random draws over a continuum.", "anchors": ["crowddynamics/core/rand.py:random_vector"]}
{"id": "C80", "title": "Geometry arrays can be read back", "statement": "geom_to_array gives an array for every geometry, and distinct geometries have distinct arrays.", "quantifier": "all geometries", "why_tests_cant": "Unbounded sizes and nesting.", "anchors": ["crowddynamics/core/geometry.py:geom_to_array", "crowddynamics/core/geometry.py:_geom_to_array"]}
{"id": "C81", "title": "Drawing marks the covered cells", "statement": "draw_geom sets exactly the grid cells covered by the geometry (excluding holes) to the value and leaves all other cells alone.", "quantifier": "all geometries, grids and rasterisers", "why_tests_cant": "Unbounded sizes, nesting and positions relative to the grid.", "anchors": ["crowddynamics/core/geometry.py:draw_geom"]}
{"id": "C82", "title": "Union of geometries", "statement": "union returns a geometry with the points of all its arguments and no others.", "quantifier": "all argument lists", "why_tests_cant": "Any number of arguments.", "anchors": ["crowddynamics/core/geometry.py:union"]}
{"id": "C83", "title": "Saved simulation data", "statement": "A simulation with a SaveSimulationData node stores, at every update whose save condition holds, the agents' states and the simulation data of all updates since the last save.", "quantifier": "all histories of updates and save conditions", "why_tests_cant": "Unbounded histories; the array sent is the live one.", "anchors": ["crowddynamics/simulation/logic.py:SaveSimulationData.update", "crowddynamics/io.py:save_npy", "crowddynamics/io.py:save_csv"]}
{"id": "C84", "title": "Saving comes last", "statement": "After add_to_simulation_logic the saving node runs after all other nodes of the simulation in every update and the order of the others is kept.", "quantifier": "all logic trees whose top is Reset", "why_tests_cant": "Trees of any shape.", "anchors": ["crowddynamics/simulation/logic.py:SaveSimulationData.add_to_simulation_logic", "crowddynamics/simulation/base.py:LogicNodeBase.inject_before"]}
{"id": "C85", "title": "CSV values stand under their names", "statement": "In the file written by save_csv every value stands in the column of its key.", "quantifier": "all histories of rows and dumps", "why_tests_cant": "Unbounded histories; rows may gain keys.", "anchors": ["crowddynamics/io.py:save_csv"]}
{"id": "C86", "title": "Values given explicitly are kept", "statement": "A radius, mass or target velocity given explicitly is not replaced when a body type is chosen or means and scales are set later.", "quantifier": "all histories of assignments that do not name the trait", "why_tests_cant": "Observers run after every assignment; any order of assignments.", "anchors": ["crowddynamics/simulation/agents.py:BodyType"]}
{"id": "C87", "title": "Rotational inertia fits mass and radius", "statement": "The rotational inertia of a body is the one computed from its mass and radius.", "quantifier": "all histories of assignments", "why_tests_cant": "Observers run after every assignment; mass and radius may change later.", "anchors": ["crowddynamics/simulation/agents.py:BodyType._observe_inertia_rot"]}
{"id": "C88", "title": "Field shapes stay valid", "statement": "The domain and the obstacles of a field are None or a valid, non-empty geometry after any assignments; an assignment of an invalid or empty geometry raises and changes nothing, and any other assignment takes effect and leaves the other attributes alone.", "quantifier": "all fields and sequences of assignments", "why_tests_cant": "Any history of assignments, failed ones included.", "anchors": ["crowddynamics/simulation/field.py:Field._valid_domain", "crowddynamics/simulation/field.py:Field._valid_obstacles"]}
{"id": "C89", "title": "Convex hull of a field", "statement": "convex_hull returns the convex hull of the union of all obstacles, targets and spawns of the field.", "quantifier": "all fields", "why_tests_cant": "Any number and shape of objects.", "anchors": ["crowddynamics/simulation/field.py:Field.convex_hull"]}
{"id": "C90", "title": "Agent objects accept exactly valid values", "statement": "Loading a row of the agent array into an agent object succeeds exactly when every value is within the bounds of its trait (masses, radii and coefficients not negative, target and exit numbers at least -1, the target direction of length 0 or 1 up to 1e-8 + 1e-5, the orientation of three-circle agents between -pi and pi); any other row raises TraitError.", "quantifier": "all rows and both body models", "why_tests_cant": "Continuum of values and all combinations of valid and invalid ones.", "anchors": ["crowddynamics/traits.py:length_validator", "crowddynamics/simulation/agents.py:AgentType.from_array"]}
{"id": "C91", "title": "Columns of the agent array", "statement": "The structured type of an agent class has exactly one column for each trait of the class and its base classes that is not excluded, with the type of the trait, in the order of the classes; any class made of supported traits has one, also when it redefines a trait of a base class.", "quantifier": "all classes, base classes and exclusions", "why_tests_cant": "Any class hierarchy a user may write.", "anchors": ["crowddynamics/traits.py:class_to_struct_dtype", "crowddynamics/traits.py:class_traits", "crowddynamics/traits.py:class_own_traits", "crowddynamics/traits.py:trait_to_dtype"]}
{"id": "C92", "title": "Options of traits", "statement": "Every Int, Float, Complex, Bool, Unicode, Enum or Tuple (of simple types) trait gets a command line option of its name and type with its bounds or choices; no other trait gets one.", "quantifier": "all traits, nested tuples included", "why_tests_cant": "Any trait with any bounds, choices and members.", "anchors": ["crowddynamics/traits.py:trait_to_option", "crowddynamics/traits.py:trait_to_type"]}
{"id": "C93", "title": "Example fields follow their parameters", "statement": "Whatever is assigned to width, height and ratio of an OutdoorField or HallwayField, also with refused assignments and reads in between, domain, obstacles, targets and spawns are those of the present values: an open rectangle that is also the spawn, or a corridor with walls below and above, exits left and right and spawns next to the exits, which do not overlap when ratio is below one half. A refused value is not kept.", "quantifier": "all histories of assignments and reads", "why_tests_cant": "Any order of assignments, refused ones and reads that compute defaults.", "anchors": ["crowddynamics/examples/fields.py:OutdoorField", "crowddynamics/examples/fields.py:HallwayField"]}
{"id": "C94", "title": "Example fields are left through targets only", "statement": "Along every continuous way from a point of the domain to a point outside, an obstacle is met or a target is passed, for HallwayField, Rounding, AvoidObstacle, ClosedRoom, RoomWithOneExit and FourExitsField; in a ClosedRoom always an obstacle.", "quantifier": "all parameter values and all continuous ways", "why_tests_cant": "Infinitely many ways and sizes.", "anchors": ["crowddynamics/examples/fields.py:Rounding", "crowddynamics/examples/fields.py:AvoidObstacle", "crowddynamics/examples/fields.py:ClosedRoom", "crowddynamics/examples/fields.py:RoomWithOneExit", "crowddynamics/examples/fields.py:FourExitsField", "crowddynamics/examples/fields.py:HallwayField"]}
{"id": "C95", "title": "Targets of the example fields are open and can be reached", "statement": "For all parameters the fields accept, obstacles touch a target in its end points at most, and from every free place of a spawn one can walk to every free place of every target without touching an obstacle.", "quantifier": "all parameter values, all places in spawns and targets", "why_tests_cant": "Infinitely many places and sizes.", "anchors": ["crowddynamics/examples/fields.py:Rounding", "crowddynamics/examples/fields.py:AvoidObstacle", "crowddynamics/examples/fields.py:RoomWithOneExit", "crowddynamics/examples/fields.py:FourExitsField", "crowddynamics/examples/fields.py:HallwayField"]}
{"id": "C96", "title": "The domain of an example field contains its shapes", "statement": "Every point of an obstacle, target or spawn of an example field is a point of its domain, for all parameters the field accepts.", "quantifier": "all parameter values and all points", "why_tests_cant": "Infinitely many points and sizes.", "anchors": ["crowddynamics/examples/fields.py:Rounding", "crowddynamics/examples/fields.py:AvoidObstacle", "crowddynamics/examples/fields.py:ClosedRoom", "crowddynamics/examples/fields.py:RoomWithOneExit", "crowddynamics/examples/fields.py:FourExitsField", "crowddynamics/examples/fields.py:PillarInTheMiddle"]}
{"id": "C97", "title": "Example simulations start with the agents asked for", "statement": "Each example simulation starts with exactly the number of agents asked for (rows that could not be placed are switched off), the first ones being the leaders and the others the followers where it has both; leaders and followers carry their flags, agents with a target have one of the targets of the field, walking agents walk where they look, familiar exits are exits of the field, bodies are adult, and every position was drawn from the spawn area meant for the group. Numbers out of range are refused, and so are examples that draw targets in a field without any.", "quantifier": "all examples, both agent models, all sizes, all random draws and all drawn positions", "why_tests_cant": "unit tests start one or two default sizes; the claim is about every size and every draw", "anchors": ["crowddynamics/examples/simulations.py: Outdoor, Hallway, RoomWithOneExit, FourExitsRandomPlacing", "crowddynamics/examples/collective_motion.py: Outdoor, Rounding, AvoidObstacle, ClosedRoom, FourExitsRandomPlacing, FourExitsFixedPlacing", "crowddynamics/simulation/agents.py: AgentGroup, Agents.add_non_overlapping_group"]}
{"id": "C98", "title": "Agents of the example simulations start apart and off the walls", "statement": "No two agents of an example simulation overlap at the start, and none stands in a wall of the field.", "quantifier": "all examples, all sizes, all drawn bodies and positions, all pairs of agents, all walls", "why_tests_cant": "positions and bodies are random: tests see single draws", "anchors": ["crowddynamics/examples/simulations.py", "crowddynamics/examples/collective_motion.py", "crowddynamics/simulation/agents.py: Agents.add_non_overlapping_group"]}
{"id": "C99", "title": "Every free place has a direction along the shortest path", "statement": "The map of shortest paths gives, at every grid node that no obstacle covers, a direction of length one: up the slope of the distances where they have one, and otherwise the direction at a nearest node that has one beside a node that has none. The distances it reports are the solver's.", "quantifier": "all grids, all domains, targets and obstacles, all buffer radii, all answers of the fast marching solver, all rasterisations", "why_tests_cant": "the map is an array over a domain chosen by the user; a test looks at one domain", "anchors": ["crowddynamics/core/steering/quickest_path.py: shortest_path, fill_missing, distance_map, direction_map"]}
{"id": "C100", "title": "Navigation leads along the shortest path and away from walls", "statement": "The navigation map equals the shortest path map wherever the obstacles are not within the radius, and elsewhere blends it with the direction away from the obstacle. An agent inside the domain with a target and a free cell far enough from walls is given the direction of the shortest path to its own target, of length one.", "quantifier": "all domains, targets, obstacles, radii and strengths, all crowds, all agents, all nodes", "why_tests_cant": "agents can be anywhere and obstacles of any shape; tests see a few", "anchors": ["crowddynamics/core/steering/navigation.py: static_potential, getdefault", "crowddynamics/core/steering/obstacle_handling.py: direction_map_obstacles, obstacle_handling", "crowddynamics/simulation/logic.py: Navigation"]}
{"id": "C101", "title": "A field answers navigation with the maps of its geometry", "statement": "The first time a field is asked for the navigation to one of its targets it answers with the map computed from its own domain, the target asked for and its obstacles.", "quantifier": "all fields, all targets, all steps, radii and strengths", "why_tests_cant": "fields are built from arbitrary geometries", "anchors": ["crowddynamics/simulation/field.py: Field.navigation_to_target, Field.shortest_path_target, Field.direction_map_obstacles"]}
{"id": "C102", "title": "People on whom nothing acts walk straight on", "statement": "The validation simulations build the persons their text describes: radius, mass, walking speed and proportions as given, in whatever order the arguments come, facing along the axis. Agents on whom no force acts and who are only adjusted after they move keep their velocity and go in a straight line, one time step after the other, for any number of iterations.", "quantifier": "all bodies made of explicit values in range, all argument orders, all crowds without pending forces, all numbers of iterations, both agent types", "why_tests_cant": "the repository's test runs one agent for 1000 iterations with a tolerance", "anchors": ["crowddynamics/examples/validation.py: TestMovement, TestAgentInteraction", "crowddynamics/simulation/agents.py: Body, Body._observe_radius, Body._observe_inertia_rot", "crowddynamics/simulation/logic.py: Integrator, Adjusting, Orientation, Reset"]}
{"id": "C103", "title": "Somebody alone outdoors ends up walking as they want", "statement": "An agent alone in the outdoor simulation approaches its own target velocity: the difference shrinks geometrically to what the random force can keep up, and with the default constants it is below 0.16 m/s from some iteration on.", "quantifier": "all agents, all starting velocities, all adjusting times of at least one time step, all sequences of random draws, all numbers of iterations", "why_tests_cant": "it is a statement about every later iteration under every sequence of random draws", "anchors": ["crowddynamics/examples/simulations.py:Outdoor", "crowddynamics/core/motion/adjusting.py: force_adjust", "crowddynamics/core/motion/fluctuation.py: force_fluctuation", "crowddynamics/core/integrator.py: velocity_verlet_integrator"]}
{"id": "C104", "title": "Agents turn towards where they walk", "statement": "A three circle agent turns its body towards the direction it is to walk in.", "quantifier": "all crowds of the example simulations, all orientations and target orientations, all numbers of iterations", "why_tests_cant": "the orientation has to be right after arbitrarily many iterations", "anchors": ["crowddynamics/core/motion/adjusting.py: torque_adjust, torque_adjust_agents", "crowddynamics/simulation/agents.py: ThreeCircle.target_angular_velocity", "crowddynamics/simulation/logic.py: Adjusting, Orientation"]}
{"id": "C105", "title": "Completed Voronoi regions belong to their own agent", "statement": "The open regions of a Voronoi diagram are closed at a given distance: there is one region for every point, in the order of the points; bounded regions stay as they are; an open ridge between two points gets one corner at the distance, perpendicular to the line between the points and away from all points, the same for both regions; the corners come in the order of their angles. All of a completed region is nearest to the region's own point, so regions do not overlap. The density computed from the regions uses the area of each agent's own region, and each region contains its agent.", "quantifier": "all Voronoi diagrams, all numbers of points, all distances, all ways of breaking ties when sorting", "why_tests_cant": "it is about every configuration of points, and about every point of every region", "anchors": ["crowddynamics/core/quantities.py: voronoi_finite_polygons_2d, density_voronoi_2"]}
{"id": "C106", "title": "Plots show the field that is simulated", "statement": "Drawing a field puts every point, line and polygon of its domain, spawns, targets and obstacles on the figure exactly once, in order, with its own coordinates and style; holes in polygons are visible; geometries that cannot be drawn are refused. The picture of the distances covers the simulated area. The picture of the directions has one arrow at every n-th grid node, along the direction, and arrows do not run into each other.", "quantifier": "all fields, all nested geometries, all grids, all direction maps with missing values, all densities of arrows", "why_tests_cant": "geometries nest without bound and grids have any size", "anchors": ["crowddynamics/visualizations.py: add_geom, add_field, add_distance_map, add_direction_map, plot_field"]}
{"id": "C107", "title": "Plots and pictures of trees end up in the right file, complete", "statement": "A plot is written to a file that ends in .html, shown and saved as asked once the body has run without exception, and not at all otherwise. A picture of a tree of logic nodes names every node of the tree and every parent link, whichever node is passed, and can be read back; other file types than png and dot are refused. A module is imported under the name of its file.", "quantifier": "all file names, all bodies, all trees a program can build", "why_tests_cant": "file names and trees are unbounded", "anchors": ["crowddynamics/visualizations.py: figure, render_tree", "crowddynamics/utils.py: import_module"]}
{"id": "C108", "title": "Loading a configuration checks it", "statement": "A configuration file that does not conform to its specification is refused with a ValidationError; a file that conforms is loaded with all its sections and keys, every checked value as a number in its range and every other value as it stands in the file. The shipped file of body types conforms, and holds the numbers agents are drawn from. Without a specification nothing is checked.", "quantifier": "all files with any sections and keys, all specifications of numeric ranges", "why_tests_cant": "files and specifications are unbounded", "anchors": ["crowddynamics/config.py: load_config", "crowddynamics/conf/body_types.cfg", "crowddynamics/conf/body_types_spec.cfg"]}
{"id": "C109", "title": "Signatures and deprecated functions", "statement": "Reading the signature of a function gives its parameters except self, in order, with their defaults and annotations; parameters without a default are refused. Calling a function marked as deprecated warns and then does what the function does.", "quantifier": "all signatures, all functions and arguments", "why_tests_cant": "signatures have any length; functions are arbitrary", "anchors": ["crowddynamics/utils.py: parse_signature, mkspec, empty_to_none", "crowddynamics/exceptions.py: deprecated", "crowddynamics/config.py: import_simulation_callables"]}
{"id": "C110", "title": "The origin and the axes are arbitrary", "statement": "Describing the same scene in another coordinate system (moved, turned, for circular agents also mirrored) and simulating it gives the same simulation described in that coordinate system: every agent is at the image of its place with the image of its velocity, the same agents follow the same leaders and take the same exits, the time steps are the same, runs end after the same number of updates and the same exceptions are raised.", "quantifier": "all scenes, crowds, coordinate systems, logic trees and numbers of updates", "why_tests_cant": "coordinate systems, scenes and histories are unbounded", "anchors": ["crowddynamics/simulation/logic.py: Reset, Integrator, Fluctuation, Adjusting, AgentAgentInteractions, AgentObstacleInteractions, Navigation, ExitDetection, LeaderFollower, LeaderFollowerWithHerding, Orientation, InsideDomain", "crowddynamics/core/interactions.py: agent_agent_block_list", "crowddynamics/core/integrator.py: velocity_verlet_integrator", "crowddynamics/core/vector2D.py: wrap_to_pi"]}
{"id": "C111", "title": "Groups far from each other do not influence each other", "statement": "A group of agents that, skin to skin, never comes closer than three metres to the agents outside it moves exactly as it would if those agents had never been added: same places, velocities, targets and active marks after every update. In particular an agent with nobody near it moves as if it were alone.", "quantifier": "all scenes, crowds, groups, logic trees without followers, and numbers of updates", "why_tests_cant": "crowds, groups and histories are unbounded", "anchors": ["crowddynamics/simulation/logic.py: Reset, Integrator, Fluctuation, Adjusting, AgentAgentInteractions, AgentObstacleInteractions, Navigation, ExitDetection, Orientation, InsideDomain", "crowddynamics/core/interactions.py: agent_agent_block_list", "crowddynamics/core/integrator.py: adaptive_timestep, velocity_verlet_integrator"]}
{"id": "C112", "title": "The order of the agents is arbitrary", "statement": "Simulating the same agents stored in another order gives the same result in that order: each agent ends up with the same values in its row, the time steps and the count of changes of the active marks are the same, and one simulation completes exactly when the other does.", "quantifier": "all scenes, crowds, orders of the rows, logic trees without followers, and numbers of updates", "why_tests_cant": "orders, crowds and histories are unbounded", "anchors": ["crowddynamics/simulation/agents.py: Agents.add_non_overlapping_group", "crowddynamics/core/interactions.py: agent_agent_block_list", "crowddynamics/core/integrator.py: adaptive_timestep", "crowddynamics/simulation/logic.py: InsideDomain, Fluctuation, Navigation"]}
{"id": "C113", "title": "Wrapping of angles in double precision", "statement": "For every double angle, the wrapped angle is a double strictly between minus pi and pi. It is the angle plus a whole number of turns, up to a rounding error of 2^-51 radians per turn. Wrapping twice changes nothing, and a nonnegative angle of the range is kept exactly.", "quantifier": "all double precision angles", "why_tests_cant": "there are 2^64 doubles, and an error in the last bit near a multiple of pi changes the sign of the result", "anchors": ["crowddynamics/core/vector2D.py: wrap_to_pi"]}
{"id": "C114", "title": "The clock in double precision", "statement": "The total time never runs backwards, and after n updates it differs from the sum of the time steps by at most n parts in 2^52. It advances with every update as long as it is below 2^52 time steps.", "quantifier": "all sequences of nonnegative double time steps, of any length", "why_tests_cant": "the error grows with the unbounded number of updates", "anchors": ["crowddynamics/simulation/logic.py: Integrator.update", "crowddynamics/simulation/multiagent.py: MultiAgentSimulation"]}
{"id": "C115", "title": "Unit vectors and cut forces in double precision", "statement": "A vector of normal length is scaled to length one up to 2^-50, without turning. A cut force is at most the bound, up to one part in 2^49, points the same way, and a force clearly below the bound is left alone.", "quantifier": "all vectors of doubles, all implementations of hypot correct to one part in 2^52", "why_tests_cant": "vectors and bounds are unbounded sets", "anchors": ["crowddynamics/core/vector2D.py: normalize, truncate, length"]}
{"id": "C116", "title": "The cells of block lists in double precision", "statement": "The cell of a coordinate computed in double precision is the exact one: the coordinate lies between the cell's lower and upper bound without any rounding error. Two coordinates at most one cell size apart are in the same or in adjacent cells.", "quantifier": "all double coordinates and positive cell sizes with at most 2^49 cells", "why_tests_cant": "rounding errors at the boundaries of cells show only for rare coordinates", "anchors": ["crowddynamics/core/block_list.py: MutableBlockList._transform"]}
{"id": "C117", "title": "Capacity of narrow exits in double precision", "statement": "The estimated capacity is the number of agents that fit side by side into the door, without rounding error, times the coefficient rounded once; the two estimates agree when layers are as wide as agents.", "quantifier": "all doors, widths and coefficients that are doubles", "why_tests_cant": "a rounding error would show at widths that are whole multiples only", "anchors": ["crowddynamics/core/evacuation.py: narrow_exit_capacity"]}
{"id": "C118", "title": "Concatenating the numbered files", "statement": "The concatenate command writes the rows of all numbered array files of a base name, in order of their numbers, into one file of that base name and leaves the other files as they were; afterwards the base name can still be loaded and concatenated again.", "quantifier": "all base names, all numbers and contents of files, all orders in which the directory lists them", "why_tests_cant": "Tests have a few files with one digit numbers in the order of one file system, and call the command once", "anchors": ["crowddynamics/cli.py:concat_npy", "crowddynamics/io.py:load_npy_concatenated", "crowddynamics/io.py:find_npy_files"]}
{"id": "C119", "title": "Options of the run command", "statement": "The run command runs every named simulation in the given order, as many times as --num says; a name that is not known runs nothing; --loglevel accepts names and numbers of levels and reports others as usage errors; --help prints the help.", "quantifier": "all sets of simulations, all lists of names, all levels and numbers", "why_tests_cant": "Tests start one simulation with the default options", "anchors": ["crowddynamics/cli.py:run", "crowddynamics/cli.py:simulation_commands", "crowddynamics/logging.py:LOGLEVELS"]}
{"id": "C120", "title": "Potential, bounding boxes and rectangles", "statement": "The magnitude of the social force is the slope of the potential in the time to collision; the bounding box of points contains every point and is tight, one pair for each dimension; the rectangle has the area of its sides.", "quantifier": "all positive times, all constants, all finite sets of points, all rectangles", "why_tests_cant": "Tests compare values at some points; a derivative and bounds of all points range over infinitely many cases", "anchors": ["crowddynamics/core/motion/power_law.py:potential", "crowddynamics/core/motion/power_law.py:magnitude", "crowddynamics/core/quantities.py:bounding_box", "crowddynamics/core/quantities.py:rectangle"]}
{"id": "C121", "title": "The csv file reads back", "statement": "Reading the csv file gives the names of the data and then the values of all dumped rows in order, whatever characters names and values contain.", "quantifier": "all histories of rows and dumps, all texts with commas, quotes and line breaks", "why_tests_cant": "Tests write a few rows of numbers; separators, quotes and breaks inside values combine without bound", "anchors": ["crowddynamics/io.py:save_csv"]}
{"id": "C122", "title": "Properly set up simulations go on", "statement": "If everybody was placed, no update of a simulation raises: after any number of updates another one takes place and the clock shows a hundredth of a second for each. If somebody could not be placed, the first update raises. Without an exit condition run never returns. Hence run with a time limit ends at that time, at most one step late, and a worker process that is told to stop puts the end marker, and nothing else, into its queue.", "quantifier": "all shipped simulations and any tree of nodes, all crowds, all numbers of updates, all time limits, all moments at which the worker is told to stop", "why_tests_cant": "Tests run a simulation for a few updates; that no later update divides by zero or indexes out of range needs an invariant of all states", "anchors": ["crowddynamics/simulation/multiagent.py:MultiAgentSimulation.update", "crowddynamics/simulation/base.py:SimulationBase.run", "crowddynamics/simulation/multiagent.py:MultiAgentProcess.run", "crowddynamics/simulation/logic.py"]}
{"id": "C123", "title": "Runs do not mix their results", "statement": "The directory a simulation saves to by default tells its name and its moment of creation, so simulations that differ in one of them never write to each other's files: whatever several processes save, in whatever order, and whichever of them fails, the directory of each holds exactly what it would hold if it had run alone.", "quantifier": "all names and moments, all base directories, all numbers of processes, all interleavings of their saves, all failures", "why_tests_cant": "Tests save one simulation to a temporary directory; interleavings of processes and collisions of names range over infinitely many cases", "anchors": ["crowddynamics/simulation/base.py:SimulationBase.name_with_timestamp", "crowddynamics/simulation/logic.py:SaveSimulationData", "crowddynamics/io.py:save_npy", "crowddynamics/io.py:save_csv"]}
{"id": "C124", "title": "The version tells the checkout", "statement": "crowddynamics.__version__ is the tag when the package is a checkout exactly at a tag without changes; otherwise it also tells the number of commits since the tag, the commit and whether there are changes, so that checkouts in different states report different versions. An archive made by git reports a tag of its commit, a release before its candidates; an unpacked source distribution reports the version in the name of its directory; where nothing is known the version is 0+unknown.", "quantifier": "all tags, distances, commits and states of a checkout, all names a commit carries in an archive, all directories", "why_tests_cant": "Tests see the one checkout they run in; tags with hyphens, commits with several names and missing git are other inputs", "anchors": ["crowddynamics/_version.py:get_versions", "crowddynamics/_version.py:git_pieces_from_vcs", "crowddynamics/_version.py:git_versions_from_keywords", "crowddynamics/_version.py:render", "crowddynamics/_version.py:versions_from_parentdir"]}
{"id": "C125", "title": "Every simulation of the example modules can be run", "statement": "Each simulation class of the example modules can be made with any settings it accepts and run: once everybody is placed its updates go on without exception. A simulation that lacks its logic or its agents raises on the first update, changes nothing, and a process running it still tells its readers that it has ended.", "quantifier": "all classes of the example modules, all settings, kinds of agents, bodies and places drawn, all numbers of updates, all exit conditions", "why_tests_cant": "Tests run some classes with default settings for a few updates", "anchors": ["crowddynamics/examples/simulations.py", "crowddynamics/examples/collective_motion.py", "crowddynamics/examples/validation.py", "crowddynamics/simulation/multiagent.py:MultiAgentSimulation.update", "crowddynamics/simulation/multiagent.py:MultiAgentProcess.run", "crowddynamics/simulation/logic.py"]}
{"id": "C126", "title": "The documentation of a class lists its traits", "statement": "The table generated for a class is a csv table with one row for each trait along its hierarchy, in order, showing its name, symbol, default value and help whatever characters they contain, and the decorator that puts it into the documentation of the class leaves the rest of that text as it is.", "quantifier": "every class hierarchy, every trait with any name, symbol, default value and help text, and every documentation text around the placeholder", "why_tests_cant": "Tests look at the documentation of the shipped classes only; quoting, line breaks inside help texts, percent signs and redefined traits occur with the classes that users write.", "anchors": ["crowddynamics/traits.py:table_of_traits", "crowddynamics/traits.py:Rst", "crowddynamics/utils.py:interpolate_docstring", "crowddynamics/simulation/agents.py:Circular"]}
{"id": "C127", "title": "The strategies for test data draw what was asked for", "statement": "The strategies of crowddynamics.testing draw only numbers between the bounds given, without the zeros left out, and can draw all of those; unit vectors have length one; lines and polygons have the number of points asked for, closed lines end where they start, and a hole lies in its polygon; agents are drawn as rows that hold the traits of the agents made from the attributes drawn.", "quantifier": "every source of random numbers that keeps to its bounds, all bounds, choices, types, shapes, numbers of points, triangulations and attributes", "why_tests_cant": "A test of a strategy sees a few drawn examples; that no draw of any kind leaves the bounds or keeps a zero is a statement about all draws.", "anchors": ["crowddynamics/testing.py:reals", "crowddynamics/testing.py:unit_vectors", "crowddynamics/testing.py:points", "crowddynamics/testing.py:linestrings", "crowddynamics/testing.py:polygons", "crowddynamics/testing.py:agents"]}
{"id": "C128", "title": "Overlap tests in double precision", "statement": "The skin-to-skin distance of two circles computed in double precision is off by at most one part in 2^50 of the distance and the radii, its normal by at most 2^-50 in each coordinate, and swapping the circles gives the same distance and the opposite normal. A body accepted by the overlap test is at least the sum of the radii minus one part in 2^50 away from every listed agent, and a rejected one is closer to some agent than the sum plus one part in 2^50.", "quantifier": "all agent arrays, positions and radii that are doubles, all implementations of hypot correct to one part in 2^52", "why_tests_cant": "Rounding depends on every bit of the positions; the error bound must hold for all of them.", "anchors": ["crowddynamics/core/distance.py:distance_circles", "crowddynamics/simulation/agents.py:overlapping_circles"]}
{"id": "C129", "title": "The adaptive time step in double precision", "statement": "The time step computed in double precision is a double between the least and the greatest time step, without exception, and the greatest one when nothing moves. Unless it is the least one, no agent travels farther than 1.1 times the greatest target velocity times the greatest step, up to one part in 2^49, and every step longer by more than that exceeds the bound.", "quantifier": "all velocities up to 2^300, target velocities and greatest steps from 2^-300 on, all least steps", "why_tests_cant": "The clamping must hold for every rounding of the quotient.", "anchors": ["crowddynamics/core/integrator.py:adaptive_timestep"]}
{"id": "C130", "title": "Moves in double precision", "statement": "A step of the Euler and the velocity Verlet integrator computed in double precision differs from the exact step by a few parts in 2^50 of the magnitudes involved. An agent at rest without force stays exactly where it is; an agent walking without force keeps its velocity exactly and after n steps is off by at most n parts in 2^51 of the distances.", "quantifier": "all positions, velocities, forces, masses, time steps up to one second and numbers of steps up to 2^52", "why_tests_cant": "The errors of many steps add up; a bound for every number of steps needs induction.", "anchors": ["crowddynamics/core/integrator.py:translational_euler", "crowddynamics/core/integrator.py:translational_verlet"]}
{"id": "C131", "title": "Grid indices in double precision", "statement": "On a grid made in double precision the index of every point of the domain is inside the grid, the point lies in the cell of its index up to a sixteenth of a cell, and the last node reaches the upper bound of the domain up to an eighth of a cell and exceeds it by at most a cell and an eighth.", "quantifier": "all domains, points and steps that are doubles, coordinates up to 2^45 steps", "why_tests_cant": "Whether the last index exists depends on the rounding of three quotients, for every domain and step.", "anchors": ["crowddynamics/core/steering/quickest_path.py:meshgrid"]}
{"id": "C132", "title": "Nobody steps over a wall", "statement": "In the shipped simulations no wall of the field lies between the position of an agent before an update and its position after it, for agents who touched neither anybody nor a wall so far, whatever the others do. In particular the test of sight between the two positions finds nothing.", "quantifier": "all shipped simulations but the movement test, agents of both models, walls, numbers of updates, random draws and states reachable from a new simulation", "why_tests_cant": "Whether a wall is skipped depends on the speeds any history can build up; a test sees one history.", "anchors": ["crowddynamics/core/integrator.py:velocity_verlet_integrator", "crowddynamics/core/interactions.py:agent_obstacle", "crowddynamics/core/sensory_region.py:is_obstacle_between_points"]}
{"id": "C133", "title": "Speeds stay limited", "statement": "An agent of a shipped simulation who is touched by nobody and by no wall and never has more than n others within 3 m is never faster than a bound given by its start, its wanted velocity, the random force and n; in the long run the start is forgotten. If everybody starts far enough from everybody else and from the walls, then for a given number of updates nobody meets anybody, and nobody gets faster or farther than it can alone.", "quantifier": "all shipped simulations but the movement test, agents of both models, crowds, numbers of updates, random draws and histories in which the agent is not touched", "why_tests_cant": "The bound must hold after any number of updates, with any directions chosen on the way.", "anchors": ["crowddynamics/core/motion/adjusting.py:force_adjust", "crowddynamics/core/motion/fluctuation.py:force_fluctuation", "crowddynamics/core/interactions.py:agent_agent_block_list", "crowddynamics/core/integrator.py:translational_verlet", "crowddynamics/simulation/logic.py"]}
{"id": "C134", "title": "Which files are loaded, and in which order", "statement": "load_npy gives the contents of all files that begin with the base name and end with .npy, in the order of the whole numbers left in their names after the characters of the base name, underscores and the characters of .npy are stripped; files with the same number keep the order of the listing. A file of the base name without such a number makes it raise ValueError, and nothing else does. Numbers are what Python's int reads: blanks around, one sign, digits with single underscores between them.", "quantifier": "all listings of a directory, base names, names of files and contents", "why_tests_cant": "Names are arbitrary texts; a test tries a few of them.", "anchors": ["crowddynamics/io.py:find_npy_files", "crowddynamics/io.py:load_npy"]}
{"id": "C135", "title": "A wall holds a single walker", "statement": "In a simulation with walls, a person with one of the shipped body types who starts clear of a wall at walking speed is never pushed or carried through it, however long they press against it and wherever they want to go: as long as nobody else is near and no other wall is touched, the centre stays on its side of the wall, at least the radius less 14 cm away from it, and no step leads through the wall.", "quantifier": "all walls, starting positions, headings, body sizes, masses, fluctuations and numbers of updates", "why_tests_cant": "The spring, the damping and the step length decide it over arbitrarily many updates; a test runs one person against one wall for a while.", "anchors": ["crowddynamics/core/interactions.py:interaction_agent_circular_obstacle", "crowddynamics/core/integrator.py:velocity_verlet_integrator", "crowddynamics/core/motion/contact.py:force_contact", "crowddynamics/simulation/logic.py:AgentObstacleInteractions", "crowddynamics/simulation/logic.py:Adjusting"]}
{"id": "C136", "title": "A run can be continued from a stored state", "statement": "Take the agents as they are after any number of updates and put them in a new simulation with the same field and the same logic: it goes on exactly as the first one would have gone on, update by update, with the same random numbers, and raises an exception exactly when the first one would have. Only the clock and the count of people who have left start from zero, so those of the two parts add up.", "quantifier": "all fields, logics, initial agents, numbers of updates before and after the interruption, and random numbers", "why_tests_cant": "Any node could keep something between updates that is not stored with the agents; a test interrupts one simulation at one point.", "anchors": ["crowddynamics/simulation/multiagent.py:MultiAgentSimulation.update", "crowddynamics/simulation/logic.py:Integrator.update", "crowddynamics/simulation/logic.py:Fluctuation.update", "crowddynamics/io.py:save_npy"]}
{"id": "C137", "title": "Walls may be drawn in any way", "statement": "How the walls of a field are drawn makes no difference to a simulation: their order, the direction of each, and whether a straight wall is given whole or in several pieces.", "quantifier": "all fields, ways of drawing the same walls, logics, agents and numbers of updates", "why_tests_cant": "It concerns all pairs of fields with the same walls; a test compares two of them.", "anchors": ["crowddynamics/core/interactions.py:agent_obstacle", "crowddynamics/core/distance.py:distance_circle_line", "crowddynamics/core/geom2D.py:line_intersect", "crowddynamics/core/sensory_region.py:is_obstacle_between_points"]}
{"id": "C138", "title": "Somebody alone goes where they want at their own pace", "statement": "A person alone outdoors is, after any number of updates, where they would be had they walked at their wanted velocity all the time, up to 0.15 m for every second and a fixed distance that depends on how they start; in the shipped simulation Outdoor with one agent they are at least 0.8 m per second of simulated time, less 0.64 m, away from where they started. So whoever wants to walk faster than the random force can hold them back gets as far as one likes, whatever is drawn.", "quantifier": "all single agents of both models, starting velocities, wanted velocities, random draws and numbers of updates", "why_tests_cant": "The random force acts in every update and could drive the agent off course without limit; a test follows a few walks.", "anchors": ["crowddynamics/core/motion/adjusting.py:force_adjust", "crowddynamics/core/motion/fluctuation.py:force_fluctuation", "crowddynamics/core/integrator.py:translational_verlet", "crowddynamics/examples/simulations.py:Outdoor"]}
{"id": "C139", "title": "A crowd as a whole goes where its members want", "statement": "Outdoors, people of the same mass, with the same coefficients for the forces between them and the same time to adjust, may avoid, push and block each other as they like: the mean of their places stays, at every time, within a bound of where it would be if everybody had walked on at their wanted velocity. The bound is the mean of what the random forces can do during the time to adjust, per second, plus a fixed distance that depends on the first velocities only. The mean velocity approaches the mean of the wanted ones. With the same random forces mean place and mean velocity are exactly the same whoever interacts with whom, be it nobody with nobody. If the wishes cancel and there is no random force, the mean of the places never leaves a fixed distance of the start.", "quantifier": "all crowds of such people of either body type, of any number, sizes, places, first velocities, wanted speeds and directions; all pairs the cell lists may yield; all draws from the range of the truncated normal; all numbers of updates", "why_tests_cant": "the claim is about every crowd and an unbounded number of updates with all pairwise forces; a test can only follow particular crowds for a finite time", "anchors": ["crowddynamics/simulation/logic.py: Reset, Integrator, Fluctuation, Adjusting, AgentAgentInteractions", "crowddynamics/core/interactions.py: agent_agent_circular, agent_agent_three_circle, agent_agent_block_list", "crowddynamics/core/integrator.py: velocity_verlet_integrator", "crowddynamics/examples/simulations.py: Outdoor"]}
{"id": "C140", "title": "Somebody alone who is led along a free way gets along it", "statement": "In the simulations with walls, a domain and targets, somebody alone follows the direction map of their target: as long as the map says one and the same direction, and no wall is within the reach of their body, everywhere near the way they would walk at their wanted pace, they keep near that way, within what the random force can do per second of walking plus a fixed distance that depends on their first velocity only. So on a marked and free strip that is wide enough for the leeway of the time needed they arrive at its end, within that time, without having left the strip and without any exception. At a point whose cell no obstacle covers or is near to, the map says the direction in which the distance to the target diminishes there.", "quantifier": "all agents of either body type, all targets, walls, domains and direction maps that say one direction near the way, all fair random draws, all numbers of updates", "why_tests_cant": "one run shows one way with one sequence of draws; that the person never leaves the strip, whatever is drawn, is a bound over all draws and all numbers of updates", "anchors": ["crowddynamics/simulation/logic.py: Navigation.update, Reset.update, Integrator.update, InsideDomain.update", "crowddynamics/examples/simulations.py: Hallway", "crowddynamics/core/steering/navigation.py: getdefault, is_inside, static_potential", "crowddynamics/core/integrator.py: velocity_verlet_integrator"]}
{"id": "C141", "title": "An agent gets what it is made from, in whatever order", "statement": "Circular(**attributes) and ThreeCircle(**attributes) make the same body whatever the order of the attributes, if one of them is a body type and none is a mean or a scale: a radius, a mass, a target velocity and a moment of inertia given as positive numbers are kept, those not given are drawn from the body type, within its scale around its mean, each once; the ratios, means and scales are always those of the body type, the radii of torso and shoulders are the ratios times the radius even if others are given, and the moment of inertia fits the final mass and radius. A number out of its range is refused with TraitError and an unknown body type with KeyError, whatever else is given. A mean or scale given beside a body type is overwritten, but may be drawn from first, depending on the order.", "quantifier": "all lists of distinct keyword arguments in any order, all configurations with usable sections, all random numbers", "why_tests_cant": "the values are set by observers that call each other in an order given by the arguments; a test shows one order and one set of attributes, and drawn values hide the difference", "anchors": ["crowddynamics/simulation/agents.py: BodyType._observe_body_type, _observe_radius, _observe_inertia_rot, _observe_radius_truncnorm, AgentGroup._observe_members"]}
{"id": "C142", "title": "Recording a run", "statement": "Adding SaveSimulationData to the logic of a simulation changes nothing about its run: the same agents, clock and counters after every update, the same exceptions. data.csv has one line per update, up to the last update that saved, with the entries of simulation.data under their names; the line of an update shows the time after it and the number of iterations completed before it, so it is one iteration behind its time. agents_<i>.npy has one row per update since the save before; all rows show the agents after the update that saved, always with forces and torques zero, because Reset runs before. Saving every f updates as in the documentation makes (number of updates) / f files of f rows each, and a run started from the agents of any such file goes on as the recorded run did.", "quantifier": "all simulations with Reset on top of their logic (as all shipped ones), all save conditions, all numbers of updates, all agents and surroundings", "why_tests_cant": "the files depend on the whole history of the run and on which updates saved; that recording does not disturb the run concerns every update", "anchors": ["crowddynamics/simulation/logic.py: SaveSimulationData.update, add_to_simulation_logic", "crowddynamics/simulation/multiagent.py: MultiAgentSimulation.update", "crowddynamics/io.py: save_npy, save_csv"]}
{"id": "C143", "title": "Lines of sight and areas in double precision", "statement": "line_intersect and is_obstacle_between_points, computed in double precision, give the same answer whichever of the two segments comes first. If all points lie on a grid of width a power of two, with coordinates of up to 2^24 grid steps, the answer is exact: the line of sight is blocked just if it meets a wall that is not parallel to it. polygon_area is exact on such a grid as long as twice the square of the largest coordinate times the number of corners is below 2^53 in grid units. For other coordinates, up to M metres, the answer is right if the two lines cross at places at least eps (as a fraction of their lengths) away from their ends, where eps times the area spanned by the two segments is at least M^2/2^45. Walls along an axis never block a view along that axis. Crossings at a very small angle can be missed.", "quantifier": "all doubles as coordinates (without overflow), all grids of width at least 2^-537, all numbers of corners and walls", "why_tests_cant": "a test compares a few segments, whose coordinates are mostly exact; the theorem bounds the rounding of every subtraction, product and quotient for all of them", "anchors": ["crowddynamics/core/geom2D.py:line_intersect", "crowddynamics/core/geom2D.py:polygon_area", "crowddynamics/core/sensory_region.py:is_obstacle_between_points"]}
{"id": "C144", "title": "Symmetric crowds stay symmetric", "statement": "If a scene looks the same after it is mirrored, turned or moved in some way (walls and target points in any order, the same domain, a navigation map that agrees), and every agent has a partner who is their image, then after any number of updates every agent is still the image of their partner, in position, velocity and everything else. This holds for circular agents and any nodes but leader and follower, if the random forces are symmetric too, or if there are none (std_rand_force is 0), whatever is drawn. Whoever is their own mirror image keeps to the axis, and the mean position of the crowd stays on the axis, or at the centre of the rotation. With random forces that are not symmetric this fails.", "quantifier": "all coordinate changes that keep lengths, all scenes and crowds symmetric under one of them, all trees of nodes without leader and follower, all numbers of updates", "why_tests_cant": "a test runs one symmetric scene for some steps; that no order of agents, walls or cells ever favours a side needs an induction over all updates", "anchors": ["crowddynamics/simulation/multiagent.py:MultiAgentSimulation.update", "crowddynamics/core/interactions.py:agent_agent_block_list", "crowddynamics/core/interactions.py:agent_obstacle", "crowddynamics/core/motion/fluctuation.py:force_fluctuation"]}
{"id": "C145", "title": "Forces between agents in double precision", "statement": "agent_agent_block_list on circular agents, computed in double precision: the forces of a pair are the same, digit by digit, whichever of the two comes first. If both react in the same way (mass, k_soc, tau_0, mu, kappa, damping) the two forces are exactly opposite, in contact or not, cut at 2000 N or not. For n agents, each in up to k pairs, with forces of up to M newtons, the sum of all forces changes by at most n k (k+1) M / 2^53 in each coordinate, and the order in which the cell list gives the pairs changes nobody's force by more than k (k+1) M / 2^52. Two who start without force and meet nobody else get exactly the forces of their pair, which add up to zero.", "quantifier": "all doubles as positions, velocities, radii and constants (without overflow), all numbers of agents, all lists of pairs in any order, up to 2^51 pairs per agent", "why_tests_cant": "a test compares a few pairs with a tolerance; the theorem follows every rounded operation for all of them, and bounds what the rounding adds up to for crowds of any size", "anchors": ["crowddynamics/core/interactions.py:agent_agent_block_list", "crowddynamics/core/interactions.py:interaction_agent_agent_circular", "crowddynamics/core/motion/power_law.py:force_social_circular", "crowddynamics/core/motion/power_law.py:gradient_circle_circle", "crowddynamics/core/motion/contact.py:force_contact"]}
{"id": "C146", "title": "Walking at the wanted speed in double precision", "statement": "Somebody whom nothing disturbs, moved by force_adjust and velocity_verlet_integrator in double precision with steps dt of the same length (2^-40 <= h <= 1/2 for h = dt / tau_adj, a mass of at least 1 kg): after n steps the velocity along each axis is off the wanted v0 e0 by at most (1 - h/4)^n times the first deviation (and twice what the last force does in a step), plus 6/h (2^-53 |v0 e0| + 2^-1000), and in the end only such an error is left. Whoever has the double nearest to the wanted velocity and no force left over keeps it for ever. That double need not be reached: from one unit in the last place below 1 m/s the velocity never changes again although the force does not vanish.", "quantifier": "every mass, reaction time, wanted speed and direction, step, start and number of steps", "why_tests_cant": "A run of some steps shows neither the limit over all steps nor that rounding cannot add up to a drift.", "anchors": ["crowddynamics/core/motion/adjusting.py:force_adjust", "crowddynamics/core/integrator.py:velocity_verlet_integrator", "crowddynamics/core/integrator.py:translational_verlet"]}
{"id": "C147", "title": "The unit of mass is arbitrary", "statement": "Multiply every mass, rotational inertia, contact constant (mu, kappa, damping), force and torque of a simulation by the same c > 0: update() leads everybody along the same positions, velocities, orientations and targets at the same times, with the same draws and exceptions, and forces and torques are c times as large. The forces have to be computed before the agents are moved (as in every shipped simulation), and no social force between two agents may reach the hard-coded limit of 2000 N, in the one unit or in the other: at the limit twice the mass gets the same force. Without forces between agents there is no condition.", "quantifier": "every factor c > 0, environment, tree of nodes, simulation, sequence of draws and number of updates, for circular and three-circle agents", "why_tests_cant": "A run in another unit compares two trajectories of one crowd, not all crowds, fields, draws and lengths of runs.", "anchors": ["crowddynamics/core/interactions.py:agent_agent_block_list", "crowddynamics/core/motion/power_law.py:force_social_circular", "crowddynamics/core/motion/power_law.py:force_social_three_circle", "crowddynamics/core/motion/contact.py:force_contact", "crowddynamics/core/motion/adjusting.py:force_adjust", "crowddynamics/core/motion/fluctuation.py:force_fluctuation", "crowddynamics/core/integrator.py:velocity_verlet_integrator"]}
{"id": "C148", "title": "Contact with walls in double precision", "statement": "In double precision a force of contact is off the documented formula by at most eight units of rounding (2^-53 each) of the sum of its terms in absolute value, plus 2^-767 for underflow. A circular agent beside a wall parallel to an axis (as in a hallway), whichever end the wall starts from: it is never pushed without overlapping the wall (and anywhere in a room of such walls whoever keeps off their lines by a radius is not pushed at all); standing still and overlapping it, it is pushed exactly at a right angle, never towards the wall, by mu times the overlap up to 3 2^-53 mu r; friction never speeds it up along the wall. Exactly on the line of the wall it is not pushed at all.", "quantifier": "every agent, wall along an axis, position beside it, velocity and constants in double precision", "why_tests_cant": "A rounding error shows at single inputs only; tests with a tolerance cannot exclude a phantom contact or a push of the wrong sign at others.", "anchors": ["crowddynamics/core/distance.py:distance_circle_line", "crowddynamics/core/motion/contact.py:force_contact", "crowddynamics/core/interactions.py:interaction_agent_circular_obstacle"]}
{"id": "C149", "title": "The same crowd on moving ground", "statement": "The forces between two agents depend only on where and how fast they are relative to each other. Without walls and with a fixed step, a crowd whose velocities and wanted velocities are all larger by the same velocity u takes the same run as before, moved by u times the time: same forces, same time, same activity, at every update. With steps chosen by speed this does not hold.", "quantifier": "every crowd, ground velocity, offset, number of updates and order of nodes that do not refer to the ground", "why_tests_cant": "It relates two whole runs for every velocity of the ground; a test compares single steps, and an absolute velocity slipping into a force shows only in the difference of two runs.", "anchors": ["crowddynamics/core/interactions.py:interaction_agent_agent_circular", "crowddynamics/core/motion/adjusting.py:force_adjust", "crowddynamics/core/integrator.py:velocity_verlet_integrator"]}
{"id": "C150", "title": "Poisson clock in double precision", "statement": "In double precision the ticks of poisson_clock(interval, dt) are before dt and do not decrease; tick number k (from 0) is the sum of the first k+1 draws up to k times 2^-53 dt, and the clock stops only when that sum reaches dt up to the same error. With draws of at least 2^-52 dt no two ticks coincide; with draws of at least c >= 2^-51 dt the clock ends within 2 dt/c + 1 rounds. poisson_timings lists the players in order of these ticks, each as often as its own clock ticked. Smaller draws are lost: then ticks may coincide and the clock may run for ever.", "quantifier": "all draws and time windows in double precision, any number of ticks", "why_tests_cant": "Rounding errors add up over an unbounded number of ticks, and a draw that is lost shows only at particular times.", "anchors": ["crowddynamics/core/rand.py:poisson_clock", "crowddynamics/core/rand.py:poisson_timings"]}
{"id": "C151", "title": "Sampling polygons in double precision", "statement": "In double precision polygon_sample never fails on a draw below 1: the point it yields is at most 2^-49 of the greatest coordinate (plus 2^-1072 for underflow) from the point the exact formula gives for the same draws in one of the triangles, hence from the convex hull of the vertices. The chance of a triangle is its share of the area up to 2^-49 for each triangle of the mesh; for vertices on a grid with at most about 25 binary digits the area is the true one.", "quantifier": "every mesh, draw and vertex in double precision, any number of triangles up to 2^40", "why_tests_cant": "Rounded cumulative weights and sums can push a pick out of range or a point out of the polygon at single draws among 2^53; a test draws a few thousand.", "anchors": ["crowddynamics/core/sampling.py:polygon_sample", "crowddynamics/core/sampling.py:triangle_area_cumsum", "crowddynamics/core/sampling.py:random_sample_triangle"]}
{"id": "C152", "title": "Distance to walls at any angle in double precision", "statement": "In double precision the gap distance_circle_line returns for a wall at any angle is the distance to the nearest point of the wall less the radius, up to 40 units of rounding (2^-53) of the distances to the two ends, one of the radius, and 2^-1070 for underflow: a tenth of a nanometre on a site of one kilometre. The direction it returns is off a unit vector pointing away from every point of the wall by at most 6 units of rounding, if the agent is not too near the wall for its length. So whoever is clear of all walls by more than the error is not pushed, and whoever overlaps a wall by more than the error gets the force of contact; standing still, they are pushed away from every point of the wall by mu times the overlap, up to mu (2 err + 2^-49 r).", "quantifier": "every agent, every wall of length at least 2^-900 and every position in double precision, any number of agents and walls", "why_tests_cant": "The branch (end or side of the wall) is chosen by rounded numbers; a wrong branch shows only at special angles and positions, and no test covers all of them.", "anchors": ["crowddynamics/core/distance.py:distance_circle_line", "crowddynamics/core/interactions.py:interaction_agent_circular_obstacle", "crowddynamics/core/interactions.py:agent_circular_obstacle"]}
{"id": "C153", "title": "Three-circle agents at walls in double precision", "statement": "In double precision distance_three_circle_line returns the least of the gaps between the three circles and the wall, up to the error of C152, with the normal of the circle that has it and its lever arm up to 2^-51 of the sum of its terms. A three-circle agent clear of all walls with every circle by more than the error is neither pushed nor turned; one that overlaps a wall with some circle by more than the error gets the force of contact and the torque of that force, up to rounding.", "quantifier": "every body, every wall of length at least 2^-900 and every position in double precision, any number of agents and walls", "why_tests_cant": "Which circle is nearest is decided by rounded numbers; near ties come up at special positions only.", "anchors": ["crowddynamics/core/distance.py:distance_three_circle_line", "crowddynamics/core/interactions.py:interaction_agent_three_circle_obstacle", "crowddynamics/core/interactions.py:agent_three_circle_obstacle"]}
{"id": "C154", "title": "The overlap tests of placement in double precision", "statement": "In double precision distance_three_circles returns the least of the nine gaps between the circles, up to 2^-50 of distance and radii. A three-circle body that overlapping_three_circles lets pass is clear of every agent, circle by circle, but for one part in 2^50 of the sum of the radii; one that it rejects is nearer to some agent than the sum of two radii plus one part in 2^50. Likewise overlapping_circle_line and overlapping_three_circle_line let nobody pass who overlaps a wall by more than the error of C152, and reject nobody who is clear of all walls by more than that error.", "quantifier": "all arrays of agents and walls in double precision (walls of length at least 2^-900, two radii of sum at least 2^-1000)", "why_tests_cant": "An overlap by rounding shows at single positions; the error bound must hold for every bit pattern and any number of agents and walls.", "anchors": ["crowddynamics/simulation/agents.py:overlapping_three_circles", "crowddynamics/simulation/agents.py:overlapping_circle_line", "crowddynamics/simulation/agents.py:overlapping_three_circle_line", "crowddynamics/core/distance.py:distance_three_circles"]}
{"id": "C155", "title": "Ranks at an exit and nearest exits in double precision", "statement": "In double precision agent_closer_to_exit gives every agent a rank of its own, and whoever is nearer to the exit by more than the rounding error of the two distances (2^-51 of each) gets the lower rank. exit_detection selects an exit that is in sight as computed, within the range and not clearly farther than any other exit in sight; if it selects none, every exit in sight is out of range, each up to that error. For coordinates on a common grid of 24 binary digits the computed sight is the true one.", "quantifier": "all positions, exits and walls in double precision, any number of them, every sorting order of equal distances", "why_tests_cant": "Ties by rounding depend on every bit of the coordinates; tests use few positions with clearly different distances.", "anchors": ["crowddynamics/core/evacuation.py:agent_closer_to_exit", "crowddynamics/core/evacuation.py:exit_detection"]}
