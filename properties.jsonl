{"id": "C01", "title": "Vehicles are never lost or duplicated during loading", "statement": "After any number of loading intervals that finish without an exception, every vehicle an origin ever released is in exactly one place: waiting at its origin, inside exactly one link (arriving, travelling or waiting at the end), in a destination's arrival queue, or counted as finished. No vehicle appears twice and none disappears.", "quantifier": "every network, demand table, route table, mix of PQ/CTM/LQ links and FWJ junctions, every sequence of random numbers, every hash-map iteration order, every number of intervals", "why_tests_cant": "a test runs one network with one seed; loss or duplication can come from any interleaving of queue operations", "anchors": ["src/dta.cpp:MNM_Dta::load_once", "src/dnode.cpp:MNM_DMOND::evolve", "src/dnode.cpp:MNM_Dnode_Inout::move_vehicle", "src/dnode.cpp:MNM_DMDND::evolve", "src/dlink.cpp:evolve/clear_incoming_array", "src/od.cpp"]}
{"id": "C02", "title": "Released = enroute + finished, and the enroute record is exact", "statement": "After every loading interval the number of released vehicles equals enroute plus finished, the enroute series gains exactly one entry equal to released minus finished, and the reported total travel time is the sum over finished vehicles of (arrival interval - departure interval), each of which is at least 1.", "quantifier": "every sequence of vehicle creations and arrivals", "why_tests_cant": "the counters are updated in different functions; only an invariant over all histories ties them together", "anchors": ["src/factory.cpp:MNM_Veh_Factory", "src/dta.cpp:record_enroute_vehicles", "src/od.cpp:MNM_Destination::receive", "macposts/_ext/dta.cpp:get_travel_stats"]}
{"id": "C03", "title": "Point-queue link: exact traversal time and FIFO", "statement": "A vehicle admitted into a point-queue link becomes ready to leave after exactly max(1, floor(length/(speed*unit_time))) link updates, never earlier or later, and vehicles become ready in the order in which they were admitted.", "quantifier": "every link parameter set, every arrival pattern, every number of intervals", "why_tests_cant": "needs every arrival pattern and every length/speed ratio, including the degenerate short-link case", "anchors": ["src/dlink.cpp:MNM_Dlink_Pq::evolve", "src/dlink.cpp:MNM_Dlink_Pq::clear_incoming_array", "src/ults.cpp:round_down_time"]}
{"id": "C04", "title": "CTM link keeps vehicles in order", "statement": "On a cell-transmission link the order in which vehicles leave is the order in which they entered: each update only moves vehicles forward, and the sequence of all vehicles on the link read from the exit back to the entrance is unchanged by internal movement.", "quantifier": "every number of cells, every cell occupancy, every sequence of random roundings", "why_tests_cant": "order must survive every combination of cell-to-cell flows", "anchors": ["src/dlink.cpp:MNM_Dlink_Ctm::evolve", "src/dlink.cpp:move_veh_queue", "src/dlink.cpp:move_last_cell"]}
{"id": "C05", "title": "CTM link: nobody goes faster than free flow", "statement": "A vehicle that enters a cell-transmission link with n cells needs at least n link updates before it can leave, and exactly n when every cell can pass all its vehicles on (no congestion). n is the free-flow time in intervals that the link reports.", "quantifier": "every link, every traffic state, every random rounding", "why_tests_cant": "a single update that lets a vehicle jump two cells would only show up for particular cell states", "anchors": ["src/dlink.cpp:MNM_Dlink_Ctm::evolve", "src/dlink.cpp:get_link_freeflow_tt_loading"]}
{"id": "C06", "title": "CTM cells never overfill", "statement": "On every cell-transmission link built from valid parameters, after any number of updates each cell holds fewer than jam-storage + 1 vehicles (the +1 is the rounding of one vehicle), whatever the inflow, provided the link does not reject the inflow.", "quantifier": "every parameter set the constructor accepts, every inflow, every downstream blocking pattern, every random rounding", "why_tests_cant": "overflow depends on the flow-capacity / storage ratio and on long congestion histories", "anchors": ["src/dlink.cpp:MNM_Dlink_Ctm::MNM_Dlink_Ctm", "src/dlink.cpp:Ctm_Cell::get_supply", "src/dlink.cpp:update_out_veh"]}
{"id": "C07", "title": "Junction (FWJ) never sends more than demanded or than the receiving link accepts", "statement": "For every junction of the default type, the number of vehicles it moves from link a to link b is at most the number waiting on a for b, the total moved into b is at most the receiving capacity b reports, and the internal consistency exception 'invalid state when moving vehicles' can never be raised.", "quantifier": "every number of in/out links, every queue content, every receiving capacity >= 0, every random rounding and shuffle", "why_tests_cant": "rounding up is random, so the bound must hold for all random outcomes", "anchors": ["src/dnode.cpp:MNM_Dnode_Inout::round_flow_to_vehicle", "src/dnode.cpp:MNM_Dnode_FWJ::compute_flow", "src/dnode.cpp:move_vehicle"]}
{"id": "C08", "title": "Junction keeps FIFO order per movement", "statement": "Vehicles that pass a junction from one link to the same next link keep their order, the vehicles that stay keep their order, and vehicles heading elsewhere are not affected.", "quantifier": "every queue, every number of vehicles to move, every shuffle of the in-links", "why_tests_cant": "needs all queue contents", "anchors": ["src/dnode.cpp:MNM_Dnode_Inout::move_vehicle"]}
{"id": "C09", "title": "Origin sends at most what the first link accepts, in order", "statement": "An origin node puts onto each outgoing link at most the rounded-up receiving capacity of that link and at most the vehicles waiting for it, keeps the order of the vehicles of each link, and leaves all the others waiting.", "quantifier": "every origin queue, every set of outgoing links, every random rounding", "why_tests_cant": "random rounding and queue content are unbounded", "anchors": ["src/dnode.cpp:MNM_DMOND::evolve"]}
{"id": "C10", "title": "Loading never fails on valid fixed-route input", "statement": "For a consistent network (origins have no incoming links, destinations no outgoing links, connectors are point queues, junctions are FWJ, links are PQ or CTM) with connected routes that end at their destination, no loading interval raises an exception or hits undefined behaviour.", "quantifier": "every such network, demand, route table, random sequence and number of intervals", "why_tests_cant": "the exceptions guard rare states; a test cannot show they are unreachable", "anchors": ["src/dta.cpp:load_once", "src/routing.cpp:MNM_Routing_Fixed::update_routing", "src/dnode.cpp", "src/dlink.cpp"]}
{"id": "C11", "title": "Cumulative curves never decrease and count exactly what passed", "statement": "For every sequence of curve increments with nonnegative amounts that is accepted, the recorded curve is non-decreasing in time and value and its last value is the initial value plus the sum of all amounts.", "quantifier": "every sequence of (time, amount) increments", "why_tests_cant": "increments may be merged or appended depending on a tolerance", "anchors": ["src/dlink.cpp:MNM_Cumulative_Curve::add_increment"]}
{"id": "C12", "title": "Curve lookup returns the amount recorded up to a time", "statement": "For a curve built from increments at integer times below the tolerance limit, asking for the value at an integer time t returns the sum of the amounts with time <= t; an early time gives the first value and a late time the last one.", "quantifier": "every increment sequence at integer times < 9999, every query time", "why_tests_cant": "lookup mixes a tolerant comparison, binary search and boundary cases", "anchors": ["src/dlink.cpp:MNM_Cumulative_Curve::get_result", "src/ults.cpp:approximate_less_than"]}
{"id": "C13", "title": "Curve lookup with interpolation stays between neighbours", "statement": "The interpolated lookup returns a value between the two neighbouring records, equals the recorded value at a record time, and is non-decreasing in time for a non-decreasing curve.", "quantifier": "every curve with increasing times, every query time", "why_tests_cant": "continuum of query times", "anchors": ["src/dlink.cpp:MNM_Cumulative_Curve::get_approximated_result"]}
{"id": "C14", "title": "Inverse lookup returns the first time a count is reached", "statement": "For a curve with integer vehicle counts below the tolerance limit, asking when count n was reached returns the earliest recorded time whose value is at least n when that value is exactly reached, and -1 when it has not been reached.", "quantifier": "every such curve, every count", "why_tests_cant": "binary search on a plateaued sequence", "anchors": ["src/dlink.cpp:MNM_Cumulative_Curve::get_time"]}
{"id": "C15", "title": "In-curve minus out-curve equals vehicles on the link", "statement": "After every loading interval, for every link, the last value of its inflow curve minus the last value of its outflow curve times the flow scalar equals the number of vehicles currently on the link.", "quantifier": "every network, history and random sequence", "why_tests_cant": "the curves are updated by nodes and the queues by links; only an invariant over all histories relates them", "anchors": ["src/dnode.cpp:record_cumulative_curve", "src/dnode.cpp:MNM_DMOND::evolve", "src/dnode.cpp:MNM_DMDND::evolve"]}
{"id": "C16", "title": "Per-path curves add up to the link curve", "statement": "For links fed by junctions, at every time the per-path, per-departure-interval curves of a link sum to the inflow curve of the link, and each such curve counts only the vehicles of that path and departure interval.", "quantifier": "every sequence of vehicle movements", "why_tests_cant": "requires all interleavings of paths and intervals", "anchors": ["src/cc_tree.cpp:add_flow", "src/dnode.cpp:move_vehicle", "src/dta_gradient_utls.cpp:add_dar_records"]}
{"id": "C17", "title": "Graph stores exactly the links added", "statement": "After any successful sequence of node and link insertions, the outgoing (incoming) links listed for a node are exactly the added links that start (end) there, each once, most recent first; endpoints are those given; duplicate ids, unknown nodes and self-loops are rejected and leave the graph unchanged.", "quantifier": "every sequence of insertions", "why_tests_cant": "intrusive lists share nodes; correctness is an invariant over all insertion histories", "anchors": ["src/graph.h:Graph::add_node", "src/graph.h:add_link", "src/graph.h:Connections", "macposts/_ext/macposts.cpp"]}
{"id": "C18", "title": "Graph neighbours lists every adjacent node", "statement": "Iterating over the neighbours of a node in one direction yields every node at the other end of a link in that direction exactly once.", "quantifier": "every graph and node", "why_tests_cant": "existing tests only have one distinct neighbour per direction", "anchors": ["src/graph.h:Neighbors::Iterator_::step", "tests/test_graph.py"]}
{"id": "C19", "title": "One-to-all shortest path trees are optimal", "statement": "For nonnegative link costs the FIFO tree search terminates; a node is marked unreachable exactly when no path to the destination exists; otherwise following the tree links from the node reaches the destination with the least total cost among all paths.", "quantifier": "every graph, destination, nonnegative cost map, previous content of the output map", "why_tests_cant": "optimality quantifies over all paths", "anchors": ["src/shortest_path.cpp:all_to_one_FIFO", "src/path.cpp:extract_path"]}
{"id": "C20", "title": "Dijkstra variant agrees with the FIFO variant", "statement": "With a fresh output map and nonnegative costs the Dijkstra search terminates and yields the same distances and a least-cost tree.", "quantifier": "every graph, destination, nonnegative cost map and every tie-breaking of the priority queue", "why_tests_cant": "the heap comparator is not a strict order, so every pop order must be considered", "anchors": ["src/shortest_path.cpp:all_to_one_Dijkstra"]}
{"id": "C21", "title": "LIFO variant agrees with the FIFO variant", "statement": "The LIFO search yields a least-cost tree.", "quantifier": "every graph, destination and cost map", "why_tests_cant": "optimality quantifies over all paths", "anchors": ["src/shortest_path.cpp:all_to_one_LIFO"]}
{"id": "C22", "title": "Path extraction is sound and complete", "statement": "Extracting a path from a shortest-path tree terminates and returns a node/link sequence that starts at the origin, ends at the destination, uses existing links head to tail and visits no node twice; it returns nothing exactly when the destination is unreachable.", "quantifier": "every graph, cost map and origin/destination", "why_tests_cant": "termination needs acyclicity of every tree the search can produce", "anchors": ["src/path.cpp:extract_path", "src/shortest_path.cpp"]}
{"id": "C23", "title": "Time-dependent shortest path is optimal", "statement": "For every node and departure interval, the value stored by the time-dependent tree is the least total cost over all ways of travelling to the destination, where each link is charged the cost at the interval at which it is entered and intervals advance by the rounded-up travel time and saturate at the last interval; infinity means there is no way.", "quantifier": "every graph, destination, horizon, time-dependent cost and travel-time tables with nonnegative costs", "why_tests_cant": "optimality over unboundedly many walks and all tables", "anchors": ["src/shortest_path.cpp:MNM_TDSP_Tree::update_tree", "src/shortest_path.cpp:round_time"]}
{"id": "C24", "title": "Time-dependent path extraction is consistent", "statement": "Extracting a time-dependent path terminates, the path is connected from origin to destination, the reported travel time is the sum of the link travel times at the entry intervals, and its total cost equals the stored optimum; it reports -1 exactly when unreachable.", "quantifier": "every tree built from nonnegative (positive in the last interval) costs, every origin and departure time", "why_tests_cant": "termination and optimality for all inputs", "anchors": ["src/shortest_path.cpp:MNM_TDSP_Tree::get_tdsp", "macposts/_ext/tdsp.cpp:extract_tdsp"]}
{"id": "C25", "title": "FIFO check of travel-time tables", "statement": "The table check accepts exactly those tables in which no vehicle that enters a link one interval later can leave it earlier.", "quantifier": "every graph, table and number of intervals", "why_tests_cant": "all adjacent and therefore all pairs of intervals", "anchors": ["src/shortest_path.cpp:is_FIFO"]}
{"id": "C26", "title": "Shortest paths with turn (node) costs are optimal", "statement": "The variant with node (movement) costs yields the least total cost of links plus movements.", "quantifier": "every graph, link cost and movement cost map", "why_tests_cant": "optimality quantifies over all paths", "anchors": ["src/shortest_path.cpp:all_to_one_FIFO (node cost)", "src/shortest_path.cpp:MNM_TDSP_Tree::update_tree (node cost)"]}
{"id": "C27", "title": "Cycle elimination yields a simple path between the same ends", "statement": "Removing cycles from a connected path yields a connected path with the same first and last node in which no node repeats, made of links of the original path in the same order; a path without repeated nodes is left unchanged.", "quantifier": "every path", "why_tests_cant": "index bookkeeping over nested and overlapping cycles", "anchors": ["src/path.cpp:MNM_Path::eliminate_cycles"]}
{"id": "C28", "title": "Route shares are normalised to a probability distribution", "statement": "After normalisation the shares of a non-empty route set are nonnegative, sum to one and keep their proportions; all-zero shares become equal shares; a negative share is rejected.", "quantifier": "every route set and share vector", "why_tests_cant": "all vectors", "anchors": ["src/path.cpp:MNM_Pathset::normalize_p", "src/routing.cpp:change_choice_portion"]}
{"id": "C29", "title": "Every vehicle gets a route from its OD pair", "statement": "With normalised shares and any random number in [0,1] the route draw always succeeds (no 'wrong probability' exception), returns a route of the vehicle's OD pair, and a route with a zero share is never drawn while the draw is positive.", "quantifier": "every normalised share vector and every random number", "why_tests_cant": "floating tolerance at the boundary r = 1 was the reason for a past bug", "anchors": ["src/routing.cpp:MNM_Routing_Fixed::register_veh"]}
{"id": "C30", "title": "Fixed-route vehicles traverse exactly their route", "statement": "The sequence of links a fixed-route vehicle enters is always a prefix of its assigned route, and is the complete route when the vehicle arrives.", "quantifier": "every route table, network and history", "why_tests_cant": "must hold through blocking, re-queuing and repeated routing calls", "anchors": ["src/routing.cpp:MNM_Routing_Fixed::update_routing", "src/routing.cpp:register_veh", "src/dlink.cpp:MNM_Dlink_Lq::evolve"]}
{"id": "C31", "title": "Released vehicles match demand up to one vehicle", "statement": "In each assignment interval, for each destination the number of released vehicles is floor or ceil of demand*flow_scalar, exactly demand*flow_scalar when that is an integer; a negative interval index releases nothing; each vehicle gets this origin, that destination, the current interval as start time and a fresh id.", "quantifier": "every demand table, flow scalar and random sequence", "why_tests_cant": "random rounding; all demand values", "anchors": ["src/od.cpp:MNM_Origin::release_one_interval", "src/ults.cpp:round", "src/factory.cpp:make_veh"]}
{"id": "C32", "title": "Adaptive share is applied per destination", "statement": "With a share of 0 every released vehicle follows fixed routes and with a share of 1 every vehicle is adaptive, destination by destination, where a destination without its own share uses the global one.", "quantifier": "every share table and iteration order of destinations", "why_tests_cant": "depends on the hash order of destinations", "anchors": ["src/od.cpp:MNM_Origin::release_one_interval"]}
{"id": "C33", "title": "Random rounding is unbiased to within one unit and exact on integers", "statement": "Rounding x >= 0 returns floor(x) or floor(x)+1, returns x itself when x is an integer, and returns the upper value exactly when the fractional part exceeds the random draw.", "quantifier": "every x >= 0 and every draw in [0,1]", "why_tests_cant": "continuum of inputs", "anchors": ["src/ults.cpp:MNM_Ults::round"]}
{"id": "C34", "title": "Time rounding is monotone and never below one interval", "statement": "Rounding a travel time up gives an integer >= 1 that is at least the time up to the relative tolerance and less than time+1; rounding down gives an integer >= 1; both are monotone.", "quantifier": "every travel time", "why_tests_cant": "continuum of inputs and the tolerance branch", "anchors": ["src/ults.cpp:round_up_time", "src/ults.cpp:round_down_time"]}
{"id": "C35", "title": "Density-based link travel time is bounded and monotone", "statement": "The travel time computed from link volume is at least the free-flow time and non-decreasing in the volume below jam density, continuous at critical density, and equals the cap of one hour at or above jam density.", "quantifier": "every link with 0 < capacity/speed < jam density and positive lanes, length and speed; every volume", "why_tests_cant": "continuum of volumes", "anchors": ["src/dlink.cpp:MNM_Dlink_Ctm::get_link_tt", "src/dlink.cpp:get_link_tt_from_flow"]}
{"id": "C36", "title": "Recorded interval statistics are true averages", "statement": "With averaging window n, the volume (travel time) recorded at interval k*n (k >= 1) is the arithmetic mean of the n values observed at intervals (k-1)*n+1 .. k*n, at interval 0 the observed value, and the per-interval record is the latest value.", "quantifier": "every window n >= 1, every series of observed values, every number of intervals", "why_tests_cant": "accumulate/reset logic over all window phases", "anchors": ["src/statistics.cpp:MNM_Statistics_Lrn::update_record"]}
{"id": "C37", "title": "Empty-network travel times are available to the first routing decision", "statement": "The travel time table used by the first adaptive routing call holds the empty-network link travel times.", "quantifier": "every averaging window", "why_tests_cant": "depends on window size n", "anchors": ["src/dta.cpp:load_once", "src/statistics.cpp:update_record", "src/routing.cpp:MNM_Routing_Adaptive::update_link_cost"]}
{"id": "C38", "title": "Cumulative-curve travel times respect free flow and FIFO", "statement": "The travel time read from the curves is never below the link's free-flow time, and a vehicle that enters later is never reported to leave earlier than one that entered before by more than what the free-flow floor imposes.", "quantifier": "every pair of curves, every entry time", "why_tests_cant": "all curve shapes", "anchors": ["src/dta_gradient_utls.cpp:get_travel_time_from_cc", "src/dta_gradient_utls.cpp:get_travel_time"]}
{"id": "C39", "title": "Path travel time is the chained sum of link travel times", "statement": "The travel time of a path equals the time at which a virtual vehicle that enters each link when it leaves the previous one arrives, minus its departure; it is at least the number of links and the path cost sums link costs at exactly the entry intervals.", "quantifier": "every path, table and departure time", "why_tests_cant": "all tables and paths", "anchors": ["src/dta_gradient_utls.cpp:get_path_travel_time", "src/dta_gradient_utls.cpp:get_path_travel_cost", "src/path.cpp:get_path_tt"]}
{"id": "C40", "title": "Inflow reports are additive", "statement": "The link inflow reported for [a,c] is the sum of those for [a,b] and [b,c] and is nonnegative.", "quantifier": "every curve and every a <= b <= c", "why_tests_cant": "continuum", "anchors": ["src/dta_gradient_utls.cpp:get_link_inflow", "macposts/_ext/dta.cpp:get_link_inflow"]}
{"id": "C41", "title": "DAR records account for all link inflow", "statement": "The assignment-ratio records of a link and interval are nonnegative, have distinct (path, departure interval) keys, and their flows sum to the inflow of the registered paths on that link in that interval.", "quantifier": "every per-path curve tree and interval", "why_tests_cant": "all combinations", "anchors": ["src/dta_gradient_utls.cpp:add_dar_records", "macposts/_ext/dta.cpp:get_dar_matrix"]}
{"id": "C42", "title": "Route-flow reassignment preserves demand", "statement": "Shifting a fraction lambda of the flow of an OD pair and interval to one path keeps the total, keeps all flows nonnegative for lambda in [0,1], and leaves other intervals and OD pairs unchanged.", "quantifier": "every flow table, OD pair, path, interval and lambda", "why_tests_cant": "continuum of flows", "anchors": ["src/pre_routing.cpp:MNM_Pre_Routing::reassign_routing"]}
{"id": "C43", "title": "Cycle test for gridlock detection", "statement": "The gridlock checker's cycle test answers true exactly when the given graph contains a directed cycle.", "quantifier": "every graph", "why_tests_cant": "all graphs and link id orders", "anchors": ["src/gridlock_checker.cpp:has_cycle"]}
{"id": "C44", "title": "The simulation covers all demand and stops", "statement": "The loading loop calls the per-interval step for consecutive intervals 0,1,2,..., releases every assignment interval from the start interval to the last exactly once, runs at least (last-start)*frequency intervals, and stops: with a configured total, exactly at the larger of that total and (last-start)*frequency; without one, when no vehicle is left on the network.", "quantifier": "every frequency, interval count, total, and every evolution of the vehicle counts", "why_tests_cant": "loop control over all histories", "anchors": ["src/dta.cpp:MNM_Dta::loading", "src/dta.cpp:finished_loading", "src/dta.cpp:load_once"]}
{"id": "C45", "title": "Link-queue model keeps density below jam when the step is stable", "statement": "If the link is long enough for the time step (capacity inflow on top of critical density fits and wave speed*step <= length) then for every inflow the link accepts the link-queue density never exceeds jam density and its receiving capacity is never negative; vehicle order is preserved even when vehicles are pulled back.", "quantifier": "every such link, every inflow and random rounding", "why_tests_cant": "long congestion histories", "anchors": ["src/dlink.cpp:MNM_Dlink_Lq"]}
{"id": "C46", "title": "Reported link volume equals vehicles on the link", "statement": "The link volume used for density and travel time is the number of vehicles on the link divided by the flow scalar.", "quantifier": "every link type and state", "why_tests_cant": "all states", "anchors": ["src/dlink.cpp:get_link_flow"]}
{"id": "C47", "title": "Python curve table equals curve lookup", "statement": "The table of cumulative counts returned to Python has, at row t, the value recorded at the latest record time <= t for every link.", "quantifier": "every recorded curve and horizon", "why_tests_cant": "forward fill over arbitrary gaps", "anchors": ["macposts/dta.py:_get_ccs"]}
{"id": "C48", "title": "Reversing a graph twice restores it and reverses reachability", "statement": "Reversing keeps node and link ids, swaps the ends of every link, a walk exists in the reverse graph exactly when the reversed walk exists, and reversing twice gives back the same links.", "quantifier": "every graph", "why_tests_cant": "all graphs and walks", "anchors": ["src/ults.cpp:reverse_graph"]}
{"id": "C49", "title": "Link-transmission curve trimming keeps what is needed", "statement": "Trimming the internal curves of a link-transmission link to the configured size keeps the most recent records.", "quantifier": "every curve and size", "why_tests_cant": "all curves", "anchors": ["src/dlink.cpp:MNM_Cumulative_Curve::shrink", "src/dlink.cpp:MNM_Dlink_Ltm::evolve"]}
{"id": "C50", "title": "General junction (GRJ) respects demand and supply", "statement": "The general-junction flow from each in-link is at most its demand and the total into each out-link is at most its supply.", "quantifier": "every junction state", "why_tests_cant": "all states", "anchors": ["src/dnode.cpp:MNM_Dnode_GRJ::compute_flow", "src/dnode.cpp:get_theta"]}
{"id": "C51", "title": "Destination node takes every arriving vehicle", "statement": "In one interval a destination node moves every vehicle that has reached the end of one of its incoming links into its arrival queue, keeping the order of each link; it raises an exception exactly when such a vehicle still has a next link; nothing else on the network changes.", "quantifier": "every set of incoming links, every queue content, every interval", "why_tests_cant": "tests load a few networks; the claim covers every queue content at every destination", "anchors": ["src/dnode.cpp: MNM_DMDND::evolve"]}
{"id": "C52", "title": "Reported link travel time is the time until the departure count catches up", "statement": "The travel time reported for an entry time is the time until the departure count of the link first reaches the arrival count at entry, or the free-flow time if that is longer.", "quantifier": "every pair of curves recorded by a loading, every entry time within the valid horizon", "why_tests_cant": "depends on how arrivals and departures interleave; wrong only when departures jump over the arrival count", "anchors": ["src/dta_gradient_utls.cpp:get_travel_time_from_cc", "src/dlink.cpp:MNM_Cumulative_Curve::get_time"]}
{"id": "C53", "title": "Free-flow travel time of a link is reported in loading intervals", "statement": "Every link type reports its free-flow travel time for loading as a number of loading intervals (at least one), so that it can be compared with times read from the cumulative curves.", "quantifier": "every link type, length, speed and interval length", "why_tests_cant": "tests use one interval length; the unit error is invisible when the interval is one second", "anchors": ["src/dlink.cpp:get_link_freeflow_tt_loading", "src/dta_gradient_utls.cpp:get_travel_time"]}
{"id": "C54", "title": "Link curves count the vehicles that entered and left", "statement": "At every whole time t, the inflow (outflow) curve of every link equals the number of vehicles that moved onto (off) the link in intervals before t, divided by the flow scalar.", "quantifier": "every network, every link, every number of intervals below the tolerance limit, all random draws and hash orders", "why_tests_cant": "every schedule of vehicle movements over whole runs", "anchors": ["src/dnode.cpp:move_vehicle", "src/dnode.cpp:record_cumulative_curve", "src/dlink.cpp:install_cumulative_curve", "src/dta.cpp:load_once"]}
{"id": "C55", "title": "Predetermined routing sends the planned number of vehicles down each path", "statement": "In a release interval, the vehicles released at an origin under predetermined routing are registered to the paths of their OD pair so that each path receives exactly its planned number of vehicles of that interval.", "quantifier": "every origin, every table of planned route flows, every number of paths, every queue of released vehicles", "why_tests_cant": "depends on the planned flows of all paths and on the order of destinations in the queue", "anchors": ["src/so_routing.cpp:MNM_Routing_Predetermined::update_routing", "src/pre_routing.cpp:MNM_Pre_Routing"]}
{"id": "C56", "title": "A vehicle under predetermined routing keeps its route while waiting at its origin", "statement": "A vehicle that has been given a predetermined route and has to wait at its origin over a release boundary still traverses every link of the route.", "quantifier": "every route, every waiting time at the origin", "why_tests_cant": "depends on how long the first link refuses the vehicle", "anchors": ["src/so_routing.cpp:MNM_Routing_Predetermined::update_routing"]}
{"id": "C57", "title": "A junction does not hold vehicles back", "statement": "If a link can receive every vehicle waiting for it at the end of the links into the junction, all of them move in that interval; otherwise its receiving capacity is used up to less than one vehicle per incoming link.", "quantifier": "every junction, every state, all random draws", "why_tests_cant": "all combinations of queues, capacities and rounding draws", "anchors": ["src/dnode.cpp:MNM_Dnode_FWJ::compute_flow", "src/dnode.cpp:round_flow_to_vehicle", "src/dnode.cpp:MNM_Dnode_GRJ::compute_flow"]}
{"id": "C58", "title": "A link transmission link is first in, first out and loses no vehicle", "statement": "Vehicles that enter a link of type LTM become ready to leave in the order of entry; every vehicle that entered has left, is ready, or is queueing, exactly once.", "quantifier": "every link, every history of arrivals and departures, all random draws", "why_tests_cant": "depends on the whole history of arrivals, departures and rounding draws", "anchors": ["src/dlink.cpp:MNM_Dlink_Ltm::evolve", "src/dlink.cpp:MNM_Dlink_Ltm::clear_incoming_array"]}
{"id": "C59", "title": "A link transmission link never takes more than its capacity and never fails below its reported room", "statement": "In each interval at most flow capacity times lanes times unit time enters a link of type LTM; when the vehicles delivered do not exceed the room it reported, the interval completes without an exception.", "quantifier": "every physical parameter set, every history", "why_tests_cant": "the exception depends on curve contents after any number of intervals", "anchors": ["src/dlink.cpp:MNM_Dlink_Ltm::get_link_supply", "src/dlink.cpp:MNM_Dlink_Ltm::clear_incoming_array", "src/dlink.cpp:MNM_Dlink_Ltm::evolve"]}
{"id": "C60", "title": "A vehicle on a link transmission link can leave eventually", "statement": "A vehicle that entered a link of type LTM becomes ready to leave after finitely many intervals if vehicles ahead are taken.", "quantifier": "every link, every entry time", "why_tests_cant": "a liveness claim over all histories; tests with traffic from the first interval do not see it fail", "anchors": ["src/dlink.cpp:MNM_Dlink_Ltm::evolve", "src/dlink.cpp:MNM_Dlink_Ltm::get_demand", "src/dlink.cpp:MNM_Cumulative_Curve::shrink"]}
{"id": "C61", "title": "A link transmission link never holds more vehicles than its storage", "statement": "The number of vehicles on a link of type LTM never exceeds holding capacity times lanes times length.", "quantifier": "every link, every history, all unit times", "why_tests_cant": "needs all histories of arrivals and departures", "anchors": ["src/dlink.cpp:MNM_Dlink_Ltm::get_link_supply", "src/dlink.cpp:MNM_Cumulative_Curve::shrink"]}
{"id": "C62", "title": "No vehicle crosses a link transmission link faster than free flow", "statement": "A vehicle on a link of type LTM is not ready to leave before length divided by free-flow speed has passed since it entered.", "quantifier": "every link, every entry time, every history", "why_tests_cant": "all histories and rounding draws", "anchors": ["src/dlink.cpp:MNM_Dlink_Ltm::get_demand", "src/dlink.cpp:MNM_Dlink_Ltm::evolve"]}
{"id": "C63", "title": "Generated route sets are correct", "statement": "Generating routes gives a path set for exactly the OD pairs with demand. Every path runs from the origin to the destination along connected links, visits no node twice and is longer than the requested minimum. No route is stored twice, at most 1 + 2 x max_iter routes are stored, and the first one is a cheapest one if long enough. Each further iteration keeps the earlier routes and adds, for both penalties, a route that is cheapest when the links used so far are penalised. An OD pair with demand that is not connected raises an exception. The shortest path set holds one quickest route per OD pair.", "quantifier": "every network, demand, toll, travel time, value of time, penalty and number of iterations", "why_tests_cant": "all networks and all penalties; the iterations change the costs that later searches see", "anchors": ["src/path.cpp:MNM::build_pathset", "src/path.cpp:MNM::build_shortest_pathset", "src/path.cpp:MNM::extract_path"]}
{"id": "C64", "title": "Every connected OD pair with demand gets a route", "statement": "After route generation every OD pair with demand that is connected has at least one route.", "quantifier": "every network, demand and minimal length", "why_tests_cant": "all combinations of route lengths and thresholds", "anchors": ["src/path.cpp:MNM::build_pathset"]}
{"id": "C65", "title": "min_path_tt filters routes by travel time", "statement": "generate_shortest_pathsets with min_path_tt keeps a generated route if and only if its free-flow travel time is above min_path_tt.", "quantifier": "every network, every min_path_tt", "why_tests_cant": "the default 0 keeps every route whatever is compared; the claim is about every threshold", "anchors": ["macposts/_ext/dta.cpp:Dta::generate_shortest_pathsets", "src/path.cpp:MNM::build_pathset"]}
{"id": "C66", "title": "Only the data rows of an input file matter", "statement": "The node, link, network, demand and path readers give the same result for any two files whose first n data rows are equal, where n is the configured number. Blank lines, lines starting with #, white space around a row and later rows have no effect.", "quantifier": "every pair of file contents, every n up to the number of rows", "why_tests_cant": "all texts: any number and place of comments, with or without a final newline", "anchors": ["src/io.cpp:MNM_IO::build_node_factory", "src/io.cpp:MNM_IO::build_link_factory", "src/io.cpp:MNM_IO::build_graph", "src/io.cpp:MNM_IO::build_demand", "src/io.cpp:MNM_IO::load_path_table"]}
{"id": "C67", "title": "A missing or truncated input file is reported", "statement": "If an input file is missing or has fewer data rows than configured, loading ends with an error.", "quantifier": "every file content and configured number of rows", "why_tests_cant": "non-termination cannot be observed by a test; all truncation points", "anchors": ["src/io.cpp:MNM_IO::build_node_factory", "src/io.cpp:MNM_IO::build_link_factory", "src/io.cpp:MNM_IO::build_graph", "src/io.cpp:MNM_IO::load_path_table"]}
{"id": "C68", "title": "Words and numbers are parsed correctly", "statement": "Splitting a line gives exactly its maximal separator-free pieces in order. Stripping removes exactly the white space at both ends. A word is converted to n exactly if it starts with an optionally signed decimal number with value n in the range of int, and otherwise an exception is raised. Printing an int and parsing it gives the int back.", "quantifier": "every text, separator and int", "why_tests_cant": "all texts and all integers", "anchors": ["src/io.cpp:MNM_IO::split", "src/io.h:MNM_IO::trim"]}
{"id": "C69", "title": "Node, link and OD files define the network objects", "statement": "Each row of the node and link files defines one object with the kind of the row; for a repeated id the first row counts; a malformed row raises an exception. Each row of the OD file attaches an origin or destination to its node, or an exception is raised.", "quantifier": "every file content", "why_tests_cant": "all texts; the failure cases are silent or undefined behaviour", "anchors": ["src/io.cpp:MNM_IO::build_node_factory", "src/io.cpp:MNM_IO::build_link_factory", "src/io.cpp:MNM_IO::build_od_factory"]}
{"id": "C70", "title": "Link attributes are converted to consistent units", "statement": "For every link read from the file, crossing it at free-flow speed takes 3600 x miles / mph seconds, its capacity per second is its hourly capacity / 3600 and it stores vehicles-per-mile x miles vehicles per lane.", "quantifier": "every link file and every attribute value", "why_tests_cant": "all values of the attributes", "anchors": ["src/io.cpp:MNM_IO::build_link_factory"]}
{"id": "C71", "title": "Every demand row counts", "statement": "The demand of an OD pair is what its rows in the demand file say, for every row.", "quantifier": "every demand file", "why_tests_cant": "all contents, including repeated pairs", "anchors": ["src/io.cpp:MNM_IO::build_demand", "src/od.cpp:MNM_Origin::add_dest_demand"]}
{"id": "C72", "title": "Saving and loading a path table gives the table back", "statement": "A path table that is saved and loaded again has, for every OD pair, the same paths (nodes and links) in the same order.", "quantifier": "every network, path table and order of the OD pairs", "why_tests_cant": "all tables, all node ids, all iteration orders of the hash maps", "anchors": ["src/path.cpp:MNM::save_path_table", "src/io.cpp:MNM_IO::load_path_table"]}
{"id": "C73", "title": "Loaded paths are routes of the network", "statement": "Every loaded path has the nodes of its row and links that lead from each node to the next; rows that are not routes of the network raise an exception. Paths are filed under their first and last node in file order, with consecutive ids.", "quantifier": "every network and path file", "why_tests_cant": "all networks and rows; the failing case is silent or undefined behaviour", "anchors": ["src/io.cpp:MNM_IO::load_path_table"]}
{"id": "C74", "title": "The network file defines the graph", "statement": "Loading the network succeeds exactly if each of the first n rows has three numbers, no link id is repeated and no link starts where it ends. The graph then has exactly these links and their end nodes.", "quantifier": "every file content and n", "why_tests_cant": "all texts and networks", "anchors": ["src/io.cpp:MNM_IO::build_graph"]}
{"id": "C75", "title": "Initial path flows and the demand agree", "statement": "Initialising the path flows spreads the demand of each OD pair and interval evenly over the paths of the pair, and the demand then taken from the path table for the simulation is the demand that was read. In general the demand of a pair and interval taken from the table is the sum of the flows of its paths.", "quantifier": "every path table, demand, number of intervals and order of the pairs", "why_tests_cant": "all tables and demands", "anchors": ["src/due.cpp:MNM_Due_Msa::init_path_flow", "src/due.cpp:MNM_Due::update_demand_from_path_table"]}
{"id": "C76", "title": "Equilibrium iterations with departure time choice move flow without creating or losing any", "statement": "An iteration of successive averages keeps the total flow of every OD pair over all intervals, and no path flow becomes negative. Flow only moves to the best route and departure interval.", "quantifier": "every path table, demand, iteration number, step size and every choice of best routes and departure times", "why_tests_cant": "all tables and choices; negative flows arise for some states only", "anchors": ["src/due.cpp:MNM_Due_Msa::update_path_table"]}
{"id": "C77", "title": "Equilibrium iterations with given departure times keep the flow of every interval", "statement": "After any number of iterations the flow of every OD pair in every departure interval is unchanged and no path flow is negative. In one step every route but the best keeps the same share of its flow, and the best route gains.", "quantifier": "every path table and sequence of iterations, with any routes and step size between 0 and sqrt (iteration + 1)", "why_tests_cant": "all sequences of iterations", "anchors": ["src/due.cpp:MNM_Due_Msa::update_path_table_fixed_departure_time_choice"]}
{"id": "C78", "title": "Gradient projection keeps the flow of every interval", "statement": "A gradient projection step keeps the flow of every OD pair in every interval and no path flow becomes negative. The worst of the paths considered does not gain flow, the best does not lose any.", "quantifier": "every path table, route, disutility and step size between 0 and 1", "why_tests_cant": "all flow patterns and disutilities; flow is created for some only", "anchors": ["src/due.cpp:MNM_Due_Msa::update_path_table_gp_fixed_departure_time_choice"]}
{"id": "C79", "title": "The merit function measures the distance from equilibrium", "statement": "The merit function is never negative and zero exactly if every used path and departure interval has the lowest disutility of its OD pair. With given departure times the same holds for every interval.", "quantifier": "every path table with nonnegative flows and known disutilities", "why_tests_cant": "an equivalence over all flow patterns", "anchors": ["src/due.cpp:MNM_Due::compute_merit_function", "src/due.cpp:MNM_Due::compute_merit_function_fixed_departure_time_choice"]}
{"id": "C80", "title": "The best route and departure time have the lowest disutility", "statement": "The route and departure time that an iteration moves flow to have the lowest disutility (value of time, early and late penalty) of all routes and departure times of the OD pair.", "quantifier": "every network, travel time table, toll and penalty setting", "why_tests_cant": "a minimum over all routes and departure times", "anchors": ["src/due.cpp:MNM_Due_Msa::get_best_route", "src/due.cpp:MNM_Due::get_disutility", "src/due.cpp:MNM_Due::build_link_cost_map"]}
{"id": "C81", "title": "Two-class links lose no vehicle and keep each class in order", "statement": "On a link with cars and trucks, of any of the three types, the vehicles of each class are at any time a subsequence of the arrivals of that class, in order of arrival; an update removes or reorders nobody within a class and never turns a car into a truck.", "quantifier": "every two-class link, arrival sequence, random draw and number of intervals", "why_tests_cant": "all arrivals, mixes of classes, random draws and lengths of the history", "anchors": ["src/multiclass.cpp:MNM_Dlink_Ctm_Multiclass::evolve", "src/multiclass.cpp:MNM_Dlink_Lq_Multiclass::evolve", "src/multiclass.cpp:MNM_Dlink_Pq_Multiclass::evolve", "src/multiclass.cpp:MNM_Dlink_Ctm_Multiclass::clear_incoming_array", "src/multiclass.cpp:MNM_Dlink_Lq_Multiclass::clear_incoming_array", "src/multiclass.cpp:MNM_Dlink_Pq_Multiclass::clear_incoming_array"]}
{"id": "C82", "title": "Updates of two-class links never fail", "statement": "Whatever happened to a link since its construction (loading intervals and property changes), its update methods succeed when every vehicle has a next link, and its supply can be computed.", "quantifier": "every history of a two-class link", "why_tests_cant": "all arrivals, mixes of classes, random draws and lengths of the history", "anchors": ["src/multiclass.cpp:MNM_Dlink_Ctm_Multiclass::evolve", "src/multiclass.cpp:MNM_Dlink_Lq_Multiclass::evolve", "src/multiclass.cpp:MNM_Dlink_Pq_Multiclass::evolve", "src/multiclass.cpp:MNM_Dlink_Lq_Multiclass::get_link_supply"]}
{"id": "C83", "title": "Traversal of two-class links", "statement": "On a cell transmission link no vehicle of either class reaches the exit before the free-flow traversal time of cars; at free flow cars take exactly that time and of the trucks of a cell the ratio of the two speeds goes on, up to one vehicle. On a point queue both classes take exactly the free-flow time of cars.", "quantifier": "every two-class link, arrival sequence, mix of classes and draw", "why_tests_cant": "all arrivals, mixes of classes, random draws and lengths of the history", "anchors": ["src/multiclass.cpp:MNM_Dlink_Ctm_Multiclass::update_out_veh", "src/multiclass.cpp:MNM_Dlink_Ctm_Multiclass::evolve", "src/multiclass.cpp:MNM_Dlink_Ctm_Multiclass::move_last_cell", "src/multiclass.cpp:MNM_Dlink_Pq_Multiclass::evolve"]}
{"id": "C84", "title": "Cars and trucks share a cell consistently", "statement": "In a cell that is not over-full the space is divided between the classes completely, each class drives at the density of its share, neither above its jam density, and trucks drive at the lower of their free-flow speed and the speed of the cars.", "quantifier": "every pair of consistent diagrams and every number of cars and trucks up to jam", "why_tests_cant": "all arrivals, mixes of classes, random draws and lengths of the history", "anchors": ["src/multiclass.cpp:Ctm_Cell_Multiclass::update_perceived_density", "src/multiclass.cpp:MNM_Dlink_Lq_Multiclass::update_perceived_density", "src/multiclass.cpp:MNM_Dlink_Ctm_Multiclass::init_cell_array"]}
{"id": "C85", "title": "The supply of a two-class cell transmission link is bounded", "statement": "The supply is never negative, and never more than the capacity of an interval.", "quantifier": "every history of a two-class cell transmission link", "why_tests_cant": "all arrivals, mixes of classes, random draws and lengths of the history", "anchors": ["src/multiclass.cpp:MNM_Dlink_Ctm_Multiclass::get_link_supply"]}
{"id": "C86", "title": "Reported numbers of cars and trucks", "statement": "The reported numbers of cars, trucks and vehicles on a link, and those used for emissions, are the numbers on the link divided by the flow scalar.", "quantifier": "every history of a two-class link", "why_tests_cant": "all arrivals, mixes of classes, random draws and lengths of the history", "anchors": ["src/multiclass.cpp:MNM_Dlink_Ctm_Multiclass::get_link_flow", "src/multiclass.cpp:MNM_Dlink_Ctm_Multiclass::get_link_flow_car", "src/multiclass.cpp:MNM_Dlink_Ctm_Multiclass::get_link_flow_truck", "src/multiclass.cpp:MNM_Dlink_Lq_Multiclass::get_link_flow", "src/multiclass.cpp:MNM_Dlink_Pq_Multiclass::get_link_flow", "src/multiclass.cpp:MNM_Dlink_Ctm_Multiclass::get_link_flow_emission_car"]}
{"id": "C87", "title": "Travel times of two-class links", "statement": "The travel time of each class as a function of the number of vehicles is at least its free-flow time, does not decrease up to jam density, equals the free-flow time up to the critical density and a constant from jam density on.", "quantifier": "every two-class link and volume", "why_tests_cant": "all volumes and parameters", "anchors": ["src/multiclass.cpp:MNM_Dlink_Ctm_Multiclass::get_link_tt_from_flow_car", "src/multiclass.cpp:MNM_Dlink_Ctm_Multiclass::get_link_tt_from_flow_truck", "src/multiclass.cpp:MNM_Dlink_Lq_Multiclass::get_link_tt_from_flow_car", "src/multiclass.cpp:MNM_Dlink_Pq_Multiclass::get_link_tt_from_flow_car"]}
{"id": "C88", "title": "Free-flow times of two-class links in intervals", "statement": "The reported free-flow traversal time of cars is the number of intervals of the link at free flow, and that of trucks is at least as large.", "quantifier": "every two-class link", "why_tests_cant": "all parameters", "anchors": ["src/multiclass.cpp:MNM_Dlink_Ctm_Multiclass::get_link_freeflow_tt_loading_car", "src/multiclass.cpp:MNM_Dlink_Ctm_Multiclass::get_link_freeflow_tt_loading_truck", "src/multiclass.cpp:MNM_Dlink_Lq_Multiclass::get_link_freeflow_tt_loading_car", "src/multiclass.cpp:MNM_Dlink_Pq_Multiclass::get_link_freeflow_tt_loading_car"]}
{"id": "C89", "title": "Changing the properties of a two-class link", "statement": "An accepted change keeps all vehicles, and the link then behaves as one built with the new values; a change that would alter the number of cells is rejected.", "quantifier": "every history of a two-class link and every change", "why_tests_cant": "all arrivals, mixes of classes, random draws and lengths of the history", "anchors": ["src/multiclass.cpp:MNM_Dlink_Multiclass::modify_property", "src/multiclass.cpp:MNM_Dlink_Ctm_Multiclass::modify_property", "src/multiclass.cpp:MNM_Dlink_Lq_Multiclass::modify_property"]}
{"id": "C90", "title": "Waiting time and spill-back of two-class links", "statement": "The waiting time of a link grows by the vehicles ready at its exit in each interval and is the sum of that of cars and of trucks. The spill-back flag, once up, stays up, and goes up exactly if the link holds more passenger-car equivalents than its jam storage.", "quantifier": "every history of a two-class link", "why_tests_cant": "all arrivals, mixes of classes, random draws and lengths of the history", "anchors": ["src/multiclass.cpp:MNM_Dlink_Ctm_Multiclass::evolve", "src/multiclass.cpp:MNM_Dlink_Lq_Multiclass::evolve", "src/multiclass.cpp:MNM_Dlink_Pq_Multiclass::evolve"]}
{"id": "C91", "title": "A full two-class link lets nobody in", "statement": "A link at jam density offers no supply; a point queue, which has no jam density, lets in its capacity per interval.", "quantifier": "every history of a two-class link", "why_tests_cant": "all arrivals, mixes of classes, random draws and lengths of the history", "anchors": ["src/multiclass.cpp:MNM_Dlink_Ctm_Multiclass::get_link_supply", "src/multiclass.cpp:MNM_Dlink_Lq_Multiclass::get_link_supply", "src/multiclass.cpp:MNM_Dlink_Pq_Multiclass::clear_incoming_array"]}
{"id": "C92", "title": "Two-class junctions are first come first served", "statement": "One update of a junction with cars and trucks passes, for each pair of links, the first vehicles waiting for that movement; everybody else stays in order, nobody is lost, duplicated or changes plans, and the vehicles that passed are on the link they headed for. The update fails only if a vehicle heads for a link that does not leave the junction.", "quantifier": "every two-class junction, queues, capacities and shuffles", "why_tests_cant": "all queues, mixes of classes, capacities and shuffles", "anchors": ["src/multiclass.cpp:MNM_Dnode_Inout_Multiclass::evolve", "src/multiclass.cpp:MNM_Dnode_Inout_Multiclass::prepare_supplyANDdemand", "src/multiclass.cpp:MNM_Dnode_Inout_Multiclass::move_vehicle"]}
{"id": "C93", "title": "Two-class junctions share the room fairly", "statement": "The room on an out link is shared between the in links in proportion to the passenger-car equivalents waiting for it; everybody passes if there is room for all, nobody if there is none, and never more equivalents than there is room for.", "quantifier": "every two-class junction, queues and capacities", "why_tests_cant": "all queues, mixes of classes, capacities and shuffles", "anchors": ["src/multiclass.cpp:MNM_Dnode_FWJ_Multiclass::compute_flow", "src/multiclass.cpp:MNM_Dnode_Inout_Multiclass::prepare_supplyANDdemand", "src/multiclass.cpp:MNM_Dnode_Inout_Multiclass::move_vehicle"]}
{"id": "C94", "title": "Two-class nodes count each class", "statement": "At junctions, origins and destinations the cumulative counts of cars and trucks of a link, at its entry and exit, grow by the numbers of vehicles of the class that crossed divided by the flow scalar, and the counts by path and departure interval by those on that path; no other link's counts change.", "quantifier": "every two-class node update", "why_tests_cant": "all queues, mixes of classes, capacities and shuffles", "anchors": ["src/multiclass.cpp:MNM_Dnode_Inout_Multiclass::record_cumulative_curve", "src/multiclass.cpp:MNM_Dnode_Inout_Multiclass::move_vehicle", "src/multiclass.cpp:MNM_DMOND_Multiclass::evolve", "src/multiclass.cpp:MNM_DMDND_Multiclass::evolve"]}
{"id": "C95", "title": "Two-class origins and destinations", "statement": "An origin node sends each link the first vehicles waiting for it, as many as there is room for up to one; a destination node takes every vehicle that reached the end of its links. Neither fails, whatever the type of the links.", "quantifier": "every two-class origin and destination, queues, capacities and draws", "why_tests_cant": "all queues, mixes of classes, capacities and shuffles", "anchors": ["src/multiclass.cpp:MNM_DMOND_Multiclass::evolve", "src/multiclass.cpp:MNM_DMDND_Multiclass::evolve"]}
{"id": "C96", "title": "Miles travelled in two-class networks", "statement": "When a vehicle passes a junction its miles grow by the length of the link it left, and not at all on connectors; no other update changes them.", "quantifier": "every two-class node update", "why_tests_cant": "all queues, mixes of classes, capacities and shuffles", "anchors": ["src/vehicle.cpp:MNM_Veh::update_miles_traveled", "src/multiclass.cpp:MNM_Dnode_Inout_Multiclass::move_vehicle"]}
{"id": "C97", "title": "Cars and trucks are conserved separately", "statement": "After any number of intervals of a two-class simulation every car (truck) ever released is in exactly one place: waiting at an origin, on a link, at a destination, or in the list of finished trips; class, label, origin, destination, routing mode and departure interval of a vehicle never change.", "quantifier": "every two-class network, run length and random numbers", "why_tests_cant": "all networks, demands, lengths of run and random numbers", "anchors": ["src/dta.cpp:MNM_Dta::load_once", "src/multiclass.cpp:MNM_Veh_Factory_Multiclass::make_veh_multiclass", "src/multiclass.cpp:MNM_Veh_Factory_Multiclass::remove_finished_veh"]}
{"id": "C98", "title": "Counters by class add up", "statement": "The numbers of cars (trucks) released, underway and finished and their total travel time are those of the vehicles of that class, the overall numbers are the sums over both classes, logged trips are kept, and the series of vehicles underway has one entry per interval.", "quantifier": "every two-class network, run length and random numbers", "why_tests_cant": "all networks, demands, lengths of run and random numbers", "anchors": ["src/multiclass.cpp:MNM_Veh_Factory_Multiclass::make_veh_multiclass", "src/multiclass.cpp:MNM_Veh_Factory_Multiclass::remove_finished_veh", "src/dta.cpp:MNM_Dta::record_enroute_vehicles"]}
{"id": "C99", "title": "Curves by class count the class on the link", "statement": "At any interval the entry and exit counts of cars (trucks) of a link differ by the cars (trucks) on it divided by the flow scalar.", "quantifier": "every two-class network, link, class, run length and random numbers", "why_tests_cant": "all networks, demands, lengths of run and random numbers", "anchors": ["src/multiclass.cpp:MNM_Dlink_Multiclass", "src/multiclass.cpp:MNM_Dnode_Inout_Multiclass::move_vehicle"]}
{"id": "C100", "title": "Two-class demand is released as given", "statement": "In every release interval the number of cars (trucks) created for an origin and destination is the demand of the class times the flow scalar, rounded to a neighbouring integer and exact when integral; other intervals create nothing; the label of a vehicle is drawn with the label ratios of its class.", "quantifier": "every two-class network, demand table, interval and random numbers", "why_tests_cant": "all networks, demands, lengths of run and random numbers", "anchors": ["src/multiclass.cpp:MNM_Origin_Multiclass::release_one_interval", "src/multiclass.cpp:MNM_Origin_Multiclass::release_one_interval_biclass", "src/multiclass.cpp:MNM_Origin_Multiclass::generate_label"]}
{"id": "C101", "title": "Adaptive shares by class", "statement": "The share of adaptive vehicles among the cars (trucks) of an origin and destination is the one given for that class, destination and interval, else the configured one.", "quantifier": "every two-class network, share table, interval and random numbers", "why_tests_cant": "all networks, demands, lengths of run and random numbers", "anchors": ["src/multiclass.cpp:MNM_Origin_Multiclass::release_one_interval", "src/multiclass.cpp:MNM_Origin_Multiclass::release_one_interval_biclass"]}
{"id": "C102", "title": "Routes by class", "statement": "With a routing of its own for each class, a static car (truck) takes a route drawn in proportion to the flows of cars (trucks) for the interval it departs in; the flows of the last interval keep applying when the table is shorter than the demand; the routes and flows of the table never change.", "quantifier": "every two-class network, path table, interval and random numbers", "why_tests_cant": "all networks, demands, lengths of run and random numbers", "anchors": ["src/routing.cpp:MNM_Routing_Biclass_Fixed::change_choice_portion", "src/routing.cpp:MNM_Routing_Biclass_Fixed::update_routing", "src/routing.cpp:MNM_Routing_Biclass_Hybrid::update_routing", "src/path.cpp:copy_buffer_to_p"]}
{"id": "C103", "title": "Static vehicles take routes in the given proportions", "statement": "At any time of a run, the route of a static vehicle is the one its random number picks when the unit interval is cut in proportion to the path flows of the interval in which the vehicle departed (the last column once the columns run out); without a path buffer the shares of the path table apply; routes and flows of the table never change during a run.", "quantifier": "every network, path table, run length and random numbers", "why_tests_cant": "all networks, path tables, lengths of run and random numbers", "anchors": ["src/routing.cpp:MNM_Routing_Fixed::update_routing", "src/routing.cpp:MNM_Routing_Fixed::register_veh", "src/routing.cpp:MNM_Routing_Fixed::change_choice_portion", "src/path.cpp:copy_buffer_to_p"]}
{"id": "C104", "title": "Emission rates are defined and positive at every speed", "statement": "For every speed of a link, after limiting it to 5..65 mph, the fuel, CO2, HC, CO and NOX rates of cars are exactly the published curves, lie strictly between fixed positive bounds (so no clip to zero ever acts and no division by zero occurs), and truck rates are the car rates times a factor between 1.5 and 8 by speed band.", "quantifier": "every real speed", "why_tests_cant": "a continuum of speeds; a sign change of an eighth-degree polynomial between sample points is invisible to tests", "anchors": ["src/emission.cpp:calculate_fuel_rate", "src/emission.cpp:calculate_HC_rate", "src/emission.cpp:calculate_CO_rate", "src/emission.cpp:calculate_NOX_rate", "src/multiclass.cpp:calculate_fuel_rate_truck"]}
{"id": "C105", "title": "Emission totals are the sum over intervals and links", "statement": "After any number of intervals the fuel, pollutant and mileage totals equal the sum, over the intervals since the last reset and over the registered links, of rate x miles at the link's speed x vehicles past the link's entrance; keeping them never changes or fails the simulation on usable roads; totals are non-negative, never decrease between resets, electric miles are part of all miles, CO2 is 8887 g per gallon, and with frequency 0 they are never reset.", "quantifier": "every network, run length, registered links, frequency, random numbers, electric-vehicle label", "why_tests_cant": "all networks, run lengths and histories", "anchors": ["src/emission.cpp:MNM_Cumulative_Emission::update", "src/dta.cpp:load_once", "src/dlink.cpp:get_link_flow_emission", "src/emission.cpp:register_link"]}
{"id": "C106", "title": "Crossing a link adds its length to the miles", "statement": "A vehicle that crosses a registered link adds the length of the link to the vehicle-miles total.", "quantifier": "every link, vehicle and stay", "why_tests_cant": "all histories, including queues of any length of time", "anchors": ["src/emission.cpp:MNM_Cumulative_Emission::update", "src/dlink.cpp:get_link_tt"]}
{"id": "C107", "title": "Two-class emission totals and trip counts", "statement": "The two-class report attributes to each class the fuel, pollutants, miles and hours of its own vehicles at its own rates, and its number of trips is the number of different vehicles of the class that were on a registered link.", "quantifier": "every two-class network, run length, registered links and memory addresses of vehicles", "why_tests_cant": "all runs and all ways the allocator may reuse addresses", "anchors": ["src/multiclass.cpp:MNM_Cumulative_Emission_Multiclass::update", "src/multiclass.cpp:MNM_Cumulative_Emission_Multiclass::output"]}
{"id": "C108", "title": "Queue dissipation times are defined and are when the queue is gone", "statement": "After a run, the reported queue dissipation time of a link is defined for every interval: for a congested interval the first later interval at which the travel time is back to free flow (the number of intervals if it never is), for an interval without congestion that interval itself; so a link that is never congested reports no queue.", "quantifier": "every pair of recorded arrival and departure curves, link, number of intervals", "why_tests_cant": "all counting curves of any length", "anchors": ["macposts/_ext/dta.cpp:Dta::get_link_queue_dissipated_time", "macposts/_ext/dta.cpp:Dta::build_link_cost_map"]}
{"id": "C109", "title": "Marginal link costs of the system optimum", "statement": "The marginal cost of entering a link in an interval is the free-flow time plus the time from the first following interval with spare entrance capacity until the queue met there is gone; it is defined for all intervals, and computing it again gives the same table.", "quantifier": "every pair of recorded curves, link, number of intervals", "why_tests_cant": "all counting curves of any length; the table is overwritten in place while later entries are still read", "anchors": ["src/dso.cpp:MNM_Dso::get_link_marginal_cost"]}
{"id": "C110", "title": "Capacity is recognised when a link is used at capacity", "statement": "If vehicles enter (leave) a cell-transmission link at the most its first (last) cell admits per interval, the marginal-cost computation sees the link as used at capacity.", "quantifier": "every cell-transmission link, interval length, flow at the limit", "why_tests_cant": "all link parameters and flows", "anchors": ["src/dso.cpp:MNM_Dso::get_link_marginal_cost", "src/dlink.cpp:MNM_Dlink_Ctm::Ctm_Cell::Ctm_Cell"]}
{"id": "C111", "title": "System-optimum path cost", "statement": "The marginal cost of a path for a departure time is the sum of the marginal costs of its links at the intervals in which a vehicle departing then enters them.", "quantifier": "every path, departure interval, table of link costs", "why_tests_cant": "all paths of any length and all tables", "anchors": ["src/dso.cpp:MNM_Dso::get_disutility", "src/due.cpp:MNM_Due::update_path_table_cost", "src/due.cpp:MNM_Due::get_tt"]}
{"id": "C112", "title": "Cost tables fit every run of a series", "statement": "In an equilibrium or system-optimum computation the link costs of every iteration are tabulated within the arrays, however long each iteration's loading takes.", "quantifier": "every series of runs with their curves and numbers of intervals", "why_tests_cant": "the number of intervals of a later run depends on the whole history of route choices", "anchors": ["macposts/_ext/dta.cpp:Dta::build_link_cost_map", "macposts/_ext/dta.cpp:Dta::run_dso", "macposts/_ext/dta.cpp:Dta::run_due"]}
{"id": "C113", "title": "Registration of links and paths", "statement": "Registering links succeeds exactly when all given links exist and none is repeated, and registers exactly them in the given order; registering paths gives each path the position in the given order; a rejected registration leaves the earlier registration in place.", "quantifier": "every list of ids, every earlier registration, every network", "why_tests_cant": "all lists of any length and all earlier registrations", "anchors": ["macposts/_ext/dta.cpp:register_links", "macposts/_ext/dta.cpp:register_paths"]}
{"id": "C114", "title": "Inflow matrix", "statement": "The inflow matrix has in the row of a registered link and the column of a time window the number of vehicles (in flow units) that entered that link in that window of the run; windows that are empty or do not end by the end of the run are rejected.", "quantifier": "every network and run, every list of registered links and of windows", "why_tests_cant": "all runs and all lists of links and windows", "anchors": ["macposts/_ext/dta.cpp:get_link_inflow", "src/dta_gradient_utls.cpp:get_link_inflow"]}
{"id": "C115", "title": "Array arguments are read as given", "statement": "An array passed from Python is read element by element as the caller sees it.", "quantifier": "every array, contiguous or a view with a stride", "why_tests_cant": "all views: offset, stride, length", "anchors": ["macposts/_ext/dta.cpp:register_links", "macposts/_ext/dta.cpp:get_link_inflow", "macposts/_ext/dta.cpp:get_complete_dar_matrix"]}
{"id": "C116", "title": "The assignment-ratio matrix maps path flows to link flows", "statement": "The matrix of dynamic assignment ratios has in the row of a link and window and the column of a path and departure interval the share of that path flow that entered the link in the window; times the path flows it gives the number of vehicles that entered each link in each window.", "quantifier": "every network and run, registered links and paths, windows, path flows", "why_tests_cant": "all runs, all registrations and all windows", "anchors": ["macposts/_ext/dta.cpp:get_complete_dar_matrix", "src/dta_gradient_utls.cpp:add_dar_records_eigen"]}
{"id": "C117", "title": "The saved assignment ratios are those of the matrix", "statement": "The file written by save_dar_matrix contains exactly the entries of the matrix that get_complete_dar_matrix returns for the same windows and flows.", "quantifier": "every registration of paths, trees of records, windows, flows", "why_tests_cant": "all registrations and records", "anchors": ["macposts/_ext/dta.cpp:save_dar_matrix", "macposts/_ext/dta.cpp:get_complete_dar_matrix"]}
{"id": "C118", "title": "Travel statistics", "statement": "The travel statistics give the number of vehicles released, their total time in the network in hours (finished trips: end minus start; others: until now), the number still en route and the number finished; the first is the sum of the last two.", "quantifier": "every network, run and interval at which they are read", "why_tests_cant": "all runs and times", "anchors": ["macposts/_ext/dta.cpp:get_travel_stats"]}
{"id": "C120", "title": "Link travel-time matrix", "statement": "The entries of the link travel-time matrix are the travel times read from each link's own curves for the given start interval, independent of the order of the questions; a link that is not congested is never reported as infinitely slow.", "quantifier": "every list of links with their curves, every list of start intervals", "why_tests_cant": "all curves, all start intervals and all orders of links", "anchors": ["macposts/_ext/dta.cpp:get_link_tt"]}
{"id": "C121", "title": "Path travel times by start interval", "statement": "The path travel times are, for each start interval of the run, the time a vehicle that starts then needs along the path; start intervals outside the run are rejected.", "quantifier": "every path, every table of link travel times, every list of start intervals", "why_tests_cant": "all paths, tables and start intervals", "anchors": ["macposts/_ext/dta.cpp:get_path_tt"]}
{"id": "C119", "title": "Routes for observed links", "statement": "Generating routes for the registered links succeeds exactly when every link that is on no registered path can be used by some OD pair with demand; afterwards every registered link is on a registered path, and every route added is a simple route from the origin to the destination of such a pair through an uncovered link.", "quantifier": "every network, set of registered links and paths, order in which OD pairs are tried", "why_tests_cant": "all graphs and all random orders of the OD pairs", "anchors": ["macposts/_ext/dta.cpp:generate_paths_to_cover_registered_links", "macposts/_ext/dta.cpp:check_registered_links_in_registered_paths", "src/ults.cpp:reverse_graph"]}
{"id": "C122", "title": "Conservation with delivery vehicles", "statement": "At every interval of a loading with delivery tours each released vehicle is in exactly one place (origin queue, link, destination queue) or has finished; released = en route + finished; the total travel time is the sum over finished vehicles of arrival minus departure; the number of delivery vehicles is the number of released vehicles with a tour; an ordinary vehicle stops once, at its destination.", "quantifier": "every network, demand, set of tours, number of intervals, random numbers and hash orders", "why_tests_cant": "holds at every interval of every run; tours move vehicles from destination queues back to origin queues", "anchors": ["src/delivery_traffic.cpp:MNM_Origin_Delivery::release_one_interval", "src/delivery_traffic.cpp:MNM_Destination_Delivery::receive", "src/delivery_traffic.cpp:MNM_Dlink_Pq_Delay::clear_incoming_array", "src/dta.cpp:MNM_Dta::load_once"]}
{"id": "C123", "title": "Tours are driven in order and to their end", "statement": "A delivery vehicle stops at the destinations of its tour in the order of the tour, leaving none out, and has stopped at all of them when it finishes.", "quantifier": "every network, set of tours, number of intervals, random numbers", "why_tests_cant": "all tours, including tours that return to a place several times", "anchors": ["src/delivery_traffic.cpp:MNM_Destination_Delivery::receive", "src/delivery_traffic.cpp:MNM_Veh_Delivery::move_to_next_od"]}
{"id": "C124", "title": "Any tour can be loaded", "statement": "A loading accepts every tour whose places exist: consecutive stops at the same destination and tours of a single leg do not end the program.", "quantifier": "every tour", "why_tests_cant": "failure depends on the tour, not on code paths a fixed test takes", "anchors": ["src/delivery_traffic.cpp:MNM_Destination_Delivery::receive", "src/delivery_traffic.cpp:MNM_Veh_Delivery::set_multi_od_seq"]}
{"id": "C125", "title": "Pickup waiting time", "statement": "After each stop a delivery vehicle waits the pickup time of the next origin before it enters the road, and enters when the time is over as soon as it is first in line and there is room.", "quantifier": "every network, set of tours, pickup times, number of intervals, random numbers", "why_tests_cant": "timing claim about every vehicle in every run, under every congestion of the connector", "anchors": ["src/delivery_traffic.cpp:MNM_Dlink_Pq_Delay::clear_incoming_array", "src/delivery_traffic.cpp:MNM_Link_Factory_Delivery::make_link"]}
{"id": "C126", "title": "Charging stations conserve vehicles", "statement": "In every interval the vehicles in a charging station plus those that leave are those that were there plus those that arrived; at most one vehicle per slot leaves; each leaving vehicle is fully charged, enters its next link and is counted once by the counters of both links and of the station; over a whole run the station's counter is the number of vehicles that left divided by the flow scalar.", "quantifier": "every station, every schedule of arrivals, every number of intervals, every order of the incoming links", "why_tests_cant": "holds for every history of arrivals and every shuffle of the links", "anchors": ["src/ev_traffic.cpp:MNM_Charging_Station::evolve", "src/ev_traffic.cpp:MNM_Charging_Station::move_out_veh"]}
{"id": "C127", "title": "Time in a charging station", "statement": "Every vehicle that arrives at a charging station leaves it: the vehicle at place m of a queue whose first vehicle has been charging for c intervals leaves after exactly (T - c) + m (T + 1) further intervals, T being the charging time; a slot serves one waiting vehicle per charging time.", "quantifier": "every station, history of arrivals, vehicle, number of intervals", "why_tests_cant": "exact timing of every vehicle in every history", "anchors": ["src/ev_traffic.cpp:MNM_Charging_Station::evolve"]}
{"id": "C128", "title": "Estimated waiting time", "statement": "The waiting time a station publishes for the next interval is the time a vehicle arriving in it waits before charging.", "quantifier": "every station and history of arrivals", "why_tests_cant": "relates an estimate to the future of every history", "anchors": ["src/ev_traffic.cpp:MNM_Charging_Station::get_current_estimated_waiting_time", "src/ev_traffic.cpp:MNM_Charging_Station::evolve"]}
{"id": "C129", "title": "Idle slots are used", "statement": "A vehicle that finds an idle slot starts charging at once; no slot is idle while a vehicle waits.", "quantifier": "every station and history of arrivals", "why_tests_cant": "depends on the relative timing of arrivals", "anchors": ["src/ev_traffic.cpp:MNM_Charging_Station::evolve"]}
{"id": "C130", "title": "Capacity of a station", "statement": "A station with n slots charges up to n times the flow scalar vehicles at a time and can be simulated with any positive flow scalar.", "quantifier": "every number of slots and flow scalar", "why_tests_cant": "all numbers", "anchors": ["src/ev_traffic.cpp:MNM_Charging_Station::MNM_Charging_Station", "src/ev_traffic.cpp:MNM_Charging_Station::evolve"]}
{"id": "C131", "title": "Vehicles that pass a station", "statement": "Only adaptive electric vehicles on their way to a station enter its queues; other vehicles that come through its node pass it.", "quantifier": "every station, state and set of arriving vehicles", "why_tests_cant": "depends on routes and assignments of all vehicles", "anchors": ["src/ev_traffic.cpp:MNM_Charging_Station::evolve"]}
{"id": "C132", "title": "Starting range of electric vehicles", "statement": "With any starting range between zero and the full range the trip of an electric vehicle is routed without failing an assertion.", "quantifier": "every starting range, full range, sequence of links, routing updates and charging", "why_tests_cant": "the assertion fails only for some ranges and link lengths", "anchors": ["src/ev_traffic.cpp:MNM_Veh_Electrified::need_charging", "src/ev_traffic.cpp:MNM_Routing_Adaptive_With_POIs::update_routing"]}
{"id": "C133", "title": "Range and miles", "statement": "Charging fills the battery; the miles since the last charge are those of the links driven; a vehicle never drives further than its range.", "quantifier": "every sequence of links, routing updates and charging", "why_tests_cant": "all sequences", "anchors": ["src/ev_traffic.cpp:MNM_Veh_Electrified::charge", "src/ev_traffic.cpp:MNM_Veh_Electrified::update_miles_traveled"]}
{"id": "C134", "title": "Choice of the charging station", "statement": "An electric vehicle is sent to the candidate station with the least cost of travel, waiting, charging and price for its origin and destination.", "quantifier": "every set of candidates, costs, queues and prices", "why_tests_cant": "all cost tables and shuffles", "anchors": ["src/ev_traffic.cpp:MNM_Routing_Adaptive_With_POIs::update_best_POI", "src/ev_traffic.cpp:MNM_Routing_Adaptive_With_POIs::update_link_cost"]}
{"id": "C135", "title": "Releases with delivery tours match the demand", "statement": "In every release interval the vehicles released are exactly, for every demand row and every delivery tour of every origin, the demand of the interval times the flow scalar rounded up or down (kept when whole); in other intervals, and after the last assignment interval, nothing is released; what a vehicle was released for, its tour and its departure time never change.", "quantifier": "every network, demand, set of tours, number of intervals, random numbers", "why_tests_cant": "all demands, tours, rounding draws and intervals", "anchors": ["src/delivery_traffic.cpp:MNM_Origin_Delivery::release_one_interval", "src/delivery_traffic.cpp:MNM_Veh_Factory_Delivery::make_veh_delivery", "src/dta.cpp:MNM_Dta::load_once"]}
{"id": "C136", "title": "The planning step can be repeated", "statement": "After initialisation the real-time engine can run any number of planning steps, with any numbers of estimation and optimisation iterations, and can be initialised again, without touching freed memory.", "quantifier": "every number of steps and of iterations", "why_tests_cant": "all call sequences; freed memory need not fail visibly", "anchors": ["src/realtime_dta.cpp:MNM_Realtime_Dta::one_iteration", "src/realtime_dta.cpp:MNM_Realtime_Dta::estimate_previous", "src/realtime_dta.cpp:MNM_Realtime_Dta::optimize_next", "src/realtime_dta.cpp:MNM_Realtime_Dta::predict_next", "src/routing.cpp:MNM_Routing_Fixed::~MNM_Routing_Fixed", "src/routing.cpp:MNM_Routing_Fixed::set_path_table"]}
{"id": "C137", "title": "Compliance with message signs", "statement": "The compliance ratio of a message sign follows the estimated share of drivers that changed away from the links it does not recommend, and prediction lowers the shares of these routes accordingly.", "quantifier": "every table of routes, demand, sign and history of ratios", "why_tests_cant": "all flows", "anchors": ["src/realtime_dta.cpp:MNM_Realtime_Dta::update_compliance_ratio", "src/realtime_dta.cpp:MNM_Realtime_Dta::predict_next", "src/vms.cpp:MNM_Link_Vms::MNM_Link_Vms"]}
{"id": "C138", "title": "Link recommended by a message sign", "statement": "A message sign recommends, among the links that follow its own, the one over which the planned shares send the most additional flow compared with the estimated shares.", "quantifier": "every network, sign, table of routes, demand and result of the planning", "why_tests_cant": "all networks and share tables", "anchors": ["src/vms.cpp:MNM_Link_Vms::generate_detour_link", "src/vms.cpp:MNM_Link_Vms::hook_link", "src/vms.cpp:MNM_Link_Vms::hook_path", "src/realtime_dta.cpp:MNM_Realtime_Dta::optimize_next"]}
{"id": "C139", "title": "Average travel times of a pass", "statement": "A gradient pass leaves for every link the mean of the travel times sampled during the pass, and the differences to the measurements of that pass.", "quantifier": "every network, horizon, number of samples, earlier result", "why_tests_cant": "all horizons and numbers of samples, all earlier calls", "anchors": ["src/realtime_dta.cpp:MNM_Realtime_Dta::calculate_before_shot_gradient", "src/realtime_dta.cpp:MNM_Realtime_Dta::calculate_after_shot_gradient"]}
{"id": "C140", "title": "Shares stay shares", "statement": "Initially all routes of an OD pair have equal shares; one gradient step keeps the shares nonnegative and of sum one, divides the shares with a positive gradient and multiplies the others by one plus the step size before normalising; only the signs of the gradients matter.", "quantifier": "every table of routes, gradients and step size from 0 to 9999", "why_tests_cant": "all tables and real numbers", "anchors": ["src/realtime_dta.cpp:MNM::update_path_p", "src/path.cpp:MNM_Pathset::normalize_p", "src/realtime_dta.cpp:MNM_Realtime_Dta::init_running"]}
{"id": "C141", "title": "Optimisation moves traffic to better routes", "statement": "Optimisation iterations lower the shares of routes whose marginal cost is higher than that of the other routes of the OD pair.", "quantifier": "every network, table of routes, demand, travel times, flows, step size, number of iterations", "why_tests_cant": "all tables, times and iteration counts", "anchors": ["src/realtime_dta.cpp:MNM_Realtime_Dta::optimize_next", "src/realtime_dta.cpp:MNM_Realtime_Dta::calculate_after_shot_gradient", "src/realtime_dta.cpp:MNM::update_path_p"]}
{"id": "C142", "title": "A screenshot is a copy of the network state", "statement": "A screenshot holds every vehicle of the network, at its place, with its trip and remaining route, and its links report the flows and supplies of the original.", "quantifier": "every network and state", "why_tests_cant": "all states", "anchors": ["src/realtime_dta.cpp:MNM::make_screenshot", "src/realtime_dta.h:copy_veh", "src/routing.cpp:MNM_Routing_Fixed::add_veh_path"]}
{"id": "C143", "title": "Prediction loads the coming demand", "statement": "A prediction releases the demand of each assignment interval at its beginning and counts the vehicles that arrive.", "quantifier": "every network, state, demand interval, horizon, random numbers", "why_tests_cant": "all horizons and states", "anchors": ["src/realtime_dta.cpp:MNM_Realtime_Dta::predict_next", "src/od.cpp:MNM_Destination::receive"]}
{"id": "C144", "title": "Measured link travel times", "statement": "Travel times measured during a pass are positive; the time of a link changes only in an interval in which a vehicle last seen entering this link enters another link (or has finished), so that the time on the last link of a trip is not measured; averages only grow.", "quantifier": "every network, pass, interval and set of moving vehicles", "why_tests_cant": "all histories of the vehicles", "anchors": ["src/marginal_cost.cpp:MNM_Link_Tt::update_tt", "src/marginal_cost.cpp:MNM_Link_Tt::update_indiviual_tt"]}
{"id": "C145", "title": "Passengers are conserved", "statement": "However a multimodal simulation proceeds (release at origins and parking lots, routing, walking, stops, buses, destinations), every passenger made is at every moment in exactly one place, or has been received by the destination exactly once; nobody appears twice or vanishes.", "quantifier": "every network, state, order of operations, routing decisions and shuffles", "why_tests_cant": "all interleavings", "anchors": ["src/multimodal.cpp:MNM_Busstop_Physical::evolve", "src/multimodal.cpp:MNM_Busstop_Virtual::hold_bus", "src/multimodal.cpp:MNM_Busstop_Virtual::release_bus", "src/multimodal.cpp:MNM_Veh_Multimodal::board_and_alight", "src/multimodal.cpp:MNM_Busstop_Virtual::virtual_evolve", "src/multimodal.cpp:MNM_Origin_Multimodal::evolve", "src/multimodal.cpp:MNM_Destination_Multimodal::evolve"]}
{"id": "C146", "title": "Buses are never overfull", "statement": "The number of passengers on a bus never exceeds its capacity (times the flow scalar).", "quantifier": "every network, sequence of operations and shuffles", "why_tests_cant": "all histories of boarding and alighting", "anchors": ["src/multimodal.cpp:MNM_Veh_Multimodal::board_and_alight"]}
{"id": "C147", "title": "First come, first served at stops", "statement": "At a stop the passengers at the head of the line board, in order; someone is left behind only if the bus is full or the boarding rate is used up; only passengers of this stop get off, up to the alighting rate; the others stay.", "quantifier": "every stop, line, load, rates and shuffle", "why_tests_cant": "all lines and loads", "anchors": ["src/multimodal.cpp:MNM_Veh_Multimodal::board_and_alight"]}
{"id": "C148", "title": "A bus leaves only when it is done", "statement": "A bus leaves a stop only when nobody aboard wants to get off there, nobody waits for its route unless it is full, and its dwell time has passed.", "quantifier": "every bus, stop, line, load, flow scalar", "why_tests_cant": "all states", "anchors": ["src/multimodal.cpp:MNM_Busstop_Virtual::hold_bus"]}
{"id": "C149", "title": "Buses are not held for ever", "statement": "With finitely many passengers at a stop and nobody else coming, a bus leaves after a bounded time.", "quantifier": "every bus, stop, line, load, rates, unit of time and seconds per passenger", "why_tests_cant": "no bound on the length of stay; must hold for all parameters", "anchors": ["src/multimodal.cpp:MNM_Busstop_Virtual::hold_bus", "src/multimodal.cpp:MNM_Veh_Multimodal::board_and_alight", "src/multimodal.cpp:MNM_Dta_Multimodal::initialize"]}
{"id": "C150", "title": "Walking takes the walking time", "statement": "A passenger on a walking link reaches its end exactly after the waiting time plus the (at least one) intervals of walking, whoever else is there.", "quantifier": "every link, time, passenger, other passengers and orders of visiting", "why_tests_cant": "all times and orders", "anchors": ["src/multimodal.cpp:MNM_Walking_Link::clear_incoming_array", "src/multimodal.cpp:MNM_Walking_Link::evolve", "src/multimodal.cpp:MNM_Passenger::MNM_Passenger"]}
{"id": "C151", "title": "Implicit buses make passengers wait", "statement": "With implicit buses a passenger waits the historical waiting time at a stop before riding, as the travel time reported for the boarding link says.", "quantifier": "every waiting time", "why_tests_cant": "all waiting times", "anchors": ["src/multimodal.cpp:MNM_Busstop_Physical::evolve", "src/multimodal.cpp:MNM_Walking_Link::get_link_tt", "src/multimodal.cpp:MNM_Busstop_Virtual::virtual_evolve"]}
{"id": "C152", "title": "Riders who stay aboard are not delayed", "statement": "With implicit buses a passenger who stays aboard passes a stop at once, however many others get off there.", "quantifier": "every line of riders and rates", "why_tests_cant": "all lines", "anchors": ["src/multimodal.cpp:MNM_Busstop_Virtual::virtual_evolve"]}
{"id": "C153", "title": "Every parked car counts once", "statement": "A parking lot takes every car that arrives exactly once, makes one passenger for each park-and-ride car, in order, leaves other vehicles, and records the search time of its occupancy for the next interval.", "quantifier": "every queue of vehicles and lot", "why_tests_cant": "all queues", "anchors": ["src/multimodal.cpp:MNM_Parking_Lot::release_one_interval_passenger", "src/multimodal.cpp:MNM_Parking_Lot::get_cruise_time"]}
{"id": "C154", "title": "Parking lots do not overflow", "statement": "A parking lot never holds more cars than its capacity, in cars of the demand.", "quantifier": "every capacity and arrivals", "why_tests_cant": "all arrivals", "anchors": ["src/multimodal.cpp:MNM_Parking_Lot::release_one_interval_passenger"]}
{"id": "C155", "title": "Searching takes longer in fuller lots", "statement": "The time to find a place grows with the number of parked cars and is at most the maximum parking time.", "quantifier": "every capacity, average time and occupancies", "why_tests_cant": "all numbers", "anchors": ["src/multimodal.cpp:MNM_Parking_Lot::release_one_interval_passenger"]}
{"id": "C156", "title": "Accounts of passengers", "statement": "The numbers of passengers made, finished and on the way, of those with park-and-ride, and their total time, always agree with the passengers made and removed.", "quantifier": "every history of making and removing passengers", "why_tests_cant": "all histories", "anchors": ["src/multimodal.cpp:MNM_Passenger_Factory::make_passenger", "src/multimodal.cpp:MNM_Passenger_Factory::remove_finished_passenger"]}
{"id": "C157", "title": "Loading ends when everybody has arrived", "statement": "Without a number of intervals in the configuration loading ends when no vehicle and no passenger is on the way; with one it ends exactly after that number.", "quantifier": "every state", "why_tests_cant": "all states", "anchors": ["src/multimodal.cpp:MNM_Dta_Multimodal::finished_loading"]}
{"id": "C158", "title": "Length of a bus link", "statement": "The portions of driving links under a bus link add up to the distance driven between its two stops.", "quantifier": "every sequence of driving links, lengths and positions of stops", "why_tests_cant": "all sequences and lengths", "anchors": ["src/multimodal.cpp:MNM_Bus_Link::get_overlapped_driving_link_length_portion"]}
{"id": "C159", "title": "Reported waiting time for a bus", "statement": "The waiting time reported at a stop is the time until the next bus comes, for every unit of time, and it is larger than any other when no bus comes any more.", "quantifier": "every timetable, time, unit of time and number of buses", "why_tests_cant": "all timetables and times", "anchors": ["src/multimodal.cpp:MNM_Busstop_Virtual::get_waiting_time_snapshot"]}
{"id": "C160", "title": "Volume of a point queue with buses", "statement": "The volume of a point-queue link in the multimodal network counts the vehicles on it; vehicles are admitted in order.", "quantifier": "every link, supply and arrivals", "why_tests_cant": "all numbers of vehicles", "anchors": ["src/multimodal.cpp:MNM_Dlink_Pq_Multimodal::clear_incoming_array"]}
{"id": "C161", "title": "Order in cells with stops", "statement": "Vehicles leave a cell in the order in which they are in it, except for buses held at a stop; none is lost or doubled; no more leave than the flow allows.", "quantifier": "every cell, queue, stops, flow", "why_tests_cant": "all queues", "anchors": ["src/multimodal.cpp:MNM_Dlink_Ctm_Multimodal::move_veh_queue_in_cell"]}
{"id": "C162", "title": "Passengers board in a traffic jam", "statement": "A bus standing at a stop keeps serving passengers while the traffic ahead does not move.", "quantifier": "every number of intervals", "why_tests_cant": "all lengths of jams", "anchors": ["src/multimodal.cpp:MNM_Dlink_Ctm_Multimodal::move_veh_queue_in_cell", "src/multimodal.cpp:MNM_Busstop_Virtual::hold_bus"]}
{"id": "C163", "title": "Tdsp answers with a best route of the given tables", "statement": "Given rectangular arrays of link travel times and costs (any order of rows, the last row of a link counts), read_td_cost_py, build_tdsp_tree and extract_tdsp succeed and return, for every origin and start interval, a table whose first row carries the least cost over all routes and the travel time of the listed route; the node and link columns are that route, ended by -1; without a route the single row (origin, -1, infinity, -1) is returned.  What the object was used for before (with horizons not shorter) does not matter.", "quantifier": "every network, destination, origin, start interval, horizon, arrays with non-negative or infinite costs for all links, previous use of the object, order of iteration", "why_tests_cant": "all tables, networks and histories of the object; optimality over all routes", "anchors": ["macposts/_ext/tdsp.cpp:Tdsp::read_td_cost_py", "macposts/_ext/tdsp.cpp:Tdsp::read_td_link_cost", "macposts/_ext/tdsp.cpp:Tdsp::build_tdsp_tree", "macposts/_ext/tdsp.cpp:Tdsp::extract_tdsp"]}
{"id": "C164", "title": "New tables replace the old ones", "statement": "After new tables have been read (arrays or text files), the answers depend on the new tables only.", "quantifier": "every object, previous tables and new tables", "why_tests_cant": "all histories of one object", "anchors": ["macposts/_ext/tdsp.cpp:Tdsp::read_td_link_cost", "macposts/_ext/tdsp.cpp:Tdsp::read_td_cost_txt", "src/io.cpp:MNM_IO::read_td_link_cost", "macposts/_ext/tdsp.cpp:Tdsp::extract_tdsp"]}
{"id": "C165", "title": "An object can be initialised again", "statement": "initialize may be called again on the same object with another number of intervals, after which tables of the new size can be read.", "quantifier": "every object, previous tables, new horizon and tables", "why_tests_cant": "all histories of one object", "anchors": ["macposts/_ext/tdsp.cpp:Tdsp::initialize", "macposts/_ext/tdsp.cpp:Tdsp::read_td_link_cost"]}
{"id": "C166", "title": "The cost shown is the cost of the route shown", "statement": "With movement (node) costs and times, the cost in the first row of the result is the cost of the listed route: its links at the intervals in which they are entered plus its movements.", "quantifier": "every network, tables of links and movements, origin, start interval", "why_tests_cant": "all tables and routes", "anchors": ["src/shortest_path.cpp:MNM_TDSP_Tree::update_tree", "src/shortest_path.cpp:MNM_TDSP_Tree::get_tdsp", "src/shortest_path.cpp:MNM_Shortest_Path::all_to_one_FIFO"]}
{"id": "C167", "title": "Empty movement tables change nothing", "statement": "If the movement tables list no movement from a link of the network, build_tdsp_tree and extract_tdsp answer (or fail) exactly as without movement tables.", "quantifier": "every object, network, tables, destination, origin and start interval", "why_tests_cant": "all networks and tables", "anchors": ["src/shortest_path.cpp:MNM_TDSP_Tree::update_tree", "src/shortest_path.cpp:MNM_TDSP_Tree::get_tdsp", "macposts/_ext/tdsp.cpp:Tdsp::build_tdsp_tree", "macposts/_ext/tdsp.cpp:Tdsp::extract_tdsp"]}
{"id": "C168", "title": "Wrong use of Tdsp is reported", "statement": "Asking for a route before a tree has been built, or building a tree when a link has no row in the tables, raises an error.", "quantifier": "every object, origin, interval, tables", "why_tests_cant": "all orders of calls and incomplete tables", "anchors": ["macposts/_ext/tdsp.cpp:Tdsp::extract_tdsp", "macposts/_ext/tdsp.cpp:Tdsp::build_tdsp_tree", "src/shortest_path.cpp:MNM_TDSP_Tree::update_tree"]}
{"id": "C169", "title": "Gradient rows are exactly the delays caused", "statement": "get_car_ltg_matrix and get_truck_ltg_matrix list exactly the delays that an extra vehicle causes: for a registered path, a given start interval and a registered link of the path that is congested when the effect of the vehicle arrives, one row for each interval until the queue is gone (or until travel times are no longer known), with the mean headway of the vehicles that leave meanwhile.  No row is about an interval before the start; gradients are positive.", "quantifier": "every network with recorded curves, tables, registered paths and links, start intervals, threshold", "why_tests_cant": "all tables of travel times, congestion and dissipation, and all paths", "anchors": ["macposts/_ext/mcdta.cpp:Mcdta::get_car_ltg_matrix", "macposts/_ext/mcdta.cpp:Mcdta::get_truck_ltg_matrix", "src/multiclass.cpp:MNM_DTA_GRADIENT::add_ltg_records_veh"]}
{"id": "C170", "title": "Each class has its own gradients", "statement": "The gradient table of cars depends on the data of the cars only, that of trucks on the data of the trucks only.", "quantifier": "every pair of networks that agree on one class", "why_tests_cant": "all data of the other class", "anchors": ["macposts/_ext/mcdta.cpp:Mcdta::get_car_ltg_matrix", "macposts/_ext/mcdta.cpp:Mcdta::get_truck_ltg_matrix", "src/multiclass.cpp:MNM_DTA_GRADIENT::add_ltg_records_veh"]}
{"id": "C171", "title": "Gradients are defined on proper paths", "statement": "If the tables keep the order of vehicles and dissipation times fit them, get_car_ltg_matrix and get_truck_ltg_matrix return for all registered paths that begin on a point-queue link, and all start intervals of the loading: no assertion fails, nothing is read outside the tables.", "quantifier": "every network, consistent tables, registered paths and links, start intervals, threshold", "why_tests_cant": "all tables and paths", "anchors": ["macposts/_ext/mcdta.cpp:Mcdta::get_car_ltg_matrix", "macposts/_ext/mcdta.cpp:Mcdta::get_truck_ltg_matrix", "src/multiclass.cpp:MNM_DTA_GRADIENT::add_ltg_records_veh"]}
{"id": "C172", "title": "Gradients are defined on every path", "statement": "After the tables have been built, the gradient calls return for every registered path.", "quantifier": "every network, tables and registered path", "why_tests_cant": "all networks and paths", "anchors": ["macposts/_ext/mcdta.cpp:Mcdta::get_car_ltg_matrix", "macposts/_ext/mcdta.cpp:Mcdta::get_truck_ltg_matrix", "src/multiclass.cpp:MNM_DTA_GRADIENT::add_ltg_records_veh"]}
{"id": "C173", "title": "The gradient matrix adds up the gradient rows", "statement": "With path IDs 0, 1, 2, ... in the order of registration, the entry of get_complete_car_ltg_matrix (or truck) for a link, a path, an arrival interval and a start interval (both of the length of assignment intervals) is the sum of the gradients in the rows of the table for them.", "quantifier": "every network, tables, registered paths and links, start intervals, length of assignment intervals", "why_tests_cant": "all tables, paths and groupings of intervals", "anchors": ["macposts/_ext/mcdta.cpp:Mcdta::get_complete_car_ltg_matrix", "macposts/_ext/mcdta.cpp:Mcdta::get_complete_truck_ltg_matrix", "src/multiclass.cpp:MNM_DTA_GRADIENT::add_ltg_records_eigen_veh"]}
{"id": "C174", "title": "Columns belong to the registered paths", "statement": "For any path IDs, the columns of the complete gradient matrix belong to the registered paths in their order, and delays outside the intervals asked for are left out.", "quantifier": "every set of registered paths, number of intervals", "why_tests_cant": "all IDs and numbers of intervals", "anchors": ["macposts/_ext/mcdta.cpp:Mcdta::get_complete_car_ltg_matrix", "src/multiclass.cpp:MNM_DTA_GRADIENT::add_ltg_records_eigen_veh"]}
{"id": "C175", "title": "The lowest-cost path is a path and the flag tells whether it is known", "statement": "After update_tdsp_tree, get_lowest_cost_path returns for every origin from which the destination can be reached, every other destination and every admitted departure interval. The nodes and links shown are a path without cycles from the origin to the destination; it is a cheapest way with its cycles cut out; the number shown is the whole part of the least cost; and the flag is 1 exactly if the car path set of the pair contains this path.", "quantifier": "every network, tables of costs and positive travel times that cover the horizon, path sets, origin, destination, departure interval", "why_tests_cant": "all networks, tables and departures", "anchors": ["macposts/_ext/mcdta.cpp:Mcdta::update_tdsp_tree", "macposts/_ext/mcdta.cpp:Mcdta::get_lowest_cost_path", "src/shortest_path.cpp:MNM_TDSP_Tree::update_tree", "src/path.cpp:MNM_Path::eliminate_cycles"]}
{"id": "C176", "title": "The cost shown is the cost of the path shown", "statement": "The second row of get_lowest_cost_path shows what the path in the other rows costs when departing at the given interval.", "quantifier": "every network, tables, origin, destination, departure interval", "why_tests_cant": "all networks, tables and departures", "anchors": ["macposts/_ext/mcdta.cpp:Mcdta::update_tdsp_tree", "macposts/_ext/mcdta.cpp:Mcdta::get_lowest_cost_path", "src/shortest_path.cpp:MNM_TDSP_Tree::update_tree", "src/path.cpp:MNM_Path::eliminate_cycles"]}
{"id": "C177", "title": "Every query has an answer", "statement": "After a simulation, update_tdsp_tree followed by get_lowest_cost_path answers for every pair of nodes and every interval of the horizon, telling if there is no path.", "quantifier": "every network, simulation, pair of nodes, departure interval", "why_tests_cant": "all networks, simulations and departures", "anchors": ["macposts/_ext/mcdta.cpp:Mcdta::update_tdsp_tree", "macposts/_ext/mcdta.cpp:Mcdta::get_lowest_cost_path", "src/shortest_path.cpp:MNM_TDSP_Tree::update_tree", "src/path.cpp:MNM_Path::eliminate_cycles"]}
{"id": "C178", "title": "Configuration entries are read as written", "statement": "In a configuration file made of blank lines, comments, section headers and settings, with any blanks around names and values, a reader for a section gets for an entry the value that was last set for it in that section, and an exception if it was never set there.", "quantifier": "every file, section, entry and layout, for section names without slash", "why_tests_cant": "all files and layouts", "anchors": ["src/ults.cpp:ConfigFile::ConfigFile", "src/ults.cpp:ConfigFile::Value", "src/ults.cpp:trim"]}
{"id": "C179", "title": "Different entries of different sections do not interfere", "statement": "The value of an entry of a section depends only on settings of this entry in this section, whatever the names are.", "quantifier": "every file, section name and entry name", "why_tests_cant": "all names", "anchors": ["src/ults.cpp:ConfigFile::ConfigFile", "src/ults.cpp:ConfigFile::Value", "src/ults.cpp:trim"]}
{"id": "C180", "title": "Numbers in the configuration have their decimal value", "statement": "If the value of an entry begins with a decimal numeral (optional minus sign, digits, optional fraction), followed by nothing or by text that does not continue it, get_float gives its value and get_int its whole part, if that is an int.", "quantifier": "every file, numeral and following text", "why_tests_cant": "all numerals", "anchors": ["src/ults.cpp:ConfigFile::ConfigFile", "src/ults.cpp:ConfigFile::Value", "src/ults.cpp:trim", "src/ults.cpp:MNM_ConfReader::get_int", "src/ults.cpp:MNM_ConfReader::get_float", "src/ults.cpp:Chameleon::operator double"]}
{"id": "C181", "title": "Errors in the configuration are reported", "statement": "A missing configuration file, a line that is neither comment, section nor setting, and a value that is not a number where a number is asked for lead to an error.", "quantifier": "every file", "why_tests_cant": "all malformed files", "anchors": ["src/ults.cpp:ConfigFile::ConfigFile", "src/ults.cpp:ConfigFile::Value", "src/ults.cpp:trim", "src/ults.cpp:MNM_ConfReader::get_int", "src/ults.cpp:MNM_ConfReader::get_float", "src/ults.cpp:Chameleon::operator double"]}
{"id": "C182", "title": "Remarks at the end of a line are ignored", "statement": "A remark after a value, set off by a blank and #, does not change the value.", "quantifier": "every setting and remark", "why_tests_cant": "all values and remarks", "anchors": ["src/ults.cpp:ConfigFile::ConfigFile", "src/ults.cpp:ConfigFile::Value", "src/ults.cpp:trim"]}
{"id": "C183", "title": "Default values are used for missing entries", "statement": "Asking for an entry with a default value gives the default if the entry is not set.", "quantifier": "every file, entry and default", "why_tests_cant": "all files", "anchors": ["src/ults.cpp:ConfigFile::ConfigFile", "src/ults.cpp:ConfigFile::Value", "src/ults.cpp:trim"]}
{"id": "C184", "title": "Mode shares form a distribution that prefers cheaper modes", "statement": "The shares computed from the costs of the modes are one per mode, never negative and add up to one; a mode of infinite cost gets nothing, and of two modes the one with the smaller alpha + beta * cost never gets less.", "quantifier": "every set of modes, costs, constants and monotone exp", "why_tests_cant": "all cost tables", "anchors": ["src/multimodal.cpp:MNM_MM_Due::logit_fn"]}
{"id": "C185", "title": "There are mode shares whenever a mode has a finite cost", "statement": "If at least one mode has a finite cost, mode shares are given.", "quantifier": "every cost table", "why_tests_cant": "all cost tables, and floating point underflow", "anchors": ["src/multimodal.cpp:MNM_MM_Due::logit_fn"]}
{"id": "C186", "title": "Demand of an interval is divided over its minutes without loss", "statement": "The demand per minute of an assignment interval adds up to the demand of the interval and is never negative: all in the first minute, or evenly over the largest number of minutes that still release a whole unit each (all minutes if there is no such number).", "quantifier": "every demand, scaling factor and number of minutes", "why_tests_cant": "all demands and scalings", "anchors": ["src/multimodal.cpp:MNM_MM_Due::update_origin_demand_from_passenger_path_table", "src/multimodal.cpp:MNM_MM_Due::update_origin_demand_logit_model"]}
{"id": "C187", "title": "The mode split of an interval releases its passengers", "statement": "After the mode split of an assignment interval, the travellers released for an OD pair in this interval over all modes are its passenger demand, modes that are not usable get none, other intervals are not changed, and the reported totals of the modes add up to the total demand.", "quantifier": "every list of OD pairs, costs, usable modes and interval", "why_tests_cant": "all OD pairs in all orders", "anchors": ["src/multimodal.cpp:MNM_MM_Due::update_origin_demand_logit_model", "src/multimodal.cpp:MNM_MM_Due::get_mode_split_snapshot"]}
{"id": "C188", "title": "First passenger path flows add up to the demand", "statement": "The first path flows of an OD pair add up to its demand in every interval, in equal parts for the modes, on the first path of each; an OD pair without mode or a mode without path is reported.", "quantifier": "every demand, number of modes and paths", "why_tests_cant": "all path tables", "anchors": ["src/multimodal.cpp:MNM_MM_Due::init_passenger_path_flow"]}
{"id": "C189", "title": "Demand follows the passenger path flows", "statement": "After the demand has been set from the path flows, the demand of a usable mode in an interval is the sum over its paths of flow divided by the people in a car.", "quantifier": "every path table and interval", "why_tests_cant": "all path tables", "anchors": ["src/multimodal.cpp:MNM_MM_Due::update_origin_demand_from_passenger_path_table"]}
{"id": "C190", "title": "Modes that are not usable have no demand", "statement": "After the demand has been set from the path flows, modes that are switched off or not available for an OD pair have no demand.", "quantifier": "every path table and pair", "why_tests_cant": "all inputs", "anchors": ["src/multimodal.cpp:MNM_MM_Due::update_origin_demand_from_passenger_path_table"]}
{"id": "C191", "title": "The gap is zero exactly when used paths are equally good", "statement": "The gap of the multimodal equilibrium is never negative; it is zero exactly when for every OD pair all used paths (in all intervals, or in the same interval with fixed departure times) have the same disutility.", "quantifier": "every path table and disutility", "why_tests_cant": "all tables", "anchors": ["src/multimodal.cpp:MNM_MM_Due::compute_merit_function", "src/multimodal.cpp:MNM_MM_Due::compute_merit_function_fixed_departure_time_choice"]}
{"id": "C192", "title": "At gap zero nobody can do better", "statement": "When the gap is zero, no traveller has a path of lower disutility in the path table.", "quantifier": "every path table and disutility", "why_tests_cant": "all tables", "anchors": ["src/multimodal.cpp:MNM_MM_Due::compute_merit_function", "src/multimodal.cpp:MNM_MM_Due::compute_merit_function_fixed_departure_time_choice"]}
{"id": "C193", "title": "Usable modes survive the file", "statement": "The table of usable modes of all OD pairs written to the file is read back the same for the modes that are on.", "quantifier": "every table", "why_tests_cant": "all tables", "anchors": ["src/multimodal.cpp:MNM_MM_Due::check_od_mode_connectivity", "src/multimodal.cpp:MNM_MM_Due::save_od_mode_connectivity", "src/multimodal.cpp:MNM_MM_Due::load_od_mode_connectivity"]}
{"id": "C194", "title": "Each mode of travel can be switched off", "statement": "Any of the three modes can be switched off in the settings and the usable modes of the OD pairs are still computed, written and read.", "quantifier": "every setting and list of OD pairs", "why_tests_cant": "all settings and files", "anchors": ["src/multimodal.cpp:MNM_MM_Due::check_od_mode_connectivity", "src/multimodal.cpp:MNM_MM_Due::save_od_mode_connectivity", "src/multimodal.cpp:MNM_MM_Due::load_od_mode_connectivity"]}
{"id": "C195", "title": "Usable modes follow the network", "statement": "The table of usable modes tells for each OD pair which modes the network of the current run offers; an OD pair without any is reported.", "quantifier": "every network, history of runs and list of OD pairs", "why_tests_cant": "all pairs of successive runs", "anchors": ["src/multimodal.cpp:MNM_MM_Due::check_od_mode_connectivity", "src/multimodal.cpp:MNM_MM_Due::save_od_mode_connectivity", "src/multimodal.cpp:MNM_MM_Due::load_od_mode_connectivity"]}
{"id": "C196", "title": "Departure time choice moves travellers, it does not make or lose them", "statement": "Updating the passenger paths of an OD pair with departure time choice keeps its travellers over all paths and intervals; no path gets a negative number, only the best path in its interval gains, and the numbers that move are bounded by the demand times the step over the iteration (or are the same part of all paths of that interval for a new path). The update works for every well-formed table.", "quantifier": "every path table, best path, time, demand, step and iteration", "why_tests_cant": "all tables and iterations", "anchors": ["src/multimodal.cpp:MNM_MM_Due::update_path_table"]}
{"id": "C197", "title": "With fixed departure times every interval keeps its travellers", "statement": "Updating with fixed departure times keeps the travellers of every interval; no path gets a negative number, all paths but the best lose the same part, and the final check against the demand never fails when the table held the demand before.", "quantifier": "every path table, best paths, step and iteration", "why_tests_cant": "all tables", "anchors": ["src/multimodal.cpp:MNM_MM_Due::update_path_table_fixed_departure_time_choice"]}
{"id": "C198", "title": "Gradient projection keeps the travellers of every interval", "statement": "Gradient projection keeps the travellers of every interval and no flow becomes negative; paths with more than the average disutility of the paths in use do not gain, paths with less do not lose, and nothing moves when all are equally good. With a step between 0 and 1 it works on every table that holds the demand.", "quantifier": "every path table, disutilities and step", "why_tests_cant": "all tables", "anchors": ["src/multimodal.cpp:MNM_MM_Due::update_path_table_gp_fixed_departure_time_choice"]}
{"id": "C199", "title": "Gradient projection works for any positive step", "statement": "With any positive step size the gradient projection gives new path flows.", "quantifier": "every path table and positive step", "why_tests_cant": "all steps and tables", "anchors": ["src/multimodal.cpp:MNM_MM_Due::update_path_table_gp_fixed_departure_time_choice"]}
{"id": "C200", "title": "The best existing path has the lowest disutility", "statement": "The path returned as the best of the path table, over all modes and loading intervals, has the lowest disutility, and there is an answer for every pair with a path.", "quantifier": "every path table, cost table and loading interval", "why_tests_cant": "all tables and times", "anchors": ["src/multimodal.cpp:MNM_MM_Due::get_best_existing_path_for_single_interval", "src/multimodal.cpp:MNM_MM_Due::get_best_existing_path"]}
{"id": "C201", "title": "The best path for an interval has the lowest stored disutility", "statement": "With fixed departure times the path returned for an interval is one of the table, and none of the table has a lower stored disutility for the interval; there is an answer if every mode has paths with stored disutilities, park and ride comes with bus paths and the run covers the interval.", "quantifier": "every path table and interval", "why_tests_cant": "all tables", "anchors": ["src/multimodal.cpp:MNM_MM_Due::get_best_existing_path_for_single_interval", "src/multimodal.cpp:MNM_MM_Due::get_best_existing_path"]}
{"id": "C202", "title": "Travel times follow the links one after the other", "statement": "The travel time of a passenger path adds up the times of its links at the times they are entered, in whole intervals of at least one each, with walks, cruising and the change to the bus; times after the run use the last entry, and there is a time for every start when the tables cover the run.", "quantifier": "every path, start time and table of link times", "why_tests_cant": "all paths, tables and times", "anchors": ["src/multimodal.cpp:MNM_Passenger_Path_Driving::get_travel_time", "src/multimodal.cpp:MNM_Passenger_Path_Bus::get_travel_time", "src/multimodal.cpp:MNM_Passenger_Path_PnR::get_travel_time"]}
{"id": "C203", "title": "Costs grow with travel time and wrong arrivals", "statement": "The penalty for arriving at another time than wanted is not negative and zero exactly at that time; with time worth at least the early penalty, a longer journey on the same path never costs less.", "quantifier": "every path, time and cost parameter", "why_tests_cant": "all parameters and times", "anchors": ["src/multimodal.cpp:MNM_Passenger_Path_Driving::get_travel_cost_with_tt", "src/multimodal.cpp:MNM_Passenger_Path_Bus::get_travel_cost_with_tt", "src/multimodal.cpp:MNM_Passenger_Path_PnR::get_travel_cost_with_tt"]}
{"id": "C204", "title": "A bus journey that gets stuck never looks better than one that arrives", "statement": "A bus path with a link that cannot be passed within the run never costs less than a bus path that arrives, leaving at the same time.", "quantifier": "every pair of bus paths, tables and start", "why_tests_cant": "all tables", "anchors": ["src/multimodal.cpp:MNM_Passenger_Path_Driving::get_travel_time", "src/multimodal.cpp:MNM_Passenger_Path_Bus::get_travel_time", "src/multimodal.cpp:MNM_Passenger_Path_PnR::get_travel_time", "src/multimodal.cpp:MNM_Passenger_Path_Driving::get_travel_cost_with_tt", "src/multimodal.cpp:MNM_Passenger_Path_Bus::get_travel_cost_with_tt", "src/multimodal.cpp:MNM_Passenger_Path_PnR::get_travel_cost_with_tt"]}
{"id": "C205", "title": "Travellers pay what is charged on their way", "statement": "The cost of a path has the tolls of its links and the price of the parking lot used, and no parking fee without a lot.", "quantifier": "every path, toll and price", "why_tests_cant": "all networks and prices", "anchors": ["src/multimodal.cpp:MNM_Passenger_Path_Driving::get_travel_cost_with_tt", "src/multimodal.cpp:MNM_Passenger_Path_Bus::get_travel_cost_with_tt", "src/multimodal.cpp:MNM_Passenger_Path_PnR::get_travel_cost_with_tt"]}
{"id": "C206", "title": "Travellers leave in the interval of the best time", "statement": "Travellers who change to the best path leave in the assignment interval that has the best departure time.", "quantifier": "every path table and best time", "why_tests_cant": "all times of the run", "anchors": ["src/multimodal.cpp:MNM_MM_Due::update_path_table", "src/multimodal.cpp:MNM_MM_Due::get_best_existing_path_for_single_interval", "src/multimodal.cpp:MNM_MM_Due::get_best_existing_path"]}
{"id": "C207", "title": "Cars on the road carry the drivers of the equilibrium", "statement": "In the driving table made for the loading, every sequence of links of an OD pair carries in every interval the cars needed for the passenger paths along it (passengers divided by people in a car, summed over carpool sizes and parking lots), every sequence is there once, and the cars of the pair add up to those needed.", "quantifier": "every passenger path table, truck table without cars, pair, links and interval", "why_tests_cant": "all tables", "anchors": ["src/multimodal.cpp:MNM_MM_Due::passenger_path_table_to_multimodal_path_table", "src/multimodal.cpp:MNM_MM_Due::clear_multimodal_path_table_buffer"]}
{"id": "C208", "title": "Bus and park-and-ride tables carry their passengers", "statement": "In the bus table every sequence of bus links, and in the park-and-ride table every itinerary with its lot, carries the passengers of the passenger paths, and is there once.", "quantifier": "every passenger path table, pair and itinerary", "why_tests_cant": "all tables", "anchors": ["src/multimodal.cpp:MNM_MM_Due::passenger_path_table_to_multimodal_path_table", "src/multimodal.cpp:MNM_MM_Due::clear_multimodal_path_table_buffer"]}
{"id": "C209", "title": "Trucks stay on the road", "statement": "Making the tables for the loading from passenger paths keeps all trucks of the truck table on their paths.", "quantifier": "every truck table and passenger path table", "why_tests_cant": "all tables and routing types", "anchors": ["src/multimodal.cpp:MNM_MM_Due::passenger_path_table_to_multimodal_path_table", "src/multimodal.cpp:MNM_MM_Due::clear_multimodal_path_table_buffer"]}
{"id": "C210", "title": "The tables have exactly the pairs a mode is offered to", "statement": "Each of the three tables has one path set for every OD pair of the passengers to which the mode is offered, and no other.", "quantifier": "every passenger path table, settings and connections", "why_tests_cant": "all tables", "anchors": ["src/multimodal.cpp:MNM_MM_Due::passenger_path_table_to_multimodal_path_table", "src/multimodal.cpp:MNM_MM_Due::clear_multimodal_path_table_buffer"]}
{"id": "C211", "title": "Passenger paths can always be converted", "statement": "If the required tables exist, paths are filed by mode and all connections are known, the tables for the loading are made without failing.", "quantifier": "every passenger path table and routing type", "why_tests_cant": "all tables", "anchors": ["src/multimodal.cpp:MNM_MM_Due::passenger_path_table_to_multimodal_path_table", "src/multimodal.cpp:MNM_MM_Due::clear_multimodal_path_table_buffer"]}
{"id": "C212", "title": "The conversion can be repeated", "statement": "After passenger paths have been converted for a loading, converting them again gives the same tables.", "quantifier": "every passenger path table and routing type", "why_tests_cant": "all tables and types", "anchors": ["src/multimodal.cpp:MNM_MM_Due::passenger_path_table_to_multimodal_path_table", "src/multimodal.cpp:MNM_MM_Due::clear_multimodal_path_table_buffer"]}
{"id": "C213", "title": "Two-class node and link files", "statement": "Reading the first n rows of a two-class node or link file gives every id the kind, conversion factor and (for links) the attributes of its first row, in metres and seconds; a row of any other form raises an exception.", "quantifier": "every file with at least n data rows", "why_tests_cant": "all files", "anchors": ["src/multiclass.cpp:MNM_IO_Multiclass::build_node_factory_multiclass", "src/multiclass.cpp:MNM_IO_Multiclass::build_link_factory_multiclass"]}
{"id": "C214", "title": "Two-class demand of 15-minute intervals", "statement": "With assignment intervals of 15 minutes the demand of each class, pair and interval is put into the first minute (split 0) or evenly over as many minutes as possible with at least one vehicle each (split 1), and the minutes add up to the demand; the first row of a pair counts.", "quantifier": "every demand file, flow scalar and number of intervals", "why_tests_cant": "all files", "anchors": ["src/multiclass.cpp:MNM_IO_Multiclass::build_demand_multiclass"]}
{"id": "C215", "title": "Small demand is loaded too", "statement": "A demand of less than one vehicle (after scaling) per interval is kept by the demand reader.", "quantifier": "every demand file and flow scalar", "why_tests_cant": "all files", "anchors": ["src/multiclass.cpp:MNM_IO_Multiclass::build_demand_multiclass"]}
{"id": "C216", "title": "Assignment intervals of any length", "statement": "The two-class demand reader handles assignment intervals that are not 15 minutes long and any unit time.", "quantifier": "every demand file, unit time and assignment frequency", "why_tests_cant": "all files", "anchors": ["src/multiclass.cpp:MNM_IO_Multiclass::build_demand_multiclass", "src/multiclass.cpp:MNM_Origin_Multiclass::add_dest_demand_multiclass"]}
{"id": "C217", "title": "Shares of adaptive travellers", "statement": "Each pair gets the shares of its first row in the file of adaptive ratios, interval by interval, for two classes each minute of the interval.", "quantifier": "every file of ratios and number of intervals", "why_tests_cant": "all files", "anchors": ["src/io.cpp:MNM_IO::build_td_adaptive_ratio", "src/multiclass.cpp:MNM_IO_Multiclass::build_td_adaptive_ratio"]}
{"id": "C218", "title": "Blank lines and remarks are allowed", "statement": "Blank lines and lines that begin with # are skipped in every input file.", "quantifier": "every file and place of the remark", "why_tests_cant": "all files", "anchors": ["src/io.cpp:MNM_IO::build_link_td_attribute", "src/io.cpp:MNM_IO::build_link_toll", "src/multiclass.cpp:MNM_IO_Multiclass::build_link_toll_multiclass"]}
{"id": "C219", "title": "Tolls", "statement": "After reading the toll file each link in it has its last toll (of cars and trucks), all other links are unchanged.", "quantifier": "every toll file", "why_tests_cant": "all files", "anchors": ["src/io.cpp:MNM_IO::build_link_toll", "src/multiclass.cpp:MNM_IO_Multiclass::build_link_toll_multiclass"]}
{"id": "C220", "title": "A toll file with too few rows is reported", "statement": "If the toll file has fewer rows than configured an exception is raised.", "quantifier": "every toll file and number", "why_tests_cant": "all files", "anchors": ["src/io.cpp:MNM_IO::build_link_toll"]}
{"id": "C221", "title": "Shares of vehicle labels", "statement": "Each origin gets the numbers of its rows of the label file in order; a row of the wrong form is reported.", "quantifier": "every label file", "why_tests_cant": "all files", "anchors": ["src/io.cpp:MNM_IO::read_origin_vehicle_label_ratio", "src/multiclass.cpp:MNM_IO_Multiclass::read_origin_car_label_ratio"]}
{"id": "C222", "title": "Time-dependent link attributes (two classes)", "statement": "At each interval exactly the links with a row for that interval get the attributes and toll of their last row, whatever the order of the hash table; all other links are unchanged.", "quantifier": "every attribute file, network, interval and hash order", "why_tests_cant": "all files and orders", "anchors": ["src/multiclass.cpp:MNM_IO_Multiclass::build_link_td_attribute", "src/multiclass.cpp:MNM_Link_Factory_Multiclass::update_link_attribute"]}
{"id": "C223", "title": "Time-dependent tolls and unknown links", "statement": "The toll of a time-dependent row is applied as written, and a row for an unknown link is reported.", "quantifier": "every attribute file", "why_tests_cant": "all files", "anchors": ["src/multiclass.cpp:MNM_IO_Multiclass::build_link_td_attribute"]}
{"id": "C224", "title": "Time-dependent link attributes (one class)", "statement": "In a single-class simulation the rows of the time-dependent attribute file change the links at their intervals.", "quantifier": "every attribute file and interval", "why_tests_cant": "all files", "anchors": ["src/io.cpp:MNM_IO::build_link_td_attribute", "src/factory.h:MNM_Link_Factory::update_link_attribute"]}
{"id": "C225", "title": "Lists of numbers", "statement": "The readers of lists of integers, of rows of reals and of integer-real pairs return exactly the first n lines after the count (for pairs the first of each key).", "quantifier": "every file", "why_tests_cant": "all files", "anchors": ["src/io.cpp:MNM_IO::read_int", "src/io.cpp:MNM_IO::read_float", "src/io.cpp:MNM_IO::read_int_float"]}
{"id": "C226", "title": "Lists that are too short are reported", "statement": "If a list file has fewer lines than its first line says, an exception is raised.", "quantifier": "every file", "why_tests_cant": "all files", "anchors": ["src/io.cpp:MNM_IO::read_int", "src/io.cpp:MNM_IO::read_float"]}
{"id": "C227", "title": "Buses drive their route", "statement": "In the multimodal loading every bus that has started has driven, is about to drive and has still queued exactly the links of the route of its line, in order; without next link it has driven the whole route.", "quantifier": "every table of routes leading to their destinations, network, number of buses and history of routing rounds and moves", "why_tests_cant": "all histories of rounds and moves", "anchors": ["src/multimodal.cpp:MNM_Routing_Bus::register_veh", "src/multimodal.cpp:MNM_Routing_Bus::update_routing"]}
{"id": "C228", "title": "Park-and-ride cars drive to their lot", "statement": "Every park-and-ride car with a fixed route drives exactly the links of the driving part of one path offered between its origin and destination, and stops at the parking lot of that path.", "quantifier": "every path table, network and history", "why_tests_cant": "all histories of rounds and moves", "anchors": ["src/multimodal.cpp:MNM_Routing_PnR_Fixed::register_veh", "src/multimodal.cpp:MNM_Routing_PnR_Fixed::update_routing"]}
{"id": "C229", "title": "Passengers follow their path", "statement": "Every passenger with a fixed route walks and rides exactly the links of its path in order: one of the paths offered for its pair of nodes, or for a park-and-ride passenger the path it brought along; the path never changes under way.", "quantifier": "every path table, network and history", "why_tests_cant": "all histories of rounds and moves", "anchors": ["src/multimodal.cpp:MNM_Routing_PassengerBusTransit_Fixed::register_passenger", "src/multimodal.cpp:MNM_Routing_PassengerBusTransit_Fixed::update_routing"]}
{"id": "C230", "title": "Path shares of the current interval", "statement": "Travellers get their path with the probabilities given by the flows of the current assignment interval (the last one after the end), and these always add up to one per pair.", "quantifier": "every path table, frequency, number of intervals, time and random number", "why_tests_cant": "all times and numbers", "anchors": ["src/multimodal.cpp:MNM_Routing_PnR_Fixed::change_choice_portion", "src/multimodal.cpp:MNM_Routing_PassengerBusTransit_Fixed::change_choice_portion"]}
{"id": "C231", "title": "Sound plans never fail", "statement": "If every bus has a route, every pair of nodes paths, all made of known links ending at the destination, no round of routing fails.", "quantifier": "every sound plan, and history", "why_tests_cant": "all histories of rounds and moves", "anchors": ["src/multimodal.cpp:MNM_Routing_Bus::update_routing", "src/multimodal.cpp:MNM_Routing_PnR_Fixed::update_routing", "src/multimodal.cpp:MNM_Routing_PassengerBusTransit_Fixed::update_routing"]}
{"id": "C232", "title": "Unsound plans are reported", "statement": "A bus without route, a route without links, a pair without paths and a route ending short of its destination raise an exception.", "quantifier": "every plan and history", "why_tests_cant": "all plans", "anchors": ["src/multimodal.cpp:MNM_Routing_Bus::register_veh", "src/multimodal.cpp:MNM_Routing_PassengerBusTransit_Fixed::register_passenger"]}
{"id": "C233", "title": "Adaptive travellers get a nominal path only", "statement": "The rounds of fixed routing give an adaptive passenger or park-and-ride car at most one nominal path and never change its links to follow or its next link.", "quantifier": "every path table and round", "why_tests_cant": "all rounds", "anchors": ["src/multimodal.cpp:MNM_Routing_PnR_Fixed::update_routing", "src/multimodal.cpp:MNM_Routing_PassengerBusTransit_Fixed::update_routing_origin"]}
{"id": "C234", "title": "The parking lot of adaptive cars", "statement": "An adaptive park-and-ride car heads for a parking lot that is connected to its destination and not at it; each such lot can be drawn, whatever the travel times, and there is none only if no such lot exists.", "quantifier": "every list of lots, order and travel times", "why_tests_cant": "all orders and travel times", "anchors": ["src/multimodal.cpp:MNM_Routing_Multimodal_Adaptive::find_mid_destination_for_pnr"]}
{"id": "C235", "title": "Path tables with shares survive a round trip", "statement": "A path table saved with its shares and loaded again with the same network has for every pair the same paths in the same order, and every share within half of the sixth decimal plus the rounding of the number reader.", "quantifier": "every network without parallel links, path table, shares and order of the hash maps", "why_tests_cant": "all tables and shares", "anchors": ["src/path.cpp:MNM::save_path_table", "src/path.cpp:MNM_Path::buffer_to_string", "src/io.cpp:MNM_IO::load_path_table", "macposts/_ext/dta.cpp:Dta::save_path_table"]}
{"id": "C236", "title": "Saved shares are exact", "statement": "A share saved to a file and loaded again is the same number.", "quantifier": "every share", "why_tests_cant": "all numbers", "anchors": ["src/path.cpp:MNM_Path::buffer_to_string", "src/io.cpp:MNM_IO::load_path_table"]}
{"id": "C237", "title": "Remarks in the file of shares are skipped", "statement": "Blank lines and lines starting with # in the file of shares are skipped as they are in the file of paths, so that every path gets the shares of its own line.", "quantifier": "every path file and file of shares", "why_tests_cant": "all files", "anchors": ["src/io.cpp:MNM_IO::load_path_table"]}
{"id": "C238", "title": "A missing or short file of shares is reported", "statement": "Loading a path table with shares fails if the file of shares does not exist or has fewer lines than there are paths.", "quantifier": "every path file and file of shares", "why_tests_cant": "all files", "anchors": ["src/io.cpp:MNM_IO::load_path_table"]}
{"id": "C239", "title": "Node and link sequences translate into each other", "statement": "Links that lead along some nodes are translated to these nodes, nodes that can be followed are translated to links that lead along them, and without parallel links the two calls undo each other.", "quantifier": "every network, every route, every content of fresh memory", "why_tests_cant": "all networks and routes", "anchors": ["macposts/_ext/mmdta.cpp:Mmdta::link_seq_to_node_seq_driving", "macposts/_ext/mmdta.cpp:Mmdta::node_seq_to_link_seq_driving"]}
{"id": "C240", "title": "A missing link of a node sequence is reported", "statement": "Asking for the links of a node sequence fails when two successive nodes are not joined by a link.", "quantifier": "every network and node sequence, every content of fresh memory", "why_tests_cant": "the result depends on uninitialised memory", "anchors": ["macposts/_ext/mmdta.cpp:Mmdta::node_seq_to_link_seq_driving", "macposts/_ext/mmdta.cpp:Mmdta::node_seq_to_link_seq_bustransit"]}
{"id": "C241", "title": "Links that do not join are reported", "statement": "Asking for the nodes of a link sequence fails when a link does not start where the one before it ends.", "quantifier": "every network and link sequence", "why_tests_cant": "all sequences", "anchors": ["macposts/_ext/mmdta.cpp:Mmdta::link_seq_to_node_seq_driving", "macposts/_ext/mmdta.cpp:Mmdta::link_seq_to_node_seq_bustransit"]}
{"id": "C242", "title": "Vehicles under way and in queues", "statement": "After any two-class loading the table of vehicles has one row for every loading interval: the vehicles at origins, on links and at destinations at its end, those waiting at the end of a link that is not a connector once the nodes are done, and the difference, which is never negative.", "quantifier": "every network, run, random numbers and number of intervals", "why_tests_cant": "all runs of any length", "anchors": ["macposts/_ext/mcdta.cpp:Mcdta::get_enroute_and_queue_veh_stats_agg", "src/multiclass.cpp:MNM_Dta_Multiclass::record_queue_vehicles"]}
{"id": "C243", "title": "Queue of each link", "statement": "The queue reported for a link and an interval is the number of vehicles at its end in that interval divided by the flow scalar; cars and trucks add up to it, and the queues of the links that are not connectors add up to the reported total.", "quantifier": "every network, run, selection of links and intervals", "why_tests_cant": "all runs of any length", "anchors": ["macposts/_ext/mcdta.cpp:Mcdta::get_queue_veh_each_link", "src/multiclass.cpp:MNM_Dta_Multiclass::record_queue_vehicles"]}
{"id": "C244", "title": "Intervals outside of the loading are reported", "statement": "Asking for queues of an interval that was not loaded fails with an exception.", "quantifier": "every run and interval", "why_tests_cant": "all intervals", "anchors": ["macposts/_ext/mcdta.cpp:Mcdta::get_queue_veh_each_link"]}
{"id": "C245", "title": "Average travel time of a window", "statement": "The average travel time of a link over an accepted window is a number between the smallest and largest travel time in the window, cut at twenty times the free-flow time.", "quantifier": "every link, window and number of trials", "why_tests_cant": "all windows and travel times", "anchors": ["macposts/_ext/mcdta.cpp:Mcdta::get_car_link_tt_robust", "macposts/_ext/mcdta.cpp:Mcdta::get_truck_link_tt_robust", "macposts/_ext/dta.cpp:Dta::get_link_tt_robust", "src/multiclass.cpp:MNM_DTA_GRADIENT::get_travel_time_car_robust"]}
{"id": "C246", "title": "Reported speed is at most the free-flow speed", "statement": "The speed of a link is its length divided by its travel time, and is never above the free-flow speed of the class.", "quantifier": "every link, curves and start interval", "why_tests_cant": "all lengths and curves", "anchors": ["macposts/_ext/mcdta.cpp:Mcdta::get_car_link_speed", "macposts/_ext/mcdta.cpp:Mcdta::get_truck_link_speed"]}
{"id": "C247", "title": "A silenced block writes nothing and leaves the descriptors as they were", "statement": "Inside silence(fd) nothing written to the descriptor reaches its file while writes to other descriptors do; afterwards, whether the block returns or raises, every descriptor is what it was before, and an exception of the block is passed on.", "quantifier": "every table of descriptors, block of writes, and every block that keeps its hands off open descriptors", "why_tests_cant": "all blocks and descriptor tables", "anchors": ["macposts/utils.py:silence"]}
{"id": "C248", "title": "Exactly the prints inside the block are suppressed", "statement": "A program that prints to standard output before, inside and after silence() shows exactly what it printed before and after.", "quantifier": "every buffer size and sequence of prints", "why_tests_cant": "what is shown depends on buffering, which differs between a terminal and a pipe", "anchors": ["macposts/utils.py:silence"]}
{"id": "C249", "title": "An invalid descriptor means nothing is done", "statement": "With a descriptor that is not valid silence(fd) does nothing: the block behaves as without it.", "quantifier": "every block", "why_tests_cant": "all blocks including those that raise", "anchors": ["macposts/utils.py:silence"]}
{"id": "C250", "title": "A failed call leaves nothing behind", "statement": "If silence(fd) raises because descriptors are exhausted, the descriptors of the process are as before.", "quantifier": "every table of descriptors", "why_tests_cant": "needs exhaustion at a particular point", "anchors": ["macposts/utils.py:silence"]}
{"id": "C251", "title": "An unknown routing type is reported", "statement": "A loading whose routing_type is not one that the release of vehicles knows (for instance a misspelt name, or Biclass_Hybrid_ColumnGeneration, which is accepted when the routing is built) fails with an exception if there is demand.", "quantifier": "every network, demand, routing type and draws", "why_tests_cant": "all names and networks", "anchors": ["src/dta.cpp:set_routing", "src/dta.cpp:load_once", "src/routing.cpp:MNM_Routing_Random"]}
{"id": "C252", "title": "Random routing keeps vehicles on the network", "statement": "The random routing sends every vehicle waiting at an origin or at the end of a link to a link leaving that node, or nowhere exactly when no link leaves the node at the end of the link; every outgoing link is possible; no other vehicle is touched; and a round only fails for an origin without outgoing link.", "quantifier": "every network, state and random numbers", "why_tests_cant": "all draws and states", "anchors": ["src/routing.cpp:MNM_Routing_Random::update_routing"]}
{"id": "C253", "title": "Changing link attributes loses no vehicle", "statement": "A two-class loading in which lanes, lengths, speeds, capacities or densities of links change at given intervals still conserves every car and truck, keeps what identifies a vehicle, keeps the counters by class equal to the vehicles they count, and keeps the difference of the cumulative curves of a link equal to the vehicles on it.", "quantifier": "every two-class network, attribute table, hash order, run length and random numbers", "why_tests_cant": "all tables, networks and lengths of run", "anchors": ["src/dta.cpp:MNM_Dta::load_once", "src/multiclass.cpp:MNM_Link_Factory_Multiclass::update_link_attribute"]}
{"id": "C254", "title": "The last attribute row given is in force", "statement": "At any moment of a loading a link works with the lanes, free-flow speeds (length, and capacities and densities where its type takes them over) and tolls of the last row given for it so far, or as built if there was none; rows for later intervals, or for intervals the loading does not reach, change nothing; without rows the loading is that without the file.", "quantifier": "every network, attribute table, hash order, run length and random numbers", "why_tests_cant": "all tables and lengths of run", "anchors": ["src/dta.cpp:MNM_Dta::load_once", "src/multiclass.cpp:MNM_Link_Factory_Multiclass::update_link_attribute"]}
{"id": "C255", "title": "Attribute rows that cannot be applied are reported before the loading", "statement": "A row for a link that does not exist, or that the link cannot accept, is reported before any vehicle is loaded.", "quantifier": "every network and attribute table", "why_tests_cant": "all tables", "anchors": ["src/dta.cpp:MNM_Dta::load_once", "src/multiclass.cpp:MNM_Link_Factory_Multiclass::update_link_attribute"]}
{"id": "C256", "title": "Cars and trucks with a fixed route follow it", "statement": "In a two-class loading a car or truck that is not adaptive gets a route of the path table for its origin and destination, keeps it, and passes its links one after the other without leaving one out; when it arrives it has passed all of them.", "quantifier": "every two-class network, path table without a link directly following itself, routing type, run length and random numbers", "why_tests_cant": "all networks, tables, schedules and lengths of run", "anchors": ["src/multiclass.cpp:MNM_Routing_Biclass_Hybrid::update_routing", "src/routing.cpp:MNM_Routing_Fixed::update_routing", "src/multiclass.cpp:MNM_Dnode_Inout_Multiclass::move_vehicle", "src/dta.cpp:MNM_Dta::load_once"]}
{"id": "C257", "title": "Two-class loading on valid fixed-route input never fails", "statement": "When the network is consistent, its links are point queues or cell-transmission links, origins and destinations are attached through point queues, and there is a connected route for all demand of cars and trucks, a two-class loading with fixed routing, with the same route shares for both classes or with shares per class, throws no exception, fails no assertion and makes no invalid access in any interval.  When the number of intervals is configured, it also ends.", "quantifier": "every such network, demand, path table, number of intervals and random numbers", "why_tests_cant": "all networks, demands, random draws and lengths of run", "anchors": ["src/dta.cpp:MNM_Dta::load_once", "src/multiclass.cpp:MNM_Origin_Multiclass::release_one_interval", "src/multiclass.cpp:MNM_Dnode_Inout_Multiclass", "src/multiclass.cpp:MNM_Dlink_Ctm_Multiclass", "src/multiclass.cpp:MNM_Dlink_Pq_Multiclass", "src/routing.cpp:MNM_Routing_Fixed::update_routing", "src/routing.cpp:MNM_Routing_Biclass_Fixed::update_routing"]}
{"id": "C258", "title": "Vehicle tracking reports every tracked vehicle", "statement": "A two-class loading with vehicle tracking loads the network as it would without.  At every report time its report has one row, with the current data, for each vehicle under way whose origin-destination pair and departure interval are to be tracked and which the sampling selects, and no other rows.", "quantifier": "every two-class network, demand, tracking settings, report frequency, run length, order of the vehicle map and random numbers", "why_tests_cant": "all networks, settings, schedules and lengths of run", "anchors": ["src/multiclass.cpp:MNM_Dta_Multiclass::loading_vehicle_tracking", "src/multiclass.cpp:MNM::print_vehicle_route_results", "src/io.cpp:MNM_IO::read_vehicle_tracking_setting"]}
{"id": "C259", "title": "The tracking report gives the next link of a vehicle", "statement": "In the rows of the vehicle tracking report the next link is the link the vehicle takes after its current link.", "quantifier": "every two-class network, demand, tracking settings, run length and random numbers", "why_tests_cant": "all networks, settings and lengths of run", "anchors": ["src/multiclass.cpp:MNM_Dta_Multiclass::loading_vehicle_tracking", "src/multiclass.cpp:MNM::print_vehicle_route_results", "src/io.cpp:MNM_IO::read_vehicle_tracking_setting", "src/multiclass.cpp:MNM_Dnode_Inout_Multiclass::move_vehicle"]}
{"id": "C260", "title": "Tracking settings are read as written", "statement": "The origin-destination pairs and departure intervals to track are the rows below the headers of the two setting files, all of them and in their order; a missing file gives none; a row which is not two numbers (one number for intervals) stops the run with an exception.", "quantifier": "every content of the two files, or their absence", "why_tests_cant": "all file contents", "anchors": ["src/io.cpp:MNM_IO::read_vehicle_tracking_setting", "src/multiclass.cpp:MNM_Dta_Multiclass::loading_vehicle_tracking"]}
{"id": "C261", "title": "Only the listed origin-destination pairs are tracked", "statement": "When the file of tracked origin-destination pairs lists pairs, only vehicles of these pairs are in the tracking report.", "quantifier": "every content of the setting files, network, demand, run length and random numbers", "why_tests_cant": "all files and runs", "anchors": ["src/io.cpp:MNM_IO::read_vehicle_tracking_setting", "src/multiclass.cpp:MNM_Dta_Multiclass::loading_vehicle_tracking", "src/multiclass.cpp:MNM::print_vehicle_route_results"]}
{"id": "C262", "title": "Time-dependent costs are read as written", "statement": "After time-dependent costs are read from a text file, each link or movement has the numbers of its last row; one without row has zeros if it had costs before and none otherwise; a missing file and a row with another number of words or without numbers are refused with an exception.", "quantifier": "every file content, number of intervals and rows, and costs read before", "why_tests_cant": "all file contents and earlier states", "anchors": ["src/io.cpp:MNM_IO::read_td_link_cost", "src/io.cpp:MNM_IO::read_td_node_cost", "macposts/_ext/tdsp.cpp:Tdsp::read_td_cost_txt"]}
{"id": "C263", "title": "Cost files are checked against the announced sizes", "statement": "A file of time-dependent costs with fewer rows than announced is refused, and costs can be read again with another number of intervals.", "quantifier": "every file content, number of rows and intervals, and costs read before", "why_tests_cant": "all file contents and earlier states", "anchors": ["src/io.cpp:MNM_IO::read_td_link_cost", "src/io.cpp:MNM_IO::read_td_node_cost", "macposts/_ext/tdsp.cpp:Tdsp::read_td_cost_txt"]}
{"id": "C264", "title": "Message signs are placed as the file says", "statement": "The message signs of a real-time run are those of the announced number of rows of the sign file, comments and blank lines aside; a sign is on the link of its first row; a row without two whole numbers, or with an unknown link, is refused with an exception.", "quantifier": "every network, file content and number of signs", "why_tests_cant": "all networks and file contents", "anchors": ["src/io.cpp:MNM_IO::build_vms_facotory", "src/vms.cpp:MNM_Vms_Factory::make_link_vms"]}
{"id": "C265", "title": "Message signs announce congestion when there is congestion", "statement": "A message sign announces congestion exactly when the link it sends drivers to is congested, and the minutes it shows are the travel time of that link rounded down.", "quantifier": "every set of signs, links, travel times and detours", "why_tests_cant": "all states of signs and links", "anchors": ["src/vms.cpp:MNM::generate_vms_instructions"]}
{"id": "C266", "title": "Reported waiting times are averages over the entries", "statement": "After any number of intervals of a two-class run, the waiting time reported for a link and class, times the number of vehicles of the class that have entered (plus 0.000001), is the total waiting time of the class there; for both classes together it is the sum of both totals over the entries of both; without an installed curve of entries the report is refused with an exception.", "quantifier": "every network, demand, random draw, number of intervals, link and class", "why_tests_cant": "all runs", "anchors": ["src/multiclass.cpp:MNM_DTA_GRADIENT::get_average_waiting_time_at_intersection", "src/multiclass.cpp:MNM_DTA_GRADIENT::get_average_waiting_time_at_intersection_car", "macposts/_ext/mcdta.cpp:Mcdta::get_waiting_time_at_intersections"]}
{"id": "C267", "title": "Vehicles that are not held up do not wait", "statement": "A link whose vehicles all leave at the first chance reports a waiting time of zero.", "quantifier": "every network, demand, random draw, number of intervals, link and class", "why_tests_cant": "all runs", "anchors": ["src/multiclass.cpp:MNM_DTA_GRADIENT::get_average_waiting_time_at_intersection", "src/multiclass.cpp:MNM_DTA_GRADIENT::get_average_waiting_time_at_intersection_car", "macposts/_ext/mcdta.cpp:Mcdta::get_waiting_time_at_intersections"]}
{"id": "C268", "title": "Spill-back is reported only for links that have been overfull", "statement": "In a two-class run a link is reported as spilling back only if, at the end of some earlier or the present interval, it held more passenger-car equivalents per metre than the jam density of cars; it is then reported from that interval on to the end of the run, also after it has emptied, and not before; connectors (point queues) are never reported.", "quantifier": "every network, demand, random draw, number of intervals and link", "why_tests_cant": "all runs", "anchors": ["src/multiclass.cpp:MNM_DTA_GRADIENT::get_is_spillback", "macposts/_ext/mcdta.cpp:Mcdta::get_link_spillback"]}
