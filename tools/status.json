{
 "C12": {
  "status": "proved",
  "note": "proved for whole times below 10000; the tolerance merges different intervals from 10000 on (C12_beyond_tolerance_refuted)"
 },
 "C14": {
  "status": "proved",
  "note": "when the count falls inside a jump, the first time of the largest recorded value not above it is returned; rounding_up variant has an out-of-range read"
 },
 "C16": {
  "status": "proved",
  "note": "data structure and whole runs below 10000 intervals; links fed by an origin node (and exits into a destination node) are never recorded in the trees (C16_origin_links_are_not_recorded)"
 },
 "C18": {
  "status": "partial",
  "note": "REFUTED: the claim is false for the code: refuted, and the actual behaviour proved for all graphs"
 },
 "C34": {
  "status": "proved",
  "note": "lower bound is up to the relative tolerance; loss of half an interval shown beyond 10000"
 },
 "C49": {
  "status": "partial",
  "note": "REFUTED: the claim is false for the code: refuted, and the actual behaviour proved"
 },
 "C21": {
  "status": "partial",
  "note": "REFUTED: the claim is false for the code (src/shortest_path.cpp:498 scans all links of the graph); counterexample proved."
 },
 "C26": {
  "status": "partial",
  "note": "REFUTED: node labels cannot represent movement costs; counterexample proved."
 },
 "C20": {
  "status": "proved",
  "note": "For a fresh output map; C20_reused_map_refuted shows that a reused map keeps stale entries."
 },
 "C46": {
  "status": "partial",
  "note": "REFUTED for CTM links: vehicles ready at the exit are counted twice (C46_ctm_volume_refuted, C46_ctm_volume_actual); exact for link queues and, for admitted vehicles, point queues"
 },
 "C35": {
  "status": "proved",
  "note": "below jam density as claimed; C35_monotone_across_jam_refuted shows that the cap can be below near-jam values"
 },
 "C32": {
  "status": "partial",
  "note": "REFUTED: a destination's own share also applies to the destinations that follow it in the loop (C32_share_leaks_refuted); proved when an origin has shares for all or none of its destinations"
 },
 "C44": {
  "status": "proved",
  "note": "the run length is the larger of the configured total and the intervals needed to serve all demand"
 },
 "C10": {
  "status": "proved",
  "note": "also covers stable link-queue links; termination of the junction rejection loop needs fair picks (C10_every_interval_completes); C10_ctm_connector_refuted shows that CTM connectors can make the loading throw"
 },
 "C37": {
  "status": "partial",
  "note": "REFUTED: with an averaging window of two or more intervals the first adaptive routing decision sees travel time 0 on every link, only tolls count (C37_longer_window_refuted); holds for window 1 (C37_window_one)"
 },
 "C52": {
  "status": "partial",
  "note": "REFUTED in general: when departures jump over the arrival count the report falls back to an earlier time (C52_skipped_count_refuted); exact whenever the departure curve takes the value (C52_exact_when_count_is_hit)"
 },
 "C53": {
  "status": "partial",
  "note": "REFUTED for link-queue links (src/dlink.cpp:936-941 returns seconds); proved for cell and point-queue links"
 },
 "C43": {
  "status": "partial",
  "note": "REFUTED: the test answers false on every graph with a directed cycle (C43_cyclic_graph_answers_false) and true on some graphs without one (C43_cycle_test_refuted)"
 },
 "C55": {
  "status": "partial",
  "note": "proved for one destination and positive whole planned flows; REFUTED otherwise: a path planned for zero vehicles in the middle of the list receives one (C55_unused_path_refuted), and a second destination reads outside the table (C55_second_destination_refuted)"
 },
 "C56": {
  "status": "partial",
  "note": "REFUTED: at each routing update a waiting vehicle consumes one more link of its route (C56_waiting_vehicle_skips_a_link_refuted); once on the road the route is followed link by link (C56_route_followed_on_the_road, C56_stops_at_its_destination)"
 },
 "C42": {
  "status": "proved",
  "note": "for a path of the OD pair; C42_unknown_path_loses_demand shows that an unknown path index loses the shifted flow"
 },
 "C50": {
  "status": "partial",
  "note": "proved for junctions with one out-link; REFUTED for several: flows exceed demand and supply (C50_two_out_links_refuted) and a junction in a valid state throws (C50_junction_throws_refuted)"
 },
 "C57": {
  "status": "partial",
  "note": "proved for FWJ junctions; REFUTED for GRJ junctions (C57_general_junction_refuted)"
 },
 "C60": {
  "status": "partial",
  "note": "REFUTED: after record-size quiet intervals the private curves are full, shrink drops every new record, and no vehicle is ever released again (C60_standstill_refuted)"
 },
 "C61": {
  "status": "partial",
  "note": "proved for unit time <= 1 during the first record-size intervals (C61_storage_partial); REFUTED beyond: a link that was quiet admits its full share for ever (C61_storage_refuted)"
 },
 "C62": {
  "status": "partial",
  "note": "proved during the first record-size intervals for vehicles entering after the first interval (C62_free_flow_time_partial); REFUTED for the first interval, whose vehicles cross at once (C62_first_interval_refuted)"
 },
 "C64": {
  "status": "partial",
  "note": "proved when every route of the pair is longer than the minimum (C64_routes_for_all_demand_partial); REFUTED in general: a connected pair is silently left with an empty path set (C64_routes_for_all_demand_refuted)"
 },
 "C65": {
  "status": "partial",
  "note": "REFUTED: min_path_tt is compared with the length of the route, not its travel time (C65_minimal_travel_time_refuted)"
 },
 "C67": {
  "status": "partial",
  "note": "REFUTED: a complete but too short file makes the reader loop forever (C67_truncated_file_reported_refuted); without final newline the last row is taken again for each missing row (C67_last_row_repeated); a missing network file loops forever, other missing files count as empty (C67_missing_file)"
 },
 "C69": {
  "status": "partial",
  "note": "proved for nodes and links (C69_nodes, C69_links) and for well-formed OD files (C69_od_partial); REFUTED for OD files: rows without exactly two words are ignored silently, a node of the wrong kind is undefined behaviour"
 },
 "C71": {
  "status": "partial",
  "note": "proved if no pair is repeated (C71_demand_partial); REFUTED otherwise: only the first row of a pair counts (C71_all_rows_count_refuted)"
 },
 "C72": {
  "status": "partial",
  "note": "proved for networks without parallel links (C72_round_trip); REFUTED with parallel links: only nodes are saved (C72_parallel_links_refuted)"
 },
 "C73": {
  "status": "partial",
  "note": "proved when consecutive nodes are linked (C73_paths_partial); REFUTED otherwise: undefined behaviour or the previous link is repeated (C73_hop_without_link_refuted, C73_link_repeated_refuted)"
 },
 "C76": {
  "status": "partial",
  "note": "conservation proved for non-empty path sets (C76_msa_conserves), non-negativity when the best route is known (C76_msa_known_route); REFUTED for a new route: flow taken from the other paths is not limited by what they carry (C76_negative_flow_refuted), and an empty set creates flow (C76_empty_set_refuted)"
 },
 "C78": {
  "status": "partial",
  "note": "non-negativity proved (C78_gp_no_negative_flow); conservation proved if the route found is no worse than the used ones (C78_gp_conserves_partial); REFUTED otherwise: flow is created (C78_gp_creates_flow_refuted)"
 },
 "C79": {
  "status": "partial",
  "note": "proved for compute_merit_function (C79_merit); with given departure times zero means equal disutility of the used paths only (C79_merit_fixed_partial), REFUTED as equilibrium measure: unused better routes are ignored (C79_unused_route_refuted)"
 },
 "C80": {
  "status": "partial",
  "note": "REFUTED: the generalised cost is used as travel time, so the departure is wrong unless the value of time is 1 and there are no tolls (C80_best_choice_refuted, C80_best_choice_partial); what is minimised: C80_best_by_cost_partial"
 },
 "C82": {
  "status": "partial",
  "note": "updates never fail: C82_updates_never_fail; supply defined after an update: C82_supply_defined_after_an_update; REFUTED before: a new link queue reads uninitialised densities (C82_supply_of_new_queue_link_refuted, C82_new_queue_link_actual)"
 },
 "C85": {
  "status": "partial",
  "note": "0 <= supply <= max (capacity, wave speed x jam density / 4): C85_ctm_supply; REFUTED for the capacity alone (C85_supply_within_capacity_refuted)"
 },
 "C86": {
  "status": "partial",
  "note": "exact for link queue and point queue (C86_queue_links_count_exactly) and for emissions (C86_emission_counts_exact); REFUTED for cell transmission links, which count vehicles at the exit twice (C86_ctm_counts_exactly_refuted, C86_ctm_counts_actual)"
 },
 "C87": {
  "status": "partial",
  "note": "proved for cell transmission links and point queues; REFUTED for a multi-lane link queue: lane density is compared with link jam density (C87_queue_link_jam_time_refuted)"
 },
 "C88": {
  "status": "partial",
  "note": "proved for cell transmission links and point queues; REFUTED for the link queue: seconds instead of intervals (C88_queue_link_intervals_refuted)"
 },
 "C89": {
  "status": "partial",
  "note": "vehicles kept by every link (C89_modify_keeps_vehicles); values as built for cell transmission links and link queues (C89_modified_as_built, C89_cells_cannot_change); REFUTED for the point queue (C89_point_queue_changed_refuted)"
 },
 "C90": {
  "status": "partial",
  "note": "waiting time proved; flag goes up only if over-full (C90_spill_back_only_when_jammed); converse REFUTED: equivalents are truncated (C90_spill_back_when_jammed_refuted)"
 },
 "C91": {
  "status": "partial",
  "note": "cell transmission links: last part of C85_ctm_supply; point queue: C91_point_queue_admission; REFUTED for the link queue (C91_full_queue_link_refuted)"
 },
 "C93": {
  "status": "partial",
  "note": "share rounded up to whole vehicles (C93_junction_share), extremes (C93_junction_extremes), excess at most one vehicle per in link (C93_junction_excess); REFUTED that the room is never exceeded (C93_within_supply_refuted)"
 },
 "C95": {
  "status": "partial",
  "note": "proved for links that are point queues (C95_origin_sends, C95_origin_total, C95_destination_takes, C95_destination_total); REFUTED for other link types: a failed cast is dereferenced (C95_any_connector_refuted, C95_origin_needs_point_queues) and for room in equivalents: a truck counts one (C95_origin_within_room_refuted)"
 },
 "C96": {
  "status": "partial",
  "note": "C96_junction_miles, C96_origin_destination_miles; REFUTED for connectors: the test for a point queue fails on two-class links (C96_connectors_do_not_count_refuted)"
 },
 "C101": {
  "status": "partial",
  "note": "C101_share_by_class_partial: shares for all destinations of a class or none, and each class with its own ratio, or cars without or trucks with shares; REFUTED in general: the share of the cars sticks for the trucks (C101_car_share_leaks_refuted)"
 },
 "C102": {
  "status": "partial",
  "note": "C102_route_by_class, C102_last_truck_column_kept, C102_table_kept; REFUTED for cars beyond the end of the table: they get the last flows of the trucks (C102_cars_get_truck_column, C102_car_columns_lost_refuted)"
 },
 "C106": {
  "status": "partial",
  "note": "REFUTED: a vehicle standing at the exit of a link is counted as moving at the speed of the link, so one vehicle adds any number of link lengths (C106_miles_refuted); what is counted is C106_counted."
 },
 "C107": {
  "status": "partial",
  "note": "The class totals and hours are proved (C107_totals). The trip count is REFUTED as stated: trips are a set of addresses and arrived vehicles are freed, so a reused address is counted once (C107_trips_refuted); it is exact when no address is reused and never too large (C107_trips)."
 },
 "C108": {
  "status": "partial",
  "note": "Definedness and the exact value of every entry are proved (C108_dissipation). The last clause is REFUTED: an uncongested interval in which the link discharges at capacity is given the end of the next queue, or of the run (C108_no_queue_refuted)."
 },
 "C109": {
  "status": "partial",
  "note": "Definedness and the exact value of every entry are proved (C109_marginal_cost). Recomputation is REFUTED: the results overwrite the travel times they are computed from, and a second computation throws (C109_again_refuted)."
 },
 "C110": {
  "status": "partial",
  "note": "REFUTED: the cell capacity, already per interval, is multiplied by the interval length again, so with intervals of two seconds or more no admissible flow ever reaches it (C110_capacity_refuted; for all links and flows within the limit: C110_limit_never_met)."
 },
 "C111": {
  "status": "partial",
  "note": "REFUTED: the travel-time table has been overwritten with marginal costs, which are then used to advance the clock, so later links are priced at intervals no vehicle enters them (C111_path_cost_refuted); what is computed is C111_path_cost."
 },
 "C112": {
  "status": "partial",
  "note": "REFUTED: the arrays keep the size of the first run; filling them after a run of more intervals writes past their end (C112_refill_refuted; exact condition C112_refill)."
 },
 "C113": {
  "status": "partial",
  "note": "Acceptance, rejection and positions are proved (C113_links, C113_links_rejected, C113_paths). The last clause is REFUTED: the earlier registration is dropped before the new one is checked (C113_rejected_registration_keeps_old_refuted)."
 },
 "C115": {
  "status": "partial",
  "note": "Proved for contiguous arrays (C115_contiguous). REFUTED for views with another stride: the raw pointer is indexed as if the array were contiguous (C115_strided_refuted)."
 },
 "C116": {
  "status": "partial",
  "note": "Proved for distinct registered paths (C116_matrix, C116_run_matrix_times_flows). REFUTED for a path registered twice, which is accepted: columns collide or lie outside the matrix (C116_repeated_path_refuted)."
 },
 "C117": {
  "status": "partial",
  "note": "Proved when the registered paths are numbered 0, 1, 2, ... in order (C117_saved_lines_partial). REFUTED otherwise: the file uses the path's ID where the matrix uses its position, and reads the flow of another path, possibly outside the array (C117_saved_lines_refuted)."
 },
 "C120": {
  "status": "partial",
  "note": "Entries and independence of the cache are proved (C120_tt_matrix, C120_cut). The last clause is REFUTED: links shorter than a twentieth of an interval's drive are always reported as infinite (C120_short_links_refuted)."
 },
 "C121": {
  "status": "partial",
  "note": "Proved for non-negative start intervals (C121_path_tt_partial). REFUTED for negative ones: not rejected, the table is read before its start (C121_negative_start_refuted)."
 },
 "C119": {
  "status": "partial",
  "note": "Proved for links that do not start at an origin node or end at a destination node, without simplicity of the route (C119_cover_partial). REFUTED for links at an origin or destination node: the empty tree is searched and its end dereferenced (C119_origin_links_refuted, all networks), and simplicity: a generated route may use a link twice (C119_simple_routes_refuted)."
 },
 "C123": {
  "status": "partial",
  "note": "Order, no omission and the end of the tour proved (C123_tour_in_order); whole tour proved when the last destination occurs only at the end (C123_whole_tour_partial). REFUTED in general: the vehicle finishes at the first visit of the last destination, so out-back-out-back ends after the first return (C123_whole_tour_refuted)."
 },
 "C124": {
  "status": "partial",
  "note": "REFUTED: both kinds of tour end in a failed assertion (C124_any_tour_refuted); proved: when exactly a stop or a release aborts, and that no vehicle ever makes two consecutive stops at one place (C124_no_repeated_stop)."
 },
 "C125": {
  "status": "partial",
  "note": "Proved for connectors that are point queues: no vehicle enters earlier (C125_pickup_wait). REFUTED: the clock of a vehicle stands still while the entrance is busy, so it may enter later than needed (C125_exact_wait_refuted); other connector types do not wait at all (C125_other_gates_refuted)."
 },
 "C127": {
  "status": "partial",
  "note": "Exact leaving time of every vehicle proved (C127_time_left, C127_lone_arrival, C127_everyone_leaves). REFUTED: a queue serves one vehicle per charging time plus one interval (C127_apart, C127_one_per_charging_time_refuted)."
 },
 "C128": {
  "status": "partial",
  "note": "REFUTED: with m vehicles in front, the first charging for c intervals, the estimate misses the wait by m - c (C128_estimate_error, C128_exact_refuted)."
 },
 "C129": {
  "status": "partial",
  "note": "First half proved (C129_idle_slot_is_used). REFUTED: a vehicle never changes its queue, so it can wait beside an idle slot (C129_no_idle_slot_refuted)."
 },
 "C130": {
  "status": "partial",
  "note": "Number of queues = slots * int(flow scalar) (C130_number_of_queues). REFUTED for flow scalars below one: no queue, undefined behaviour in the first interval (C130_no_queue, C130_any_station_runs_refuted)."
 },
 "C131": {
  "status": "partial",
  "note": "First half proved (C131_only_its_own_vehicles). REFUTED: any other vehicle, also an electric vehicle on its way to another station, ends the program (C131_others_pass_refuted)."
 },
 "C132": {
  "status": "partial",
  "note": "Proved for delivery vehicles and starting ranges up to a tenth of the full range (C132_low_start_is_safe). REFUTED otherwise (C132_any_start_refuted)."
 },
 "C133": {
  "status": "partial",
  "note": "First two parts proved (C133_charge_fills, C133_miles_counted). REFUTED: nothing bounds the miles by the range (C133_within_range_refuted)."
 },
 "C134": {
  "status": "partial",
  "note": "Minimum of the costs used proved (C134_best_station_is_cheapest). REFUTED for what a driver spends: waiting, charging and price count tenfold in the costs used (C134_least_expense_refuted)."
 },
 "C136": {
  "status": "partial",
  "note": "REFUTED: every run of two planning steps, every step with an estimation iteration and every step with two optimisation iterations uses the freed path table (C136_planning_repeats_refuted). One step without estimation and with at most one optimisation iteration works, but the engine cannot be initialised again (C136_one_step_without_estimation)."
 },
 "C137": {
  "status": "partial",
  "note": "REFUTED: the new ratio is 0.7 times the old one plus 0.3 whatever the flows (C137_compliance_estimate_refuted); signs start at 1, stay there, and prediction keeps the shares (C137_signs_start_compliant, C137_prediction_ignores_signs)."
 },
 "C138": {
  "status": "partial",
  "note": "Greatest gain among the candidates proved (C138_sign_recommends_greatest_gain). REFUTED: the candidates are the links leaving the start of the sign's own link (C138_sign_covers_next_links_refuted), and after planning all gains are zero so the first candidate is recommended (C138_sign_recommends_first_link)."
 },
 "C139": {
  "status": "partial",
  "note": "REFUTED: the sum over m / (m / sp) >= sp samples is divided by sp and added to what earlier calls left; a horizon shorter than the number of samples divides by zero (C139_average_is_mean_refuted, C139_constant_time); unmeasured links keep old differences (C139_stale_differences)."
 },
 "C141": {
  "status": "partial",
  "note": "REFUTED: every gradient of an OD pair has the same sign, so no share ever changes (C141_optimisation_improves_refuted)."
 },
 "C142": {
  "status": "partial",
  "note": "Trips and order on the links proved (C142_copy_keeps_vehicles_refuted, first part), as is when copying works (C142_when_copying_works). REFUTED: vehicles inside link queues, at origins and at destinations are missing, and recorded volumes are zero (C142_copy_keeps_vehicles_refuted, C142_copy_looks_empty)."
 },
 "C143": {
  "status": "partial",
  "note": "REFUTED: nothing is released before the last interval of the first assignment interval, and arrivals are never counted (C143_prediction_loads_demand_refuted). Demand interval after any horizon proved (C143_demand_interval)."
 },
 "C149": {
  "status": "partial",
  "note": "Bounded stay proved for boarding and alighting rates of at least one passenger per interval (C149_stays_bounded). REFUTED otherwise: with more than 2 * unit_time seconds per passenger the rate rounds to zero and a bus with one waiting passenger stays for ever (C149_slow_boarding_refuted)."
 },
 "C150": {
  "status": "partial",
  "note": "Exact duration proved when the waiting time is set (C150_walking_time). REFUTED for passengers released at origins: the waiting time is read without ever having been set (C150_first_walk_refuted)."
 },
 "C151": {
  "status": "partial",
  "note": "REFUTED: a passenger who comes to a stop rides in the same interval whatever the historical waiting time, which is still reported (C151_implicit_waiting_refuted)."
 },
 "C152": {
  "status": "partial",
  "note": "Proved when no more get off than the rate allows (C152_riders_not_delayed_partial). REFUTED in general: the scan stops at the first passenger beyond the rate, and riders behind wait (C152_riders_refuted)."
 },
 "C154": {
  "status": "partial",
  "note": "REFUTED: cars are taken without looking at the capacity (C154_lot_capacity_refuted), and cars of the simulation are not scaled (C154_flow_scalar_refuted). What is taken: C153."
 },
 "C155": {
  "status": "partial",
  "note": "Growth below the capacity proved (C155_cruising_monotone_partial). REFUTED at the capacity: 99 of 100 places taken gives 100 times the average, a full lot 10 times (C155_cruising_refuted)."
 },
 "C156": {
  "status": "partial",
  "note": "Proved for removal without deletion (C156_accounts). REFUTED with deletion, as the simulation does it: the deleted passenger is read (C156_deleted_passenger_refuted)."
 },
 "C157": {
  "status": "partial",
  "note": "When loading ends is proved (C157_end_of_loading). REFUTED for passengers: those on the way are not looked at (C157_passengers_refuted)."
 },
 "C158": {
  "status": "partial",
  "note": "Proved for different links and for one link (C158_portions_add_up, C158_one_link). REFUTED for routes that come back to their first link (C158_loop_refuted)."
 },
 "C159": {
  "status": "partial",
  "note": "Proved for the first stop with 5-second intervals (C159_first_stop_wait). REFUTED: the value for no bus can be less than that for a bus, intervals are mixed with seconds (C159_no_more_buses_refuted); other units of time give wrong times (C159_unit_time_refuted)."
 },
 "C160": {
  "status": "partial",
  "note": "Order of admission and what is counted proved (C160_admitted_in_order). REFUTED: only finished vehicles are counted, a link full of vehicles reports none (C160_volume_refuted)."
 },
 "C162": {
  "status": "partial",
  "note": "REFUTED: with no flow out of the cell stops are not visited at all (C162_service_in_jam_refuted)."
 },
 "C164": {
  "status": "partial",
  "note": "REFUTED: array rows of links that the new arrays do not list are kept (C164_old_rows_kept_refuted), with text files such links become free of charge (C164_text_zero_refuted), and extract_tdsp before a new build mixes the old cost with new travel times (C164_mixed_answer_refuted). Proved: listed rows are replaced, others stay (C164_listed_rows_replaced)."
 },
 "C165": {
  "status": "partial",
  "note": "REFUTED: the arrays of links read before keep their old length; reading a longer row writes behind the end of the array, for every such object and tables."
 },
 "C166": {
  "status": "partial",
  "note": "REFUTED: the labels round the sum of link and movement time up, the route rounds both separately (C166_movement_times_refuted); in the last interval a label may have been computed for a turn that the route no longer makes (C166_last_interval_refuted). Proved for movement times of zero and routes that end before the last interval (C166_cost_of_route_partial)."
 },
 "C168": {
  "status": "partial",
  "note": "REFUTED: without a tree a null pointer is dereferenced, for every object (C168_no_tree_refuted); a link without a row dereferences end() of the map (C168_missing_row_refuted)."
 },
 "C170": {
  "status": "partial",
  "note": "REFUTED: the truck calls read m_last_valid_time, which is set from the curves of the cars: rows of trucks are lost while cars wait (C170_trucks_refuted). Proved for cars (C170_cars)."
 },
 "C172": {
  "status": "partial",
  "note": "REFUTED: a path that begins with a cell link fails an assertion, as does every path over a link on which cars stand since the first interval (C172_every_path_refuted); see C171 for what is proved."
 },
 "C174": {
  "status": "partial",
  "note": "REFUTED: columns are computed from path IDs, and queues that last longer are written outside the matrix (C174_ids_refuted); see C173 for what is proved."
 },
 "C176": {
  "status": "partial",
  "note": "REFUTED: the cost is cut to a whole number, and it is the cost of the way before its cycles are cut out (C176_cost_of_path_refuted); what the number means is proved in C175_lowest_path."
 },
 "C177": {
  "status": "partial",
  "note": "REFUTED: an assertion fails when origin and destination are the same or there is no path (C177_no_answer_refuted) and for departures after the beginning of the last assignment interval (C177_late_departure_refuted); after a simulation shorter than the horizon the tables are read outside (C177_short_run_refuted)."
 },
 "C179": {
  "status": "partial",
  "note": "REFUTED: section and entry are joined with a slash: entry k of section s/a and entry a/k of section s are the same (C179_slash_refuted); see C178 for names without slash."
 },
 "C181": {
  "status": "partial",
  "note": "REFUTED: a missing file reads as an empty one and fails only when an entry is asked for (C181_missing_file_refuted); a line without '=' becomes an entry with its text as name and value (C181_no_equal_refuted); other values count as 0 (C181_not_a_number_refuted)."
 },
 "C182": {
  "status": "partial",
  "note": "REFUTED: the remark is part of the string (C182_remark_refuted); for numbers it is ignored (C180)."
 },
 "C183": {
  "status": "partial",
  "note": "REFUTED: the handlers are for const char* while std::invalid_argument is thrown (C183_default_refuted)."
 },
 "C185": {
  "status": "partial",
  "note": "REFUTED: exp underflows: below any threshold there are finite costs for which the assertion fails (C185_refuted). With an exp that stays positive shares are given (C184_answers)."
 },
 "C187": {
  "status": "partial",
  "note": "REFUTED: transit that is not usable gets the demand per minute of the mode treated before if the pair has a transit demand (C187_refuted; size of the excess C187_excess_partial). Holds where transit is usable or without demand (C187_partial)."
 },
 "C190": {
  "status": "partial",
  "note": "REFUTED: the demand of the input file stays (C190_refuted, C190_partial)."
 },
 "C192": {
  "status": "partial",
  "note": "REFUTED: paths without flow are not compared (C192_refuted)."
 },
 "C194": {
  "status": "partial",
  "note": "REFUTED: saving, or reading a file in which the mode is usable, dereferences a missing entry (C194_refuted, C194_file_refuted)."
 },
 "C195": {
  "status": "partial",
  "note": "REFUTED: the file of an earlier run is used whatever the network is now (C195_refuted); right without a file and with all modes on (C195_fresh_partial, C195_unserved_partial)."
 },
 "C199": {
  "status": "partial",
  "note": "REFUTED: with a step above 1 it throws in every interval that is not settled (C199_big_steps_refuted)."
 },
 "C200": {
  "status": "partial",
  "note": "REFUTED: the disutility of park and ride is computed with the passengers of the bus (C200_best_existing_refuted), and pairs with park and ride but without bus paths get no answer (C200_no_bus_no_answer). Holds without park and ride (C200_best_existing_partial)."
 },
 "C204": {
  "status": "partial",
  "note": "REFUTED: a stuck journey counts as twice the run, journeys that take longer cost more (C204_stuck_refuted). Holds for journeys of at most twice the run (C204_stuck_partial)."
 },
 "C205": {
  "status": "partial",
  "note": "REFUTED: driving without a lot is charged 8 (C205_fee_without_lot_refuted); park and ride pays no tolls and no parking (C205_park_and_ride_free_refuted). Right for driving to a lot (C205_car_with_lot_partial)."
 },
 "C206": {
  "status": "partial",
  "note": "REFUTED: best times after the last assignment interval are put into the last one, even if it is the worst (C206_best_interval_refuted). Holds for earlier times (C206_best_interval_partial)."
 },
 "C209": {
  "status": "partial",
  "note": "REFUTED: trucks between pairs without passengers or without usable driving are dropped (C209_pairs_without_passengers_refuted), and all trucks when the truck table is the driving table (C209_shared_table_refuted). Holds for the other pairs of the equilibrium types (C209_trucks_partial)."
 },
 "C212": {
  "status": "partial",
  "note": "REFUTED: types that start without paths stop at an assertion the second time (C212_again_refuted). Holds with path tables from the start (C212_again_partial)."
 },
 "C215": {
  "status": "partial",
  "note": "REFUTED: with split 1 a demand below one vehicle is replaced by 15 zeros (C215_small_demand_kept_refuted)."
 },
 "C216": {
  "status": "partial",
  "note": "REFUTED: intervals shorter than 15 minutes read memory after the array (C216_short_intervals_refuted), longer ones shift demand in time and drop the rest (C216_long_intervals_refuted), unit times of 0 or more than 60 s divide by zero (C216_unit_time_refuted)."
 },
 "C218": {
  "status": "partial",
  "note": "REFUTED: such a line is an exception in the files of adaptive ratios, time-dependent attributes and tolls (C218_remarks_skipped_refuted)."
 },
 "C220": {
  "status": "partial",
  "note": "REFUTED: without a final newline the last row is taken again and the file accepted (C220_short_toll_file_refuted); with one an exception is raised (C220_short_complete_file_reported)."
 },
 "C221": {
  "status": "partial",
  "note": "REFUTED: rows with another number of words are passed over silently (C221_bad_rows_reported_refuted); the shares of the others are read in order (C221_label_shares)."
 },
 "C223": {
  "status": "partial",
  "note": "REFUTED: only the whole part of the toll is used, the same for cars and trucks (C223_toll_fraction_refuted), and an unknown link is undefined behaviour at its interval (C223_unknown_link_reported_refuted)."
 },
 "C224": {
  "status": "partial",
  "note": "REFUTED: the file is read, the truck speed recorded as toll, and no link is ever changed (C224_single_class_attributes_refuted)."
 },
 "C226": {
  "status": "partial",
  "note": "REFUTED: without a final newline the last line is repeated (C226_short_list_reported_refuted); with one, lists of reals get empty rows and only lists of integers raise an exception (C226_short_complete_list)."
 },
 "C232": {
  "status": "partial",
  "note": "REFUTED: a bus whose line is missing from the table or has no links, a pair without paths and a route ending short of its destination are undefined behaviour (C232_unsound_plans_reported_refuted, C232_new_bus, C232_short_route, C232_short_path, C232_no_paths); only a null path and unknown links raise an exception."
 },
 "C236": {
  "status": "partial",
  "note": "REFUTED: shares are written with six decimals: 1/3 comes back as 0.333333 (C236_exact_refuted) and every share below half a millionth as 0 (C236_small_shares_lost); multiples of a millionth are exact up to the number reader (C236_millionths_kept)."
 },
 "C237": {
  "status": "partial",
  "note": "REFUTED: the loop that should skip them looks at the line of the path file, so exactly one line of the file of shares is used per path (C237_line_by_line): a blank line gives its path no shares and a remark raises an exception (C237_remark_fails, C237_remarks_skipped_refuted)."
 },
 "C238": {
  "status": "partial",
  "note": "REFUTED: without the file the paths silently have no shares (C238_missing_file); after the end of a short file the paths get none if it ends with a newline, and otherwise the shares of its last line (C238_short_file, C238_missing_file_reported_refuted, C238_short_file_reported_refuted)."
 },
 "C240": {
  "status": "partial",
  "note": "REFUTED: where no link joins two nodes the result keeps what the uninitialised array contained, and only a negative number there is noticed (C240_actual, C240_missing_link_refuted); a link that exists but has a negative ID is refused (C240_negative_id)."
 },
 "C241": {
  "status": "partial",
  "note": "REFUTED: the answer is the tail of the first link and the heads of all links, joined or not (C241_actual, C241_disjoint_links_refuted); unknown links are refused (C241_unknown_link), an empty array is read out of bounds."
 },
 "C244": {
  "status": "partial",
  "note": "REFUTED: late intervals and unknown links raise an exception, a negative interval reads outside of the record (C244_actual, C244_wrong_interval_refuted)."
 },
 "C245": {
  "status": "partial",
  "note": "Proved for windows of at least one interval and at least one trial (C245_average). REFUTED beyond: an accepted window shorter than one interval, or zero trials, gives NaN, a negative number of trials gives 0 (C245_no_trials, C245_number_refuted)."
 },
 "C246": {
  "status": "partial",
  "note": "Length over travel time holds (C246_speed). REFUTED: a link of cells whose length is not a multiple of a cell is passed faster than at free-flow speed, trucks also otherwise (C246_freeflow_speed_refuted, C246_case); cars stay below twice the free-flow speed (C246_speed_partial)."
 },
 "C248": {
  "status": "partial",
  "note": "Proved for an unbuffered stream (C248_unbuffered_partial). REFUTED with a buffer: up to a buffer of text printed before can be lost and up to a buffer of text printed inside appears afterwards (C248_actual, C248_suppressed_refuted), because streams are not flushed when the descriptor is switched."
 },
 "C249": {
  "status": "partial",
  "note": "REFUTED: the return in the finally part swallows every exception of the block (C249_actual, C249_nothing_done_refuted)."
 },
 "C250": {
  "status": "partial",
  "note": "REFUTED: with a single free descriptor the copy made by os.dup stays open when os.open fails; with none nothing changes (C250_actual, C250_nothing_left_refuted)."
 },
 "C251": {
  "status": "partial",
  "note": "REFUTED: the loading prints a warning, releases nobody and ends normally with an empty network (C251_nobody_released_partial for every network and demand, C251_reported_refuted). The checks of the Python extension are assertions; those of Mcdta accept Biclass_Hybrid_ColumnGeneration, which the release does not know. Modelled for the single-class loading."
 },
 "C255": {
  "status": "partial",
  "note": "REFUTED: all intervals before the row run as if the row were not there (C255_reported_before_loading_refuted); the loading fails only in the interval of the row: undefined behaviour for an unknown link, an exception for a rejected change (C255_bad_row_stops_partial, C255_case). If that interval is not reached the row is never noticed (C254_rows_after_the_end)."
 },
 "C258": {
  "status": "partial",
  "note": "REFUTED: vehicles are selected only at the end of their departure interval, so a vehicle whose departure interval is no report time, or which still waits at its origin then, is never reported.  Proved: the exact content of the report, one row per vehicle and report time, the loading unchanged."
 },
 "C259": {
  "status": "partial",
  "note": "REFUTED: until a vehicle reaches the end of its link the report gives the current link as next link, proved for valid fixed-route input."
 },
 "C261": {
  "status": "partial",
  "note": "REFUTED: the first line of the file is never looked at, so a file with a single pair and no header counts as a missing file and every vehicle is tracked."
 },
 "C263": {
  "status": "partial",
  "note": "REFUTED: a short file without newline at its end is accepted, and reading with more intervals than before writes beyond the end of the old arrays.  Proved: a short file that ends with a newline is refused."
 },
 "C265": {
  "status": "partial",
  "note": "REFUTED: signs whose detour link has a free-flow speed below 60 miles per hour announce congestion whatever the traffic.  Proved for faster detour links; a sign without detour link stops the writing with an exception."
 },
 "C267": {
  "status": "partial",
  "note": "REFUTED: a vehicle is counted as waiting in the interval in which it gets to the end of the link and can leave in the next one at the earliest.  Proved: in every run the total waiting time of a class on a link is at least one interval per vehicle of the class that has left it, so the reported average of a link that all vehicles have left is about one interval or more."
 }
}
