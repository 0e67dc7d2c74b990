{
 "claims": [
  {
   "property": "C01",
   "status": "proved",
   "theorems": [
    "C01_vehicles_conserved"
   ],
   "note": ""
  },
  {
   "property": "C02",
   "status": "proved",
   "theorems": [
    "C02_counters",
    "C02_total_travel_time",
    "C02_trip_times"
   ],
   "note": ""
  },
  {
   "property": "C03",
   "status": "proved",
   "theorems": [
    "C03_point_queue_traversal_time"
   ],
   "note": ""
  },
  {
   "property": "C04",
   "status": "proved",
   "theorems": [
    "C04_links_keep_order",
    "C04_internal_movement_keeps_line",
    "C04_ready_in_order_of_arrival"
   ],
   "note": ""
  },
  {
   "property": "C05",
   "status": "proved",
   "theorems": [
    "C05_ctm_not_faster_than_free_flow",
    "C05_ctm_exact_when_uncongested",
    "C05_reported_free_flow_time"
   ],
   "note": ""
  },
  {
   "property": "C06",
   "status": "proved",
   "theorems": [
    "C06_ctm_cells_never_overfill"
   ],
   "note": ""
  },
  {
   "property": "C07",
   "status": "proved",
   "theorems": [
    "C07_junction_capacity",
    "C07_junction_never_fails",
    "C07_junction_terminates"
   ],
   "note": ""
  },
  {
   "property": "C08",
   "status": "proved",
   "theorems": [
    "C08_junction_fifo",
    "C08_vehicles_keep_their_plans"
   ],
   "note": ""
  },
  {
   "property": "C09",
   "status": "proved",
   "theorems": [
    "C09_origin_sends",
    "C09_origin_never_fails"
   ],
   "note": ""
  },
  {
   "property": "C10",
   "status": "proved",
   "theorems": [
    "C10_never_fails",
    "C10_every_interval_completes",
    "C10_ctm_connector_refuted"
   ],
   "note": "also covers stable link-queue links; termination of the junction rejection loop needs fair picks (C10_every_interval_completes); C10_ctm_connector_refuted shows that CTM connectors can make the loading throw"
  },
  {
   "property": "C11",
   "status": "proved",
   "theorems": [
    "C11_curve_monotone_and_exact_total",
    "C11_never_backwards_is_accepted",
    "C11_clearly_earlier_is_rejected"
   ],
   "note": ""
  },
  {
   "property": "C12",
   "status": "proved",
   "theorems": [
    "C12_lookup_is_amount_until",
    "C12_beyond_tolerance_refuted"
   ],
   "note": "proved for whole times below 10000; the tolerance merges different intervals from 10000 on (C12_beyond_tolerance_refuted)"
  },
  {
   "property": "C13",
   "status": "proved",
   "theorems": [
    "C13_interpolation_between_neighbours",
    "C13_interpolation_monotone"
   ],
   "note": ""
  },
  {
   "property": "C14",
   "status": "proved",
   "theorems": [
    "C14_inverse_lookup",
    "C14_rounding_up_out_of_range_refuted"
   ],
   "note": "when the count falls inside a jump, the first time of the largest recorded value not above it is returned; rounding_up variant has an out-of-range read"
  },
  {
   "property": "C15",
   "status": "proved",
   "theorems": [
    "C15_curves_count_vehicles"
   ],
   "note": ""
  },
  {
   "property": "C16",
   "status": "proved",
   "theorems": [
    "C16_tree_separates_keys",
    "C16_tree_adds_up",
    "C16_entry_tree_of_a_run",
    "C16_exit_tree_of_a_run",
    "C16_labels_are_final",
    "C16_origin_links_are_not_recorded"
   ],
   "note": "data structure and whole runs below 10000 intervals; links fed by an origin node (and exits into a destination node) are never recorded in the trees (C16_origin_links_are_not_recorded)"
  },
  {
   "property": "C17",
   "status": "proved",
   "theorems": [
    "C17_graph_stores_what_was_added",
    "C17_accepts_exactly_valid_calls",
    "C17_undirected_connections"
   ],
   "note": ""
  },
  {
   "property": "C18",
   "status": "partial",
   "theorems": [
    "C18_neighbors_complete_refuted",
    "C18_neighbors_only_newest"
   ],
   "note": "REFUTED: the claim is false for the code: refuted, and the actual behaviour proved for all graphs"
  },
  {
   "property": "C19",
   "status": "proved",
   "theorems": [
    "C19_fifo_tree_optimal",
    "C19_unknown_destination_throws"
   ],
   "note": ""
  },
  {
   "property": "C20",
   "status": "proved",
   "theorems": [
    "C20_dijkstra_tree_optimal",
    "C20_dijkstra_agrees_with_fifo",
    "C20_reused_map_refuted"
   ],
   "note": "For a fresh output map; C20_reused_map_refuted shows that a reused map keeps stale entries."
  },
  {
   "property": "C21",
   "status": "partial",
   "theorems": [
    "C21_lifo_tree_optimal_refuted"
   ],
   "note": "REFUTED: the claim is false for the code (src/shortest_path.cpp:498 scans all links of the graph); counterexample proved."
  },
  {
   "property": "C22",
   "status": "proved",
   "theorems": [
    "C22_extract_path"
   ],
   "note": ""
  },
  {
   "property": "C23",
   "status": "proved",
   "theorems": [
    "C23_tdsp_optimal"
   ],
   "note": ""
  },
  {
   "property": "C24",
   "status": "proved",
   "theorems": [
    "C24_tdsp_extraction"
   ],
   "note": ""
  },
  {
   "property": "C25",
   "status": "proved",
   "theorems": [
    "C25_is_FIFO"
   ],
   "note": ""
  },
  {
   "property": "C26",
   "status": "partial",
   "theorems": [
    "C26_node_cost_optimal_refuted"
   ],
   "note": "REFUTED: node labels cannot represent movement costs; counterexample proved."
  },
  {
   "property": "C27",
   "status": "proved",
   "theorems": [
    "C27_eliminate_cycles",
    "C27_malformed_rejected"
   ],
   "note": ""
  },
  {
   "property": "C28",
   "status": "proved",
   "theorems": [
    "C28_normalised_shares",
    "C28_negative_share_rejected"
   ],
   "note": ""
  },
  {
   "property": "C29",
   "status": "proved",
   "theorems": [
    "C29_draw_slice",
    "C29_draw_slice_of_flows",
    "C29_draw_succeeds",
    "C29_draw_after_normalise",
    "C29_draw_tolerates_rounding",
    "C29_tiny_shares_refuted"
   ],
   "note": ""
  },
  {
   "property": "C30",
   "status": "proved",
   "theorems": [
    "C30_follows_route",
    "C30_route_kept"
   ],
   "note": ""
  },
  {
   "property": "C31",
   "status": "proved",
   "theorems": [
    "C31_release_matches_demand",
    "C31_nothing_released_otherwise"
   ],
   "note": ""
  },
  {
   "property": "C32",
   "status": "partial",
   "theorems": [
    "C32_share_applied_partial",
    "C32_share_leaks_refuted"
   ],
   "note": "REFUTED: a destination's own share also applies to the destinations that follow it in the loop (C32_share_leaks_refuted); proved when an origin has shares for all or none of its destinations"
  },
  {
   "property": "C33",
   "status": "proved",
   "theorems": [
    "C33_round_floor_or_next",
    "C33_round_exact_on_integers",
    "C33_round_within_one"
   ],
   "note": ""
  },
  {
   "property": "C34",
   "status": "proved",
   "theorems": [
    "C34_round_up_time",
    "C34_round_up_time_exact",
    "C34_round_up_time_monotone",
    "C34_round_down_time",
    "C34_round_down_time_monotone",
    "C34_round_up_can_lose_half_interval_refuted"
   ],
   "note": "lower bound is up to the relative tolerance; loss of half an interval shown beyond 10000"
  },
  {
   "property": "C35",
   "status": "proved",
   "theorems": [
    "C35_travel_time_bounds",
    "C35_travel_time_monotone",
    "C35_continuous_at_critical_density",
    "C35_cap_at_jam",
    "C35_link_travel_time",
    "C35_monotone_across_jam_refuted"
   ],
   "note": "below jam density as claimed; C35_monotone_across_jam_refuted shows that the cap can be below near-jam values"
  },
  {
   "property": "C36",
   "status": "proved",
   "theorems": [
    "C36_true_averages",
    "C36_output_files"
   ],
   "note": ""
  },
  {
   "property": "C37",
   "status": "partial",
   "theorems": [
    "C37_window_one",
    "C37_longer_window_refuted"
   ],
   "note": "REFUTED: with an averaging window of two or more intervals the first adaptive routing decision sees travel time 0 on every link, only tolls count (C37_longer_window_refuted); holds for window 1 (C37_window_one)"
  },
  {
   "property": "C38",
   "status": "proved",
   "theorems": [
    "C38_run_first_in_first_out",
    "C38_freeflow_floor",
    "C38_first_in_first_out",
    "C38_last_valid_time"
   ],
   "note": ""
  },
  {
   "property": "C39",
   "status": "proved",
   "theorems": [
    "C39_path_time_chains",
    "C39_path_cost_sums",
    "C39_path_first_in_first_out"
   ],
   "note": ""
  },
  {
   "property": "C40",
   "status": "proved",
   "theorems": [
    "C40_run_window_counts_entries",
    "C40_window_flow",
    "C40_windows_add_up",
    "C40_window_counts"
   ],
   "note": ""
  },
  {
   "property": "C41",
   "status": "proved",
   "theorems": [
    "C41_run_records_are_entries",
    "C41_records",
    "C41_records_add_up_to_inflow",
    "C41_matrix_entries",
    "C41_columns_distinct"
   ],
   "note": ""
  },
  {
   "property": "C42",
   "status": "proved",
   "theorems": [
    "C42_reassign_keeps_demand",
    "C42_reassign_flows",
    "C42_reassign_others_unchanged",
    "C42_reassign_stays_nonnegative",
    "C42_reassign_defined",
    "C42_unknown_path_loses_demand",
    "C42_demand_kept_over_history"
   ],
   "note": "for a path of the OD pair; C42_unknown_path_loses_demand shows that an unknown path index loses the shifted flow"
  },
  {
   "property": "C43",
   "status": "partial",
   "theorems": [
    "C43_test_terminates",
    "C43_cyclic_graph_answers_false",
    "C43_cycle_test_refuted",
    "C43_false_without_cycle"
   ],
   "note": "REFUTED: the test answers false on every graph with a directed cycle (C43_cyclic_graph_answers_false) and true on some graphs without one (C43_cycle_test_refuted)"
  },
  {
   "property": "C44",
   "status": "proved",
   "theorems": [
    "C44_loading_loop",
    "C44_each_interval_released_once"
   ],
   "note": "the run length is the larger of the configured total and the intervals needed to serve all demand"
  },
  {
   "property": "C45",
   "status": "proved",
   "theorems": [
    "C45_link_queue_density"
   ],
   "note": ""
  },
  {
   "property": "C46",
   "status": "partial",
   "theorems": [
    "C46_link_queue_volume_exact",
    "C46_point_queue_volume_exact",
    "C46_ctm_volume_actual",
    "C46_ctm_volume_refuted"
   ],
   "note": "REFUTED for CTM links: vehicles ready at the exit are counted twice (C46_ctm_volume_refuted, C46_ctm_volume_actual); exact for link queues and, for admitted vehicles, point queues"
  },
  {
   "property": "C47",
   "status": "proved",
   "theorems": [
    "C47_column_is_latest_record",
    "C47_whole_times",
    "C47_late_record_throws",
    "C47_inflow_table_of_a_run",
    "C47_outflow_table_of_a_run"
   ],
   "note": ""
  },
  {
   "property": "C48",
   "status": "proved",
   "theorems": [
    "C48_reverse_graph"
   ],
   "note": ""
  },
  {
   "property": "C49",
   "status": "partial",
   "theorems": [
    "C49_shrink_keeps_oldest",
    "C49_shrink_keeps_newest_refuted"
   ],
   "note": "REFUTED: the claim is false for the code: refuted, and the actual behaviour proved"
  },
  {
   "property": "C50",
   "status": "partial",
   "theorems": [
    "C50_one_out_link",
    "C50_one_out_link_never_fails",
    "C50_evolve_is_covered",
    "C50_two_out_links_refuted",
    "C50_junction_throws_refuted"
   ],
   "note": "proved for junctions with one out-link; REFUTED for several: flows exceed demand and supply (C50_two_out_links_refuted) and a junction in a valid state throws (C50_junction_throws_refuted)"
  },
  {
   "property": "C51",
   "status": "proved",
   "theorems": [
    "C51_destination_takes_all"
   ],
   "note": ""
  },
  {
   "property": "C52",
   "status": "partial",
   "theorems": [
    "C52_exact_when_count_is_hit",
    "C52_skipped_count_refuted"
   ],
   "note": "REFUTED in general: when departures jump over the arrival count the report falls back to an earlier time (C52_skipped_count_refuted); exact whenever the departure curve takes the value (C52_exact_when_count_is_hit)"
  },
  {
   "property": "C53",
   "status": "partial",
   "theorems": [
    "C53_pq_ctm_in_intervals",
    "C53_lq_in_seconds_refuted"
   ],
   "note": "REFUTED for link-queue links (src/dlink.cpp:936-941 returns seconds); proved for cell and point-queue links"
  },
  {
   "property": "C54",
   "status": "proved",
   "theorems": [
    "C54_inflow_curve_counts_entries",
    "C54_outflow_curve_counts_exits"
   ],
   "note": ""
  },
  {
   "property": "C55",
   "status": "partial",
   "theorems": [
    "C55_vehicles_follow_plan",
    "C55_unused_path_refuted",
    "C55_second_destination_refuted"
   ],
   "note": "proved for one destination and positive whole planned flows; REFUTED otherwise: a path planned for zero vehicles in the middle of the list receives one (C55_unused_path_refuted), and a second destination reads outside the table (C55_second_destination_refuted)"
  },
  {
   "property": "C56",
   "status": "partial",
   "theorems": [
    "C56_waiting_vehicle_skips_a_link_refuted",
    "C56_route_followed_on_the_road",
    "C56_stops_at_its_destination"
   ],
   "note": "REFUTED: at each routing update a waiting vehicle consumes one more link of its route (C56_waiting_vehicle_skips_a_link_refuted); once on the road the route is followed link by link (C56_route_followed_on_the_road, C56_stops_at_its_destination)"
  },
  {
   "property": "C57",
   "status": "partial",
   "theorems": [
    "C57_nobody_waits_with_room",
    "C57_capacity_is_used",
    "C57_general_junction_refuted"
   ],
   "note": "proved for FWJ junctions; REFUTED for GRJ junctions (C57_general_junction_refuted)"
  },
  {
   "property": "C58",
   "status": "proved",
   "theorems": [
    "C58_first_in_first_out",
    "C58_order_kept"
   ],
   "note": ""
  },
  {
   "property": "C59",
   "status": "proved",
   "theorems": [
    "C59_entries_within_capacity",
    "C59_never_fails"
   ],
   "note": ""
  },
  {
   "property": "C60",
   "status": "partial",
   "theorems": [
    "C60_standstill_refuted"
   ],
   "note": "REFUTED: after record-size quiet intervals the private curves are full, shrink drops every new record, and no vehicle is ever released again (C60_standstill_refuted)"
  },
  {
   "property": "C61",
   "status": "partial",
   "theorems": [
    "C61_storage_partial",
    "C61_storage_refuted"
   ],
   "note": "proved for unit time <= 1 during the first record-size intervals (C61_storage_partial); REFUTED beyond: a link that was quiet admits its full share for ever (C61_storage_refuted)"
  },
  {
   "property": "C62",
   "status": "partial",
   "theorems": [
    "C62_free_flow_time_partial",
    "C62_first_interval_refuted"
   ],
   "note": "proved during the first record-size intervals for vehicles entering after the first interval (C62_free_flow_time_partial); REFUTED for the first interval, whose vehicles cross at once (C62_first_interval_refuted)"
  },
  {
   "property": "C63",
   "status": "proved",
   "theorems": [
    "C63_generated_routes",
    "C63_iteration_adds_alternatives",
    "C63_unconnected_throws",
    "C63_shortest_pathset"
   ],
   "note": ""
  },
  {
   "property": "C64",
   "status": "partial",
   "theorems": [
    "C64_routes_for_all_demand_partial",
    "C64_routes_for_all_demand_refuted"
   ],
   "note": "proved when every route of the pair is longer than the minimum (C64_routes_for_all_demand_partial); REFUTED in general: a connected pair is silently left with an empty path set (C64_routes_for_all_demand_refuted)"
  },
  {
   "property": "C65",
   "status": "partial",
   "theorems": [
    "C65_minimal_travel_time_refuted"
   ],
   "note": "REFUTED: min_path_tt is compared with the length of the route, not its travel time (C65_minimal_travel_time_refuted)"
  },
  {
   "property": "C66",
   "status": "proved",
   "theorems": [
    "C66_same_rows_same_result"
   ],
   "note": ""
  },
  {
   "property": "C67",
   "status": "partial",
   "theorems": [
    "C67_truncated_file_reported_refuted",
    "C67_last_row_repeated",
    "C67_missing_file"
   ],
   "note": "REFUTED: a complete but too short file makes the reader loop forever (C67_truncated_file_reported_refuted); without final newline the last row is taken again for each missing row (C67_last_row_repeated); a missing network file loops forever, other missing files count as empty (C67_missing_file)"
  },
  {
   "property": "C68",
   "status": "proved",
   "theorems": [
    "C68_words",
    "C68_strip",
    "C68_numbers",
    "C68_number_round_trip"
   ],
   "note": ""
  },
  {
   "property": "C69",
   "status": "partial",
   "theorems": [
    "C69_nodes",
    "C69_links",
    "C69_od_partial",
    "C69_od_rows_reported_refuted",
    "C69_od_kinds_checked_refuted"
   ],
   "note": "proved for nodes and links (C69_nodes, C69_links) and for well-formed OD files (C69_od_partial); REFUTED for OD files: rows without exactly two words are ignored silently, a node of the wrong kind is undefined behaviour"
  },
  {
   "property": "C70",
   "status": "proved",
   "theorems": [
    "C70_units"
   ],
   "note": ""
  },
  {
   "property": "C71",
   "status": "partial",
   "theorems": [
    "C71_demand_partial",
    "C71_all_rows_count_refuted"
   ],
   "note": "proved if no pair is repeated (C71_demand_partial); REFUTED otherwise: only the first row of a pair counts (C71_all_rows_count_refuted)"
  },
  {
   "property": "C72",
   "status": "partial",
   "theorems": [
    "C72_round_trip",
    "C72_parallel_links_refuted"
   ],
   "note": "proved for networks without parallel links (C72_round_trip); REFUTED with parallel links: only nodes are saved (C72_parallel_links_refuted)"
  },
  {
   "property": "C73",
   "status": "partial",
   "theorems": [
    "C73_paths_partial",
    "C73_hop_without_link_refuted",
    "C73_link_repeated_refuted"
   ],
   "note": "proved when consecutive nodes are linked (C73_paths_partial); REFUTED otherwise: undefined behaviour or the previous link is repeated (C73_hop_without_link_refuted, C73_link_repeated_refuted)"
  },
  {
   "property": "C74",
   "status": "proved",
   "theorems": [
    "C74_network"
   ],
   "note": ""
  },
  {
   "property": "C75",
   "status": "proved",
   "theorems": [
    "C75_initial_flows",
    "C75_demand_from_flows",
    "C75_demand_round_trip"
   ],
   "note": ""
  },
  {
   "property": "C76",
   "status": "partial",
   "theorems": [
    "C76_msa_conserves",
    "C76_msa_known_route",
    "C76_negative_flow_refuted",
    "C76_empty_set_refuted"
   ],
   "note": "conservation proved for non-empty path sets (C76_msa_conserves), non-negativity when the best route is known (C76_msa_known_route); REFUTED for a new route: flow taken from the other paths is not limited by what they carry (C76_negative_flow_refuted), and an empty set creates flow (C76_empty_set_refuted)"
  },
  {
   "property": "C77",
   "status": "proved",
   "theorems": [
    "C77_fixed_conserves",
    "C77_fixed_no_negative_flow",
    "C77_fixed_each"
   ],
   "note": ""
  },
  {
   "property": "C78",
   "status": "partial",
   "theorems": [
    "C78_gp_no_negative_flow",
    "C78_gp_conserves_partial",
    "C78_gp_creates_flow_refuted",
    "C78_gp_direction"
   ],
   "note": "non-negativity proved (C78_gp_no_negative_flow); conservation proved if the route found is no worse than the used ones (C78_gp_conserves_partial); REFUTED otherwise: flow is created (C78_gp_creates_flow_refuted)"
  },
  {
   "property": "C79",
   "status": "partial",
   "theorems": [
    "C79_merit",
    "C79_merit_fixed_partial",
    "C79_unused_route_refuted"
   ],
   "note": "proved for compute_merit_function (C79_merit); with given departure times zero means equal disutility of the used paths only (C79_merit_fixed_partial), REFUTED as equilibrium measure: unused better routes are ignored (C79_unused_route_refuted)"
  },
  {
   "property": "C80",
   "status": "partial",
   "theorems": [
    "C80_best_by_cost_partial",
    "C80_best_choice_partial",
    "C80_best_choice_refuted"
   ],
   "note": "REFUTED: the generalised cost is used as travel time, so the departure is wrong unless the value of time is 1 and there are no tolls (C80_best_choice_refuted, C80_best_choice_partial); what is minimised: C80_best_by_cost_partial"
  },
  {
   "property": "C81",
   "status": "proved",
   "theorems": [
    "C81_classes_keep_order",
    "C81_interval_conserves",
    "C81_classes_stay_apart"
   ],
   "note": ""
  },
  {
   "property": "C82",
   "status": "partial",
   "theorems": [
    "C82_updates_never_fail",
    "C82_supply_defined_after_an_update",
    "C82_supply_of_new_queue_link_refuted",
    "C82_new_queue_link_actual"
   ],
   "note": "updates never fail: C82_updates_never_fail; supply defined after an update: C82_supply_defined_after_an_update; REFUTED before: a new link queue reads uninitialised densities (C82_supply_of_new_queue_link_refuted, C82_new_queue_link_actual)"
  },
  {
   "property": "C83",
   "status": "proved",
   "theorems": [
    "C83_no_vehicle_faster_than_free_flow",
    "C83_cars_exact_in_free_flow",
    "C83_cell_flows_in_free_flow",
    "C83_point_queue_traversal_time"
   ],
   "note": ""
  },
  {
   "property": "C84",
   "status": "proved",
   "theorems": [
    "C84_two_class_diagram",
    "C84_constructed_diagram"
   ],
   "note": ""
  },
  {
   "property": "C85",
   "status": "partial",
   "theorems": [
    "C85_ctm_supply",
    "C85_supply_within_capacity_refuted"
   ],
   "note": "0 <= supply <= max (capacity, wave speed x jam density / 4): C85_ctm_supply; REFUTED for the capacity alone (C85_supply_within_capacity_refuted)"
  },
  {
   "property": "C86",
   "status": "partial",
   "theorems": [
    "C86_queue_links_count_exactly",
    "C86_ctm_counts_actual",
    "C86_emission_counts_exact",
    "C86_ctm_counts_exactly_refuted"
   ],
   "note": "exact for link queue and point queue (C86_queue_links_count_exactly) and for emissions (C86_emission_counts_exact); REFUTED for cell transmission links, which count vehicles at the exit twice (C86_ctm_counts_exactly_refuted, C86_ctm_counts_actual)"
  },
  {
   "property": "C87",
   "status": "partial",
   "theorems": [
    "C87_ctm_travel_times",
    "C87_point_queue_travel_time",
    "C87_queue_link_jam_time_refuted"
   ],
   "note": "proved for cell transmission links and point queues; REFUTED for a multi-lane link queue: lane density is compared with link jam density (C87_queue_link_jam_time_refuted)"
  },
  {
   "property": "C88",
   "status": "partial",
   "theorems": [
    "C88_ctm_free_flow_intervals",
    "C88_point_queue_free_flow_intervals",
    "C88_queue_link_intervals_refuted"
   ],
   "note": "proved for cell transmission links and point queues; REFUTED for the link queue: seconds instead of intervals (C88_queue_link_intervals_refuted)"
  },
  {
   "property": "C89",
   "status": "partial",
   "theorems": [
    "C89_modify_keeps_vehicles",
    "C89_modified_as_built",
    "C89_cells_cannot_change",
    "C89_point_queue_changed_refuted"
   ],
   "note": "vehicles kept by every link (C89_modify_keeps_vehicles); values as built for cell transmission links and link queues (C89_modified_as_built, C89_cells_cannot_change); REFUTED for the point queue (C89_point_queue_changed_refuted)"
  },
  {
   "property": "C90",
   "status": "partial",
   "theorems": [
    "C90_waiting_adds_up",
    "C90_waiting_of_an_interval",
    "C90_spill_back_stays",
    "C90_spill_back_only_when_jammed",
    "C90_waiting_accumulates",
    "C90_spill_back_when_jammed_refuted"
   ],
   "note": "waiting time proved; flag goes up only if over-full (C90_spill_back_only_when_jammed); converse REFUTED: equivalents are truncated (C90_spill_back_when_jammed_refuted)"
  },
  {
   "property": "C91",
   "status": "partial",
   "theorems": [
    "C91_point_queue_admission",
    "C91_full_queue_link_refuted"
   ],
   "note": "cell transmission links: last part of C85_ctm_supply; point queue: C91_point_queue_admission; REFUTED for the link queue (C91_full_queue_link_refuted)"
  },
  {
   "property": "C92",
   "status": "proved",
   "theorems": [
    "C92_junction_passage",
    "C92_passage_determined",
    "C92_junction_total",
    "C92_junction_lost_vehicle"
   ],
   "note": ""
  },
  {
   "property": "C93",
   "status": "partial",
   "theorems": [
    "C93_junction_share",
    "C93_junction_extremes",
    "C93_junction_excess",
    "C93_within_supply_refuted"
   ],
   "note": "share rounded up to whole vehicles (C93_junction_share), extremes (C93_junction_extremes), excess at most one vehicle per in link (C93_junction_excess); REFUTED that the room is never exceeded (C93_within_supply_refuted)"
  },
  {
   "property": "C94",
   "status": "proved",
   "theorems": [
    "C94_junction_curves",
    "C94_junction_path_counts",
    "C94_origin_curves",
    "C94_destination_curves"
   ],
   "note": ""
  },
  {
   "property": "C95",
   "status": "partial",
   "theorems": [
    "C95_origin_sends",
    "C95_origin_total",
    "C95_destination_takes",
    "C95_destination_total",
    "C95_origin_within_room_refuted",
    "C95_any_connector_refuted",
    "C95_origin_needs_point_queues"
   ],
   "note": "proved for links that are point queues (C95_origin_sends, C95_origin_total, C95_destination_takes, C95_destination_total); REFUTED for other link types: a failed cast is dereferenced (C95_any_connector_refuted, C95_origin_needs_point_queues) and for room in equivalents: a truck counts one (C95_origin_within_room_refuted)"
  },
  {
   "property": "C96",
   "status": "partial",
   "theorems": [
    "C96_junction_miles",
    "C96_origin_destination_miles",
    "C96_connectors_do_not_count_refuted"
   ],
   "note": "C96_junction_miles, C96_origin_destination_miles; REFUTED for connectors: the test for a point queue fails on two-class links (C96_connectors_do_not_count_refuted)"
  },
  {
   "property": "C97",
   "status": "proved",
   "theorems": [
    "C97_classes_conserved",
    "C97_identity_fixed"
   ],
   "note": ""
  },
  {
   "property": "C98",
   "status": "proved",
   "theorems": [
    "C98_class_counters",
    "C98_enroute_series",
    "C98_trips_kept"
   ],
   "note": ""
  },
  {
   "property": "C99",
   "status": "proved",
   "theorems": [
    "C99_class_curves"
   ],
   "note": ""
  },
  {
   "property": "C100",
   "status": "proved",
   "theorems": [
    "C100_release_by_class",
    "C100_nothing_released_otherwise",
    "C100_labels"
   ],
   "note": ""
  },
  {
   "property": "C101",
   "status": "partial",
   "theorems": [
    "C101_share_by_class_partial",
    "C101_car_share_leaks_refuted"
   ],
   "note": "C101_share_by_class_partial: shares for all destinations of a class or none, and each class with its own ratio, or cars without or trucks with shares; REFUTED in general: the share of the cars sticks for the trucks (C101_car_share_leaks_refuted)"
  },
  {
   "property": "C102",
   "status": "partial",
   "theorems": [
    "C102_route_by_class",
    "C102_last_truck_column_kept",
    "C102_cars_get_truck_column",
    "C102_table_kept",
    "C102_car_columns_lost_refuted"
   ],
   "note": "C102_route_by_class, C102_last_truck_column_kept, C102_table_kept; REFUTED for cars beyond the end of the table: they get the last flows of the trucks (C102_cars_get_truck_column, C102_car_columns_lost_refuted)"
  },
  {
   "property": "C103",
   "status": "proved",
   "theorems": [
    "C103_route_of_departure",
    "C103_route_without_buffer",
    "C103_table_kept"
   ],
   "note": ""
  },
  {
   "property": "C104",
   "status": "proved",
   "theorems": [
    "C104_rates",
    "C104_truck_rates",
    "C104_clamped"
   ],
   "note": ""
  },
  {
   "property": "C105",
   "status": "proved",
   "theorems": [
    "C105_same_run",
    "C105_never_fails",
    "C105_totals",
    "C105_never_reset",
    "C105_consistent",
    "C105_monotone"
   ],
   "note": ""
  },
  {
   "property": "C106",
   "status": "partial",
   "theorems": [
    "C106_miles_refuted",
    "C106_counted"
   ],
   "note": "REFUTED: a vehicle standing at the exit of a link is counted as moving at the speed of the link, so one vehicle adds any number of link lengths (C106_miles_refuted); what is counted is C106_counted."
  },
  {
   "property": "C107",
   "status": "partial",
   "theorems": [
    "C107_trips",
    "C107_totals",
    "C107_trips_refuted"
   ],
   "note": "The class totals and hours are proved (C107_totals). The trip count is REFUTED as stated: trips are a set of addresses and arrived vehicles are freed, so a reused address is counted once (C107_trips_refuted); it is exact when no address is reused and never too large (C107_trips)."
  },
  {
   "property": "C108",
   "status": "partial",
   "theorems": [
    "C108_dissipation",
    "C108_no_queue_refuted"
   ],
   "note": "Definedness and the exact value of every entry are proved (C108_dissipation). The last clause is REFUTED: an uncongested interval in which the link discharges at capacity is given the end of the next queue, or of the run (C108_no_queue_refuted)."
  },
  {
   "property": "C109",
   "status": "partial",
   "theorems": [
    "C109_marginal_cost",
    "C109_again_refuted"
   ],
   "note": "Definedness and the exact value of every entry are proved (C109_marginal_cost). Recomputation is REFUTED: the results overwrite the travel times they are computed from, and a second computation throws (C109_again_refuted)."
  },
  {
   "property": "C110",
   "status": "partial",
   "theorems": [
    "C110_limit_never_met",
    "C110_capacity_refuted"
   ],
   "note": "REFUTED: the cell capacity, already per interval, is multiplied by the interval length again, so with intervals of two seconds or more no admissible flow ever reaches it (C110_capacity_refuted; for all links and flows within the limit: C110_limit_never_met)."
  },
  {
   "property": "C111",
   "status": "partial",
   "theorems": [
    "C111_path_cost",
    "C111_path_cost_refuted"
   ],
   "note": "REFUTED: the travel-time table has been overwritten with marginal costs, which are then used to advance the clock, so later links are priced at intervals no vehicle enters them (C111_path_cost_refuted); what is computed is C111_path_cost."
  },
  {
   "property": "C112",
   "status": "partial",
   "theorems": [
    "C112_refill",
    "C112_refill_refuted"
   ],
   "note": "REFUTED: the arrays keep the size of the first run; filling them after a run of more intervals writes past their end (C112_refill_refuted; exact condition C112_refill)."
  },
  {
   "property": "C113",
   "status": "partial",
   "theorems": [
    "C113_links",
    "C113_links_rejected",
    "C113_rejected_registration_keeps_old_refuted",
    "C113_paths"
   ],
   "note": "Acceptance, rejection and positions are proved (C113_links, C113_links_rejected, C113_paths). The last clause is REFUTED: the earlier registration is dropped before the new one is checked (C113_rejected_registration_keeps_old_refuted)."
  },
  {
   "property": "C114",
   "status": "proved",
   "theorems": [
    "C114_inflow_matrix",
    "C114_bad_window_rejected",
    "C114_run"
   ],
   "note": ""
  },
  {
   "property": "C115",
   "status": "partial",
   "theorems": [
    "C115_contiguous",
    "C115_strided_refuted"
   ],
   "note": "Proved for contiguous arrays (C115_contiguous). REFUTED for views with another stride: the raw pointer is indexed as if the array were contiguous (C115_strided_refuted)."
  },
  {
   "property": "C116",
   "status": "partial",
   "theorems": [
    "C116_matrix",
    "C116_run_matrix_times_flows",
    "C116_repeated_path_refuted",
    "C116_rows"
   ],
   "note": "Proved for distinct registered paths (C116_matrix, C116_run_matrix_times_flows). REFUTED for a path registered twice, which is accepted: columns collide or lie outside the matrix (C116_repeated_path_refuted)."
  },
  {
   "property": "C117",
   "status": "partial",
   "theorems": [
    "C117_saved_lines_partial",
    "C117_saved_lines_refuted"
   ],
   "note": "Proved when the registered paths are numbered 0, 1, 2, ... in order (C117_saved_lines_partial). REFUTED otherwise: the file uses the path's ID where the matrix uses its position, and reads the flow of another path, possibly outside the array (C117_saved_lines_refuted)."
  },
  {
   "property": "C118",
   "status": "proved",
   "theorems": [
    "C118_totals"
   ],
   "note": ""
  },
  {
   "property": "C120",
   "status": "partial",
   "theorems": [
    "C120_tt_matrix",
    "C120_cut",
    "C120_short_links_refuted"
   ],
   "note": "Entries and independence of the cache are proved (C120_tt_matrix, C120_cut). The last clause is REFUTED: links shorter than a twentieth of an interval's drive are always reported as infinite (C120_short_links_refuted)."
  },
  {
   "property": "C121",
   "status": "partial",
   "theorems": [
    "C121_path_tt_partial",
    "C121_negative_start_refuted"
   ],
   "note": "Proved for non-negative start intervals (C121_path_tt_partial). REFUTED for negative ones: not rejected, the table is read before its start (C121_negative_start_refuted)."
  },
  {
   "property": "C119",
   "status": "partial",
   "theorems": [
    "C119_cover_partial",
    "C119_origin_links_refuted",
    "C119_simple_routes_refuted"
   ],
   "note": "Proved for links that do not start at an origin node or end at a destination node, without simplicity of the route (C119_cover_partial). REFUTED for links at an origin or destination node: the empty tree is searched and its end dereferenced (C119_origin_links_refuted, all networks), and simplicity: a generated route may use a link twice (C119_simple_routes_refuted)."
  },
  {
   "property": "C122",
   "status": "proved",
   "theorems": [
    "C122_delivery_conserved",
    "C122_ordinary_vehicles"
   ],
   "note": ""
  },
  {
   "property": "C123",
   "status": "partial",
   "theorems": [
    "C123_tour_in_order",
    "C123_whole_tour_partial",
    "C123_whole_tour_refuted"
   ],
   "note": "Order, no omission and the end of the tour proved (C123_tour_in_order); whole tour proved when the last destination occurs only at the end (C123_whole_tour_partial). REFUTED in general: the vehicle finishes at the first visit of the last destination, so out-back-out-back ends after the first return (C123_whole_tour_refuted)."
  },
  {
   "property": "C124",
   "status": "partial",
   "theorems": [
    "C124_no_repeated_stop",
    "C124_repeated_stop_aborts",
    "C124_single_leg_aborts",
    "C124_any_tour_refuted"
   ],
   "note": "REFUTED: both kinds of tour end in a failed assertion (C124_any_tour_refuted); proved: when exactly a stop or a release aborts, and that no vehicle ever makes two consecutive stops at one place (C124_no_repeated_stop)."
  },
  {
   "property": "C125",
   "status": "partial",
   "theorems": [
    "C125_pickup_wait",
    "C125_exact_wait_refuted",
    "C125_other_gates_refuted"
   ],
   "note": "Proved for connectors that are point queues: no vehicle enters earlier (C125_pickup_wait). REFUTED: the clock of a vehicle stands still while the entrance is busy, so it may enter later than needed (C125_exact_wait_refuted); other connector types do not wait at all (C125_other_gates_refuted)."
  },
  {
   "property": "C126",
   "status": "proved",
   "theorems": [
    "C126_interval_conserves",
    "C126_history_conserves"
   ],
   "note": ""
  },
  {
   "property": "C127",
   "status": "partial",
   "theorems": [
    "C127_time_left",
    "C127_everyone_leaves",
    "C127_lone_arrival",
    "C127_apart",
    "C127_one_per_charging_time_refuted"
   ],
   "note": "Exact leaving time of every vehicle proved (C127_time_left, C127_lone_arrival, C127_everyone_leaves). REFUTED: a queue serves one vehicle per charging time plus one interval (C127_apart, C127_one_per_charging_time_refuted)."
  },
  {
   "property": "C128",
   "status": "partial",
   "theorems": [
    "C128_estimate_error",
    "C128_estimate_recorded",
    "C128_exact_refuted"
   ],
   "note": "REFUTED: with m vehicles in front, the first charging for c intervals, the estimate misses the wait by m - c (C128_estimate_error, C128_exact_refuted)."
  },
  {
   "property": "C129",
   "status": "partial",
   "theorems": [
    "C129_idle_slot_is_used",
    "C129_no_idle_slot_refuted"
   ],
   "note": "First half proved (C129_idle_slot_is_used). REFUTED: a vehicle never changes its queue, so it can wait beside an idle slot (C129_no_idle_slot_refuted)."
  },
  {
   "property": "C130",
   "status": "partial",
   "theorems": [
    "C130_number_of_queues",
    "C130_no_queue",
    "C130_any_station_runs_refuted"
   ],
   "note": "Number of queues = slots * int(flow scalar) (C130_number_of_queues). REFUTED for flow scalars below one: no queue, undefined behaviour in the first interval (C130_no_queue, C130_any_station_runs_refuted)."
  },
  {
   "property": "C131",
   "status": "partial",
   "theorems": [
    "C131_only_its_own_vehicles",
    "C131_others_pass_refuted"
   ],
   "note": "First half proved (C131_only_its_own_vehicles). REFUTED: any other vehicle, also an electric vehicle on its way to another station, ends the program (C131_others_pass_refuted)."
  },
  {
   "property": "C132",
   "status": "partial",
   "theorems": [
    "C132_low_start_is_safe",
    "C132_any_start_refuted"
   ],
   "note": "Proved for delivery vehicles and starting ranges up to a tenth of the full range (C132_low_start_is_safe). REFUTED otherwise (C132_any_start_refuted)."
  },
  {
   "property": "C133",
   "status": "partial",
   "theorems": [
    "C133_charge_fills",
    "C133_miles_counted",
    "C133_within_range_refuted"
   ],
   "note": "First two parts proved (C133_charge_fills, C133_miles_counted). REFUTED: nothing bounds the miles by the range (C133_within_range_refuted)."
  },
  {
   "property": "C134",
   "status": "partial",
   "theorems": [
    "C134_best_station_is_cheapest",
    "C134_least_expense_refuted"
   ],
   "note": "Minimum of the costs used proved (C134_best_station_is_cheapest). REFUTED for what a driver spends: waiting, charging and price count tenfold in the costs used (C134_least_expense_refuted)."
  },
  {
   "property": "C135",
   "status": "proved",
   "theorems": [
    "C135_release_matches_demand",
    "C135_nothing_released_otherwise",
    "C135_purpose_kept"
   ],
   "note": ""
  },
  {
   "property": "C136",
   "status": "partial",
   "theorems": [
    "C136_planning_repeats_refuted",
    "C136_one_step_without_estimation"
   ],
   "note": "REFUTED: every run of two planning steps, every step with an estimation iteration and every step with two optimisation iterations uses the freed path table (C136_planning_repeats_refuted). One step without estimation and with at most one optimisation iteration works, but the engine cannot be initialised again (C136_one_step_without_estimation)."
  },
  {
   "property": "C137",
   "status": "partial",
   "theorems": [
    "C137_compliance_estimate_refuted",
    "C137_prediction_ignores_signs",
    "C137_signs_start_compliant"
   ],
   "note": "REFUTED: the new ratio is 0.7 times the old one plus 0.3 whatever the flows (C137_compliance_estimate_refuted); signs start at 1, stay there, and prediction keeps the shares (C137_signs_start_compliant, C137_prediction_ignores_signs)."
  },
  {
   "property": "C138",
   "status": "partial",
   "theorems": [
    "C138_sign_recommends_greatest_gain",
    "C138_sign_covers_next_links_refuted",
    "C138_sign_recommends_first_link"
   ],
   "note": "Greatest gain among the candidates proved (C138_sign_recommends_greatest_gain). REFUTED: the candidates are the links leaving the start of the sign's own link (C138_sign_covers_next_links_refuted), and after planning all gains are zero so the first candidate is recommended (C138_sign_recommends_first_link)."
  },
  {
   "property": "C139",
   "status": "partial",
   "theorems": [
    "C139_average_is_mean_refuted",
    "C139_constant_time",
    "C139_stale_differences"
   ],
   "note": "REFUTED: the sum over m / (m / sp) >= sp samples is divided by sp and added to what earlier calls left; a horizon shorter than the number of samples divides by zero (C139_average_is_mean_refuted, C139_constant_time); unmeasured links keep old differences (C139_stale_differences)."
  },
  {
   "property": "C140",
   "status": "proved",
   "theorems": [
    "C140_update_keeps_shares",
    "C140_only_signs_matter",
    "C140_initial_shares"
   ],
   "note": ""
  },
  {
   "property": "C141",
   "status": "partial",
   "theorems": [
    "C141_optimisation_improves_refuted"
   ],
   "note": "REFUTED: every gradient of an OD pair has the same sign, so no share ever changes (C141_optimisation_improves_refuted)."
  },
  {
   "property": "C142",
   "status": "partial",
   "theorems": [
    "C142_when_copying_works",
    "C142_copy_keeps_vehicles_refuted",
    "C142_copy_looks_empty"
   ],
   "note": "Trips and order on the links proved (C142_copy_keeps_vehicles_refuted, first part), as is when copying works (C142_when_copying_works). REFUTED: vehicles inside link queues, at origins and at destinations are missing, and recorded volumes are zero (C142_copy_keeps_vehicles_refuted, C142_copy_looks_empty)."
  },
  {
   "property": "C143",
   "status": "partial",
   "theorems": [
    "C143_prediction_loads_demand_refuted",
    "C143_demand_interval"
   ],
   "note": "REFUTED: nothing is released before the last interval of the first assignment interval, and arrivals are never counted (C143_prediction_loads_demand_refuted). Demand interval after any horizon proved (C143_demand_interval)."
  },
  {
   "property": "C144",
   "status": "proved",
   "theorems": [
    "C144_measured_times_positive",
    "C144_measured_on_leaving_only"
   ],
   "note": ""
  },
  {
   "property": "C145",
   "status": "proved",
   "theorems": [
    "C145_passengers_conserved"
   ],
   "note": ""
  },
  {
   "property": "C146",
   "status": "proved",
   "theorems": [
    "C146_bus_capacity"
   ],
   "note": ""
  },
  {
   "property": "C147",
   "status": "proved",
   "theorems": [
    "C147_first_come_first_served"
   ],
   "note": ""
  },
  {
   "property": "C148",
   "status": "proved",
   "theorems": [
    "C148_bus_leaves_only_when_done",
    "C148_unscaled"
   ],
   "note": ""
  },
  {
   "property": "C149",
   "status": "partial",
   "theorems": [
    "C149_stays_bounded",
    "C149_slow_boarding_refuted"
   ],
   "note": "Bounded stay proved for boarding and alighting rates of at least one passenger per interval (C149_stays_bounded). REFUTED otherwise: with more than 2 * unit_time seconds per passenger the rate rounds to zero and a bus with one waiting passenger stays for ever (C149_slow_boarding_refuted)."
  },
  {
   "property": "C150",
   "status": "partial",
   "theorems": [
    "C150_walking_time",
    "C150_first_walk_refuted"
   ],
   "note": "Exact duration proved when the waiting time is set (C150_walking_time). REFUTED for passengers released at origins: the waiting time is read without ever having been set (C150_first_walk_refuted)."
  },
  {
   "property": "C151",
   "status": "partial",
   "theorems": [
    "C151_implicit_waiting_refuted"
   ],
   "note": "REFUTED: a passenger who comes to a stop rides in the same interval whatever the historical waiting time, which is still reported (C151_implicit_waiting_refuted)."
  },
  {
   "property": "C152",
   "status": "partial",
   "theorems": [
    "C152_riders_not_delayed_partial",
    "C152_riders_refuted"
   ],
   "note": "Proved when no more get off than the rate allows (C152_riders_not_delayed_partial). REFUTED in general: the scan stops at the first passenger beyond the rate, and riders behind wait (C152_riders_refuted)."
  },
  {
   "property": "C153",
   "status": "proved",
   "theorems": [
    "C153_cars_parked_once"
   ],
   "note": ""
  },
  {
   "property": "C154",
   "status": "partial",
   "theorems": [
    "C154_lot_capacity_refuted",
    "C154_flow_scalar_refuted"
   ],
   "note": "REFUTED: cars are taken without looking at the capacity (C154_lot_capacity_refuted), and cars of the simulation are not scaled (C154_flow_scalar_refuted). What is taken: C153."
  },
  {
   "property": "C155",
   "status": "partial",
   "theorems": [
    "C155_cruising_monotone_partial",
    "C155_cruising_refuted"
   ],
   "note": "Growth below the capacity proved (C155_cruising_monotone_partial). REFUTED at the capacity: 99 of 100 places taken gives 100 times the average, a full lot 10 times (C155_cruising_refuted)."
  },
  {
   "property": "C156",
   "status": "partial",
   "theorems": [
    "C156_accounts",
    "C156_deleted_passenger_refuted"
   ],
   "note": "Proved for removal without deletion (C156_accounts). REFUTED with deletion, as the simulation does it: the deleted passenger is read (C156_deleted_passenger_refuted)."
  },
  {
   "property": "C157",
   "status": "partial",
   "theorems": [
    "C157_end_of_loading",
    "C157_passengers_refuted"
   ],
   "note": "When loading ends is proved (C157_end_of_loading). REFUTED for passengers: those on the way are not looked at (C157_passengers_refuted)."
  },
  {
   "property": "C158",
   "status": "partial",
   "theorems": [
    "C158_portions_add_up",
    "C158_one_link",
    "C158_loop_refuted"
   ],
   "note": "Proved for different links and for one link (C158_portions_add_up, C158_one_link). REFUTED for routes that come back to their first link (C158_loop_refuted)."
  },
  {
   "property": "C159",
   "status": "partial",
   "theorems": [
    "C159_first_stop_wait",
    "C159_no_more_buses_refuted",
    "C159_unit_time_refuted"
   ],
   "note": "Proved for the first stop with 5-second intervals (C159_first_stop_wait). REFUTED: the value for no bus can be less than that for a bus, intervals are mixed with seconds (C159_no_more_buses_refuted); other units of time give wrong times (C159_unit_time_refuted)."
  },
  {
   "property": "C160",
   "status": "partial",
   "theorems": [
    "C160_admitted_in_order",
    "C160_volume_refuted"
   ],
   "note": "Order of admission and what is counted proved (C160_admitted_in_order). REFUTED: only finished vehicles are counted, a link full of vehicles reports none (C160_volume_refuted)."
  },
  {
   "property": "C161",
   "status": "proved",
   "theorems": [
    "C161_cell_order"
   ],
   "note": ""
  },
  {
   "property": "C162",
   "status": "partial",
   "theorems": [
    "C162_service_in_jam_refuted"
   ],
   "note": "REFUTED: with no flow out of the cell stops are not visited at all (C162_service_in_jam_refuted)."
  },
  {
   "property": "C163",
   "status": "proved",
   "theorems": [
    "C163_extract_is_best"
   ],
   "note": ""
  },
  {
   "property": "C164",
   "status": "partial",
   "theorems": [
    "C164_old_rows_kept_refuted",
    "C164_listed_rows_replaced",
    "C164_text_zero_refuted",
    "C164_mixed_answer_refuted"
   ],
   "note": "REFUTED: array rows of links that the new arrays do not list are kept (C164_old_rows_kept_refuted), with text files such links become free of charge (C164_text_zero_refuted), and extract_tdsp before a new build mixes the old cost with new travel times (C164_mixed_answer_refuted). Proved: listed rows are replaced, others stay (C164_listed_rows_replaced)."
  },
  {
   "property": "C165",
   "status": "partial",
   "theorems": [
    "C165_longer_horizon_refuted"
   ],
   "note": "REFUTED: the arrays of links read before keep their old length; reading a longer row writes behind the end of the array, for every such object and tables."
  },
  {
   "property": "C166",
   "status": "partial",
   "theorems": [
    "C166_cost_of_route_partial",
    "C166_movement_times_refuted",
    "C166_last_interval_refuted"
   ],
   "note": "REFUTED: the labels round the sum of link and movement time up, the route rounds both separately (C166_movement_times_refuted); in the last interval a label may have been computed for a turn that the route no longer makes (C166_last_interval_refuted). Proved for movement times of zero and routes that end before the last interval (C166_cost_of_route_partial)."
  },
  {
   "property": "C167",
   "status": "proved",
   "theorems": [
    "C167_no_movements"
   ],
   "note": ""
  },
  {
   "property": "C168",
   "status": "partial",
   "theorems": [
    "C168_no_tree_refuted",
    "C168_missing_row_refuted"
   ],
   "note": "REFUTED: without a tree a null pointer is dereferenced, for every object (C168_no_tree_refuted); a link without a row dereferences end() of the map (C168_missing_row_refuted)."
  },
  {
   "property": "C169",
   "status": "proved",
   "theorems": [
    "C169_rows"
   ],
   "note": ""
  },
  {
   "property": "C170",
   "status": "partial",
   "theorems": [
    "C170_cars",
    "C170_trucks_refuted",
    "C170_trucks_partial"
   ],
   "note": "REFUTED: the truck calls read m_last_valid_time, which is set from the curves of the cars: rows of trucks are lost while cars wait (C170_trucks_refuted). Proved for cars (C170_cars)."
  },
  {
   "property": "C171",
   "status": "proved",
   "theorems": [
    "C171_returns"
   ],
   "note": ""
  },
  {
   "property": "C172",
   "status": "partial",
   "theorems": [
    "C172_every_path_refuted"
   ],
   "note": "REFUTED: a path that begins with a cell link fails an assertion, as does every path over a link on which cars stand since the first interval (C172_every_path_refuted); see C171 for what is proved."
  },
  {
   "property": "C173",
   "status": "proved",
   "theorems": [
    "C173_totals"
   ],
   "note": ""
  },
  {
   "property": "C174",
   "status": "partial",
   "theorems": [
    "C174_ids_refuted"
   ],
   "note": "REFUTED: columns are computed from path IDs, and queues that last longer are written outside the matrix (C174_ids_refuted); see C173 for what is proved."
  },
  {
   "property": "C175",
   "status": "proved",
   "theorems": [
    "C175_lowest_path"
   ],
   "note": ""
  },
  {
   "property": "C176",
   "status": "partial",
   "theorems": [
    "C176_cost_of_path_refuted"
   ],
   "note": "REFUTED: the cost is cut to a whole number, and it is the cost of the way before its cycles are cut out (C176_cost_of_path_refuted); what the number means is proved in C175_lowest_path."
  },
  {
   "property": "C177",
   "status": "partial",
   "theorems": [
    "C177_no_answer_refuted",
    "C177_late_departure_refuted",
    "C177_short_run_refuted"
   ],
   "note": "REFUTED: an assertion fails when origin and destination are the same or there is no path (C177_no_answer_refuted) and for departures after the beginning of the last assignment interval (C177_late_departure_refuted); after a simulation shorter than the horizon the tables are read outside (C177_short_run_refuted)."
  },
  {
   "property": "C178",
   "status": "proved",
   "theorems": [
    "C178_settings_read"
   ],
   "note": ""
  },
  {
   "property": "C179",
   "status": "partial",
   "theorems": [
    "C179_slash_refuted"
   ],
   "note": "REFUTED: section and entry are joined with a slash: entry k of section s/a and entry a/k of section s are the same (C179_slash_refuted); see C178 for names without slash."
  },
  {
   "property": "C180",
   "status": "proved",
   "theorems": [
    "C180_numbers_read"
   ],
   "note": ""
  },
  {
   "property": "C181",
   "status": "partial",
   "theorems": [
    "C181_missing_file_refuted",
    "C181_no_equal_refuted",
    "C181_not_a_number_refuted"
   ],
   "note": "REFUTED: a missing file reads as an empty one and fails only when an entry is asked for (C181_missing_file_refuted); a line without '=' becomes an entry with its text as name and value (C181_no_equal_refuted); other values count as 0 (C181_not_a_number_refuted)."
  },
  {
   "property": "C182",
   "status": "partial",
   "theorems": [
    "C182_remark_refuted"
   ],
   "note": "REFUTED: the remark is part of the string (C182_remark_refuted); for numbers it is ignored (C180)."
  },
  {
   "property": "C183",
   "status": "partial",
   "theorems": [
    "C183_default_refuted"
   ],
   "note": "REFUTED: the handlers are for const char* while std::invalid_argument is thrown (C183_default_refuted)."
  },
  {
   "property": "C184",
   "status": "proved",
   "theorems": [
    "C184_shares",
    "C184_answers"
   ],
   "note": ""
  },
  {
   "property": "C185",
   "status": "partial",
   "theorems": [
    "C185_refuted"
   ],
   "note": "REFUTED: exp underflows: below any threshold there are finite costs for which the assertion fails (C185_refuted). With an exp that stays positive shares are given (C184_answers)."
  },
  {
   "property": "C186",
   "status": "proved",
   "theorems": [
    "C186_minutes",
    "C186_other_splits_stop"
   ],
   "note": ""
  },
  {
   "property": "C187",
   "status": "partial",
   "theorems": [
    "C187_refuted",
    "C187_partial",
    "C187_excess_partial",
    "C187_last_interval_partial"
   ],
   "note": "REFUTED: transit that is not usable gets the demand per minute of the mode treated before if the pair has a transit demand (C187_refuted; size of the excess C187_excess_partial). Holds where transit is usable or without demand (C187_partial)."
  },
  {
   "property": "C188",
   "status": "proved",
   "theorems": [
    "C188_first_flows",
    "C188_nothing"
   ],
   "note": ""
  },
  {
   "property": "C189",
   "status": "proved",
   "theorems": [
    "C189_from_flows"
   ],
   "note": ""
  },
  {
   "property": "C190",
   "status": "partial",
   "theorems": [
    "C190_refuted",
    "C190_partial"
   ],
   "note": "REFUTED: the demand of the input file stays (C190_refuted, C190_partial)."
  },
  {
   "property": "C191",
   "status": "proved",
   "theorems": [
    "C191_gap"
   ],
   "note": ""
  },
  {
   "property": "C192",
   "status": "partial",
   "theorems": [
    "C192_refuted"
   ],
   "note": "REFUTED: paths without flow are not compared (C192_refuted)."
  },
  {
   "property": "C193",
   "status": "proved",
   "theorems": [
    "C193_file"
   ],
   "note": ""
  },
  {
   "property": "C194",
   "status": "partial",
   "theorems": [
    "C194_refuted",
    "C194_file_refuted"
   ],
   "note": "REFUTED: saving, or reading a file in which the mode is usable, dereferences a missing entry (C194_refuted, C194_file_refuted)."
  },
  {
   "property": "C195",
   "status": "partial",
   "theorems": [
    "C195_fresh_partial",
    "C195_unserved_partial",
    "C195_refuted"
   ],
   "note": "REFUTED: the file of an earlier run is used whatever the network is now (C195_refuted); right without a file and with all modes on (C195_fresh_partial, C195_unserved_partial)."
  },
  {
   "property": "C196",
   "status": "proved",
   "theorems": [
    "C196_departure_update",
    "C196_update_works",
    "C196_moves_to_old_path",
    "C196_moves_to_new_path"
   ],
   "note": ""
  },
  {
   "property": "C197",
   "status": "proved",
   "theorems": [
    "C197_fixed_update",
    "C197_fixed_interval",
    "C197_check_never_fails"
   ],
   "note": ""
  },
  {
   "property": "C198",
   "status": "proved",
   "theorems": [
    "C198_projection",
    "C198_whole_update",
    "C198_small_steps_work"
   ],
   "note": ""
  },
  {
   "property": "C199",
   "status": "partial",
   "theorems": [
    "C199_big_steps_refuted"
   ],
   "note": "REFUTED: with a step above 1 it throws in every interval that is not settled (C199_big_steps_refuted)."
  },
  {
   "property": "C200",
   "status": "partial",
   "theorems": [
    "C200_best_existing_partial",
    "C200_best_existing_refuted",
    "C200_no_bus_no_answer"
   ],
   "note": "REFUTED: the disutility of park and ride is computed with the passengers of the bus (C200_best_existing_refuted), and pairs with park and ride but without bus paths get no answer (C200_no_bus_no_answer). Holds without park and ride (C200_best_existing_partial)."
  },
  {
   "property": "C201",
   "status": "proved",
   "theorems": [
    "C201_best_stored",
    "C201_stored_right",
    "C201_best_stored_works"
   ],
   "note": ""
  },
  {
   "property": "C202",
   "status": "proved",
   "theorems": [
    "C202_times",
    "C202_at_least_one",
    "C202_times_exist"
   ],
   "note": ""
  },
  {
   "property": "C203",
   "status": "proved",
   "theorems": [
    "C203_penalty",
    "C203_longer_costs_more"
   ],
   "note": ""
  },
  {
   "property": "C204",
   "status": "partial",
   "theorems": [
    "C204_stuck_partial",
    "C204_stuck_refuted"
   ],
   "note": "REFUTED: a stuck journey counts as twice the run, journeys that take longer cost more (C204_stuck_refuted). Holds for journeys of at most twice the run (C204_stuck_partial)."
  },
  {
   "property": "C205",
   "status": "partial",
   "theorems": [
    "C205_fee_without_lot_refuted",
    "C205_park_and_ride_free_refuted",
    "C205_car_with_lot_partial"
   ],
   "note": "REFUTED: driving without a lot is charged 8 (C205_fee_without_lot_refuted); park and ride pays no tolls and no parking (C205_park_and_ride_free_refuted). Right for driving to a lot (C205_car_with_lot_partial)."
  },
  {
   "property": "C206",
   "status": "partial",
   "theorems": [
    "C206_best_interval_partial",
    "C206_best_interval_refuted"
   ],
   "note": "REFUTED: best times after the last assignment interval are put into the last one, even if it is the worst (C206_best_interval_refuted). Holds for earlier times (C206_best_interval_partial)."
  },
  {
   "property": "C207",
   "status": "proved",
   "theorems": [
    "C207_cars_follow_drivers"
   ],
   "note": ""
  },
  {
   "property": "C208",
   "status": "proved",
   "theorems": [
    "C208_park_and_ride",
    "C208_bus"
   ],
   "note": ""
  },
  {
   "property": "C209",
   "status": "partial",
   "theorems": [
    "C209_trucks_partial",
    "C209_pairs_without_passengers_refuted",
    "C209_shared_table_refuted"
   ],
   "note": "REFUTED: trucks between pairs without passengers or without usable driving are dropped (C209_pairs_without_passengers_refuted), and all trucks when the truck table is the driving table (C209_shared_table_refuted). Holds for the other pairs of the equilibrium types (C209_trucks_partial)."
  },
  {
   "property": "C210",
   "status": "proved",
   "theorems": [
    "C210_exactly_the_offered"
   ],
   "note": ""
  },
  {
   "property": "C211",
   "status": "proved",
   "theorems": [
    "C211_conversion_works",
    "C211_needed"
   ],
   "note": ""
  },
  {
   "property": "C212",
   "status": "partial",
   "theorems": [
    "C212_again_partial",
    "C212_again_refuted"
   ],
   "note": "REFUTED: types that start without paths stop at an assertion the second time (C212_again_refuted). Holds with path tables from the start (C212_again_partial)."
  },
  {
   "property": "C213",
   "status": "proved",
   "theorems": [
    "C213_two_class_nodes",
    "C213_two_class_links",
    "C213_bad_rows_reported"
   ],
   "note": ""
  },
  {
   "property": "C214",
   "status": "proved",
   "theorems": [
    "C214_fifteen_minutes",
    "C214_minutes_add_up"
   ],
   "note": ""
  },
  {
   "property": "C215",
   "status": "partial",
   "theorems": [
    "C215_small_demand_kept_refuted"
   ],
   "note": "REFUTED: with split 1 a demand below one vehicle is replaced by 15 zeros (C215_small_demand_kept_refuted)."
  },
  {
   "property": "C216",
   "status": "partial",
   "theorems": [
    "C216_short_intervals_refuted",
    "C216_long_intervals_refuted",
    "C216_unit_time_refuted"
   ],
   "note": "REFUTED: intervals shorter than 15 minutes read memory after the array (C216_short_intervals_refuted), longer ones shift demand in time and drop the rest (C216_long_intervals_refuted), unit times of 0 or more than 60 s divide by zero (C216_unit_time_refuted)."
  },
  {
   "property": "C217",
   "status": "proved",
   "theorems": [
    "C217_shares_read",
    "C217_two_class_shares_read"
   ],
   "note": ""
  },
  {
   "property": "C218",
   "status": "partial",
   "theorems": [
    "C218_remarks_skipped_refuted"
   ],
   "note": "REFUTED: such a line is an exception in the files of adaptive ratios, time-dependent attributes and tolls (C218_remarks_skipped_refuted)."
  },
  {
   "property": "C219",
   "status": "proved",
   "theorems": [
    "C219_tolls_read",
    "C219_two_class_tolls_read"
   ],
   "note": ""
  },
  {
   "property": "C220",
   "status": "partial",
   "theorems": [
    "C220_short_toll_file_refuted",
    "C220_short_complete_file_reported"
   ],
   "note": "REFUTED: without a final newline the last row is taken again and the file accepted (C220_short_toll_file_refuted); with one an exception is raised (C220_short_complete_file_reported)."
  },
  {
   "property": "C221",
   "status": "partial",
   "theorems": [
    "C221_label_shares",
    "C221_bad_rows_reported_refuted"
   ],
   "note": "REFUTED: rows with another number of words are passed over silently (C221_bad_rows_reported_refuted); the shares of the others are read in order (C221_label_shares)."
  },
  {
   "property": "C222",
   "status": "proved",
   "theorems": [
    "C222_attributes_applied"
   ],
   "note": ""
  },
  {
   "property": "C223",
   "status": "partial",
   "theorems": [
    "C223_toll_fraction_refuted",
    "C223_unknown_link_reported_refuted"
   ],
   "note": "REFUTED: only the whole part of the toll is used, the same for cars and trucks (C223_toll_fraction_refuted), and an unknown link is undefined behaviour at its interval (C223_unknown_link_reported_refuted)."
  },
  {
   "property": "C224",
   "status": "partial",
   "theorems": [
    "C224_single_class_attributes_refuted"
   ],
   "note": "REFUTED: the file is read, the truck speed recorded as toll, and no link is ever changed (C224_single_class_attributes_refuted)."
  },
  {
   "property": "C225",
   "status": "proved",
   "theorems": [
    "C225_lists_read"
   ],
   "note": ""
  },
  {
   "property": "C226",
   "status": "partial",
   "theorems": [
    "C226_short_list_reported_refuted",
    "C226_short_complete_list"
   ],
   "note": "REFUTED: without a final newline the last line is repeated (C226_short_list_reported_refuted); with one, lists of reals get empty rows and only lists of integers raise an exception (C226_short_complete_list)."
  },
  {
   "property": "C227",
   "status": "proved",
   "theorems": [
    "C227_buses_drive_their_route"
   ],
   "note": ""
  },
  {
   "property": "C228",
   "status": "proved",
   "theorems": [
    "C228_cars_drive_to_the_lot"
   ],
   "note": ""
  },
  {
   "property": "C229",
   "status": "proved",
   "theorems": [
    "C229_passengers_follow_their_path",
    "C229_path_kept"
   ],
   "note": ""
  },
  {
   "property": "C230",
   "status": "proved",
   "theorems": [
    "C230_shares_of_the_interval",
    "C230_shares_stay_fair",
    "C230_path_is_drawn",
    "C230_car_path_is_drawn"
   ],
   "note": ""
  },
  {
   "property": "C231",
   "status": "proved",
   "theorems": [
    "C231_buses_never_fail",
    "C231_cars_never_fail",
    "C231_passengers_never_fail"
   ],
   "note": ""
  },
  {
   "property": "C232",
   "status": "partial",
   "theorems": [
    "C232_new_bus",
    "C232_short_route",
    "C232_short_path",
    "C232_no_paths",
    "C232_unsound_plans_reported_refuted"
   ],
   "note": "REFUTED: a bus whose line is missing from the table or has no links, a pair without paths and a route ending short of its destination are undefined behaviour (C232_unsound_plans_reported_refuted, C232_new_bus, C232_short_route, C232_short_path, C232_no_paths); only a null path and unknown links raise an exception."
  },
  {
   "property": "C233",
   "status": "proved",
   "theorems": [
    "C233_adaptive_passengers",
    "C233_adaptive_cars",
    "C233_nominal_path"
   ],
   "note": ""
  },
  {
   "property": "C234",
   "status": "proved",
   "theorems": [
    "C234_first_lot",
    "C234_any_lot",
    "C234_no_lot",
    "C234_at_a_destination",
    "C234_times_play_no_part",
    "C234_not_the_quickest"
   ],
   "note": ""
  },
  {
   "property": "C235",
   "status": "proved",
   "theorems": [
    "C235_round_trip"
   ],
   "note": ""
  },
  {
   "property": "C236",
   "status": "partial",
   "theorems": [
    "C236_small_shares_lost",
    "C236_millionths_kept",
    "C236_exact_refuted"
   ],
   "note": "REFUTED: shares are written with six decimals: 1/3 comes back as 0.333333 (C236_exact_refuted) and every share below half a millionth as 0 (C236_small_shares_lost); multiples of a millionth are exact up to the number reader (C236_millionths_kept)."
  },
  {
   "property": "C237",
   "status": "partial",
   "theorems": [
    "C237_line_by_line",
    "C237_remark_fails",
    "C237_remarks_skipped_refuted"
   ],
   "note": "REFUTED: the loop that should skip them looks at the line of the path file, so exactly one line of the file of shares is used per path (C237_line_by_line): a blank line gives its path no shares and a remark raises an exception (C237_remark_fails, C237_remarks_skipped_refuted)."
  },
  {
   "property": "C238",
   "status": "partial",
   "theorems": [
    "C238_missing_file",
    "C238_short_file",
    "C238_missing_file_reported_refuted",
    "C238_short_file_reported_refuted"
   ],
   "note": "REFUTED: without the file the paths silently have no shares (C238_missing_file); after the end of a short file the paths get none if it ends with a newline, and otherwise the shares of its last line (C238_short_file, C238_missing_file_reported_refuted, C238_short_file_reported_refuted)."
  },
  {
   "property": "C239",
   "status": "proved",
   "theorems": [
    "C239_links_to_nodes",
    "C239_nodes_to_links"
   ],
   "note": ""
  },
  {
   "property": "C240",
   "status": "partial",
   "theorems": [
    "C240_actual",
    "C240_missing_link_refuted",
    "C240_negative_id"
   ],
   "note": "REFUTED: where no link joins two nodes the result keeps what the uninitialised array contained, and only a negative number there is noticed (C240_actual, C240_missing_link_refuted); a link that exists but has a negative ID is refused (C240_negative_id)."
  },
  {
   "property": "C241",
   "status": "partial",
   "theorems": [
    "C241_actual",
    "C241_disjoint_links_refuted",
    "C241_unknown_link"
   ],
   "note": "REFUTED: the answer is the tail of the first link and the heads of all links, joined or not (C241_actual, C241_disjoint_links_refuted); unknown links are refused (C241_unknown_link), an empty array is read out of bounds."
  },
  {
   "property": "C242",
   "status": "proved",
   "theorems": [
    "C242_enroute_and_queue",
    "C242_recorded"
   ],
   "note": ""
  },
  {
   "property": "C243",
   "status": "proved",
   "theorems": [
    "C243_queue_each_link",
    "C243_classes_add_up"
   ],
   "note": ""
  },
  {
   "property": "C244",
   "status": "partial",
   "theorems": [
    "C244_actual",
    "C244_wrong_interval_refuted"
   ],
   "note": "REFUTED: late intervals and unknown links raise an exception, a negative interval reads outside of the record (C244_actual, C244_wrong_interval_refuted)."
  },
  {
   "property": "C245",
   "status": "partial",
   "theorems": [
    "C245_average",
    "C245_no_trials",
    "C245_number_refuted"
   ],
   "note": "Proved for windows of at least one interval and at least one trial (C245_average). REFUTED beyond: an accepted window shorter than one interval, or zero trials, gives NaN, a negative number of trials gives 0 (C245_no_trials, C245_number_refuted)."
  },
  {
   "property": "C246",
   "status": "partial",
   "theorems": [
    "C246_speed",
    "C246_speed_partial",
    "C246_truck_speed_partial",
    "C246_freeflow_speed_refuted"
   ],
   "note": "Length over travel time holds (C246_speed). REFUTED: a link of cells whose length is not a multiple of a cell is passed faster than at free-flow speed, trucks also otherwise (C246_freeflow_speed_refuted, C246_case); cars stay below twice the free-flow speed (C246_speed_partial)."
  },
  {
   "property": "C247",
   "status": "proved",
   "theorems": [
    "C247_silent",
    "C247_restored"
   ],
   "note": ""
  },
  {
   "property": "C248",
   "status": "partial",
   "theorems": [
    "C248_actual",
    "C248_unbuffered_partial",
    "C248_suppressed_refuted"
   ],
   "note": "Proved for an unbuffered stream (C248_unbuffered_partial). REFUTED with a buffer: up to a buffer of text printed before can be lost and up to a buffer of text printed inside appears afterwards (C248_actual, C248_suppressed_refuted), because streams are not flushed when the descriptor is switched."
  },
  {
   "property": "C249",
   "status": "partial",
   "theorems": [
    "C249_actual",
    "C249_nothing_done_refuted"
   ],
   "note": "REFUTED: the return in the finally part swallows every exception of the block (C249_actual, C249_nothing_done_refuted)."
  },
  {
   "property": "C250",
   "status": "partial",
   "theorems": [
    "C250_actual",
    "C250_nothing_left_refuted"
   ],
   "note": "REFUTED: with a single free descriptor the copy made by os.dup stays open when os.open fails; with none nothing changes (C250_actual, C250_nothing_left_refuted)."
  },
  {
   "property": "C251",
   "status": "partial",
   "theorems": [
    "C251_nobody_released_partial",
    "C251_reported_refuted"
   ],
   "note": "REFUTED: the loading prints a warning, releases nobody and ends normally with an empty network (C251_nobody_released_partial for every network and demand, C251_reported_refuted). The checks of the Python extension are assertions; those of Mcdta accept Biclass_Hybrid_ColumnGeneration, which the release does not know. Modelled for the single-class loading."
  },
  {
   "property": "C252",
   "status": "proved",
   "theorems": [
    "C252_random_next_link",
    "C252_round_completes",
    "C252_any_link_possible",
    "C252_closed_origin"
   ],
   "note": ""
  },
  {
   "property": "C253",
   "status": "proved",
   "theorems": [
    "C253_vehicles_conserved",
    "C253_identity_fixed",
    "C253_counters",
    "C253_curves"
   ],
   "note": ""
  },
  {
   "property": "C254",
   "status": "proved",
   "theorems": [
    "C254_last_row_in_force",
    "C254_as_built_without_row",
    "C254_no_effect_before",
    "C254_no_rows",
    "C254_rows_after_the_end"
   ],
   "note": ""
  },
  {
   "property": "C255",
   "status": "partial",
   "theorems": [
    "C255_bad_row_stops_partial",
    "C255_reported_before_loading_refuted"
   ],
   "note": "REFUTED: all intervals before the row run as if the row were not there (C255_reported_before_loading_refuted); the loading fails only in the interval of the row: undefined behaviour for an unknown link, an exception for a rejected change (C255_bad_row_stops_partial, C255_case). If that interval is not reached the row is never noticed (C254_rows_after_the_end)."
  },
  {
   "property": "C256",
   "status": "proved",
   "theorems": [
    "C256_follows_route",
    "C256_route_kept"
   ],
   "note": ""
  },
  {
   "property": "C257",
   "status": "proved",
   "theorems": [
    "C257_two_class_run_never_fails",
    "C257_two_class_loading_never_fails",
    "C257_two_class_loading_ends"
   ],
   "note": ""
  },
  {
   "property": "C258",
   "status": "partial",
   "theorems": [
    "C258_report",
    "C258_one_row",
    "C258_tracking_harmless",
    "C258_off_schedule_missed",
    "C258_waiting_missed",
    "C258_every_tracked_vehicle_refuted"
   ],
   "note": "REFUTED: vehicles are selected only at the end of their departure interval, so a vehicle whose departure interval is no report time, or which still waits at its origin then, is never reported.  Proved: the exact content of the report, one row per vehicle and report time, the loading unchanged."
  },
  {
   "property": "C259",
   "status": "partial",
   "theorems": [
    "C259_next_link_is_current",
    "C259_next_link_refuted"
   ],
   "note": "REFUTED: until a vehicle reaches the end of its link the report gives the current link as next link, proved for valid fixed-route input."
  },
  {
   "property": "C260",
   "status": "proved",
   "theorems": [
    "C260_settings_read",
    "C260_bad_row_refused"
   ],
   "note": ""
  },
  {
   "property": "C261",
   "status": "partial",
   "theorems": [
    "C261_first_line_lost",
    "C261_only_listed_pairs_refuted"
   ],
   "note": "REFUTED: the first line of the file is never looked at, so a file with a single pair and no header counts as a missing file and every vehicle is tracked."
  },
  {
   "property": "C262",
   "status": "proved",
   "theorems": [
    "C262_link_costs_read",
    "C262_movement_costs_read",
    "C262_missing_file_refused",
    "C262_bad_row_refused"
   ],
   "note": ""
  },
  {
   "property": "C263",
   "status": "partial",
   "theorems": [
    "C263_short_file_refused",
    "C263_short_file_refuted",
    "C263_more_intervals_refuted"
   ],
   "note": "REFUTED: a short file without newline at its end is accepted, and reading with more intervals than before writes beyond the end of the old arrays.  Proved: a short file that ends with a newline is refused."
  },
  {
   "property": "C264",
   "status": "proved",
   "theorems": [
    "C264_signs_read",
    "C264_bad_row_refused"
   ],
   "note": ""
  },
  {
   "property": "C265",
   "status": "partial",
   "theorems": [
    "C265_warning_means_congestion_refuted",
    "C265_fast_detour",
    "C265_no_detour_refused"
   ],
   "note": "REFUTED: signs whose detour link has a free-flow speed below 60 miles per hour announce congestion whatever the traffic.  Proved for faster detour links; a sign without detour link stops the writing with an exception."
  },
  {
   "property": "C266",
   "status": "proved",
   "theorems": [
    "C266_average",
    "C266_average_all",
    "C266_no_curve_refused"
   ],
   "note": ""
  },
  {
   "property": "C267",
   "status": "partial",
   "theorems": [
    "C267_one_interval_each",
    "C267_average_bound",
    "C267_no_waiting_refuted"
   ],
   "note": "REFUTED: a vehicle is counted as waiting in the interval in which it gets to the end of the link and can leave in the next one at the earliest.  Proved: in every run the total waiting time of a class on a link is at least one interval per vehicle of the class that has left it, so the reported average of a link that all vehicles have left is about one interval or more."
  },
  {
   "property": "C268",
   "status": "proved",
   "theorems": [
    "C268_stays",
    "C268_only_when_overfull",
    "C268_connectors_never"
   ],
   "note": ""
  }
 ]
}