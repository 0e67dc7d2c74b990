# Formal model of macposts (maccmu/macposts) in Rocq

## 1. Approach

The C++ sources in `/repo/src` are read as text and transcribed, function by
function, to total computable Gallina functions.  Properties are theorems about
those functions, stated against small independent specifications.

Layout of `rocq/theories`:

* `Model_*.v`  - definitions only; every definition cites file and lines.
* `Spec_*.v`   - independent specifications (readable with only the English claim).
* `Proof_*.v`  - lemmas and proofs.
* `Prop_*.v`   - only property theorems (`exact lemma`), `Print Assumptions`,
  and `Example`s showing that the hypotheses are met by concrete cases.

## 2. Conventions and simplifications (trusted reading)

* `TFlt` (C++ `double`/`float`) is modelled by exact rationals `Q`; rounding
  errors, NaN and overflow are **not** modelled.  Infinity in shortest paths
  (`std::numeric_limits<TFlt>::infinity()`) is `None : option Q`.
* `TInt` is `Z`, no wrap-around.  `TInt(x)` is truncation toward zero.
* Division by zero is never relied upon: a theorem whose code path divides has
  an explicit nonzero hypothesis, or the model returns `UB`.
* Outcomes: `Ok v`, `Throw` (a C++ exception or a failed `IAssert`), `UB`
  (dereference of `end()`, out-of-range index, ...), `Fuel` (a loop that did not
  finish within the fuel given; theorems exclude it or prove it away).
* `Assert` and `IAssert` are `assert` (src/common.h:9-10).  A failed one is the
  outcome `EAssert`: the model is of a build with assertions.  In a build with
  `NDEBUG` execution goes on instead, which is not modelled.
* Randomness (`rand()`, `std::shuffle`) is an arbitrary argument ("oracle"):
  theorems quantify over all draws and all permutations.
* Hash-map iteration order is an arbitrary list order: theorems quantify over it.
* Heap objects (vehicles, links, nodes) are records in finite maps keyed by ID;
  a pointer is the ID.
* File input/output, logging, memory management (`new`/`delete`), the pybind11
  glue and wall-clock time are not modelled, except where a property says so.

## 3. Plan per property

| Id | Modelled | How it is proved |
|----|----------|------------------|
| C01 | whole single-class loading step (origins, nodes, links, destinations) | multiset of vehicle ids is a Permutation invariant of every sub-step, induction over steps |
| C02 | factory counters, destination receive, enroute record | invariant over op lists |
| C03 | PQ link | closed form of the stamp of each vehicle, induction over updates |
| C04 | CTM evolve | concatenation of cells is preserved |
| C05 | CTM evolve | potential: cells remaining decreases by at most one per update |
| C06 | CTM constructor, supply, demand, rounding | arithmetic on each cell + invariant over updates |
| C07 | FWJ node | arithmetic; move loop finds as many vehicles as counted |
| C08 | move_vehicle | subsequence reasoning on queues |
| C09 | origin node | list reasoning |
| C10 | whole run (Model_Sim) | invariants `bound`/`ready`/`minv`/`linv` of Proof_Safe3-4, one per phase of an interval; progress and preservation of each phase |
| C11-C14 | cumulative curve | induction over increments, lower_bound specification |
| C15 | whole step with curves | invariant |
| C16 | curve tree; recorded trees of whole runs (Proof_Curve1-4) | induction over insertions; invariant over nodes and intervals relating tree entries to the vehicles whose link changed |
| C17 | graph.h intrusive lists | invariant over insertion sequences |
| C18 | graph.h Neighbors | expected to be false: refutation by computation |
| C19,C20 | label-correcting searches | generic label-correcting invariant, finite simple paths as termination measure |
| C21 | LIFO search | expected to be false: refutation |
| C22 | extract_path | tree acyclicity from label invariant |
| C23,C24 | TDSP tree | backward induction over intervals, FIFO result for the last one |
| C25 | is_FIFO | case analysis |
| C26 | node-cost searches | expected to be false: refutation |
| C27 | eliminate_cycles | loop invariant on reserved flags |
| C28 | normalize_p | field arithmetic |
| C29 | register_veh draw | induction over route list |
| C30 | fixed routing + whole step | history invariant |
| C31,C32 | release_one_interval | list reasoning; C32 expected to be false in part |
| C33,C34 | ults.cpp | arithmetic on Q |
| C35 | link travel time | arithmetic on Q |
| C36,C37 | `Model_Stat` (statistics.cpp recorder, routing.cpp link costs) | induction over intervals; C37 is false for windows n > 1 (refuted), proved for n = 1 |
| C38-C41 | `Model_Grad` (dta_gradient_utls.cpp) | curves as sorted lists of counts: monotone lookup and inverse lookup; paths by induction on links; C41 by exchanging the sum over keys and the sum over entries |
| C42 | `Model_PreRouting` (pre_routing.cpp) | sums over the paths of one OD pair and interval; induction over a history of shifts |
| C43 | `Model_Gridlock` (gridlock_checker.cpp) | false: the answer is false on every cyclic graph (loop invariant: a link of the cycle is left), counterexamples for both directions |
| C44 | loading loop | induction on fuel |
| C45 | LQ link | arithmetic invariant |
| C46 | get_link_flow | PQ/LQ proved, CTM expected to be false |
| C47 | `Model_PyCC` (macposts/dta.py forward fill) | induction on records and rows; connected with the curves of whole runs |
| C48 | reverse_graph | via graph model |
| C49 | shrink | expected to be false |
| C50 | `Model_GRJ` (compute_flow with IEEE special values) | one out-link: theta is bounded by the bound of every subset of in-links; two out-links: counterexamples, one of them a throwing node update |
| C51 | destination node (dnode.cpp:150-181) | list reasoning |
| C52 | travel time against the curves | exact when the departure curve takes the value; refuted when it jumps over it |
| C53 | get_link_freeflow_tt_loading | arithmetic for PQ and CTM; refuted for LQ (seconds) |
| C54 | link curves of whole runs | invariant: the increments of interval j are the vehicles whose link changed in interval j |
| C55 | `Model_PreRouting` (so_routing.cpp) | induction over the queue: the cursor hands out each path its planned number; refuted for zero flows and a second destination |
| C56 | so_routing.cpp | false: counterexample |
| C57 | FWJ and GRJ junction | flow equals demand when there is room, flows add up to the supply otherwise; trimming stops within one vehicle; GRJ refuted |
| C58 | LTM link | every interval keeps the line; induction over histories |
| C59 | LTM link | invariant: both private curves start at time zero and increase, so lookups and updates succeed |
| C60 | LTM link with shrink | refuted: invariant that full zero curves never change |
| C61 | LTM link | balance invariant entered - left = present while curves are complete; refuted after |
| C62 | LTM link | count of vehicles gone or ready is at most the entry curve read one free-flow time ago; refuted for the first interval |
| C63 | `build_pathset`, `build_shortest_pathset` | correctness of the tree search and extraction (C19), invariant of the table over destinations, origins and iterations |
| C64 | `build_pathset` | from C63; refuted by a network whose cheapest route is short |
| C65 | Python wrapper around `build_pathset` | refuted by two concrete networks |
| C66 | `getline`, `trim`, the row loop, all readers | stream invariant: unread characters are exactly the remaining lines |
| C67 | same | fail and end-of-file bits of the stream; refuted for every fuel |
| C68 | `split`, `trim`, `stoi`, `to_string` | inductive specifications of words, stripping and decimal numbers |
| C69 | node, link and OD readers, `insert` | row by row; specification of what a row says |
| C70 | link reader | from C69, field arithmetic |
| C71 | demand reader, `add_dest_demand` | row by row; refuted with repeated pairs |
| C72 | `save_path_table`, `load_path_table` | printed lines parse back to the node lists (C68), then C73 |
| C73 | `load_path_table` | invariant of the table; graph lookup by C22 |
| C74 | `build_graph` | representation invariant of the graph, row by row |
| C75 | `init_path_flow`, `update_demand_from_path_table` | per pair, over the loop of pairs |
| C76 | `update_path_table`, path equality, choice of routes as argument | sum over paths and intervals of what is taken equals what is added |
| C77 | `..._fixed_departure_time_choice`; sqrt as argument | relation preserved by every interval, pair and iteration |
| C78 | `..._gp_fixed_departure_time_choice` | deviations from the average sum to zero; step bound by the smallest flow |
| C79 | both merit functions, IEEE quotient | sum of nonnegative terms |
| C80 | `get_best_route`, `get_disutility`, link costs, tree of C23 | C23, C24 and monotonicity of the disutility; refuted on one link |
| C81 | three two-class links, classes as a function of the vehicle | each class projects to the single-class line of C01/C02 |
| C82 | all outcomes of update and supply | invariant `msane` over histories and changes |
| C83 | cells, fluxes, rounding | position invariants by induction over intervals |
| C84 | `update_perceived_density`, diagrams of a link | case analysis, field arithmetic |
| C85 | supply formula | invariant volumes = queue lengths; refuted on a new link |
| C86 | counters and queues | stored volumes equal to the queues after an update |
| C87 | `mtt_gen` | reduced to C35 |
| C88 | cell count, point queue stamp, rounding | arithmetic; refuted on a new link |
| C89 | `modify_property` of the three links | unfolding both paths; refuted on a point queue |
| C90 | waiting counters, `mctm_spill`, `mlq_spill` | induction over intervals; truncation bounds |
| C91 | supply, admission loop | ceiling of the supply; refuted on a link queue |
| C92 | `mjunction_evolve`: demand, supply, flows, shuffled moves | effect record `mmoved` by induction over the pairs of links |
| C93 | flow formula, extraction loop | exact number of vehicles of the loop; refuted on a junction |
| C94 | `rec_in`, `rec_out`, trees | counts by induction over links and vehicles |
| C95 | `morigin_evolve`, `mdest_evolve` | as C41 for one class; refuted on a cell link |
| C96 | `add_miles` per move | sum over the pairs; refuted on a point queue |
| C97 | `mload_once`, `mrun`: release, routing, nodes, links, arrival | invariant `minv` (count of every ID) through every step, induction over the run |
| C98 | factory counters by class | same invariant |
| C99 | curves by class | same invariant, balance per class and link |
| C100 | `mrelease_one`, `generate_label` | effect of the release loops by induction over destinations and origins |
| C101 | override loop of the ratio | as C100; refuted on a two-origin network |
| C102 | `class_portion`, `class_routing` | column held by the table as a run invariant; slice of the draw; refuted on a network with a one-interval table |
| C103 | `fixed_portion`, `fixed_origin_veh`, `register_veh` | column held by the table as a run invariant; slice of the draw; route kept (C30) |
| C104 | `rates`, `truck_rates`, `em_mph` | interval bounds of the polynomials by Taylor shift, checked on 61 subintervals covering [5,66]; lemma sound for all reals in them |
| C105 | `em_update`, `load_once_em`, `run_em` | induction over links and intervals; link parameters invariant of a run |
| C106 | `em_link` | refuted by a stationary vehicle, for every number of intervals |
| C107 | `me_update`, `mrun_em` | induction over intervals; set of addresses = image of the vehicles seen; refuted under reuse |
| C108 | `build_rows`, `queue_times` | induction over intervals; first end of queue; refuted by one vehicle per interval at capacity |
| C109 | `marginal_rows` | invariant of the in-place loop: entries already priced / still as built; refuted by recomputation |
| C110 | `below_capacity`, `at_capacity`, `make_ctm` | capacity arithmetic for every link with intervals >= 2 s |
| C111 | `dso_path_cost` | chaining through C39; refuted on two links |
| C112 | `alloc_rows`, `build_rows` | induction over intervals; exact condition on the two interval counts |
| C113 | `register_links`, `register_paths` | induction over the ids; refuted by a rejected second registration |
| C114 | `inflow_matrix` | invariant of the two nested loops; curve of a run from C40 |
| C115 | `nd_read` | induction over the length; refuted by a view with stride 2 |
| C116 | `complete_dar`, `from_triplets` | closed form of the triplets, injectivity of columns, sum over a row; run level through C41/C54 |
| C117 | `save_dar` | equality of the two closed forms; refuted by another order |
| C118 | `travel_stats` | run invariant: enroute + finished = released, unfinished vehicles have no end time |
| C120 | `tt_matrix`, `reported_tt` | loop invariant: every cached last valid time is that of a fresh computation; refuted through C53 |
| C121 | `path_tt_row` | chaining through C39; refuted by a negative start |
| C119 | `generate_cover` | loop invariant over the links with marks = covered by a path; trees by C19/C22 on the graph and its reverse; refuted by links at OD nodes and by a loop |
| C122 | `dload_once`, `drun` (Model_Deliver.v) | invariant of C01 carried through release, delayed links and re-queueing arrivals |
| C123 | ghost log of stops | invariant: stops = prefix of the tour, no earlier stop at the last destination; refuted by a round trip |
| C124 | `receive_tour`, `drelease_tour` | case analysis, invariant over consecutive stops, two concrete runs |
| C125 | `delay_scan`, waiting times | invariant relating remaining wait, time since the last stop and place, with links done/not done in the interval; uniqueness of places from C122 |
| C126 | `station_evolve` (Model_Ev.v) | decomposition of an interval into joins and served queues (`stepped`), permutations; induction over histories |
| C127 | histories of a station (Spec_Ev.v `history`) | invariant on charging timers; the remaining time drops by one per interval; induction |
| C128 | `estimate`, record of estimates | keys of the record never exceed the clock; C127; concrete history |
| C129 | `join`, `shortest` | while a queue is empty the first shortest is empty; concrete history |
| C130 | `new_station` | invariant of histories; concrete station |
| C131 | `collect_veh` | every successful interval admits only such vehicles; concrete state |
| C132 | `happen` (events of one vehicle) | invariant: a vehicle with a station assigned is low; concrete trip |
| C133 | `charge`, `ev_drive` | induction over events; concrete trip |
| C134 | `best_station`, `station_cost` | induction over candidates; two concrete stations |
| C135 | `drelease_all`, `dload_once` | the list of purposes of new IDs is computed by induction over rows, tours and origins; later steps of the interval keep purposes |
| C136 | objects alive: path table, routing of the screenshots (`life`, Model_Rt.v) | case analysis; a second owner always deletes the shared table |
| C137 | `update_ratio`, `comply`, `predicted_shares` | max (min (x, 0), 1) = 1; scaling by one and normalising a table of shares |
| C138 | `make_vms`, `generate_detour` | induction over candidates; C17 for the candidates; C141 for the gains |
| C139 | `gradient_pass`, `sample`, `differences` | trace of a pass; number of multiples below a bound; induction |
| C140 | `update_path_p`, `init_shares` | shares multiplied by positive factors and normalised |
| C141 | `optimize_shares` | gradients are sums of positive terms; equal factors cancel; induction over iterations |
| C142 | `make_screenshot` | effects of copying a vehicle, a list, the cells, a link; fold over links without repetition |
| C143 | `predict` | nodes, links and receiving keep the vehicle factory; induction over intervals |
| C144 | `meter_update` | invariant: times positive, records not in the future; induction over entering vehicles |
| C145 | the containers of passengers and all operations on them (`event`, `step`, Model_Bus.v) | every operation moves passengers between containers without loss; induction over the operations |
| C146 | `board_and_alight` | no operation puts a passenger on a bus but boarding, which is limited by the room; induction |
| C147 | `alight_scan`, `board_scan` | inductions over pool and line; effects of both on the containers |
| C148 | `hold_bus` | case analysis; counts of those getting off and on are zero iff there are none |
| C149 | `at_stop`, `per_interval` | a measure (dwell left, getting off, line) that falls every interval; rates that round to zero |
| C150 | `enter_walk`, `walk_on` | invariant: place and age after k updates; uninitialised value for origins |
| C151 | `through`, `virtual_evolve`, `walk_tt` | run for a symbolic waiting time |
| C152 | `implicit_off` | induction over the line; counterexample |
| C153 | `park`, `lot_release` (Model_Bus2.v) | induction over the queue |
| C154 | `lot_release` | more cars than any capacity |
| C155 | `cruise` | inequalities; counterexample |
| C156 | `factory`, `remove_passenger` | induction over calls |
| C157 | `mm_finished` | case analysis |
| C158 | `length_portions` | induction over links; counterexample with a loop |
| C159 | `waiting_time` | induction over minutes; counterexamples |
| C160 | `mm_clear` | induction over arrivals |
| C161 | `cell_drive` | induction over the queue |
| C162 | `cell_drive` | induction over intervals |
| C163 | `td_read`, `td_build`, `td_extract` (Model_TdspApi.v) | induction over rows; C23/C24 on the tables read; agreement of ways on the horizon |
| C164 | `read_links`, `read_links_txt`, `td_extract` | induction over rows; counterexamples |
| C165 | `write_row`, `read_links` | induction over rows |
| C166 | `update_tree_nc`, `get_tdsp_nc` | invariant of labels over links and intervals, induction over the route; counterexamples |
| C167 | `update_tree_nc`, `get_tdsp_nc`, `td_build`, `td_extract` | equality of the two searches step by step |
| C168 | `td_extract`, `td_build` | induction over links |
| C169 | `ltg_matrix`, `pass_link`, `affected` (Model_Ltg.v) | relational trace of the extra vehicle, induction over the path; telescoping slopes |
| C170 | `ltg_matrix` | equality link by link; counterexample |
| C171 | `ltg_matrix` | invariant 0 <= vehicle <= effect along the path |
| C172 | `ltg_matrix` | counterexamples |
| C173 | `complete_ltg`, `grouped` | invariant of the counting loop, uniqueness of matrix positions |
| C174 | `complete_ltg` | counterexample |
| C175 | `lc_update`, `lc_get` (Model_Lowest.v) | from the trees (C23, C24) and cycle elimination (C27) |
| C176 | `lc_get` | counterexample: waiting in a cycle |
| C177 | `lc_update`, `lc_get` | case analysis of the extraction; all networks |
| C178 | `conf_read`, `conf_value`, `ctrim` (Model_Conf.v) | line by line against an independent grammar of lines; lookup finds the last setting |
| C179 | `conf_value` | all names with a slash |
| C180 | `atof`, `conf_int`, `conf_float` | digit values, Horner scheme |
| C181 | `conf_read`, `atof` | all such files |
| C182 | `conf_line` | from C178 |
| C183 | `conf_value_default` | from C178 |
| C184 | `logit_fn` (Model_Split.v), exp an argument | sums of quotients |
| C185 | `logit_fn` | all thresholds, alphas, betas |
| C186 | `spread`, `most_minutes` | induction on the minutes tried |
| C187 | `logit_pair`, `logit_demand` | one mode after the other with the leftover amount, induction on pairs |
| C188 | `init_flow` | induction on modes |
| C189 | `table_demand` | sums over paths and minutes |
| C190 | `table_demand` | frame of the same proof |
| C191 | `merit`, `merit_fixed` | sums of non-negative terms |
| C192 | `merit` | a table with an unused better path |
| C193 | `save_conn`, `load_conn` | induction on lines |
| C194 | `check_conn` | all settings with a mode off |
| C195 | `check_conn` | composition of C193 and the computation |
| C196 | `update_choice`, `move_to_best` (Model_Mmp.v) | sums over paths and intervals |
| C197 | `fixed_column`, `update_fixed` | same, induction on intervals |
| C198 | `gp_column`, `tau_step`, `project` | largest step that keeps flows non-negative, sum of deviations zero |
| C199 | `gp_column` | the largest share that is left is negative |
| C200 | `best_existing`, `disutility` | minimum over paths and intervals, example with log values |
| C201 | `best_existing_at` | minimum over paths |
| C202 | `path_time`, `drive_link`, `bus_link` | induction on links |
| C203 | `penalty`, `cost_with_time` | monotone by cases |
| C204 | `bus_time`, `hardly` | monotone; example |
| C205 | `cost_with_time`, `parking_fee` | computation for all inputs |
| C206 | `column`, `best_existing` | division; example |
| C207 | `add_truck`, `add_driver`, `convert` (Model_Conv.v) | sums over merged sets, induction on pairs |
| C208 | `add_pnr`, `add_bus` | same |
| C209 | `add_truck`, `prepare` | same; what is cleared is gone |
| C210 | `convert_pair`, `put_pair` | induction on pairs |
| C211 | `prepare`, `convert` | totality by induction |
| C212 | `prepare`, `after` | computation for all inputs |
| C213 | `build_node_two`, `build_link_two` (Model_Mio.v) | row by row, as C69-C70 |
| C214 | `spread`, `minutes`, `copy15`, `build_demand_two` | largest number of minutes by induction; blocks of 15 |
| C215 | `spread` | no number of minutes qualifies |
| C216 | `num_of_minute`, `copy15` | length of the array; position in equal blocks |
| C217 | `build_ratio`, `build_ratio_two` | first row of a pair by induction |
| C218 | `ratio_row`, `td_line`, `toll_row`, `mtoll_row` | first word of a remark is no number |
| C219 | `read_tolls` | last row by induction |
| C220 | `read_lines` | the line variable at the end of the file |
| C221 | `read_labels` | induction on lines |
| C222 | `build_td`, `update_link_attribute` | table without repeated keys, induction on any permutation |
| C223 | same | concrete file; missing key in any order |
| C224 | `build_td1`, `update_link_attribute1` | last row by induction |
| C225 | `read_list` | induction on lines |
| C226 | `read_lines` | the line variable at the end of the file |
| C227 | `bus_origin`, `bus_link`, `bus_pass` (Model_Proute.v) | invariant over all stories of rounds and moves |
| C228 | `pnr_origin`, `pnr_link`, `pnr_pass` | same invariant |
| C229 | `pas_origin`, `pas_lot`, `pas_link`, `pas_stop`, `pas_pass` | same invariant; a round keeps paths |
| C230 | `portions`, `refresh`, `draw_path` | column in force by induction on time; cut of the unit interval as C28 |
| C231 | all of the above | the invariant rules out every failing branch |
| C232 | same | missing entries and empty queues; concrete history |
| C233 | same | induction on a round |
| C234 | `find_lot` | induction on the shuffled list |
| C235 | `flt_string`, `save_buffered`, `load_buffered` (Model_Buf.v) | digits of the written numeral give its value; lines of the file matched with rows by induction |
| C236 | `half_even`, `flt_string` | rounding lemmas; concrete share 1/3 |
| C237 | `buf_row` | lines seen by the loop by induction; concrete files |
| C238 | `buf_row` | the last line stays in the line variable after the end of the file |
| C239 | `link_seq_to_node_seq`, `node_seq_to_link_seq` (Model_Query.v); uninitialised memory is an arbitrary function | induction along the route |
| C240 | `node_seq_loop` | hop by hop; concrete network |
| C241 | `link_seq_to_node_seq` | exact characterisation; concrete network |
| C242 | `qbody`, `to_record`, `from_record`, `enroute_and_queue`: the loading loop with the records | the loading with records equals the loading; the two-class invariant holds when the queues are recorded, and link updates and arrivals keep the vehicles of the links |
| C243 | `queue_each_link`, `at_end`, `at_end_class` | induction over intervals |
| C244 | `queue_each_link` | cases; concrete run |
| C245 | `average_tt`, `cut_tt`, `tt_robust` | sum between bounds; division |
| C246 | `speed_of`, `link_speed`, `class_tt` | free-flow floor (C38) and number of cells |
| C247 | `silence`, `os_dup`, `os_dup2`, `os_close`, `os_write` (Model_Silence.v): descriptor table, files, arbitrary block | the two descriptors given out are new; case analysis on the table; induction over writes |
| C248 | `print`, `program`: a stream with a buffer | what is printed splits into written and kept parts, by induction |
| C249 | `silence` | cases; concrete block |
| C250 | `silence`, `lowest_free` | cases; concrete table |
| C251 | `load_other`, `loading_other` (Model_Other.v): the loading when no branch of the release applies | the invariant of C01 with no vehicle made; induction over intervals |
| C252 | `random_routing`, `pick_out`: one number per vehicle | induction over queues, vehicles waiting in one place only |
| C253 | `attr_update`, `attr_run` (Model_McAttr.v): the loading of Model_McSim.v with the attribute rows of each interval applied first | the invariant of C97-C99 is kept by every accepted change |
| C254 | the same, `attr_loading` | an interval keeps parameters and type of every link; induction over intervals |
| C255 | `attr_row`: the element of an unknown link is used | runs with tables that agree so far are equal |
| C256 | Model_McSim.v; the itinerary is read off the states at the ends of the intervals (Spec_McRoute.v) | the two-class state is mapped to a single-class one (`shadow`, Proof_McRoute1.v) that moves as C30's invariant requires; induction over intervals |
| C257 | Model_McSim.v; valid input stated in Spec_McValid.v | `shadow` state of C256 reuses the single-class totality of routing (Proof_Safe2.v, for the record `rvalid`), and Proof_McValid0.v adds the passes per class; links accept whatever nodes send within supply (Proof_McValid1.v); induction over intervals (Proof_McValid2.v); the loop bound is explicit |
| C258 | Model_Track.v on top of Model_McSim.v; the two setting files are C260; the position on the link is left out | exact characterisation of the rows by induction over intervals (Proof_Track.v); REFUTED as stated by a vehicle leaving between two report times |
| C259 | Model_Track.v | REFUTED by a run; that the next link is the current one before the end of the link follows from C257's invariant |
| C260 | Model_TrackIo.v on the text functions of Model_Text.v and Model_Io.v | both directions by induction over the lines (Proof_TrackIo.v); every file content is covered, errors included |
| C261 | Model_TrackIo.v and Model_Track.v | REFUTED: one-line files read as missing ones, proved for every line; a run reports a vehicle of another pair |
| C262 | Model_TdIo.v on the text functions of Model_Text.v, Model_Io.v and Model_Mio.v; `stof` is an oracle | induction over the rows with the map's content as invariant (Proof_TdIo.v) |
| C263 | Model_TdIo.v | REFUTED for every file without final newline and every table with a shorter array; the refusal of short files with final newline is proved |
| C264 | Model_VmsIo.v on `make_vms` (Model_Rt.v) and the row loop of Model_Io.v | the table lemmas of the node reader and C17 for the graph; both accepted and refused files |
| C265 | Model_VmsIo.v; travel times are arguments | case analysis; REFUTED for every slow detour link |
| C266 | Model_McWait.v on the two-class run (Model_McSim.v) | invariants over phases of an interval: sums add up, counts of entries are not negative |
| C267 | Model_McWait.v | invariant: exits plus vehicles at the end of the link, times the interval, are at most the total; nodes keep the totals; REFUTED as stated |
| C268 | Model_McSpill.v on the two-class run (Model_McSim.v) | the flag is kept by nodes and only rises in link updates; the truncation bounds of C90 for links inside a run; first rise by induction over intervals |

## 4. Trusted base

* The kernel of Coq 8.16.1 (`coqc`), and `coqchk` as a second reading.
* Axioms: `Print Assumptions` after every theorem in `Prop_*.v` prints "Closed
  under the global context": no theorem uses an axiom.  (`coqchk -o` over the
  library additionally lists seven `Coq.ssr.ssrunder.Under_rel.*` constants of the
  standard library's ssreflect plugin file, which is loaded by `Lqa`/`lia`
  dependencies and not used by any theorem.)
* The transcription of the C++ text into `Model_*.v` (no extraction, no running of
  the C++ code), under the simplifications of section 2 and of each comment.

What is and is not modelled, by source file:

| Source | Modelled | Not modelled |
|--------|----------|--------------|
| ults.cpp, ults.h | rounding, tolerance comparison, time rounding, `divide`; configuration files 150-320 (Model_Conf.v) | logging, `srand`; hexadecimal numbers, inf and nan in `atof` |
| graph.h/.tcc | all operations used by the code (`Model_Graph`) | node/link data payloads |
| dlink.cpp | CTM, PQ, LQ, LTM links and cumulative curves and trees | LTM density-based link cost, printing |
| dnode.cpp | origin, destination, FWJ and GRJ junction moves; FWJ and GRJ flow computation (`Model_GRJ`; in whole runs the GRJ flows are an arbitrary matrix) | printing |
| od.cpp | release (whole window), labels, receive | reading demand files |
| routing.cpp | fixed, adaptive (per-vehicle next link from the tree), hybrid; link-cost update; random routing and unknown routing types (Model_Other.v); routing by class (Model_McSim.v) | construction of the shortest-path trees inside the run (the tree is an argument; the search itself is in Model_SP.v) |
| path.cpp | link lists, buffers, choice probabilities, registration, cycle removal, path-set generation, text output of path tables with shares (Model_Buf.v) | cost columns of the text output, get_path_tt and get_path_fftt (no callers; the travel times of the interface are in Model_Grad.v and Model_Api.v) |
| shortest_path.cpp | Dijkstra/FIFO/LIFO/deque one-destination searches, time-dependent search (Model_SP.v, Model_TDSP.v), with movement costs (Model_TdspApi.v) | - |
| macposts/_ext/mcdta.cpp | gradient tables and matrices 3790-5093 (Model_Ltg.v); lowest-cost paths 1281-1430 (Model_Lowest.v); averaged travel times 1949-2144, speeds 2146-2222, vehicles under way and in queues 3048-3135 (Model_Query.v); waiting times at intersections 1431-1477 (Model_McWait.v), spill-back 1482-1495 (Model_McSpill.v) | other calls (their single-class counterparts are in Model_Api.v) |
| macposts/_ext/mmdta.cpp | node and link sequences 3470-3624 (Model_Query.v) | all other calls (several are the multimodal form of modelled two-class calls) |
| macposts/_ext/tdsp.cpp | the class Tdsp (Model_TdspApi.v) | printing, `delete` of arrays |
| statistics.cpp | direct recorder (LRn) | file dump |
| dta.cpp | hook-up order of one interval, loading loop, record of queue/enroute | file output |
| factory.cpp | vehicle factory and counters | network factories |
| dta_gradient_utls.cpp | all single-class functions | `_bus` variants |
| pre_routing.cpp, so_routing.cpp | initial flows, table construction, reassignment, registration and next-link choice | text input/output |
| gridlock_checker.cpp | cycle test and `is_gridlocked` | construction of the graph from a running simulation |
| macposts/dta.py | cumulative-curve tables (`_get_ccs`) | plotting and the rest of the wrapper |
| macposts/utils.py | `silence` (Model_Silence.v; descriptors, lowest free number, null device, a buffered stream) | finding the descriptor of stdout |
| due.cpp | demand and flow initialisation, the three table updates, merit functions, disutility, route choice (best routes, sqrt and path travel times as arguments) | constructors, run_dta (simulation is modelled separately), total travel time, printing |
| multiclass.cpp | the three two-class links: construction, property change, update, supply, counts, travel times (Model_McLink.v); the nodes of junctions, origins and destinations (Model_McNode.v); release, vehicle factory, routing by class, arrival, loading loop (Model_McSim.v), time-dependent attributes during a loading (Model_McAttr.v), records of queues (Model_Query.v), waiting times at intersections 4687-4753 (Model_McWait.v), spill-back 4755-4770 (Model_McSpill.v), vehicle tracking and its report (Model_Track.v) and the readers of nodes, links, demand, adaptive ratios, labels, tolls and time-dependent attributes (Model_Mio.v) | queue recorder, gradient utilities |
| emission.cpp, emissions of multiclass.cpp | rates, totals, resets, trip sets (Model_Emission.v) | text output, reading the list of links |
| dso.cpp, cost tables of macposts/_ext/dta.cpp:982-1208 | tables, dissipation times, marginal costs, path costs (Model_Dso.v) | iteration driver (_ext/dta.cpp:424-528) except its reuse of tables, printing |
| macposts/_ext/dta.cpp | registration, inflows, link and path travel times, assignment ratios, routes for observed links, statistics (810-846, 1210-2264; Model_Api.v, Model_Cover.v) | travel times from the fundamental diagram (get_link_tt_FD 1689-1725), text output, exceptions of memory allocation (get_complete_dar_matrix reserves 10^9 triplets) |
| delivery_traffic.cpp | vehicles, origins, destinations, point queues with delay, removal of routes (Model_Deliver.v; Hybrid routing as in Model_Sim.v) | the version of receive without routing (310-355), the readers (525-870) |
| ev_traffic.cpp vehicles (1-115), charging stations (413-436, 557-720), decisions of the routing (1036-1046, 1141-1192, 1243-1291, 1400-1456) | Model_Ev.v | The loading loop of MNM_Dta_EV is not put together: what happens between two intervals of a station is arbitrary; origins (176-411), readers (1562-1910), shortest path trees of the routing not modelled |
| realtime_dta.cpp, marginal_cost.cpp, vms.cpp | gradient passes, shares, signs with their file and messages (Model_VmsIo.v), prediction, screenshots, lifetime of the path table (Model_Rt.v) | readers, statistics and speed files, threads; the screenshots of a pass and of the iterations are not put together into one run (C136 shows that such a run is undefined) |
| multimodal.cpp | passengers, walking and bus links, physical and virtual stops, buses at stops and on driving links, implicit buses, origins, destinations (Model_Bus.v); parking lots, factory of passengers, end of loading, lengths of bus links, waiting times, admission of point queues (Model_Bus2.v); mode shares, demand per minute, first flows, gaps, table of usable modes of the equilibrium (Model_Split.v); times and costs of passenger paths, best path of the path table, updates of path flows (Model_Mmp.v); tables for the loading made from passenger paths (Model_Conv.v); fixed routing of buses, park-and-ride cars and passengers 5321-6320, parking lots of adaptive cars (Model_Proute.v; in Model_Bus.v the next link is an argument) | adaptive routing of passengers, the last cell of a link, pickups, prices, curves of buses and curve trees, readers, statistics, readers and writers of path sets, new paths found by search |
| workzone.cpp | - | not modelled |
| io.cpp | `trim`, `split`, row loops of the node, link, OD, network, demand and path readers (`stod` is an oracle) and the readers of adaptive ratios, labels, tolls, time-dependent attributes and lists of numbers (Model_Mio.v), path tables with shares (Model_Buf.v; `stof` is an oracle), settings of vehicle tracking (Model_TrackIo.v), time-dependent costs (Model_TdIo.v) | workzones, output functions |
