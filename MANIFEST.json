{
 "claims": [
  {
   "property": "C01",
   "status": "proved",
   "theorems": [
    "C01_setter_domain",
    "C01_roundtrip",
    "C01_roundtrip_any_payload_refuted",
    "C01_parser_domain"
   ],
   "note": "Round trip proved for payloads of two or more bytes, which is what the property states; the one-byte case is refuted (C01_roundtrip_any_payload_refuted), a finding."
  },
  {
   "property": "C02",
   "status": "proved",
   "theorems": [
    "C02_roundtrip",
    "C02_setter_domain"
   ],
   "note": ""
  },
  {
   "property": "C03",
   "status": "proved",
   "theorems": [
    "C03_parser_domain",
    "C03_parser_injective",
    "C03_parsed_address_nonempty_refuted"
   ],
   "note": "Also shows that an empty address is accepted by the parser (finding)."
  },
  {
   "property": "C04",
   "status": "proved",
   "theorems": [
    "C04_no_smuggling",
    "C04_setter_rejects_delimiters_refuted"
   ],
   "note": "Also shows the setter accepts delimiters in attribute fields (finding)."
  },
  {
   "property": "C05",
   "status": "proved",
   "theorems": [
    "C05_split",
    "C05_split_max",
    "C05_split_append",
    "C05_append_restores_refuted"
   ],
   "note": "Append mode loses delimiters (finding)."
  },
  {
   "property": "C06",
   "status": "proved",
   "theorems": [
    "C06_replaceAll",
    "C06_empty_pattern_diverges",
    "C06_xml_escape_roundtrip",
    "C06_roundtrip_refuted"
   ],
   "note": "Round trip holds exactly when the text has no pre-existing escape (finding)."
  },
  {
   "property": "C07",
   "status": "proved",
   "theorems": [
    "C07_framed_form",
    "C07_chunking",
    "C07_base_free",
    "C07_large_checksum_lost",
    "C07_chunking_without_checksum_bound_refuted"
   ],
   "note": "Payload length and checksum must be below 2^31; that bound is necessary (C07_chunking_without_checksum_bound_refuted, a finding)."
  },
  {
   "property": "C08",
   "status": "proved",
   "theorems": [
    "C08_sound_calls",
    "C08_sound_receive_loop",
    "C08_no_exception_refuted"
   ],
   "note": "Also a finding: an empty number field makes the call throw (C08_no_exception_refuted)."
  },
  {
   "property": "C09",
   "status": "proved",
   "theorems": [
    "C09_resync_first_call",
    "C09_resync_any_garbage",
    "C09_receive_loop_delivers_refuted"
   ],
   "note": "Stated for calls of the buffer; the receive loops stop at the first damaged frame (C09_receive_loop_delivers_refuted, a finding)."
  },
  {
   "property": "C10",
   "status": "proved",
   "theorems": [
    "C10_delivery",
    "C10_hub",
    "C10_initialize_refuted",
    "C10_clear_refuted"
   ],
   "note": "For well formed messages, subscriptions without '$', and no clear-all after the start (which hangs, C10_clear_refuted). Changes of subscriptions between socket creation and thread start are lost (C10_initialize_refuted); the specification accounts for that exactly. ZeroMQ itself is taken to be a reliable ordered pipe with prefix filters."
  },
  {
   "property": "C11",
   "status": "proved",
   "theorems": [
    "C11_received",
    "C11_own"
   ],
   "note": "C11_own holds for every history; C11_received says exactly what is returned."
  },
  {
   "property": "C12",
   "status": "proved",
   "theorems": [
    "C12_unicast",
    "C12_only",
    "C12_unicast_refuted",
    "C12_all"
   ],
   "note": "The unconditional statement is false (C12_unicast_refuted); the exact characterisation is proved."
  },
  {
   "property": "C13",
   "status": "proved",
   "theorems": [
    "C13_distinct_iff",
    "C13_constructed",
    "C13_refuted"
   ],
   "note": "Exact characterisation: ids clash iff a client that keeps its constructed id is made right after a reservation. The unconditional statement is refuted."
  },
  {
   "property": "C14",
   "status": "proved",
   "theorems": [
    "C14_once",
    "C14_unchanged",
    "C14_crosses",
    "C14_alias",
    "C14_single_bridge",
    "C14_no_echo",
    "C14_default_refuted",
    "C14_tcp_refuted",
    "C14_forged_refuted"
   ],
   "note": "The statement with default settings is false for serial and TCP bridges (C14_default_refuted); proved for checking bridges, and for relabelling bridges with one bridge per entity. Transports and subscriptions are over-approximated."
  },
  {
   "property": "C15",
   "status": "proved",
   "theorems": [
    "C15_next_actions",
    "C15_no_repetition",
    "C15_order_irrelevant",
    "C15_empty_operator_refuted",
    "C15_repeated_action_refuted"
   ],
   "note": "For expressions whose operators are not empty and whose actions are distinct; both conditions are necessary (C15_empty_operator_refuted, C15_repeated_action_refuted, findings)."
  },
  {
   "property": "C16",
   "status": "proved",
   "theorems": [
    "C16_runs",
    "C16_all_reachable",
    "C16_all_done"
   ],
   "note": "Same conditions as C15."
  },
  {
   "property": "C17",
   "status": "proved",
   "theorems": [
    "C17_relationships",
    "C17_assignment",
    "C17_ineligible_refuted",
    "C17_id_clash_refuted"
   ],
   "note": "Proved under stated input conditions (cost entries only for eligible vehicles, vehicle ids different from packed option ids); both conditions are shown necessary by refutations (findings)."
  },
  {
   "property": "C18",
   "status": "proved",
   "theorems": [
    "C18_optimal",
    "C18_default_limit_refuted"
   ],
   "note": "Exhaustive search (negative limit), any iteration order of the hash map; the default limit 0 is refuted."
  },
  {
   "property": "C19",
   "status": "proved",
   "theorems": [
    "C19_terminates",
    "C19_found",
    "C19_monotone"
   ],
   "note": ""
  },
  {
   "property": "C20",
   "status": "partial",
   "theorems": [
    "C20_one_at_a_time",
    "C20_single",
    "C20_order",
    "C20_once",
    "C20_guarded",
    "C20_unguarded_refuted",
    "C20_resend_refuted"
   ],
   "note": "One outstanding request, order and single release are proved; the clause that each is released once and guarded by a timer holds only until the first response timeout (C20_resend_refuted, C20_unguarded_refuted)."
  },
  {
   "property": "C21",
   "status": "partial",
   "theorems": [
    "C21_one_reply_each",
    "C21_ignored",
    "C21_ignored_same",
    "C21_passed_on",
    "C21_duplicate_id_refuted"
   ],
   "note": "Proved for distinct ids and no task-timer expiry; counterexamples without these hypotheses are proved (C21_duplicate_id_refuted, C22_refuted)."
  },
  {
   "property": "C22",
   "status": "partial",
   "theorems": [
    "C22_timeout_partial",
    "C22_guarded_partial",
    "C22_refuted"
   ],
   "note": "False of the code as stated (C22_refuted); proved: the right request leaves the queue and one error naming it is sent."
  },
  {
   "property": "C23",
   "status": "proved",
   "theorems": [
    "C23_once",
    "C23_contents",
    "C23_asks",
    "C23_no_vehicles",
    "C23_duplicate_id_refuted",
    "C23_route_id_refuted"
   ],
   "note": "Proved for route requests with different ids, route ids below the range reserved for matrices and planners that answer what they were asked; without the first two assumptions it is refuted (C23_duplicate_id_refuted, C23_route_id_refuted). A request for which no vehicle is known is never answered (C23_no_vehicles)."
  },
  {
   "property": "C24",
   "status": "proved",
   "theorems": [
    "C24_matrix",
    "C24_at_most_one",
    "C24_sent",
    "C24_forgotten_refuted"
   ],
   "note": "Same assumptions as C23. C24_sent adds when the matrix is sent; C24_forgotten_refuted shows that options of a concurrent request are forgotten, so that its matrix may never be sent."
  },
  {
   "property": "C25",
   "status": "proved",
   "theorems": [
    "C25_in_order",
    "C25_one_at_a_time",
    "C25_once",
    "C25_progress",
    "C25_rejected",
    "C25_carries_on",
    "C25_command_ids",
    "C25_missions_well_formed",
    "C25_stall_refuted",
    "C25_replay_refuted"
   ],
   "note": "For histories in which request ids, assignments and implementation answers are not repeated and answers name the vehicle asked for (orderly); replayed answers and assignments naming a vehicle outside the request are shown to break it (C25_replay_refuted, C25_stall_refuted)."
  },
  {
   "property": "C26",
   "status": "proved",
   "theorems": [
    "C26_cut",
    "C26_configured",
    "C26_cover",
    "C26_parts",
    "C26_unlimited",
    "C26_overlap_refuted",
    "C26_length_refuted",
    "C26_uneven_refuted"
   ],
   "note": "Exact overlap for 2V < N, coverage for V <= N-2. Wrong overlaps are refuted: V = N-1 loses the last waypoint, V = N gives too long segments, V = N-2 gives uneven overlaps."
  },
  {
   "property": "C27",
   "status": "proved",
   "theorems": [
    "C27_current",
    "C27_start",
    "C27_sent",
    "C27_once",
    "C27_resend_refuted",
    "C27_empty_mission_refuted"
   ],
   "note": "For V <= N-3 and missions that are empty or have distinct non-negative waypoint numbers. Going back can send a command twice (C27_resend_refuted); an empty mission stops the service (C27_empty_mission_refuted)."
  },
  {
   "property": "C28",
   "status": "proved",
   "theorems": [
    "C28_one_service",
    "C28_fresh",
    "C28_kills",
    "C28_remove",
    "C28_task",
    "C28_only",
    "C28_requests",
    "C28_options",
    "C28_update_refuted",
    "C28_options_refuted"
   ],
   "note": "Per task: one service created, kill of the old one on replacement and removal, fresh ids. Refuted: an update that names an unknown area, line or point leaves the task without a service; option lists of task id 0 are sent twice."
  },
  {
   "property": "C29",
   "status": "proved",
   "theorems": [
    "C29_count",
    "C29_terminate",
    "C29_expire",
    "C29_exit",
    "C29_stops",
    "C29_patience",
    "C29_create",
    "C29_deaf",
    "C29_disciplined",
    "C29_create_refuted",
    "C29_reserved_refuted",
    "C29_kill_own_refuted"
   ],
   "note": "Counting, terminating, exiting, creating. Refuted: a clashing id destroys the new service although success is reported; killing the manager by its own id ends no service."
  },
  {
   "property": "C30",
   "status": "proved",
   "theorems": [
    "C30_safe",
    "C30_disabled",
    "C30_result",
    "C30_count",
    "C30_destroyed",
    "C30_start",
    "C30_fires",
    "C30_active",
    "C30_others_refuted",
    "C30_disabled_refuted",
    "C30_safe_refuted"
   ],
   "note": "Disabled and destroyed timers do not fire until started again, results and counts are right, provided no timer is started from another thread during its own callback; others are unaffected and every due timer fires if no two are due at the same time. Both conditions are necessary: refutations show a tie losing a timer, a disabled timer firing, and undefined behaviour."
  },
  {
   "property": "C31",
   "status": "proved",
   "theorems": [
    "C31_fires",
    "C31_turns",
    "C31_worker",
    "C31_order"
   ],
   "note": "Never early, in order, single shots once per start, periodic ones at first + k*period, under the same start discipline; starts from callbacks are refused."
  },
  {
   "property": "C32",
   "status": "proved",
   "theorems": [
    "C32_given",
    "C32_exit",
    "C32_ends",
    "C32_patient",
    "C32_abort",
    "C32_refuted"
   ],
   "note": "Exact characterisation of delivery, stopping, aborting and ending, for plain and serialized clients, including the wrap of the 32 bit duration. The claim that a client is abandoned in bounded time is refuted for the default thresholds and proved for an abort threshold at least one period below the warning threshold."
  },
  {
   "property": "C33",
   "status": "proved",
   "theorems": [
    "C33_exact",
    "C33_only",
    "C33_alternate",
    "C33_reassigned_refuted"
   ],
   "note": "Exact notices and alternation between missions. A vehicle reassigned while active gets no 'complete' (C33_reassigned_refuted). The virtual functions of concrete tasks are inputs of the model."
  },
  {
   "property": "C34",
   "status": "proved",
   "theorems": [
    "C34_implementation",
    "C34_numbering",
    "C34_once",
    "C34_ends_refuted",
    "C34_repeated_refuted",
    "C34_parallel_refuted"
   ],
   "note": "C34_implementation: full content of the response for an option whose routes are all planned; C34_numbering and C34_once: every implementation of every history. Refuted for routes ending in co-located waypoints (last waypoint leads nowhere), for repeated requests for one option and for two options implemented at the same time (C34_*_refuted)."
  },
  {
   "property": "C35",
   "status": "proved",
   "theorems": [
    "C35_combinations",
    "C35_permutations",
    "C35_circular"
   ],
   "note": "for_each_combination, for_each_permutation and for_each_circular_permutation; the callback does not change the range and may stop the enumeration, in which case no element is lost. The reversible enumerations are not modelled."
  },
  {
   "property": "C36",
   "status": "proved",
   "theorems": [
    "C36_combination",
    "C36_permutation",
    "C36_circular",
    "C36_reversible",
    "C36_reversible_circular",
    "C36_combination_calls",
    "C36_permutation_calls",
    "C36_circular_calls"
   ],
   "note": "All five counting functions, for an unsigned type with any largest value; the first three also equal the number of callbacks of the enumeration."
  },
  {
   "property": "C37",
   "status": "proved",
   "theorems": [
    "C37_region",
    "C37_current",
    "C37_padding",
    "C37_padding_first",
    "C37_padding_refuted"
   ],
   "note": "Every published region is exactly the live zones, no duplicates. Padded republication happens only for zones that are not live; the update of a live zone is not padded (C37_padding_refuted)."
  },
  {
   "property": "C38",
   "status": "proved",
   "theorems": [
    "C38_request",
    "C38_ids",
    "C38_answer",
    "C38_only",
    "C38_exactly_once",
    "C38_legs",
    "C38_repeat_refuted",
    "C38_single_task_refuted",
    "C38_int32_refuted",
    "C38_foreign_refuted"
   ],
   "note": "Lines are determined for requests without duplicate tasks or vehicles and task ids of 32 bits (C38_int32_refuted); waypoints of repeated legs are repeated (C38_repeat_refuted); a single task with relationships is answered at once without planning (C38_single_task_refuted)."
  },
  {
   "property": "C39",
   "status": "proved",
   "theorems": [
    "C39_ready",
    "C39_announce",
    "C39_deadline",
    "C39_only",
    "C39_once",
    "C39_exactly_once",
    "C39_twice_refuted",
    "C39_empty_refuted",
    "C39_zero_refuted"
   ],
   "note": "Forwarding at completion, at the deadline, announcement of the own position, at most once and exactly once are proved for all histories with distinct nonzero request ids. C39_twice_refuted, C39_empty_refuted and C39_zero_refuted show what late reports and request id 0 do."
  },
  {
   "property": "C40",
   "status": "proved",
   "theorems": [
    "C40_count",
    "C40_only",
    "C40_time",
    "C40_ends",
    "C40_empty_refuted",
    "C40_time_refuted"
   ],
   "note": "Single-shot messages once, periodic ones max(1,n) times. Times are 32 bit and wrap (C40_time_refuted); an empty configuration never ends (C40_empty_refuted). File loading is not modelled."
  },
  {
   "property": "C41",
   "status": "proved",
   "theorems": [
    "C41_order",
    "C41_single",
    "C41_all",
    "C41_idle",
    "C41_timeout",
    "C41_timeout_refuted"
   ],
   "note": "Any response, also a late one, or a timeout releases the next request. The timer cannot be restarted from the timer thread, so an unanswered request released by a timeout blocks the queue (C41_timeout_refuted). The queue is shared without a lock in the code; each call is one step of the model."
  },
  {
   "property": "C42",
   "status": "proved",
   "theorems": [
    "C42_roundtrip",
    "C42_injective",
    "C42_large_option_refuted"
   ],
   "note": ""
  },
  {
   "property": "C43",
   "status": "proved",
   "theorems": [
    "C43_object_consistent",
    "C43_valid_object_reparses_refuted",
    "C43_update_fresh_refuted"
   ],
   "note": "Two findings: updateAddress is not validated, updating an object without attributes dereferences null."
  },
  {
   "property": "C44",
   "status": "proved",
   "theorems": [
    "C44_shuffle"
   ],
   "note": ""
  },
  {
   "property": "C45",
   "status": "proved",
   "theorems": [
    "C45_parse",
    "C45_signed",
    "C45_unambiguous",
    "C45_relationship",
    "C45_parallel",
    "C45_single_task_refuted",
    "C45_unknown_option_refuted"
   ],
   "note": "Compositions and the relationship must be operator expressions; a bare task as relationship makes the code throw (C45_single_task_refuted) and an unknown option inside an operator dereferences null (C45_unknown_option_refuted), two findings."
  },
  {
   "property": "C46",
   "status": "proved",
   "theorems": [
    "C46_refused",
    "C46_accepted",
    "C46_released",
    "C46_empty_entities_refuted"
   ],
   "note": "Empty vehicle lists are accepted under the condition stated in co_some (C46_empty_entities_refuted documents the gap)."
  },
  {
   "property": "C47",
   "status": "proved",
   "theorems": [
    "C47_judged",
    "C47_world",
    "C47_no_tower"
   ],
   "note": "Distances and the zone test are parameters; C47_no_tower documents that without any tower every line is beyond range."
  },
  {
   "property": "C48",
   "status": "proved",
   "theorems": [
    "C48_asked",
    "C48_options",
    "C48_extra_route_refuted",
    "C48_free_route_refuted",
    "C48_without_lanes_refuted",
    "C48_replanned_refuted"
   ],
   "note": "C48_asked and C48_options, for responses that contain each route asked for once. Refuted: a response with a route too many publishes the options twice; a free route counts as an error and gives the largest cost; options without lanes are left out although they are part of the composition; lanes made again with fewer routes block the publication (C48_*_refuted)."
  },
  {
   "property": "C49",
   "status": "proved",
   "theorems": [
    "C49_offered",
    "C49_resumed",
    "C49_first_waypoint_refuted",
    "C49_second_interruption_refuted",
    "C49_later_routes_refuted",
    "C49_time_refuted"
   ],
   "note": "C49_offered and C49_resumed, for the first interruption of a plan without co-located neighbouring places, by a vehicle that is the only one that worked on the task. Refuted: a vehicle flying to the first waypoint of the task leaves the request unanswered; a second interruption leaves it unanswered; only the first route of the task is resumed; the announced time is that of the whole task and both ways (C49_*_refuted)."
  },
  {
   "property": "C50",
   "status": "proved",
   "theorems": [
    "C50_round",
    "C50_stale_place_refuted",
    "C50_completed",
    "C50_only",
    "C50_once",
    "C50_twice_refuted",
    "C50_unvisited_refuted",
    "C50_changed_refuted",
    "C50_number_refuted"
   ],
   "note": "C50_completed (exact), C50_only and C50_once, for missions whose waypoint numbers are below 10000 and positive task numbers. Refuted: the last task is reported twice if waypoints without task lie before the end; it is reported on arrival even if never visited; a task announced anew as endless is still reported; larger waypoint numbers are taken for tasks (C50_*_refuted)."
  },
  {
   "property": "C51",
   "status": "proved",
   "theorems": [
    "C51_asked",
    "C51_only",
    "C51_sent",
    "C51_altitude_refuted",
    "C51_rate_refuted"
   ],
   "note": "C51_asked, C51_only, C51_sent; the projection of a position ahead is a parameter. Refuted: the altitude of the command is replaced by its altitude type; a heading rate gives a loiter at latitude and longitude 0 (C51_*_refuted)."
  },
  {
   "property": "C52",
   "status": "proved",
   "theorems": [
    "C52_listens",
    "C52_own",
    "C52_sent",
    "C52_announced",
    "C52_own_address_refuted",
    "C52_empty_header_refuted",
    "C52_unreadable_refuted",
    "C52_large_id_refuted"
   ],
   "note": "For readable entity ids below 2^31. Refuted beyond that: a peer asking for one of the bridge's own addresses makes it deaf to it on leaving; a header without addresses asks for everything; a peer without a readable id, or leaving with a large one, stops the bridge from noticing peers."
  },
  {
   "property": "C53",
   "status": "proved",
   "theorems": [
    "C53_crosses",
    "C53_point_refuted",
    "C53_symmetric",
    "C53_overlap_refuted"
   ],
   "note": "Exact rational coordinates. The coordinates given out for the crossing point are refuted, and collinear overlaps are never reported."
  },
  {
   "property": "C54",
   "status": "proved",
   "theorems": [
    "C54_inside_refuted",
    "C54_two_zones_refuted",
    "C54_direct",
    "C54_shortest",
    "C54_lost_refuted",
    "C54_apart_refuted"
   ],
   "note": "Polygons after merging, point-in-polygon and the all pairs shortest paths of boost are parameters. Refuted: a way that does not exist is never reported as an error."
  },
  {
   "property": "C55",
   "status": "proved",
   "theorems": [
    "C55_keepin_refuted",
    "C55_edges",
    "C55_legs"
   ],
   "note": "Polygons after merging, point-in-polygon and the convexity test are parameters. Refuted: a side of a keep-in zone is a leg even if it crosses a keep-out zone."
  },
  {
   "property": "C56",
   "status": "proved",
   "theorems": [
    "C56_answered",
    "C56_silent",
    "C56_all_zones",
    "C56_zone_update_refuted",
    "C56_stale_region_refuted",
    "C56_zone_lost_refuted"
   ],
   "note": "The visibility graph is a parameter (C54, C55). Refuted: zone updates reach a region only when it is told again, zone ids are cut to 32 bits."
  },
  {
   "property": "C57",
   "status": "proved",
   "theorems": [
    "C57_request",
    "C57_rate",
    "C57_mission",
    "C57_offers",
    "C57_end",
    "C57_lost_refuted",
    "C57_stale_refuted",
    "C57_first_config_refuted",
    "C57_two_zones_refuted",
    "C57_other_region_refuted"
   ],
   "note": "As long as nothing crashed; a missing target ends the process (C57_stale_refuted). The target computed by the derived task and the geometry are parameters."
  },
  {
   "property": "C58",
   "status": "proved",
   "theorems": [
    "C58_options",
    "C58_composition",
    "C58_search",
    "C58_first_decides",
    "C58_lost_refuted",
    "C58_stale_refuted",
    "C58_stale_vehicle_refuted",
    "C58_ineligible_refuted",
    "C58_default_refuted",
    "C58_crash_refuted",
    "C58_twice_refuted"
   ],
   "note": "For the first answer after a request, with vehicles that are all eligible and option ids that fit 64 bits; the excluded cases are refuted (C58_stale_refuted, C58_stale_vehicle_refuted, C58_ineligible_refuted, C58_default_refuted, C58_crash_refuted, C58_twice_refuted). Not every posting can be built by the search (C58_lost_refuted, C58_first_decides)."
  },
  {
   "property": "C59",
   "status": "proved",
   "theorems": [
    "C59_headings",
    "C59_elevations",
    "C59_all_round",
    "C59_looks",
    "C59_same_direction_refuted",
    "C59_one_option",
    "C59_cmasi_line",
    "C59_left_out_refuted",
    "C59_impact_line",
    "C59_area",
    "C59_footprints",
    "C59_footprint_refuted",
    "C59_pattern",
    "C59_pattern_refuted",
    "C59_angled",
    "C59_cmasi_point",
    "C59_impact_point",
    "C59_seconds_refuted",
    "C59_loiter_must_fly",
    "C59_not_requested_refuted",
    "C59_watch",
    "C59_number_refuted",
    "C59_vehicles",
    "C59_twice_refuted"
   ],
   "note": "With exact angles and option numbers that fit 64 bits; the excluded cases are refuted: C59_left_out_refuted (line option left out of the composition), C59_footprint_refuted, C59_pattern_refuted (only the first vehicle of a group), C59_seconds_refuted (costs in seconds), C59_not_requested_refuted (loiter), C59_number_refuted and C59_twice_refuted (watch), C59_same_direction_refuted."
  },
  {
   "property": "C60",
   "status": "proved",
   "theorems": [
    "C60_shortest",
    "C60_nearly_shortest",
    "C60_ends",
    "C60_found",
    "C60_shortest_refuted"
   ],
   "note": "boost::astar_search is modelled after its documentation and source; which of boost::relax and boost::relax_target it uses is left open. C60_shortest_refuted shows that rounding lengths and guesses down to whole metres, as the service does, loses the optimum."
  },
  {
   "property": "C61",
   "status": "proved",
   "theorems": [
    "C61_junctions",
    "C61_missing_node",
    "C61_builds",
    "C61_sections",
    "C61_mirror",
    "C61_edges",
    "C61_lengths",
    "C61_connected",
    "C61_length_refuted",
    "C61_parallel_refuted",
    "C61_same_id_refuted"
   ],
   "note": "For files in which each road has an id of its own and all its nodes have positions. C61_edges gives the exact length of an edge; C61_length_refuted shows that it need not be that of the section, C61_parallel_refuted that of parallel roads only the first is recorded, C61_same_id_refuted and C61_missing_node files that crash the service."
  },
  {
   "property": "C62",
   "status": "proved",
   "theorems": [
    "C62_way",
    "C62_nearly_shortest_graph",
    "C62_nearly_shortest",
    "C62_found",
    "C62_none",
    "C62_shortest_refuted",
    "C62_range_refuted"
   ],
   "note": "C62_nearly_shortest is for files in which inner nodes of a road come in its last section only; C62_shortest_refuted shows that it fails otherwise. C62_range_refuted: from a junction that is a road of its own the search can read beyond its tables."
  },
  {
   "property": "C63",
   "status": "proved",
   "theorems": [
    "C63_square",
    "C63_none",
    "C63_found",
    "C63_exact",
    "C63_nearest_refuted"
   ],
   "note": "C63_nearest_refuted: in general the node found need not be a closest one."
  },
  {
   "property": "C64",
   "status": "proved",
   "theorems": [
    "C64_answered",
    "C64_quiet",
    "C64_plans",
    "C64_comes",
    "C64_cost_refuted"
   ],
   "note": "For the map of a good file. C64_cost_refuted: the cost can be that of another road than the one of the waypoints. That an answer comes is proved if from each junction a road leads to another one (C64_comes)."
  },
  {
   "property": "C65",
   "status": "proved",
   "theorems": [
    "C65_places",
    "C65_complete",
    "C65_through_refuted"
   ],
   "note": "Refuted: a road through the circle whose junctions lie outside of the square is not seen."
  },
  {
   "property": "C66",
   "status": "proved",
   "theorems": [
    "C66_answered",
    "C66_short",
    "C66_comes",
    "C66_no_map",
    "C66_next_refuted",
    "C66_junction_refuted",
    "C66_circle_refuted"
   ],
   "note": "For files whose node ids are positive. Refuted: lines between neighbours can run the wrong way, lines to junctions run past them, closed sections leave the request without an answer."
  },
  {
   "property": "C67",
   "status": "proved",
   "theorems": [
    "C67_report",
    "C67_nowhere",
    "C67_silent",
    "C67_order",
    "C67_leg",
    "C67_end",
    "C67_override",
    "C67_idle",
    "C67_config",
    "C67_default",
    "C67_start",
    "C67_region",
    "C67_first_refuted",
    "C67_loiter_refuted",
    "C67_circuit_refuted"
   ],
   "note": "Refuted: a first waypoint without a leg to it is not passed by flying past it; loiter times count from being sent there; a circuit within the acceptance distance ends."
  },
  {
   "property": "C68",
   "status": "proved",
   "theorems": [
    "C68_range",
    "C68_line",
    "C68_line_reached",
    "C68_orbit",
    "C68_orbit_reached",
    "C68_commands",
    "C68_commands_orbit"
   ],
   "note": "Over real numbers; uses axioms of the standard library of reals, listed in DESIGN.md. The flight is ideal: no wind, headings are taken at once."
  },
  {
   "property": "C69",
   "status": "proved",
   "theorems": [
    "C69_environment",
    "C69_made",
    "C69_settled",
    "C69_shape",
    "C69_late_refuted",
    "C69_moved_refuted",
    "C69_grown_refuted",
    "C69_derived_refuted",
    "C69_padding_refuted",
    "C69_other_refuted",
    "C69_straight_refuted"
   ],
   "note": "For vehicles that are of one kind throughout. Refuted: a zone told after its region does not count; a changed zone counts as it was before; a changed region is forgotten for vehicles heard of later; the order of zones with and without padding matters; a keep-in zone for other vehicles removes all keep-out zones."
  },
  {
   "property": "C70",
   "status": "proved",
   "theorems": [
    "C70_answer",
    "C70_silent",
    "C70_only",
    "C70_reads"
   ],
   "note": "The way, its length and the test whether a place is in the map are parameters."
  },
  {
   "property": "C71",
   "status": "proved",
   "theorems": [
    "C71_answered",
    "C71_only",
    "C71_first",
    "C71_within",
    "C71_open_elevation_refuted",
    "C71_limit_refuted",
    "C71_changed_refuted"
   ],
   "note": "Rational arithmetic. Refuted: a request that leaves the elevations open never gets a footprint; an angle above the upper limit of the gimbal is accepted; changed configurations are not used."
  },
  {
   "property": "C72",
   "status": "proved",
   "theorems": [
    "C72_center",
    "C72_edges",
    "C72_horizon_refuted"
   ],
   "note": "Over real numbers; uses axioms of the standard library of reals, listed in DESIGN.md. Refuted for fields of view that reach the horizon: the leading edge is then reported to be under the vehicle."
  },
  {
   "property": "C73",
   "status": "proved",
   "theorems": [
    "C73_origin",
    "C73_scale",
    "C73_back",
    "C73_back_deg",
    "C73_degrees",
    "C73_back_deg_refuted",
    "C73_back_ft",
    "C73_pole_refuted",
    "C73_distance",
    "C73_distance_refuted",
    "C73_wgs84_refuted"
   ],
   "note": "Over real numbers; uses axioms of the standard library of reals, listed in DESIGN.md. Refuted: degrees do not come back exactly; at a pole longitudes are lost; a distance asked of a new converter depends on the order of its points; the radius is not the one of WGS-84."
  },
  {
   "property": "C74",
   "status": "proved",
   "theorems": [
    "C74_extend",
    "C74_laps",
    "C74_negative_refuted",
    "C74_points",
    "C74_waypoints"
   ],
   "note": "Over real numbers; uses axioms of the standard library of reals, listed in DESIGN.md. The constant for pi is taken as pi. Refuted for lengths below 0: the way gets longer all the same."
  },
  {
   "property": "C75",
   "status": "proved",
   "theorems": [
    "C75_ends",
    "C75_fails",
    "C75_longest",
    "C75_time",
    "C75_chain",
    "C75_numbers",
    "C75_copies_refuted",
    "C75_numbers_refuted"
   ],
   "note": "Over real numbers; uses axioms of the standard library of reals, listed in DESIGN.md. Refuted: numbers that do not go up can be there twice afterwards; the waypoints that are put in repeat all that is to be done at the end of the segment."
  },
  {
   "property": "C76",
   "status": "proved",
   "theorems": [
    "C76_meeting",
    "C76_options",
    "C76_everyone",
    "C76_mismatch",
    "C76_one_place_fails",
    "C76_order_refuted",
    "C76_too_few_refuted",
    "C76_all_refuted",
    "C76_search_refuted"
   ],
   "note": "Refuted: if there is one place for each and only some are to meet, nothing is published at all; what is published can depend on the order of a hash table; if there are too few vehicles, fewer meet; the search for an assignment finds only one of the ways that begin with the same option."
  },
  {
   "property": "C77",
   "status": "proved",
   "theorems": [
    "C77_start",
    "C77_when",
    "C77_latest",
    "C77_assumed_refuted",
    "C77_again_refuted"
   ],
   "note": "For requests that were not answered yet. Refuted: a vehicle for which nothing was told is counted with the start of another, so the time to meet can change between the answers for two vehicles; a request that comes again after its answer finds no start time."
  },
  {
   "property": "C78",
   "status": "proved",
   "theorems": [
    "C78_unknown",
    "C78_undefined",
    "C78_route",
    "C78_late_refuted",
    "C78_speed_refuted"
   ],
   "note": "Over real numbers; uses axioms of the standard library of reals, listed in DESIGN.md. Refuted: the full circle can bring a vehicle to the meeting much too late; the test whether flying slower is enough is wrong, so with this preference vehicles can be hours early."
  },
  {
   "property": "C79",
   "status": "proved",
   "theorems": [
    "C79_commands",
    "C79_speed",
    "C79_undefined",
    "C79_range",
    "C79_last",
    "C79_alone",
    "C79_center_refuted",
    "C79_defined_refuted"
   ],
   "note": "Over real numbers; uses axioms of the standard library of reals, listed in DESIGN.md. Refuted: if no time is possible for all, the time to meet is after the earliest possible one and not in the middle, so that the last vehicle is made slower; a neighbour on its way without a known configuration is undefined behaviour."
  },
  {
   "property": "C80",
   "status": "proved",
   "theorems": [
    "C80_response",
    "C80_silent",
    "C80_room",
    "C80_behind",
    "C80_stays_refuted"
   ],
   "note": "Over real numbers; uses axioms of the standard library of reals, listed in DESIGN.md. The places in meters are those of the converter of the program, see C73. Refuted: the added waypoint leads where the only one did, so a vehicle sent to one waypoint turns back."
  },
  {
   "property": "C81",
   "status": "proved",
   "theorems": [
    "C81_mission",
    "C81_silent",
    "C81_apart",
    "C81_stays_refuted"
   ],
   "note": "Over real numbers; uses axioms of the standard library of reals, listed in DESIGN.md. Arriving together holds within 0.03 percent for ways of up to 90 km, the right angle within 1e-10. The places in meters are those of the converter of the program, see C73; the distance of the posts is for an origin between the poles. Refuted: the same report leads to the same post."
  },
  {
   "property": "C82",
   "status": "proved",
   "theorems": [
    "C82_place",
    "C82_silent",
    "C82_closest",
    "C82_against_refuted",
    "C82_at_rest_refuted",
    "C82_on_line_refuted"
   ],
   "note": "Over real numbers; uses axioms of the standard library of reals, listed in DESIGN.md. Distances hold up to one centimeter, directions up to a cosine of 1e-6. The direction in which a found line is followed is as the theorem says: where all its legs lead against the movement, or the entity does not move, or is exactly on the line, the English claim fails and is refuted (C82_against_refuted, C82_at_rest_refuted, C82_on_line_refuted)."
  },
  {
   "property": "C83",
   "status": "proved",
   "theorems": [
    "C83_place",
    "C83_unknown",
    "C83_level",
    "C83_north_refuted"
   ],
   "note": "Over real numbers; uses axioms of the standard library of reals, listed in DESIGN.md. C83_place gives the place for the movements as the code computes them, which are skewed; C83_level shows that they are the true ones as long as the latitude does not change, C83_north_refuted that a target that moves north is expected in the north-west."
  },
  {
   "property": "C84",
   "status": "proved",
   "theorems": [
    "C84_report",
    "C84_options",
    "C84_silent",
    "C84_tower_refuted",
    "C84_date_line_refuted"
   ],
   "note": "Over real numbers; uses axioms of the standard library of reals, listed in DESIGN.md. For an origin of the converter between the poles. Refuted: the tower is known when its configuration was received (C84_tower_refuted), half way is near both across the date line (C84_date_line_refuted)."
  },
  {
   "property": "C85",
   "status": "proved",
   "theorems": [
    "C85_report",
    "C85_callbacks",
    "C85_period",
    "C85_authorized",
    "C85_valid",
    "C85_keeps",
    "C85_fresh",
    "C85_options",
    "C85_authorized_refuted",
    "C85_keeps_refuted",
    "C85_restart_refuted",
    "C85_safe"
   ],
   "note": "Under the hypotheses of C30: no timer is started while its callback runs, no two timers are due in the same instant. Refuted without the latter: permissions expire (C85_authorized_refuted). Refuted without the former: a keep-alive counts until it expires (C85_keeps_refuted), the behaviour is defined (C85_restart_refuted)."
  },
  {
   "property": "C86",
   "status": "proved",
   "theorems": [
    "C86_stare",
    "C86_first",
    "C86_unknown",
    "C86_segments",
    "C86_gap_refuted",
    "C86_point_refuted",
    "C86_twice_refuted"
   ],
   "note": "Over real numbers; uses axioms of the standard library of reals, listed in DESIGN.md. For waypoints at different places, with increasing numbers. Refuted: for a road of length zero the sensor still looks at it (C86_point_refuted), behaviour is defined when two waypoints are at the same place (C86_twice_refuted), segments need not share waypoints (C86_gap_refuted)."
  },
  {
   "property": "C87",
   "status": "proved",
   "theorems": [
    "C87_ends",
    "C87_legs",
    "C87_joined",
    "C87_covers",
    "C87_endless_refuted",
    "C87_nothing_refuted",
    "C87_hole_refuted"
   ],
   "note": "Over real numbers; uses axioms of the standard library of reals, listed in DESIGN.md. For a trailing edge not beyond the leading one and a lane shorter than the circle at the extent. Refuted: the footprint, of which a lane is nine tenths, sees every place within the extent (C87_hole_refuted), a negative extent is refused (C87_endless_refuted: the loop does not end), a pattern without legs is refused (C87_nothing_refuted)."
  },
  {
   "property": "C88",
   "status": "proved",
   "theorems": [
    "C88_ends",
    "C88_route",
    "C88_covers",
    "C88_cost",
    "C88_cost_refuted",
    "C88_heading",
    "C88_sensor",
    "C88_invalid_refuted",
    "C88_single_refuted",
    "C88_stale_refuted"
   ],
   "note": "Over real numbers; uses axioms of the standard library of reals, listed in DESIGN.md. Refuted: the cost is that of the spiral (C88_cost_refuted), every extent gives waypoints (C88_invalid_refuted) and more than one (C88_single_refuted), the sensor is steered by the latest plan (C88_stale_refuted)."
  },
  {
   "property": "C89",
   "status": "proved",
   "theorems": [
    "C89_ends",
    "C89_joined",
    "C89_lanes",
    "C89_chord",
    "C89_near",
    "C89_first_refuted",
    "C89_narrow_refuted",
    "C89_strip_refuted",
    "C89_rectangle",
    "C89_rotation_refuted",
    "C89_asked",
    "C89_polygon",
    "C89_circle"
   ],
   "note": "Over real numbers; uses axioms of the standard library of reals, listed in DESIGN.md. Refuted: a lane through the first point of the boundary is searched (C89_first_refuted), a narrow area is seen to its ends (C89_narrow_refuted), the last strip is seen (C89_strip_refuted), the CMASI search heeds the rotation of a rectangle (C89_rotation_refuted)."
  },
  {
   "property": "C90",
   "status": "proved",
   "theorems": [
    "C90_rounds",
    "C90_kill",
    "C90_no_time_refuted",
    "C90_kill_refuted",
    "C90_left_behind_refuted",
    "C90_restart_refuted",
    "C90_period_refuted",
    "C90_calls",
    "C90_gap",
    "C90_cancelled"
   ],
   "note": "For all interleavings of one calling thread with that of the timer. Refuted: a kill ends the timer (C90_kill_refuted, C90_no_time_refuted), a timer that is left alone fires (C90_left_behind_refuted: not after a kill that came late), a start replaces the function (C90_restart_refuted), an extension leaves the period alone (C90_period_refuted)."
  },
  {
   "property": "C91",
   "status": "proved",
   "theorems": [
    "C91_day_refuted",
    "C91_far_refuted",
    "C91_units_refuted",
    "C91_discrete_refuted",
    "C91_mode_refuted",
    "C91_count_refuted",
    "C91_calibrate",
    "C91_calendar",
    "C91_days",
    "C91_taken",
    "C91_time",
    "C91_start",
    "C91_duration",
    "C91_discrete",
    "C91_stands",
    "C91_count",
    "C91_goes_on",
    "C91_units"
   ],
   "note": "For all histories of accesses through getInstance; timegm and gmtime are the formula of POSIX, shown to count the days of the calendar. Refuted: only dates that exist are taken (C91_day_refuted), later dates are refused (C91_far_refuted: undefined behaviour), hours are those of the time (C91_units_refuted), a clock that says it was set is set in discrete time (C91_discrete_refuted), a setting outlives a change of mode (C91_mode_refuted), the count is right beyond 2^32 (C91_count_refuted)."
  },
  {
   "property": "C92",
   "status": "proved",
   "theorems": [
    "C92_drift_refuted",
    "C92_spur_refuted",
    "C92_diagonal_refuted",
    "C92_double_refuted",
    "C92_places_refuted",
    "C92_first_pass",
    "C92_straight",
    "C92_second_pass",
    "C92_number",
    "C92_most",
    "C92_way"
   ],
   "note": "For all lines; the second pass is shown to be a sequence of best choices. The whole holds for lines without a point that is as far north as east of the point of reference; otherwise C92_diagonal_refuted: the end is lost. Refuted: what is left out is near the way (C92_drift_refuted, C92_spur_refuted), points at the same place are made one (C92_double_refuted)."
  },
  {
   "property": "C93",
   "status": "proved",
   "theorems": [
    "C93_impact_headings",
    "C93_impact_length",
    "C93_impact_two_refuted",
    "C93_ends",
    "C93_between",
    "C93_straight",
    "C93_side_refuted",
    "C93_bend_refuted",
    "C93_slope_refuted",
    "C93_stares",
    "C93_looks",
    "C93_parallel_refuted",
    "C93_reverse",
    "C93_way",
    "C93_way_back",
    "C93_cost",
    "C93_headings"
   ],
   "note": "Geometry of each point for all lines and angles. The azimuth is counted to the left, as seen with the coordinates the tasks pass: C93_side_refuted. The composition C93_way assumes that RemoveZeroLengthSegments does nothing (see C92). Refuted: the distance is kept in bends (C93_bend_refuted), the altitude is that of the line (C93_slope_refuted), only looks that cross make points one (C93_parallel_refuted). The Impact line search leaves the heading at the end at north for a way of two waypoints: C93_impact_two_refuted."
  },
  {
   "property": "C94",
   "status": "proved",
   "theorems": [
    "C94_stare",
    "C94_jump_refuted"
   ],
   "note": "Plans in a single direction, as the line searches use them. The place looked at is not continuous in the position of the vehicle: C94_jump_refuted."
  },
  {
   "property": "C95",
   "status": "proved",
   "theorems": [
    "C95_errors",
    "C95_when",
    "C95_once",
    "C95_summary",
    "C95_found",
    "C95_uninvited_refuted",
    "C95_left_out_refuted"
   ],
   "note": "Without relationships a task that the request does not list is assigned too if options came under its id (C95_uninvited_refuted); tasks that the relationships do not mention are silently left out (C95_left_out_refuted)."
  },
  {
   "property": "C96",
   "status": "proved",
   "theorems": [
    "C96_eligible",
    "C96_plan",
    "C96_open_option_refuted"
   ],
   "note": "The same options messages reach the aggregator and the assignment service, every option lists its vehicles, and option numbers are not vehicle ids. Without the second condition: C96_open_option_refuted."
  },
  {
   "property": "C97",
   "status": "proved",
   "theorems": [
    "C97_rows",
    "C97_crash",
    "C97_crash_at_start",
    "C97_apostrophe_refuted",
    "C97_forged_refuted",
    "C97_no_text_refuted",
    "C97_run_before_refuted"
   ],
   "note": "For texts without apostrophe and zero byte. With an apostrophe the message is lost (C97_apostrophe_refuted) or may log rows of its own making (C97_forged_refuted); the text log is never written (C97_no_text_refuted); without times in file names a start removes the log of the run before (C97_run_before_refuted)."
  },
  {
   "property": "C98",
   "status": "proved",
   "theorems": [
    "C98_delivery",
    "C98_nobody_else",
    "C98_rows",
    "C98_crash",
    "C98_next_file_refuted",
    "C98_readable",
    "C98_entity_refuted",
    "C98_ampersand_refuted"
   ],
   "note": "If the next file can be opened when one is full; otherwise the next record ends the process (C98_next_file_refuted). A text with an entity cannot be told from one with the sign (C98_entity_refuted); escaping of ampersands, not used by the logs, never ends (C98_ampersand_refuted)."
  },
  {
   "property": "C99",
   "status": "proved",
   "theorems": [
    "C99_saved",
    "C99_others",
    "C99_crash",
    "C99_ten_thousand_refuted",
    "C99_later_refuted"
   ],
   "note": "For directories numbered below 9999 and no plain files with numbered names; for requests that list their entities, or the first response to others. Otherwise: C99_ten_thousand_refuted, C99_later_refuted."
  },
  {
   "property": "C100",
   "status": "proved",
   "theorems": [
    "C100_flyable",
    "C100_shortest_same",
    "C100_shortest_other",
    "C100_shortest_three",
    "C100_turnabout_refuted"
   ],
   "note": "For centres of the turns at the start and at the finish at least half a metre apart (otherwise C100_turnabout_refuted); with opposite turns nothing shorter if their centres are a whole number of metres apart, with three turns if the finish is within three radii of the place one radius east or west of the start."
  },
  {
   "property": "C101",
   "status": "proved",
   "theorems": [
    "C101_straight",
    "C101_in_sight",
    "C101_direct",
    "C101_turns_direct",
    "C101_turns",
    "C101_unasked_refuted",
    "C101_lost_refuted",
    "C101_one_corner_refuted"
   ],
   "note": "With headings for corners at least two turn radii and half a metre from start and end. A heading that is not asked for is kept to as well (C101_unasked_refuted); after a single corner the last part begins heading north whatever the heading there (C101_one_corner_refuted); if no corner is in sight the origin of the map is listed (C101_lost_refuted)."
  },
  {
   "property": "C102",
   "status": "proved",
   "theorems": [
    "C102_settings",
    "C102_entity",
    "C102_refused",
    "C102_levels",
    "C102_enabled",
    "C102_default",
    "C102_unloaded",
    "C102_failed_refuted",
    "C102_no_entity_refuted"
   ],
   "note": "Settings of an earlier configuration stay if a later one does not give them (C102_settings). After a load that fails the services of the one before can still be enabled, under an entity number of the one refused (C102_failed_refuted); a document without an entity is loaded (C102_no_entity_refuted)."
  },
  {
   "property": "C103",
   "status": "proved",
   "theorems": [
    "C103_started",
    "C103_once",
    "C103_kept",
    "C103_counts",
    "C103_kill",
    "C103_test_refuted",
    "C103_test_hears",
    "C103_tests"
   ],
   "note": "A bridge for tests that was given another number does not obey a message with it (C103_test_refuted)."
  },
  {
   "property": "C104",
   "status": "proved",
   "theorems": [
    "C104_ends",
    "C104_back",
    "C104_quotes",
    "C104_amp_refuted",
    "C104_own"
   ],
   "note": "Escaping and undoing it is not the identity: a text with an escaped ampersand never comes back (C104_amp_refuted)."
  },
  {
   "property": "C105",
   "status": "proved",
   "theorems": [
    "C105_clients",
    "C105_sent",
    "C105_quiet",
    "C105_delivered",
    "C105_whole",
    "C105_cut_refuted",
    "C105_peers_refuted",
    "C105_ended_refuted"
   ],
   "note": "False without the conditions of the statement: C105_cut_refuted (a message in two packets, the sender is rewritten), C105_peers_refuted (data of two peers mixed), C105_ended_refuted (numbers missing or too large)."
  },
  {
   "property": "C106",
   "status": "proved",
   "theorems": [
    "C106_delivered",
    "C106_survives",
    "C106_written",
    "C106_line",
    "C106_late_refuted"
   ],
   "note": "A message read together with a malformed frame in front of it is held back until more is read (C106_late_refuted)."
  },
  {
   "property": "C107",
   "status": "proved",
   "theorems": [
    "C107_chosen",
    "C107_refused",
    "C107_status",
    "C107_missing_refuted",
    "C107_negative_refuted",
    "C107_unread_refuted",
    "C107_abandoned_refuted"
   ],
   "note": "The options are well written: an option without its value is undefined behaviour (C107_missing_refuted), a negative duration runs for decades (C107_negative_refuted), one that is no number goes unnoticed (C107_unread_refuted)."
  },
  {
   "property": "C108",
   "status": "proved",
   "theorems": [
    "C108_snap",
    "C108_stare",
    "C108_on_road",
    "C108_begin",
    "C108_stored_refuted",
    "C108_empty_refuted"
   ],
   "note": "For the function of a plan and a road.  The one of stored values is off by almost the length of the road before the leg (C108_stored_refuted), and an empty plan or road cannot be stored (C108_empty_refuted)."
  },
  {
   "property": "C109",
   "status": "proved",
   "theorems": [
    "C109_delivered",
    "C109_sent",
    "C109_gone_refuted"
   ],
   "note": "The bytes are taken as one stream, as the code keeps one buffer for all clients.  A client that has left is still sent to (C109_gone_refuted), which a comment in the code says is meant."
  }
 ]
}