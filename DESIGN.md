# Formal model of OpenUxAS in Rocq: design and trusted base

Source modelled: `/repo` (OpenUxAS, C++), read as text.  Nothing in `/repo` is built or run.
Model and proofs: `rocq/theories/`, Coq 8.16.1, standard library only.

## How the development is organised

Each component `X` has up to four kinds of files.

* `XModel.v`: executable Gallina transcription of the C++ functions.  No proofs.
  Every definition cites the file and lines it models and says what is simplified.
* `XSpec.v`: a small specification, written in terms of what is observed (messages received
  and sent, calls and results), without using the model's helpers.
* `XProofs.v`, `XInv.v`, `XStep.v` and the like: lemmas.
* `XProps.v`: the property theorems, each followed by `Print Assumptions`, and `Example`s that
  show that a concrete non-trivial case meets the hypotheses.

`Base.v`, `ZMap.v`, `Run.v`, `ListSplit.v` and `Decimal10.v` are small libraries (strings, finite
maps, runs of state machines, lists, decimal numbers).

Theorem names start with the property id (`C07_...`).  A name ending in `_partial` proves
only part of the property; the missing part is named in the comment and in `MANIFEST.json`.
A name ending in `_refuted` proves that a claim one would expect is false of the modelled
code, with a concrete witness: these are findings about the C++ code.  They have not been confirmed
by running the code.

## Trusted base

* The kernel of Coq 8.16.1 (`coqc`; `vm_compute` is used in examples and refutations only by way of
  the kernel's own reduction machine).
* `Print Assumptions` says *Closed under the global context* for every theorem listed below, except for
  those about real numbers (headings, distances and places on the earth, from C68 on).  These use axioms of
  the standard library that the theory of real numbers is built on; they are listed per theorem below the
  table.  There is no axiom of our own.  (The axioms `Coq.ssr.ssrunder.Under_rel.*` that a checker may
  list are declared by a file of the standard library that is loaded together with a tactic module; no
  theorem depends on them.)
* The models are faithful to the C++ text as far as their comments claim.  This was checked by
  reading only.  The wrong programs in `seeded/LOG.jsonl` test whether the theorems depend on the
  details of the models.  Each line has an `outcome`.  *theorems failed* means that the existing proof
  no longer goes through, not that the theorem was shown false of the wrong program: a proof can also
  break over a harmless edit.  *survived* lines are gaps or harmless edits; a `comment` gives the reason
  as we see it, by argument only.  `expected_before_run` was written before the outcome was known.
  Lines with `recomputed` had first listed every theorem with axioms of the library of reals as failed;
  their list is now the theorems that use a broken lemma.
  *run invalid*, *edit does not compile* and *build stopped, theorems not determined* test nothing.
* The specifications say what the English properties say.

## General modelling decisions

* `std::string` is `list ascii` (bytes) where the text matters, otherwise a number.  Maps
  (`std::map`, `std::unordered_map`) are association lists or functions, sets are lists with
  membership; the iteration order of unordered containers is a parameter (any permutation) where it
  is observable.
* Integers are unbounded `Z`/`nat`, except where a property is about machine integers
  (checksum, `stoi`, packed ids, counting functions, 32 bit times), where the width is modelled.
* Doubles (positions, costs in metres) are not modelled as floating point, but as real numbers in
  `SteeringCourseModel`.  Elsewhere, where a decision
  depends on them the decision or the function is a parameter of the model (for every such function
  the theorem holds), or the values are integers with the same order (stated at each place).
* Threads: every service processes its messages one at a time on its own thread, so a service
  is a state machine `step : state -> input -> state * outputs`.  Timer callbacks run on another
  thread; they are modelled as further inputs, that is, as if atomic.  Data races are out of scope
  (places where the code shares data without a lock are listed under findings).
* Undefined behaviour (null dereference, iterator invalidation, uncaught exception) is an
  explicit outcome of the model where it is reachable.
* LMCP generated classes, XML parsing (pugixml), ZeroMQ, Zyre, boost and the file system are not
  modelled.  ZeroMQ is represented by its documented contract (ordered delivery of whole
  messages, prefix subscription).

## What is proved, per property

"Proved about" names the model; all theorems are in the `*Props.v` files.  "Method" is given once per
component in the plan further below.

| Property | Status | Proved about | Theorems |
|---|---|---|---|
| C01 Addressed message text round trip | proved | `MsgModel` | `C01_setter_domain`, `C01_roundtrip`, `C01_roundtrip_any_payload_refuted`, `C01_parser_domain` |
| C02 Addressed attributed message text round trip | proved | `MsgModel` | `C02_roundtrip`, `C02_setter_domain` |
| C03 Accepted wire text is fully accounted for | proved | `MsgModel` | `C03_parser_domain`, `C03_parser_injective`, `C03_parsed_address_nonempty_refuted` |
| C04 Delimiter in an attribute field cannot be smuggled past the receiver | proved | `MsgModel` | `C04_no_smuggling`, `C04_setter_rejects_delimiters_refuted` |
| C05 Split loses nothing | proved | `MsgModel` | `C05_split`, `C05_split_max`, `C05_split_append`, `C05_append_restores_refuted` |
| C06 Replace-all and XML escaping of embedded options | proved | `MsgModel` | `C06_replaceAll`, `C06_empty_pattern_diverges`, `C06_xml_escape_roundtrip`, `C06_roundtrip_refuted` |
| C07 Framed messages survive arbitrary chunking | proved | `SerialModel` | `C07_framed_form`, `C07_chunking`, `C07_base_free`, `C07_large_checksum_lost`, `C07_chunking_without_checksum_bound_refuted` |
| C08 Serial buffer returns only payloads that were framed with matching length and checksum | proved | `SerialModel` | `C08_sound_calls`, `C08_sound_receive_loop`, `C08_no_exception_refuted` |
| C09 Serial buffer resynchronises after garbage | proved | `SerialModel` | `C09_resync_first_call`, `C09_resync_any_garbage`, `C09_receive_loop_delivers_refuted` |
| C10 Publish/subscribe delivery | proved | `MsgModel`, `NetModel` | `C10_delivery`, `C10_hub`, `C10_initialize_refuted`, `C10_clear_refuted` |
| C11 Own messages are never handed back | proved | `MsgModel`, `NetModel` | `C11_received`, `C11_own` |
| C12 A unicast message reaches only the addressed service | proved | `MsgModel`, `NetModel` | `C12_unicast`, `C12_only`, `C12_unicast_refuted`, `C12_all` |
| C13 Service ids are unique | proved | `ServiceMgrModel` | `C13_distinct_iff`, `C13_constructed`, `C13_refuted` |
| C14 Bridged messages cannot circulate | proved | `BridgeModel` | `C14_once`, `C14_unchanged`, `C14_crosses`, `C14_alias`, `C14_single_bridge`, `C14_no_echo`, `C14_default_refuted`, `C14_tcp_refuted`, `C14_forged_refuted` |
| C15 Task relationship algebra offers exactly the legal next actions | proved | `AlgebraModel` | `C15_next_actions`, `C15_no_repetition`, `C15_order_irrelevant`, `C15_empty_operator_refuted`, `C15_repeated_action_refuted` |
| C16 Every schedule offered by the algebra can be completed and only complete schedules are final | proved | `AlgebraModel` | `C16_runs`, `C16_all_reachable`, `C16_all_done` |
| C17 Assignments obey the task relationships and vehicle eligibility | proved | `AlgebraModel`, `AssignModel` | `C17_relationships`, `C17_assignment`, `C17_ineligible_refuted`, `C17_id_clash_refuted` |
| C18 Unlimited search is optimal | proved | `AlgebraModel`, `AssignModel` | `C18_optimal`, `C18_default_limit_refuted` |
| C19 Node limit only degrades optimality | proved | `AlgebraModel`, `AssignModel` | `C19_terminates`, `C19_found`, `C19_monotone` |
| C20 Requests are released one at a time and in order | partial | `ValidatorModel` | `C20_one_at_a_time`, `C20_single`, `C20_order`, `C20_once`, `C20_guarded`, `C20_unguarded_refuted`, `C20_resend_refuted` |
| C21 At most one response per request, of the requester's type | partial | `ValidatorModel` | `C21_one_reply_each`, `C21_ignored`, `C21_ignored_same`, `C21_passed_on`, `C21_duplicate_id_refuted` |
| C22 Timeout of task initialisation answers the request that timed out | partial | `ValidatorModel` | `C22_timeout_partial`, `C22_guarded_partial`, `C22_refuted` |
| C23 Route aggregator answers a route request exactly once, when complete | proved | `AggregatorModel` | `C23_once`, `C23_contents`, `C23_asks`, `C23_no_vehicles`, `C23_duplicate_id_refuted`, `C23_route_id_refuted` |
| C24 Cost matrix completeness | proved | `AggregatorModel` | `C24_matrix`, `C24_at_most_one`, `C24_sent`, `C24_forgotten_refuted` |
| C25 Plan builder implements assignments one after another and reports once | proved | `BuilderModel` | `C25_in_order`, `C25_one_at_a_time`, `C25_once`, `C25_progress`, `C25_rejected`, `C25_carries_on`, `C25_command_ids`, `C25_missions_well_formed`, `C25_stall_refuted`, `C25_replay_refuted` |
| C26 Waypoint plan segmentation covers the mission | proved | `WaypointModel` | `C26_cut`, `C26_configured`, `C26_cover`, `C26_parts`, `C26_unlimited`, `C26_overlap_refuted`, `C26_length_refuted`, `C26_uneven_refuted` |
| C27 The vehicle is always served the segment around its waypoint | proved | `WaypointModel` | `C27_current`, `C27_start`, `C27_sent`, `C27_once`, `C27_resend_refuted`, `C27_empty_mission_refuted` |
| C28 At most one live service per task | proved | `TaskMgrModel` | `C28_one_service`, `C28_fresh`, `C28_kills`, `C28_remove`, `C28_task`, `C28_only`, `C28_requests`, `C28_options`, `C28_update_refuted`, `C28_options_refuted` |
| C29 Service manager bookkeeping | proved | `ServiceMgrModel` | `C29_count`, `C29_terminate`, `C29_expire`, `C29_exit`, `C29_stops`, `C29_patience`, `C29_create`, `C29_deaf`, `C29_disciplined`, `C29_create_refuted`, `C29_reserved_refuted`, `C29_kill_own_refuted` |
| C30 A disabled timer does not fire; others are unaffected | proved | `TimerModel` | `C30_safe`, `C30_disabled`, `C30_result`, `C30_count`, `C30_destroyed`, `C30_start`, `C30_fires`, `C30_active`, `C30_others_refuted`, `C30_disabled_refuted`, `C30_safe_refuted` |
| C31 Timers fire in order and never early | proved | `TimerModel` | `C31_fires`, `C31_turns`, `C31_worker`, `C31_order` |
| C32 A client hands over every message until it is stopped, and then ends with its subclass | proved | `ClientModel` | `C32_given`, `C32_exit`, `C32_ends`, `C32_patient`, `C32_abort`, `C32_refuted` |
| C33 Task active and complete notices alternate | proved | `TaskBaseModel` | `C33_exact`, `C33_only`, `C33_alternate`, `C33_reassigned_refuted` |
| C34 Task implementation waypoints are numbered consecutively and linked | proved | `TaskBaseModel` | `C34_implementation`, `C34_numbering`, `C34_once`, `C34_ends_refuted`, `C34_repeated_refuted`, `C34_parallel_refuted` |
| C35 Enumeration of permutations and combinations is complete and without repetition | proved | `PermuteModel` | `C35_combinations`, `C35_permutations`, `C35_circular` |
| C36 Counting functions are exact or report overflow | proved | `PermuteModel` | `C36_combination`, `C36_permutation`, `C36_circular`, `C36_reversible`, `C36_reversible_circular`, `C36_combination_calls`, `C36_permutation_calls`, `C36_circular_calls` |
| C37 Operating region is the set of live zones | proved | `RegionModel` | `C37_region`, `C37_current`, `C37_padding`, `C37_padding_first`, `C37_padding_refuted` |
| C38 Batch summary request is answered exactly once | proved | `BatchModel` | `C38_request`, `C38_ids`, `C38_answer`, `C38_only`, `C38_exactly_once`, `C38_legs`, `C38_repeat_refuted`, `C38_single_task_refuted`, `C38_int32_refuted`, `C38_foreign_refuted` |
| C39 Coordinated request is forwarded when all entities reported | proved | `CoordModel` | `C39_ready`, `C39_announce`, `C39_deadline`, `C39_only`, `C39_once`, `C39_exactly_once`, `C39_twice_refuted`, `C39_empty_refuted`, `C39_zero_refuted` |
| C40 Scheduled messages are sent the configured number of times | proved | `SendMsgModel` | `C40_count`, `C40_only`, `C40_time`, `C40_ends`, `C40_empty_refuted`, `C40_time_refuted` |
| C41 Serialised request test service keeps order and never overlaps | proved | `SerialReqModel` | `C41_order`, `C41_single`, `C41_all`, `C41_idle`, `C41_timeout`, `C41_timeout_refuted` |
| C42 Option ids survive packing | proved | `AlgebraModel`, `AssignModel` | `C42_roundtrip`, `C42_injective`, `C42_large_option_refuted` |
| C43 A message object stays consistent over any history of operations | proved | `MsgModel` | `C43_object_consistent`, `C43_valid_object_reparses_refuted`, `C43_update_fresh_refuted` |
| C44 Shuffling the algebra tree changes nothing observable | proved | `AlgebraModel` | `C44_shuffle` |
| C45 Task relationship and composition strings are interpreted as written | proved | `AlgebraModel`, `FormulaModel` | `C45_parse`, `C45_signed`, `C45_unambiguous`, `C45_relationship`, `C45_parallel`, `C45_single_task_refuted`, `C45_unknown_option_refuted` |
| C46 Only complete requests reach the planning services | proved | `ValidatorModel` | `C46_refused`, `C46_accepted`, `C46_released`, `C46_empty_entities_refuted` |
| C47 Batch summaries judge range and zones by the latest reports | proved | `BatchModel` | `C47_judged`, `C47_world`, `C47_no_tower` |
| C48 Options of a planned task are published once, when all routes are known | proved | `TaskBaseModel` | `C48_asked`, `C48_options`, `C48_extra_route_refuted`, `C48_free_route_refuted`, `C48_without_lanes_refuted`, `C48_replanned_refuted` |
| C49 An interrupted task is resumed where it was left | proved | `TaskBaseModel` | `C49_offered`, `C49_resumed`, `C49_first_waypoint_refuted`, `C49_second_interruption_refuted`, `C49_later_routes_refuted`, `C49_time_refuted` |
| C50 Tracked tasks are reported complete when they are left | proved | `TrackerModel` | `C50_round`, `C50_stale_place_refuted`, `C50_completed`, `C50_only`, `C50_once`, `C50_twice_refuted`, `C50_unvisited_refuted`, `C50_changed_refuted`, `C50_number_refuted` |
| C51 A safe heading becomes a loiter only over a free way | proved | `LeashModel` | `C51_asked`, `C51_only`, `C51_sent`, `C51_altitude_refuted`, `C51_rate_refuted` |
| C52 A bridge serves exactly the peers that are connected | proved | `ZyreModel` | `C52_listens`, `C52_own`, `C52_sent`, `C52_announced`, `C52_own_address_refuted`, `C52_empty_header_refuted`, `C52_unreadable_refuted`, `C52_large_id_refuted` |
| C53 Two segments are found to cross exactly when they do | proved | `SegModel` | `C53_crosses`, `C53_point_refuted`, `C53_symmetric`, `C53_overlap_refuted` |
| C54 The way around zones is a shortest one | proved | `SegModel`, `VisModel` | `C54_inside_refuted`, `C54_two_zones_refuted`, `C54_direct`, `C54_shortest`, `C54_lost_refuted`, `C54_apart_refuted` |
| C55 Legs between corners run along sides or are in sight | proved | `SegModel`, `VisModel` | `C55_keepin_refuted`, `C55_edges`, `C55_legs` |
| C56 Requests for route plans are answered with what was last told | proved | `RouteVisModel` | `C56_answered`, `C56_silent`, `C56_all_zones`, `C56_zone_update_refuted`, `C56_stale_region_refuted`, `C56_zone_lost_refuted` |
| C57 Vehicles on a task are sent after its moving target | proved | `DynModel` | `C57_request`, `C57_rate`, `C57_mission`, `C57_offers`, `C57_end`, `C57_lost_refuted`, `C57_stale_refuted`, `C57_first_config_refuted`, `C57_two_zones_refuted`, `C57_other_region_refuted` |
| C58 A cordon allows exactly the ways of posting vehicles at exits | proved | `AlgebraModel`, `CordonModel`, `FormulaModel`, `PermuteModel` | `C58_options`, `C58_composition`, `C58_search`, `C58_first_decides`, `C58_lost_refuted`, `C58_stale_refuted`, `C58_stale_vehicle_refuted`, `C58_ineligible_refuted`, `C58_default_refuted`, `C58_crash_refuted`, `C58_twice_refuted` |
| C59 Search, loiter and watch tasks offer a choice of options that fits the task | proved | `AlgebraModel`, `FormulaModel`, `SearchOptionsModel` | `C59_headings`, `C59_elevations`, `C59_all_round`, `C59_looks`, `C59_same_direction_refuted`, `C59_one_option`, `C59_cmasi_line`, `C59_left_out_refuted`, `C59_impact_line`, `C59_area`, `C59_footprints`, `C59_footprint_refuted`, `C59_pattern`, `C59_pattern_refuted`, `C59_angled`, `C59_cmasi_point`, `C59_impact_point`, `C59_seconds_refuted`, `C59_loiter_must_fly`, `C59_not_requested_refuted`, `C59_watch`, `C59_number_refuted`, `C59_vehicles`, `C59_twice_refuted` |
| C60 The road search finds a way exactly if there is one, and a shortest one if the guess is exact enough | proved | `AStarModel` | `C60_shortest`, `C60_nearly_shortest`, `C60_ends`, `C60_found`, `C60_shortest_refuted` |
| C61 The road map has the junctions and sections of the file | proved | `AStarModel`, `OsmMapModel` | `C61_junctions`, `C61_missing_node`, `C61_builds`, `C61_sections`, `C61_mirror`, `C61_edges`, `C61_lengths`, `C61_connected`, `C61_length_refuted`, `C61_parallel_refuted`, `C61_same_id_refuted` |
| C62 The ground planner finds a way exactly if one can drive there, and nearly a shortest one | proved | `AStarModel`, `OsmMapModel` | `C62_way`, `C62_nearly_shortest_graph`, `C62_nearly_shortest`, `C62_found`, `C62_none`, `C62_shortest_refuted`, `C62_range_refuted` |
| C63 The ground planner takes a closest node | proved | `OsmMapModel`, `OsmNearModel` | `C63_square`, `C63_none`, `C63_found`, `C63_exact`, `C63_nearest_refuted` |
| C64 Route plans of the ground planner follow the roads | proved | `AStarModel`, `OsmMapModel`, `OsmNearModel`, `OsmPlanModel` | `C64_answered`, `C64_quiet`, `C64_plans`, `C64_comes`, `C64_cost_refuted` |
| C65 Roads leaving a circle | proved | `OsmEgressModel`, `OsmMapModel`, `OsmNearModel`, `OsmPlanModel` | `C65_places`, `C65_complete`, `C65_through_refuted` |
| C66 Lines along roads | proved | `AStarModel`, `OsmEgressModel`, `OsmMapModel`, `OsmNearModel`, `OsmPlanModel`, `OsmRoadModel` | `C66_answered`, `C66_short`, `C66_comes`, `C66_no_map`, `C66_next_refuted`, `C66_junction_refuted`, `C66_circle_refuted` |
| C67 A steered vehicle is flown along its mission in order | proved | `SteeringModel` | `C67_report`, `C67_nowhere`, `C67_silent`, `C67_order`, `C67_leg`, `C67_end`, `C67_override`, `C67_idle`, `C67_config`, `C67_default`, `C67_start`, `C67_region`, `C67_first_refuted`, `C67_loiter_refuted`, `C67_circuit_refuted` |
| C68 Commanded headings lead onto the leg or the loiter | proved | `SteeringCourseModel`, `SteeringModel` | `C68_range`, `C68_line`, `C68_line_reached`, `C68_orbit`, `C68_orbit_reached`, `C68_commands`, `C68_commands_orbit` |
| C69 Which zones count for a vehicle in an operating region | proved | `AirPlanModel`, `RegionModel` | `C69_environment`, `C69_made`, `C69_settled`, `C69_shape`, `C69_late_refuted`, `C69_moved_refuted`, `C69_grown_refuted`, `C69_derived_refuted`, `C69_padding_refuted`, `C69_other_refuted`, `C69_straight_refuted` |
| C70 Every route plan request for a known vehicle is answered | proved | `AirPlanModel`, `RegionModel` | `C70_answer`, `C70_silent`, `C70_only`, `C70_reads` |
| C71 Footprint requests are answered with the closest sensor settings | proved | `SensorModel` | `C71_answered`, `C71_only`, `C71_first`, `C71_within`, `C71_open_elevation_refuted`, `C71_limit_refuted`, `C71_changed_refuted` |
| C72 The edges of a footprint are those of the ground that is seen | proved | `FootprintModel` | `C72_center`, `C72_edges`, `C72_horizon_refuted` |
| C73 Positions in meters belong to positions in degrees | proved | `FlatEarthModel` | `C73_origin`, `C73_scale`, `C73_back`, `C73_back_deg`, `C73_degrees`, `C73_back_deg_refuted`, `C73_back_ft`, `C73_pole_refuted`, `C73_distance`, `C73_distance_refuted`, `C73_wgs84_refuted` |
| C74 A manoeuvre that extends a segment can be flown and has the length asked for | proved | `RouteExtModel` | `C74_extend`, `C74_laps`, `C74_negative_refuted`, `C74_points`, `C74_waypoints` |
| C75 Routes are extended on their longest segment and nowhere else changed | proved | `FlatEarthModel`, `RouteExtModel` | `C75_ends`, `C75_fails`, `C75_longest`, `C75_time`, `C75_chain`, `C75_numbers`, `C75_copies_refuted`, `C75_numbers_refuted` |
| C76 A rendezvous offers ways of meeting, all of them or 64 | proved | `AlgebraModel`, `FormulaModel`, `RendezvousModel` | `C76_meeting`, `C76_options`, `C76_everyone`, `C76_mismatch`, `C76_one_place_fails`, `C76_order_refuted`, `C76_too_few_refuted`, `C76_all_refuted`, `C76_search_refuted` |
| C77 A rendezvous is set for the latest arrival | proved | `RvTimeModel` | `C77_start`, `C77_when`, `C77_latest`, `C77_assumed_refuted`, `C77_again_refuted` |
| C78 Vehicles with time to lose get a longer route to a rendezvous | proved | `FlatEarthModel`, `RouteExtModel`, `RvRouteModel` | `C78_unknown`, `C78_undefined`, `C78_route`, `C78_late_refuted`, `C78_speed_refuted` |
| C79 The vehicles of a rendezvous are told speeds to arrive together | proved | `FlatEarthModel`, `RvRouteModel`, `RvSpeedModel` | `C79_commands`, `C79_speed`, `C79_undefined`, `C79_range`, `C79_last`, `C79_alone`, `C79_center_refuted`, `C79_defined_refuted` |
| C80 The simple plan manager sends the vehicle its mission | proved | `FlatEarthModel`, `RouteExtModel`, `SimplePlanModel` | `C80_response`, `C80_silent`, `C80_room`, `C80_behind`, `C80_stays_refuted` |
| C81 A blockade posts its vehicles in a line across the way of the one that is blocked | proved | `BlockadeModel`, `FlatEarthModel`, `RouteExtModel` | `C81_mission`, `C81_silent`, `C81_apart`, `C81_stays_refuted` |
| C82 An escort is placed the standoff ahead of the supported entity on the path it is taken to follow | proved | `EscortModel`, `FlatEarthModel`, `RouteExtModel` | `C82_place`, `C82_silent`, `C82_closest`, `C82_against_refuted`, `C82_at_rest_refuted`, `C82_on_line_refuted` |
| C83 An overwatch task expects its target where the last states lead it | proved | `FlatEarthModel`, `OverwatchModel`, `RouteExtModel` | `C83_place`, `C83_unknown`, `C83_level`, `C83_north_refuted` |
| C84 A radio relay is sent half way between the tower and the supported entity | proved | `FlatEarthModel`, `RelayModel` | `C84_report`, `C84_options`, `C84_silent`, `C84_tower_refuted`, `C84_date_line_refuted` |
| C85 Status reports say what was last heard of the vehicle, and only while it is recent | proved | `StatusReportModel`, `TimerModel` | `C85_report`, `C85_callbacks`, `C85_period`, `C85_authorized`, `C85_valid`, `C85_keeps`, `C85_fresh`, `C85_options`, `C85_authorized_refuted`, `C85_keeps_refuted`, `C85_restart_refuted`, `C85_safe` |
| C86 On a pattern search the sensor looks as far along the road as the vehicle is on its way | proved | `FlatEarthModel`, `SensorSteeringModel` | `C86_stare`, `C86_first`, `C86_unknown`, `C86_segments`, `C86_gap_refuted`, `C86_point_refuted`, `C86_twice_refuted` |
| C87 A sector pattern leaves no place within the extent far from a leg | proved | `FlatEarthModel`, `SectorModel` | `C87_ends`, `C87_legs`, `C87_joined`, `C87_covers`, `C87_endless_refuted`, `C87_nothing_refuted`, `C87_hole_refuted` |
| C88 A spiral pattern leaves no place within the extent unseen, outside of its innermost part | proved | `FlatEarthModel`, `SectorModel`, `SensorSteeringModel`, `SpiralModel`, `SteeringCourseModel` | `C88_ends`, `C88_route`, `C88_covers`, `C88_cost`, `C88_cost_refuted`, `C88_heading`, `C88_sensor`, `C88_invalid_refuted`, `C88_single_refuted`, `C88_stale_refuted` |
| C89 The lanes of an area search are laid over the whole area | proved | `FlatEarthModel`, `RasterModel`, `SectorModel`, `SteeringCourseModel` | `C89_ends`, `C89_joined`, `C89_lanes`, `C89_chord`, `C89_near`, `C89_first_refuted`, `C89_narrow_refuted`, `C89_strip_refuted`, `C89_rectangle`, `C89_rotation_refuted`, `C89_asked`, `C89_polygon`, `C89_circle` |
| C90 A callback timer calls the function of the thread that is at work, never early | proved | `CallbackModel` | `C90_rounds`, `C90_kill`, `C90_no_time_refuted`, `C90_kill_refuted`, `C90_left_behind_refuted`, `C90_restart_refuted`, `C90_period_refuted`, `C90_calls`, `C90_gap`, `C90_cancelled` |
| C91 The clock shows the UTC time it was set to and goes on with the system clock | proved | `ClockModel` | `C91_day_refuted`, `C91_far_refuted`, `C91_units_refuted`, `C91_discrete_refuted`, `C91_mode_refuted`, `C91_count_refuted`, `C91_calibrate`, `C91_calendar`, `C91_days`, `C91_taken`, `C91_time`, `C91_start`, `C91_duration`, `C91_discrete`, `C91_stands`, `C91_count`, `C91_goes_on`, `C91_units` |
| C92 A line search thins its line from end to end | proved | `LinePlanModel`, `SteeringCourseModel` | `C92_drift_refuted`, `C92_spur_refuted`, `C92_diagonal_refuted`, `C92_double_refuted`, `C92_places_refuted`, `C92_first_pass`, `C92_straight`, `C92_second_pass`, `C92_number`, `C92_most`, `C92_way` |
| C93 A line search flies beside its line as the look angles ask | proved | `LineImpactModel`, `LineOffsetModel`, `LinePlanModel`, `RouteExtModel` | `C93_impact_headings`, `C93_impact_length`, `C93_impact_two_refuted`, `C93_ends`, `C93_between`, `C93_straight`, `C93_side_refuted`, `C93_bend_refuted`, `C93_slope_refuted`, `C93_stares`, `C93_looks`, `C93_parallel_refuted`, `C93_reverse`, `C93_way`, `C93_way_back`, `C93_cost`, `C93_headings` |
| C94 A line search looks at the part of the line it has come to | proved | `LineOffsetModel`, `LinePlanModel`, `LineStareModel` | `C94_stare`, `C94_jump_refuted` |
| C95 An assignment is worked out once, when all is there, and is what the texts allow | proved | `AlgebraModel`, `AssignModel`, `AssignServiceModel`, `FormulaModel` | `C95_errors`, `C95_when`, `C95_once`, `C95_summary`, `C95_found`, `C95_uninvited_refuted`, `C95_left_out_refuted` |
| C96 Missions carry out a schedule that the task relationships allow | proved | `AggregatorModel`, `AlgebraModel`, `AssignModel`, `AssignServiceModel`, `BuilderModel`, `FormulaModel` | `C96_eligible`, `C96_plan`, `C96_open_option_refuted` |
| C97 The message log holds each message received once, in order, at any crash point | proved | `DbLogModel` | `C97_rows`, `C97_crash`, `C97_crash_at_start`, `C97_apostrophe_refuted`, `C97_forged_refuted`, `C97_no_text_refuted`, `C97_run_before_refuted` |
| C98 Every logger gets the records it asked for, and a database log keeps each of them | proved | `DbLogModel`, `LogManagerModel` | `C98_delivery`, `C98_nobody_else`, `C98_rows`, `C98_crash`, `C98_next_file_refuted`, `C98_readable`, `C98_entity_refuted`, `C98_ampersand_refuted` |
| C99 Each automation request is saved to a directory of its own, and a saved response means that all its inputs are saved | proved | `DiagramModel`, `FormulaModel` | `C99_saved`, `C99_others`, `C99_crash`, `C99_ten_thousand_refuted`, `C99_later_refuted` |
| C100 The way worked out between two places with headings can be flown, and no flight of the same kinds is shorter | proved | `DubinsModel`, `SteeringCourseModel` | `C100_flyable`, `C100_shortest_same`, `C100_shortest_other`, `C100_shortest_three`, `C100_turnabout_refuted` |
| C101 The waypoints of a planned route pass the corners of a shortest way around the zones, and with headings they can be flown | proved | `DubinsModel`, `SegModel`, `SteeringCourseModel`, `VisModel`, `WayPointsModel` | `C101_straight`, `C101_in_sight`, `C101_direct`, `C101_turns_direct`, `C101_turns`, `C101_unasked_refuted`, `C101_lost_refuted`, `C101_one_corner_refuted` |
| C102 What is enabled and set comes from the configuration loaded last | proved | `ConfigModel` | `C102_settings`, `C102_entity`, `C102_refused`, `C102_levels`, `C102_enabled`, `C102_default`, `C102_unloaded`, `C102_failed_refuted`, `C102_no_entity_refuted` |
| C103 Each bridge of the configuration is started once, is asked to end once and is let go only when it ended | proved | `BridgeMgrModel`, `ConfigModel`, `NetModel` | `C103_started`, `C103_once`, `C103_kept`, `C103_counts`, `C103_kill`, `C103_test_refuted`, `C103_test_hears`, `C103_tests` |
| C104 Undoing the escaping of a text for XML | proved | `DbLogModel`, `LogManagerModel`, `UnescapeModel` | `C104_ends`, `C104_back`, `C104_quotes`, `C104_amp_refuted`, `C104_own` |
| C105 The way of messages through a TCP bridge | proved | `MsgModel`, `SerialModel`, `TcpLinkModel` | `C105_clients`, `C105_sent`, `C105_quiet`, `C105_delivered`, `C105_whole`, `C105_cut_refuted`, `C105_peers_refuted`, `C105_ended_refuted` |
| C106 The way of messages through a serial bridge | proved | `MsgModel`, `SerialBridgeModel`, `SerialModel`, `TcpLinkModel` | `C106_delivered`, `C106_survives`, `C106_written`, `C106_line`, `C106_late_refuted` |
| C107 The command line and the start of the program | proved | `MainModel` | `C107_chosen`, `C107_refused`, `C107_status`, `C107_missing_refuted`, `C107_negative_refuted`, `C107_unread_refuted`, `C107_abandoned_refuted` |
| C108 The point of a road that belongs to a place on a plan | proved | `EscortModel`, `StareMapModel` | `C108_snap`, `C108_stare`, `C108_on_road`, `C108_begin`, `C108_stored_refuted`, `C108_empty_refuted` |
| C109 Messages through the message pipe over TCP | proved | `MsgModel`, `SerialModel`, `TcpLinkModel`, `TcpPipeModel` | `C109_delivered`, `C109_sent`, `C109_gone_refuted` |

Print Assumptions reports *Closed under the global context* for 547 theorems of this table (checked when this
file was generated).  The other 156 are about real numbers and use these axioms of the standard library:

* `C100_flyable`: `ClassicalDedekindReals.sig_forall_dec`, `ClassicalDedekindReals.sig_not_dec`, `Classical_Prop.classic`, `FunctionalExtensionality.functional_extensionality_dep`
* `C100_shortest_other`: `ClassicalDedekindReals.sig_forall_dec`, `ClassicalDedekindReals.sig_not_dec`, `Classical_Prop.classic`, `FunctionalExtensionality.functional_extensionality_dep`
* `C100_shortest_same`: `ClassicalDedekindReals.sig_forall_dec`, `ClassicalDedekindReals.sig_not_dec`, `Classical_Prop.classic`, `FunctionalExtensionality.functional_extensionality_dep`
* `C100_shortest_three`: `ClassicalDedekindReals.sig_forall_dec`, `ClassicalDedekindReals.sig_not_dec`, `Classical_Prop.classic`, `FunctionalExtensionality.functional_extensionality_dep`
* `C100_turnabout_refuted`: `ClassicalDedekindReals.sig_forall_dec`, `ClassicalDedekindReals.sig_not_dec`, `Classical_Prop.classic`, `FunctionalExtensionality.functional_extensionality_dep`
* `C101_direct`: `ClassicalDedekindReals.sig_forall_dec`, `ClassicalDedekindReals.sig_not_dec`, `Classical_Prop.classic`, `FunctionalExtensionality.functional_extensionality_dep`
* `C101_in_sight`: `ClassicalDedekindReals.sig_forall_dec`, `ClassicalDedekindReals.sig_not_dec`, `Classical_Prop.classic`, `FunctionalExtensionality.functional_extensionality_dep`
* `C101_lost_refuted`: `ClassicalDedekindReals.sig_forall_dec`, `ClassicalDedekindReals.sig_not_dec`, `Classical_Prop.classic`, `FunctionalExtensionality.functional_extensionality_dep`
* `C101_one_corner_refuted`: `ClassicalDedekindReals.sig_forall_dec`, `ClassicalDedekindReals.sig_not_dec`, `Classical_Prop.classic`, `FunctionalExtensionality.functional_extensionality_dep`
* `C101_straight`: `ClassicalDedekindReals.sig_forall_dec`, `ClassicalDedekindReals.sig_not_dec`, `Classical_Prop.classic`, `FunctionalExtensionality.functional_extensionality_dep`
* `C101_turns`: `ClassicalDedekindReals.sig_forall_dec`, `ClassicalDedekindReals.sig_not_dec`, `Classical_Prop.classic`, `FunctionalExtensionality.functional_extensionality_dep`
* `C101_turns_direct`: `ClassicalDedekindReals.sig_forall_dec`, `ClassicalDedekindReals.sig_not_dec`, `Classical_Prop.classic`, `FunctionalExtensionality.functional_extensionality_dep`
* `C101_unasked_refuted`: `ClassicalDedekindReals.sig_forall_dec`, `ClassicalDedekindReals.sig_not_dec`, `Classical_Prop.classic`, `FunctionalExtensionality.functional_extensionality_dep`
* `C108_begin`: `ClassicalDedekindReals.sig_forall_dec`, `ClassicalDedekindReals.sig_not_dec`, `FunctionalExtensionality.functional_extensionality_dep`
* `C108_empty_refuted`: `ClassicalDedekindReals.sig_forall_dec`, `ClassicalDedekindReals.sig_not_dec`, `FunctionalExtensionality.functional_extensionality_dep`
* `C108_on_road`: `ClassicalDedekindReals.sig_forall_dec`, `ClassicalDedekindReals.sig_not_dec`, `FunctionalExtensionality.functional_extensionality_dep`
* `C108_snap`: `ClassicalDedekindReals.sig_forall_dec`, `ClassicalDedekindReals.sig_not_dec`, `FunctionalExtensionality.functional_extensionality_dep`
* `C108_stare`: `ClassicalDedekindReals.sig_forall_dec`, `ClassicalDedekindReals.sig_not_dec`, `FunctionalExtensionality.functional_extensionality_dep`
* `C108_stored_refuted`: `ClassicalDedekindReals.sig_forall_dec`, `ClassicalDedekindReals.sig_not_dec`, `FunctionalExtensionality.functional_extensionality_dep`
* `C68_commands`: `ClassicalDedekindReals.sig_forall_dec`, `ClassicalDedekindReals.sig_not_dec`, `Classical_Prop.classic`, `FunctionalExtensionality.functional_extensionality_dep`
* `C68_commands_orbit`: `ClassicalDedekindReals.sig_forall_dec`, `ClassicalDedekindReals.sig_not_dec`, `Classical_Prop.classic`, `FunctionalExtensionality.functional_extensionality_dep`
* `C68_line`: `ClassicalDedekindReals.sig_forall_dec`, `ClassicalDedekindReals.sig_not_dec`, `Classical_Prop.classic`, `FunctionalExtensionality.functional_extensionality_dep`
* `C68_line_reached`: `ClassicalDedekindReals.sig_forall_dec`, `ClassicalDedekindReals.sig_not_dec`, `Classical_Prop.classic`, `FunctionalExtensionality.functional_extensionality_dep`
* `C68_orbit`: `ClassicalDedekindReals.sig_forall_dec`, `ClassicalDedekindReals.sig_not_dec`, `Classical_Prop.classic`, `FunctionalExtensionality.functional_extensionality_dep`
* `C68_orbit_reached`: `ClassicalDedekindReals.sig_forall_dec`, `ClassicalDedekindReals.sig_not_dec`, `Classical_Prop.classic`, `FunctionalExtensionality.functional_extensionality_dep`
* `C68_range`: `ClassicalDedekindReals.sig_forall_dec`, `FunctionalExtensionality.functional_extensionality_dep`
* `C72_center`: `ClassicalDedekindReals.sig_forall_dec`, `ClassicalDedekindReals.sig_not_dec`, `FunctionalExtensionality.functional_extensionality_dep`
* `C72_edges`: `ClassicalDedekindReals.sig_forall_dec`, `ClassicalDedekindReals.sig_not_dec`, `Classical_Prop.classic`, `FunctionalExtensionality.functional_extensionality_dep`
* `C72_horizon_refuted`: `ClassicalDedekindReals.sig_forall_dec`, `ClassicalDedekindReals.sig_not_dec`, `Classical_Prop.classic`, `FunctionalExtensionality.functional_extensionality_dep`
* `C73_back`: `ClassicalDedekindReals.sig_forall_dec`, `ClassicalDedekindReals.sig_not_dec`, `FunctionalExtensionality.functional_extensionality_dep`
* `C73_back_deg`: `ClassicalDedekindReals.sig_forall_dec`, `ClassicalDedekindReals.sig_not_dec`, `FunctionalExtensionality.functional_extensionality_dep`
* `C73_back_deg_refuted`: `ClassicalDedekindReals.sig_forall_dec`, `ClassicalDedekindReals.sig_not_dec`, `FunctionalExtensionality.functional_extensionality_dep`
* `C73_back_ft`: `ClassicalDedekindReals.sig_forall_dec`, `ClassicalDedekindReals.sig_not_dec`, `FunctionalExtensionality.functional_extensionality_dep`
* `C73_degrees`: `ClassicalDedekindReals.sig_forall_dec`, `ClassicalDedekindReals.sig_not_dec`, `Classical_Prop.classic`, `FunctionalExtensionality.functional_extensionality_dep`
* `C73_distance`: `ClassicalDedekindReals.sig_forall_dec`, `ClassicalDedekindReals.sig_not_dec`, `FunctionalExtensionality.functional_extensionality_dep`
* `C73_distance_refuted`: `ClassicalDedekindReals.sig_forall_dec`, `ClassicalDedekindReals.sig_not_dec`, `FunctionalExtensionality.functional_extensionality_dep`
* `C73_origin`: `ClassicalDedekindReals.sig_forall_dec`, `ClassicalDedekindReals.sig_not_dec`, `FunctionalExtensionality.functional_extensionality_dep`
* `C73_pole_refuted`: `ClassicalDedekindReals.sig_forall_dec`, `ClassicalDedekindReals.sig_not_dec`, `FunctionalExtensionality.functional_extensionality_dep`
* `C73_scale`: `ClassicalDedekindReals.sig_forall_dec`, `ClassicalDedekindReals.sig_not_dec`, `FunctionalExtensionality.functional_extensionality_dep`
* `C73_wgs84_refuted`: `ClassicalDedekindReals.sig_forall_dec`, `ClassicalDedekindReals.sig_not_dec`, `FunctionalExtensionality.functional_extensionality_dep`
* `C74_extend`: `ClassicalDedekindReals.sig_forall_dec`, `ClassicalDedekindReals.sig_not_dec`, `Classical_Prop.classic`, `FunctionalExtensionality.functional_extensionality_dep`
* `C74_laps`: `ClassicalDedekindReals.sig_forall_dec`, `ClassicalDedekindReals.sig_not_dec`, `Classical_Prop.classic`, `FunctionalExtensionality.functional_extensionality_dep`
* `C74_negative_refuted`: `ClassicalDedekindReals.sig_forall_dec`, `ClassicalDedekindReals.sig_not_dec`, `Classical_Prop.classic`, `FunctionalExtensionality.functional_extensionality_dep`
* `C74_points`: `ClassicalDedekindReals.sig_forall_dec`, `ClassicalDedekindReals.sig_not_dec`, `FunctionalExtensionality.functional_extensionality_dep`
* `C74_waypoints`: `ClassicalDedekindReals.sig_forall_dec`, `ClassicalDedekindReals.sig_not_dec`, `FunctionalExtensionality.functional_extensionality_dep`
* `C75_chain`: `ClassicalDedekindReals.sig_forall_dec`, `ClassicalDedekindReals.sig_not_dec`, `Classical_Prop.classic`, `FunctionalExtensionality.functional_extensionality_dep`
* `C75_copies_refuted`: `ClassicalDedekindReals.sig_forall_dec`, `ClassicalDedekindReals.sig_not_dec`, `Classical_Prop.classic`, `FunctionalExtensionality.functional_extensionality_dep`
* `C75_ends`: `ClassicalDedekindReals.sig_forall_dec`, `ClassicalDedekindReals.sig_not_dec`, `Classical_Prop.classic`, `FunctionalExtensionality.functional_extensionality_dep`
* `C75_fails`: `ClassicalDedekindReals.sig_forall_dec`, `ClassicalDedekindReals.sig_not_dec`, `Classical_Prop.classic`, `FunctionalExtensionality.functional_extensionality_dep`
* `C75_longest`: `ClassicalDedekindReals.sig_forall_dec`, `ClassicalDedekindReals.sig_not_dec`, `Classical_Prop.classic`, `FunctionalExtensionality.functional_extensionality_dep`
* `C75_numbers`: `ClassicalDedekindReals.sig_forall_dec`, `ClassicalDedekindReals.sig_not_dec`, `Classical_Prop.classic`, `FunctionalExtensionality.functional_extensionality_dep`
* `C75_numbers_refuted`: `ClassicalDedekindReals.sig_forall_dec`, `ClassicalDedekindReals.sig_not_dec`, `Classical_Prop.classic`, `FunctionalExtensionality.functional_extensionality_dep`
* `C75_time`: `ClassicalDedekindReals.sig_forall_dec`, `ClassicalDedekindReals.sig_not_dec`, `Classical_Prop.classic`, `FunctionalExtensionality.functional_extensionality_dep`
* `C78_late_refuted`: `ClassicalDedekindReals.sig_forall_dec`, `ClassicalDedekindReals.sig_not_dec`, `Classical_Prop.classic`, `FunctionalExtensionality.functional_extensionality_dep`
* `C78_route`: `ClassicalDedekindReals.sig_forall_dec`, `ClassicalDedekindReals.sig_not_dec`, `Classical_Prop.classic`, `FunctionalExtensionality.functional_extensionality_dep`
* `C78_speed_refuted`: `ClassicalDedekindReals.sig_forall_dec`, `ClassicalDedekindReals.sig_not_dec`, `Classical_Prop.classic`, `FunctionalExtensionality.functional_extensionality_dep`
* `C78_undefined`: `ClassicalDedekindReals.sig_forall_dec`, `ClassicalDedekindReals.sig_not_dec`, `Classical_Prop.classic`, `FunctionalExtensionality.functional_extensionality_dep`
* `C78_unknown`: `ClassicalDedekindReals.sig_forall_dec`, `ClassicalDedekindReals.sig_not_dec`, `Classical_Prop.classic`, `FunctionalExtensionality.functional_extensionality_dep`
* `C79_alone`: `ClassicalDedekindReals.sig_forall_dec`, `ClassicalDedekindReals.sig_not_dec`, `FunctionalExtensionality.functional_extensionality_dep`
* `C79_center_refuted`: `ClassicalDedekindReals.sig_forall_dec`, `ClassicalDedekindReals.sig_not_dec`, `FunctionalExtensionality.functional_extensionality_dep`
* `C79_commands`: `ClassicalDedekindReals.sig_forall_dec`, `ClassicalDedekindReals.sig_not_dec`, `FunctionalExtensionality.functional_extensionality_dep`
* `C79_defined_refuted`: `ClassicalDedekindReals.sig_forall_dec`, `ClassicalDedekindReals.sig_not_dec`, `FunctionalExtensionality.functional_extensionality_dep`
* `C79_last`: `ClassicalDedekindReals.sig_forall_dec`, `ClassicalDedekindReals.sig_not_dec`, `FunctionalExtensionality.functional_extensionality_dep`
* `C79_range`: `ClassicalDedekindReals.sig_forall_dec`, `ClassicalDedekindReals.sig_not_dec`, `FunctionalExtensionality.functional_extensionality_dep`
* `C79_speed`: `ClassicalDedekindReals.sig_forall_dec`, `ClassicalDedekindReals.sig_not_dec`, `FunctionalExtensionality.functional_extensionality_dep`
* `C79_undefined`: `ClassicalDedekindReals.sig_forall_dec`, `ClassicalDedekindReals.sig_not_dec`, `FunctionalExtensionality.functional_extensionality_dep`
* `C80_behind`: `ClassicalDedekindReals.sig_forall_dec`, `ClassicalDedekindReals.sig_not_dec`, `FunctionalExtensionality.functional_extensionality_dep`
* `C80_response`: `ClassicalDedekindReals.sig_forall_dec`, `ClassicalDedekindReals.sig_not_dec`, `Classical_Prop.classic`, `FunctionalExtensionality.functional_extensionality_dep`
* `C80_room`: `ClassicalDedekindReals.sig_forall_dec`, `ClassicalDedekindReals.sig_not_dec`, `Classical_Prop.classic`, `FunctionalExtensionality.functional_extensionality_dep`
* `C80_silent`: `ClassicalDedekindReals.sig_forall_dec`, `ClassicalDedekindReals.sig_not_dec`, `Classical_Prop.classic`, `FunctionalExtensionality.functional_extensionality_dep`
* `C80_stays_refuted`: `ClassicalDedekindReals.sig_forall_dec`, `ClassicalDedekindReals.sig_not_dec`, `Classical_Prop.classic`, `FunctionalExtensionality.functional_extensionality_dep`
* `C81_apart`: `ClassicalDedekindReals.sig_forall_dec`, `ClassicalDedekindReals.sig_not_dec`, `Classical_Prop.classic`, `FunctionalExtensionality.functional_extensionality_dep`
* `C81_mission`: `ClassicalDedekindReals.sig_forall_dec`, `ClassicalDedekindReals.sig_not_dec`, `Classical_Prop.classic`, `FunctionalExtensionality.functional_extensionality_dep`
* `C81_silent`: `ClassicalDedekindReals.sig_forall_dec`, `ClassicalDedekindReals.sig_not_dec`, `Classical_Prop.classic`, `FunctionalExtensionality.functional_extensionality_dep`
* `C81_stays_refuted`: `ClassicalDedekindReals.sig_forall_dec`, `ClassicalDedekindReals.sig_not_dec`, `Classical_Prop.classic`, `FunctionalExtensionality.functional_extensionality_dep`
* `C82_against_refuted`: `ClassicalDedekindReals.sig_forall_dec`, `ClassicalDedekindReals.sig_not_dec`, `Classical_Prop.classic`, `FunctionalExtensionality.functional_extensionality_dep`
* `C82_at_rest_refuted`: `ClassicalDedekindReals.sig_forall_dec`, `ClassicalDedekindReals.sig_not_dec`, `Classical_Prop.classic`, `FunctionalExtensionality.functional_extensionality_dep`
* `C82_closest`: `ClassicalDedekindReals.sig_forall_dec`, `ClassicalDedekindReals.sig_not_dec`, `FunctionalExtensionality.functional_extensionality_dep`
* `C82_on_line_refuted`: `ClassicalDedekindReals.sig_forall_dec`, `ClassicalDedekindReals.sig_not_dec`, `Classical_Prop.classic`, `FunctionalExtensionality.functional_extensionality_dep`
* `C82_place`: `ClassicalDedekindReals.sig_forall_dec`, `ClassicalDedekindReals.sig_not_dec`, `Classical_Prop.classic`, `FunctionalExtensionality.functional_extensionality_dep`
* `C82_silent`: `ClassicalDedekindReals.sig_forall_dec`, `ClassicalDedekindReals.sig_not_dec`, `Classical_Prop.classic`, `FunctionalExtensionality.functional_extensionality_dep`
* `C83_level`: `ClassicalDedekindReals.sig_forall_dec`, `ClassicalDedekindReals.sig_not_dec`, `Classical_Prop.classic`, `FunctionalExtensionality.functional_extensionality_dep`
* `C83_north_refuted`: `ClassicalDedekindReals.sig_forall_dec`, `ClassicalDedekindReals.sig_not_dec`, `Classical_Prop.classic`, `FunctionalExtensionality.functional_extensionality_dep`
* `C83_place`: `ClassicalDedekindReals.sig_forall_dec`, `ClassicalDedekindReals.sig_not_dec`, `Classical_Prop.classic`, `FunctionalExtensionality.functional_extensionality_dep`
* `C83_unknown`: `ClassicalDedekindReals.sig_forall_dec`, `ClassicalDedekindReals.sig_not_dec`, `Classical_Prop.classic`, `FunctionalExtensionality.functional_extensionality_dep`
* `C84_date_line_refuted`: `ClassicalDedekindReals.sig_forall_dec`, `ClassicalDedekindReals.sig_not_dec`, `FunctionalExtensionality.functional_extensionality_dep`
* `C84_options`: `ClassicalDedekindReals.sig_forall_dec`, `ClassicalDedekindReals.sig_not_dec`, `FunctionalExtensionality.functional_extensionality_dep`
* `C84_report`: `ClassicalDedekindReals.sig_forall_dec`, `ClassicalDedekindReals.sig_not_dec`, `FunctionalExtensionality.functional_extensionality_dep`
* `C84_silent`: `ClassicalDedekindReals.sig_forall_dec`, `ClassicalDedekindReals.sig_not_dec`, `FunctionalExtensionality.functional_extensionality_dep`
* `C84_tower_refuted`: `ClassicalDedekindReals.sig_forall_dec`, `ClassicalDedekindReals.sig_not_dec`, `FunctionalExtensionality.functional_extensionality_dep`
* `C86_first`: `ClassicalDedekindReals.sig_forall_dec`, `ClassicalDedekindReals.sig_not_dec`, `FunctionalExtensionality.functional_extensionality_dep`
* `C86_gap_refuted`: `ClassicalDedekindReals.sig_forall_dec`, `ClassicalDedekindReals.sig_not_dec`, `FunctionalExtensionality.functional_extensionality_dep`
* `C86_point_refuted`: `ClassicalDedekindReals.sig_forall_dec`, `ClassicalDedekindReals.sig_not_dec`, `FunctionalExtensionality.functional_extensionality_dep`
* `C86_segments`: `ClassicalDedekindReals.sig_forall_dec`, `ClassicalDedekindReals.sig_not_dec`, `FunctionalExtensionality.functional_extensionality_dep`
* `C86_stare`: `ClassicalDedekindReals.sig_forall_dec`, `ClassicalDedekindReals.sig_not_dec`, `FunctionalExtensionality.functional_extensionality_dep`
* `C86_twice_refuted`: `ClassicalDedekindReals.sig_forall_dec`, `ClassicalDedekindReals.sig_not_dec`, `FunctionalExtensionality.functional_extensionality_dep`
* `C86_unknown`: `ClassicalDedekindReals.sig_forall_dec`, `ClassicalDedekindReals.sig_not_dec`, `FunctionalExtensionality.functional_extensionality_dep`
* `C87_covers`: `ClassicalDedekindReals.sig_forall_dec`, `ClassicalDedekindReals.sig_not_dec`, `Classical_Prop.classic`, `FunctionalExtensionality.functional_extensionality_dep`
* `C87_endless_refuted`: `ClassicalDedekindReals.sig_forall_dec`, `ClassicalDedekindReals.sig_not_dec`, `Classical_Prop.classic`, `FunctionalExtensionality.functional_extensionality_dep`
* `C87_ends`: `ClassicalDedekindReals.sig_forall_dec`, `ClassicalDedekindReals.sig_not_dec`, `Classical_Prop.classic`, `FunctionalExtensionality.functional_extensionality_dep`
* `C87_hole_refuted`: `ClassicalDedekindReals.sig_forall_dec`, `ClassicalDedekindReals.sig_not_dec`, `Classical_Prop.classic`, `FunctionalExtensionality.functional_extensionality_dep`
* `C87_joined`: `ClassicalDedekindReals.sig_forall_dec`, `ClassicalDedekindReals.sig_not_dec`, `Classical_Prop.classic`, `FunctionalExtensionality.functional_extensionality_dep`
* `C87_legs`: `ClassicalDedekindReals.sig_forall_dec`, `ClassicalDedekindReals.sig_not_dec`, `Classical_Prop.classic`, `FunctionalExtensionality.functional_extensionality_dep`
* `C87_nothing_refuted`: `ClassicalDedekindReals.sig_forall_dec`, `ClassicalDedekindReals.sig_not_dec`, `Classical_Prop.classic`, `FunctionalExtensionality.functional_extensionality_dep`
* `C88_cost`: `ClassicalDedekindReals.sig_forall_dec`, `ClassicalDedekindReals.sig_not_dec`, `Classical_Prop.classic`, `FunctionalExtensionality.functional_extensionality_dep`
* `C88_cost_refuted`: `ClassicalDedekindReals.sig_forall_dec`, `ClassicalDedekindReals.sig_not_dec`, `Classical_Prop.classic`, `FunctionalExtensionality.functional_extensionality_dep`
* `C88_covers`: `ClassicalDedekindReals.sig_forall_dec`, `ClassicalDedekindReals.sig_not_dec`, `Classical_Prop.classic`, `FunctionalExtensionality.functional_extensionality_dep`
* `C88_ends`: `ClassicalDedekindReals.sig_forall_dec`, `ClassicalDedekindReals.sig_not_dec`, `Classical_Prop.classic`, `FunctionalExtensionality.functional_extensionality_dep`
* `C88_heading`: `ClassicalDedekindReals.sig_forall_dec`, `ClassicalDedekindReals.sig_not_dec`, `Classical_Prop.classic`, `FunctionalExtensionality.functional_extensionality_dep`
* `C88_invalid_refuted`: `ClassicalDedekindReals.sig_forall_dec`, `ClassicalDedekindReals.sig_not_dec`, `Classical_Prop.classic`, `FunctionalExtensionality.functional_extensionality_dep`
* `C88_route`: `ClassicalDedekindReals.sig_forall_dec`, `ClassicalDedekindReals.sig_not_dec`, `Classical_Prop.classic`, `FunctionalExtensionality.functional_extensionality_dep`
* `C88_sensor`: `ClassicalDedekindReals.sig_forall_dec`, `ClassicalDedekindReals.sig_not_dec`, `Classical_Prop.classic`, `FunctionalExtensionality.functional_extensionality_dep`
* `C88_single_refuted`: `ClassicalDedekindReals.sig_forall_dec`, `ClassicalDedekindReals.sig_not_dec`, `Classical_Prop.classic`, `FunctionalExtensionality.functional_extensionality_dep`
* `C89_asked`: `ClassicalDedekindReals.sig_forall_dec`, `ClassicalDedekindReals.sig_not_dec`, `FunctionalExtensionality.functional_extensionality_dep`
* `C89_chord`: `ClassicalDedekindReals.sig_forall_dec`, `ClassicalDedekindReals.sig_not_dec`, `FunctionalExtensionality.functional_extensionality_dep`
* `C89_circle`: `ClassicalDedekindReals.sig_forall_dec`, `ClassicalDedekindReals.sig_not_dec`, `FunctionalExtensionality.functional_extensionality_dep`
* `C89_ends`: `ClassicalDedekindReals.sig_forall_dec`, `ClassicalDedekindReals.sig_not_dec`, `FunctionalExtensionality.functional_extensionality_dep`
* `C89_first_refuted`: `ClassicalDedekindReals.sig_forall_dec`, `ClassicalDedekindReals.sig_not_dec`, `FunctionalExtensionality.functional_extensionality_dep`
* `C89_joined`: `ClassicalDedekindReals.sig_forall_dec`, `ClassicalDedekindReals.sig_not_dec`, `FunctionalExtensionality.functional_extensionality_dep`
* `C89_lanes`: `ClassicalDedekindReals.sig_forall_dec`, `ClassicalDedekindReals.sig_not_dec`, `FunctionalExtensionality.functional_extensionality_dep`
* `C89_narrow_refuted`: `ClassicalDedekindReals.sig_forall_dec`, `ClassicalDedekindReals.sig_not_dec`, `FunctionalExtensionality.functional_extensionality_dep`
* `C89_near`: `ClassicalDedekindReals.sig_forall_dec`, `ClassicalDedekindReals.sig_not_dec`, `FunctionalExtensionality.functional_extensionality_dep`
* `C89_polygon`: `ClassicalDedekindReals.sig_forall_dec`, `ClassicalDedekindReals.sig_not_dec`, `FunctionalExtensionality.functional_extensionality_dep`
* `C89_rectangle`: `ClassicalDedekindReals.sig_forall_dec`, `ClassicalDedekindReals.sig_not_dec`, `FunctionalExtensionality.functional_extensionality_dep`
* `C89_rotation_refuted`: `ClassicalDedekindReals.sig_forall_dec`, `ClassicalDedekindReals.sig_not_dec`, `FunctionalExtensionality.functional_extensionality_dep`
* `C89_strip_refuted`: `ClassicalDedekindReals.sig_forall_dec`, `ClassicalDedekindReals.sig_not_dec`, `FunctionalExtensionality.functional_extensionality_dep`
* `C92_diagonal_refuted`: `ClassicalDedekindReals.sig_forall_dec`, `ClassicalDedekindReals.sig_not_dec`, `Classical_Prop.classic`, `FunctionalExtensionality.functional_extensionality_dep`
* `C92_double_refuted`: `ClassicalDedekindReals.sig_forall_dec`, `ClassicalDedekindReals.sig_not_dec`, `Classical_Prop.classic`, `FunctionalExtensionality.functional_extensionality_dep`
* `C92_drift_refuted`: `ClassicalDedekindReals.sig_forall_dec`, `ClassicalDedekindReals.sig_not_dec`, `Classical_Prop.classic`, `FunctionalExtensionality.functional_extensionality_dep`
* `C92_first_pass`: `ClassicalDedekindReals.sig_forall_dec`, `ClassicalDedekindReals.sig_not_dec`, `Classical_Prop.classic`, `FunctionalExtensionality.functional_extensionality_dep`
* `C92_most`: `ClassicalDedekindReals.sig_forall_dec`, `ClassicalDedekindReals.sig_not_dec`, `FunctionalExtensionality.functional_extensionality_dep`
* `C92_number`: `ClassicalDedekindReals.sig_forall_dec`, `ClassicalDedekindReals.sig_not_dec`, `Classical_Prop.classic`, `FunctionalExtensionality.functional_extensionality_dep`
* `C92_places_refuted`: `ClassicalDedekindReals.sig_forall_dec`, `ClassicalDedekindReals.sig_not_dec`, `FunctionalExtensionality.functional_extensionality_dep`
* `C92_second_pass`: `ClassicalDedekindReals.sig_forall_dec`, `ClassicalDedekindReals.sig_not_dec`, `Classical_Prop.classic`, `FunctionalExtensionality.functional_extensionality_dep`
* `C92_spur_refuted`: `ClassicalDedekindReals.sig_forall_dec`, `ClassicalDedekindReals.sig_not_dec`, `Classical_Prop.classic`, `FunctionalExtensionality.functional_extensionality_dep`
* `C92_straight`: `ClassicalDedekindReals.sig_forall_dec`, `ClassicalDedekindReals.sig_not_dec`, `Classical_Prop.classic`, `FunctionalExtensionality.functional_extensionality_dep`
* `C92_way`: `ClassicalDedekindReals.sig_forall_dec`, `ClassicalDedekindReals.sig_not_dec`, `Classical_Prop.classic`, `FunctionalExtensionality.functional_extensionality_dep`
* `C93_bend_refuted`: `ClassicalDedekindReals.sig_forall_dec`, `ClassicalDedekindReals.sig_not_dec`, `Classical_Prop.classic`, `FunctionalExtensionality.functional_extensionality_dep`
* `C93_between`: `ClassicalDedekindReals.sig_forall_dec`, `ClassicalDedekindReals.sig_not_dec`, `Classical_Prop.classic`, `FunctionalExtensionality.functional_extensionality_dep`
* `C93_cost`: `ClassicalDedekindReals.sig_forall_dec`, `ClassicalDedekindReals.sig_not_dec`, `FunctionalExtensionality.functional_extensionality_dep`
* `C93_ends`: `ClassicalDedekindReals.sig_forall_dec`, `ClassicalDedekindReals.sig_not_dec`, `Classical_Prop.classic`, `FunctionalExtensionality.functional_extensionality_dep`
* `C93_headings`: `ClassicalDedekindReals.sig_forall_dec`, `ClassicalDedekindReals.sig_not_dec`, `Classical_Prop.classic`, `FunctionalExtensionality.functional_extensionality_dep`
* `C93_impact_headings`: `ClassicalDedekindReals.sig_forall_dec`, `ClassicalDedekindReals.sig_not_dec`, `Classical_Prop.classic`, `FunctionalExtensionality.functional_extensionality_dep`
* `C93_impact_length`: `ClassicalDedekindReals.sig_forall_dec`, `ClassicalDedekindReals.sig_not_dec`, `Classical_Prop.classic`, `FunctionalExtensionality.functional_extensionality_dep`
* `C93_impact_two_refuted`: `ClassicalDedekindReals.sig_forall_dec`, `ClassicalDedekindReals.sig_not_dec`, `Classical_Prop.classic`, `FunctionalExtensionality.functional_extensionality_dep`
* `C93_looks`: `ClassicalDedekindReals.sig_forall_dec`, `ClassicalDedekindReals.sig_not_dec`, `FunctionalExtensionality.functional_extensionality_dep`
* `C93_parallel_refuted`: `ClassicalDedekindReals.sig_forall_dec`, `ClassicalDedekindReals.sig_not_dec`, `FunctionalExtensionality.functional_extensionality_dep`
* `C93_reverse`: `ClassicalDedekindReals.sig_forall_dec`, `ClassicalDedekindReals.sig_not_dec`, `Classical_Prop.classic`, `FunctionalExtensionality.functional_extensionality_dep`
* `C93_side_refuted`: `ClassicalDedekindReals.sig_forall_dec`, `ClassicalDedekindReals.sig_not_dec`, `Classical_Prop.classic`, `FunctionalExtensionality.functional_extensionality_dep`
* `C93_slope_refuted`: `ClassicalDedekindReals.sig_forall_dec`, `ClassicalDedekindReals.sig_not_dec`, `Classical_Prop.classic`, `FunctionalExtensionality.functional_extensionality_dep`
* `C93_stares`: `ClassicalDedekindReals.sig_forall_dec`, `ClassicalDedekindReals.sig_not_dec`, `FunctionalExtensionality.functional_extensionality_dep`
* `C93_straight`: `ClassicalDedekindReals.sig_forall_dec`, `ClassicalDedekindReals.sig_not_dec`, `Classical_Prop.classic`, `FunctionalExtensionality.functional_extensionality_dep`
* `C93_way`: `ClassicalDedekindReals.sig_forall_dec`, `ClassicalDedekindReals.sig_not_dec`, `Classical_Prop.classic`, `FunctionalExtensionality.functional_extensionality_dep`
* `C93_way_back`: `ClassicalDedekindReals.sig_forall_dec`, `ClassicalDedekindReals.sig_not_dec`, `Classical_Prop.classic`, `FunctionalExtensionality.functional_extensionality_dep`
* `C94_jump_refuted`: `ClassicalDedekindReals.sig_forall_dec`, `ClassicalDedekindReals.sig_not_dec`, `FunctionalExtensionality.functional_extensionality_dep`
* `C94_stare`: `ClassicalDedekindReals.sig_forall_dec`, `ClassicalDedekindReals.sig_not_dec`, `FunctionalExtensionality.functional_extensionality_dep`


## Plan and method per property

| Property | What is modelled | How it is proved |
|---|---|---|
| C01-C04, C43 | the three message classes with their setters, parsers and updates | case analysis on first delimiter position; induction over operations |
| C05, C06 | `split`, `ReplaceAll` | induction on the string |
| C07-C09 | `SentinelSerialBuffer` including `find`/`rfind`, checksum mod 2^32, decimal fields | invariants on the buffered text, induction over chunks |
| C10-C13 | subscription sets, prefix delivery, self filter, address strings, id counter | induction over histories; refutations by computation |
| C14 | entities with bridges, source ids on messages | invariant over a transition system |
| C15, C16, C44, C45 | `actionNode`/`operatorNode::nextActions`, `searchNext`, the parser of relationships | trace semantics as a separate inductive definition; induction on expressions |
| C17-C19, C42 | branch and bound search with a multimap of children; id packing | induction on remaining actions (the fuel is shown sufficient); arithmetic |
| C20-C22, C46 | `AutomationRequestValidatorService` | invariant over all histories |
| C23, C24 | `RouteAggregatorService` | invariant over all histories |
| C25 | `PlanBuilderService` | invariant over all histories |
| C26, C27 | `WaypointPlanManagerService` | loop invariant of the cutting; invariant over all histories |
| C28, C29 | `TaskManagerService`, `ServiceManager` | invariant over all histories |
| C30, C31 | `TimerManager` | invariant over all histories and clocks |
| C32 | thread of `LmcpObjectNetworkClientBase` | invariant over all schedules; refutation over unbounded runs |
| C33, C34, C48, C49 | `TaskServiceBase` | invariant over all histories; induction on the routes |
| C35, C36 | `Permute.h` | induction; arithmetic with explicit width |
| C53-C55 | `Plans`: segment test and visibility graph over exact rationals | geometry by linear arithmetic; induction on walks |
| C60-C66 | `OsmPlannerService` over an integer metric | invariant of the search; induction over roads and ways |
| C67, C68 | `SteeringService`; its headings over real numbers | invariant over all histories; calculus |
| C37-C41, C47, C50-C52 and later (to C109) | the smaller services and tasks | invariant over all histories |

No property of the list was found impossible to express.  C20, C21 and C22 are partial because the
code does not satisfy them as stated; what holds is proved and the failures are refutations.

## What is modelled, and what each model leaves out

The opening comments of the models; the single definitions cite files and lines.

* `AStarModel`: Model of the search for a shortest way in a road network: boost::astar_search on an undirected adjacency list with
  vertices in a vector, as it is called and as its result is read by
  /repo/src/cpp/Services/OsmPlannerService.cpp:1511-1591, with the visitor of OsmPlannerService.h:351-372.

    The library is not part of the repository; it is modelled after its documentation and source: an updatable heap
  ordered by distance plus heuristic, vertices that are reached on a shorter way after they were left are put into
  the heap again.  boost::relax works in both directions of an undirected edge, boost::relax_target in one; which
  one astar_search calls depends on the version, and [both] stands for it.  Which of several best vertices is at the
  top of the heap is left open ([choose]).  Weights and distances are unbounded (int32_t in the code), vertices
  are numbers.  The loop needs a bound on the number of steps, [fuel]; that there is always one that suffices is
  proved.
* `AggregatorModel`: Model of src/cpp/Services/RouteAggregatorService.{h,cpp} with FastPlan off (the default).

    Locations with headings are opaque numbers ([pose]); costs are integers; operating
  regions, relationship texts and the waypoints of plans are left out or opaque.  The
  iteration order of the unordered containers is the parameter [ord]: the keys in the
  order of an association list are visited in the order [ord keys].
* `AirPlanModel`: Model of RoutePlannerService, /repo/src/cpp/Services/RoutePlannerService.cpp:86-641 and 709-890: zones, operating regions,
  vehicles, the polygons in which routes are planned, and requests for route plans.

    Parameters: the outline made of a boundary ([outline], LinearizeBoundary and the removal of redundant points, [None]
  if it is not a simple polygon), the merging and shifting of polygons ([merge]), the removal of redundant points
  ([trim]), the checks on polygons other than their direction ([fits]), whether a point is in the polygons
  ([inside]), the way found between two points ([way]), its length ([len]) and the comparison of zones by the
  generated code ([same]).  Points are whole millimetres north and east; the conversion from latitude and longitude
  is left out.  Altitude type and turn type are left out.  The order in which vehicles and regions are visited
  does not matter: each pair of a region and a vehicle has an entry of its own.  Release build: region 0 is added
  for surface vehicles (334-341).
* `AlgebraModel`: Model of src/cpp/Utilities/Algebra.cpp: the parse tree of task relationships and the
  computation of the next executable actions.
* `AssignModel`: Model of src/cpp/Services/AssignmentTreeBranchBoundBase.{h,cpp}: the tables built from
  the messages and the branch and bound search.  All times are unbounded integers; 64 bit
  overflow is not modelled.
* `AssignServiceModel`: Model of the message handling of
  src/cpp/Services/AssignmentTreeBranchBoundBase.{h,cpp} without AFRL_INTERNAL_ENABLED: what
  is kept for each automation request, when an assignment is worked out, and what is sent.
  The search itself is [AssignModel], the reading of the texts [FormulaModel].

    The iteration order of the unordered maps is given by parameters.  Left out: the texts of
  error messages (a calculation that fails sends at least one; here it is one [OutError]),
  the status message "AssignmentComplete", the assignment type of the PISR project, and what
  subclasses do with further messages.
* `BatchModel`: Model of src/cpp/Services/BatchSummaryService.cpp.

    Positions are numbers; the distance between two positions, the flight time between two waypoints and
  the test whether the circle of a loiter meets a keep-out zone are parameters.  Times and distances are
  integers: the rounding of floating point numbers is not modelled.  EnergyRemaining and BestEffort are
  left out, and so are m_workingRequests and m_pendingTaskAutomationRequests, which are only written.
* `BlockadeModel`: Model of what a blockade commands its vehicles, /repo/src/cpp/Tasks/BlockadeTaskService.cpp:98-122, 204-469
  (the blocked entity, activeEntityState, CalculateGimbalActions, CalculateCenterBlockingPosition), in real numbers, with the set of active
  vehicles of TaskServiceBase.cpp:256-291, 571-577.

    Whether a vehicle is on the task is part of its report.  States that are known when the task is configured are reports before all others.
  The converter of coordinates is the one for the whole program: that another service uses it is an event.  The constant 3.14159265359 of
  the code is taken as pi.  States have a location.  The options of the task are modelled elsewhere.
* `BridgeMgrModel`: Model of the bridges (Communications/LmcpObjectNetworkBridgeManager.cpp): starting those of the configuration (89-130), asking them to
  end (48-67), letting go of those that ended (69-88), bridges for tests (132-175), and of a bridge what is set by
  LmcpObjectNetworkClientBase.cpp (34-39, 49-75) and how it takes a message to end (380-395).

    Whether a bridge can be configured and started is decided by the bridge and the network, so it is a parameter that may depend on its
  number and its element.  Starting the bridges is one step: no other client is made meanwhile.  An end by other means than a message
  is possible at any time.  The elements are those of [ConfigModel]; subscriptions are as in [NetModel].
* `BridgeModel`: Model of the filters of the bridges between entities,
  src/cpp/Communications/LmcpObjectNetwork{SubscribePush,PublishPull,Serial,Tcp,ZeroMqZyre}Bridge.cpp
  and ImpactSubscribePushBridge.cpp.

    The transports are not modelled: a message that one bridge exports may be imported by any other.
  The subscriptions of a bridge are not modelled either: a bridge may export any message of the bus of
  its entity, any number of times.  Both allow more than the code does.  Ids are numbers and addresses
  are told apart without spelling them out (NetModel has the spelling).
* `BuilderModel`: Model of src/cpp/Services/PlanBuilderService.{h,cpp} with the default configuration (no
  loiter added, turn type not overridden).

    Positions with headings are opaque numbers ([pose]).  Left out: the override planning
  conditions of ImpactAutomationRequests (taken to be empty), camera actions, the contents
  of error texts, and [m_assignmentSummaries], which is written but never read.
* `CallbackModel`: Model of the callback timer (src/cpp/Utilities/CallbackTimer.cpp, CallbackTimer.h).

    A timer has a thread of its own that looks at the clock, at a command and at an argument, and calls
  a function when its time is over.  The functions of the timer, called from another thread, change
  the command and the argument.  Each access to the three shared variables is under a mutex and is
  one step here; steps of the two threads alternate in any order.  Each step has a time stamp.

    Simplifications: one thread calls the functions of the timer (the calls that the called back
  function makes are those that happen between [Calling] and the next step of the timer's thread,
  apart from waiting for the end of its own thread); clocks are whole nanoseconds; the function that
  is called back is a number; console output is left out.
* `ClientModel`: Model of the thread of a service or bridge,
  src/cpp/Communications/LmcpObjectNetworkClientBase.cpp:275-441.

    The subclass is arbitrary: every event carries what the subclass answers, should it be asked.
  Receiving a message is an event; waiting without one is not.  A payload that cannot be
  unpacked is not modelled; for a plain client it counts as no message (290-293).
* `ClockModel`: Model of the clock of UxAS (src/cpp/Utilities/UxAS_Time.cpp, UxAS_Time.h): real and discrete time,
  the one instance that is made anew when the mode has changed, calibration with a date in UTC.

    Every use of the clock goes through [getInstance], so that an access here is a call of [getInstance]
  and of one function of the result; references that are kept over a change of the mode dangle in the
  code and are left out.  What the system clock says, in nanoseconds since 1970, is an input of each
  access: once for the call and once for each unit in which the time of the start is kept.

    Simplifications: accesses are atomic; [timegm] and [gmtime] are the formula of POSIX for seconds
  since the epoch; int is not bounded for the arguments; logging and the setting of the clocks of the
  host (compiled for one kind of board only) are left out.  Signed overflow in the conversion of
  dates and in discrete time is the result [None].  In real time nothing overflows as long as the
  times themselves, in nanoseconds, are representable.
* `ConfigModel`: Model of the configuration (Utilities/UxAS_ConfigurationManager.cpp and .h): loading and unloading (94-171), the default of a service
  (172-198), the enabled bridges and services (200-260) and the values for the entity (262-404).

    A document is the list of its top nodes as pugixml gives them; text and comments are nodes with an empty name.  Whether a text can be
  parsed is decided by pugixml, so that a load is given the document or none.  How pugixml turns the value of an attribute into an
  unsigned number is a parameter; into a truth value it looks at the first character.  Left out: directories, the start time, and utility
  nodes (with AFRL_INTERNAL_ENABLED only).  Of the loggers only the level set last is kept; see [LogManagerModel].
* `CoordModel`: Model of src/cpp/Tasks/AssignmentCoordinatorTaskService.cpp.

    The base class (TaskServiceBase) and the timer are not modelled: a call of the timer is an event with
  the time it reads.  Headings and positions of a planning state are one number, and so is what an
  automation request holds besides its entities.
* `CordonModel`: Model of the task that posts vehicles at the exits of a place, /repo/src/cpp/Tasks/CordonTaskService.cpp:38-116,
  204-302, with the requests as TaskServiceBase.cpp:322-331, 502-538 and 556-593 keep them.

    The exits of the place are found by an external ground planner; they are numbered from 1 and only their number
  counts here.  Eligible vehicles come in groups of the same speed and altitude, in the order in which the map of
  groups is gone through.  Requests that resume an interrupted task (386-500) are left out, as are the places in
  the options.  Option numbers are unbounded.
* `DbLogModel`: The message log of MessageLoggerDataService (Services/MessageLoggerDataService.cpp) and the
  database log writer below it (Utilities/UxAS_DatabaseLoggerHelper.cpp,
  UxAS_DatabaseLogger.cpp, UxAS_FileLogger.cpp, UxAS_LoggerBase.h): a log file is opened, each
  row is put in by one SQL statement in a transaction of its own, and after a number of rows
  the next file is begun.  What is on the disk is the effect of a list of steps (a file removed,
  made, given its table, given rows), so a crash may be put between any two of them.

    SQLite is modelled as far as the statements of the log go: a statement is text; a text whose
  quotes do not close is refused; a list of tuples of quoted strings and NULL is stored if it
  fits the columns; what any other text does is left open (the parameter [other]).  Column
  affinity (a text of digits becomes a number in an INTEGER column) is left out, and so is the
  number SQLite gives each row: the id column is given as NULL, no row is ever removed, so the
  number of a row is its place.  The clock, and whether SQLite can open a file, make the table and write a row, are
  inputs.  A transaction is taken to be atomic.  Left out: console messages, closing that fails
  (a destructor does not throw), more than four thousand million files, the file name as text
  (it is the pair of the number of the file and the time put into its name).
* `DiagramModel`: AutomationDiagramDataService (Services/AutomationDiagramDataService.cpp) and the making of
  numbered directories (Utilities/FileSystemUtilities.cpp, bCreateUniqueDirectory): the
  inputs and the result of an automation request are saved to a directory of their own.

    Messages are represented by the ids that are looked at and by the text that [toXML] gives
  for them; the state written for a planning position (an EntityState made from it) is given
  with the planning state.  The clock reading that goes into the name of a directory is part
  of the message.  Making directories and writing files never fails except where a file has
  the place of the directory.  Only the directory of the service is represented: a list of
  the names in it, with the files of each subdirectory.  What is printed, the times that are
  only printed and the contents of the five scripts (parameters) are left out.
* `DubinsModel`: Model of how the way between two places with given headings is worked out for the route planner: Plans/Trajectory.cpp:1052-1644
  ([dCalculateTrajectoryDubins], [szMinimumDistanceCircle], [szMinimumDistanceTurnTurnTurn], [AddWaypointsForTurn]) with
  [CPosition] (Plans/Position.h), [CCircle] (Plans/Circle.h), [CAssignment::dGetDistanceTotal] (Plans/Assignment.h:180-197) and the angles
  of Includes/Constants/Convert.h.  The way is a list of waypoints, each with the length of the leg to it and the circle it is on.

    Coordinates are real numbers and [dPi] is pi.  Left out: rounding, altitudes, speeds and times of the legs, numbers of the waypoints and
  the marks that keep a waypoint from being removed.  The path types for wind and [dLengthenPath] are not used by the planner.
* `DynModel`: Model of the tasks that follow a moving target, /repo/src/cpp/Tasks/DynamicTaskServiceBase.cpp:71-331,
  333-391, 405-479: options offered, routes asked for vehicles on the task, and missions made of the routes.

    Parameters: positions ([P]), zones ([N]), the target the derived task computes for a vehicle (given with
  each report; [None] is the null pointer Escort and Overwatch return, EscortTaskService.cpp:157,
  OverwatchTaskService.cpp:136-148), distances, whether a zone contains a position or touches the circle
  around it, and where the position is moved then; the start of a route with its lead; the loiter radius
  of a speed.  Times are given with each report, for the three readings of the clock.  Which reports are those
  of a vehicle on the task is decided in TaskServiceBase (C33).  The derived tasks'
  changes of a mission (processMissionCommand) are left out.
* `EscortModel`: Model of where an escort goes, /repo/src/cpp/Tasks/EscortTaskService.cpp:111-524 (processRecievedLmcpMessageDynamicTask,
  calculateTargetLocation, CalculateTargetPoint, DistanceToLine, FlipLine), with the segments of
  /repo/src/cpp/DPSS/DpssDataTypes.cpp:62-149, in real numbers.

    That a location is asked for is an event; what is done with it is modelled elsewhere (DynModel).  A state of the supported entity that is
  known when the task is configured is one before all other events, as are known missions and lines.  The converter of coordinates is the
  one for the whole program: that another service uses it is an event.  The unqualified abs of line 182 is the one for doubles or the
  one for integers, depending on the headers of the compiler: both are covered.  Altitudes are left out.
* `FlatEarthModel`: Model of the conversions between latitude and longitude and local north and east coordinates,
  /repo/src/cpp/Utilities/FlatEarth.cpp (whole file) and /repo/src/cpp/Utilities/UnitConversions.cpp, which is the same code
  with one converter for the whole program, in real numbers.

    The assertions are taken as disabled, as in a release build: where they would stop the program the conversions go on with
  the values that are written there.  Rounding of doubles is left out, but the decimal constants are the ones of the code.
* `FootprintModel`: Model of the shape of a sensor footprint, /repo/src/cpp/Services/SensorManagerService.cpp:342-371
  (CalculateSensorFootprint), in real numbers.

    The quotient of the altitude and the tangent is written with cosine and sine, so that it is also right for a camera that
  points straight down.
* `FormulaModel`: Model of the textual side of task relationships: [CAlgebraBase::parseFormula]
  (src/cpp/Utilities/Algebra.cpp) and the construction of the algebra string in
  [AssignmentTreeBranchBoundBase::isInitializeAlgebra]
  (src/cpp/Services/AssignmentTreeBranchBoundBase.cpp).
* `LeashModel`: Model of the loiter leash, /repo/src/cpp/Services/LoiterLeash.cpp: a heading command is turned
  into a loiter ahead of the vehicle once a route planner has shown that the way there is free.

    Simplifications: positions, headings, distances, speeds and altitudes are integers; the
  projection of a position ahead (LoiterLeash.cpp:119-124, 141-145, 206-210, a flat earth
  conversion with sine and cosine) is a parameter; of routes only the number of waypoints is
  kept.
* `LineImpactModel`: Model of the length and the headings that the Impact line search gives its options: ImpactLineSearchTaskService.cpp:372-409, and the same
  for the way back, 439-478.  The waypoints themselves, the cost and the identifiers are those of LineOffsetModel.
* `LineOffsetModel`: Model of how a line search makes its way from the thinned line: DPSS/PlanOffset.cpp ([OffsetPlanForward], [OffsetPlanReverse],
  [CleanUpStareAngles], [CorrespondingStarePoints]) with the segments of DPSS/DpssDataTypes.{h,cpp}, and the cost and the headings of the
  option, CmasiLineSearchTaskService.cpp:353-409.

    Coordinates are real numbers and [dPi] is pi.  Left out: rounding, the identifiers of the points, and a way of length zero with three
  or more points, for which the code divides zero by zero.  [CombinePlans] is only used by [SmoothPath], which no task calls.
* `LinePlanModel`: Model of how a line search thins the line it is given, before it offsets the points: DPSS/DpssUtilities.cpp ([PreProcessPath],
  [ComputeSeperation], [RemoveZeroLengthSegments]), DPSS/PlanQuickly.cpp, and the calls of
  CmasiLineSearchTaskService.cpp:286-326 and ImpactLineSearchTaskService.cpp:300-340.

    Coordinates are real numbers and [dPi] is pi.  Left out: rounding, overflow of the number of waypoints, the identifiers of
  the points, and the copy of the thinned line that [PreProcessPath] keeps for later.
* `LineStareModel`: Model of where a line search points the sensor of a vehicle: DPSS/SensorSteering2.cpp ([CalculateStarePoint],
  [CalculateWpToRdIndexMap], [BuildConversionMappings]) and DPSS/CoordinateConversions.cpp ([CorrespondingNormalizedRoadLocation],
  [NormalizedRoadPosToXyRoadPos]), as CmasiLineSearchTaskService.cpp:599-613 calls them.

    Only plans in a single direction are modelled ([m_SingleDirectionPlan]), with two waypoints or more and a road of positive
  length; the return plan of the Impact line search and the debug output are left out.  Coordinates are real numbers.
* `LogManagerModel`: The log of the process (Utilities/UxAS_LogManager.h and .cpp) and the database logger it uses
  (Utilities/UxAS_HeadLogDataDatabaseLogger.cpp with UxAS_XmlUtil.h): loggers are added, removed
  and given severity thresholds, and a record goes to every logger whose threshold it reaches;
  a database logger escapes the text and puts the record in as a row (DbLogModel).

    Every operation holds the mutex while it works, so a run of many threads is a list of
  operations.  The record is one text: the arguments of a log call put together.  The compile
  time switches of UxAS_Log.h, the console logger's output, the first creation of the single
  instance, and exceptions thrown by a logger are left out.
* `MainModel`: Model of the program's start (src/cpp/UxAS_Main.cpp): the command line (85-123) and the steps from the configuration to the end (185-290).

    A command line is the list of the words after the name of the program; the word behind the last one is the null pointer.  Whether a step
  succeeds is given by the surroundings, a configuration by its run duration or none if it cannot be loaded.  What goes on in the steps
  and while the services run is modelled elsewhere ([ConfigModel], [ServiceMgrModel], [BridgeMgrModel]).  Left out: the loggers, the text
  of the version, the network server not being made (make_unique never gives null), the destruction of objects when main returns early.
* `MsgModel`: Model of the message classes of src/cpp/Communications
  (AddressedMessage.h, MessageAttributes.h, AddressedAttributedMessage.h)
  and of src/cpp/Utilities/UxAS_StringUtil.h.

    Objects are records of their member variables.  A member function takes the
  object and returns the new object and the returned [bool].  Logging is left out.
* `NetModel`: Model of the internal message bus as one client sees it:
  src/cpp/Communications/TransportReceiverBase.cpp,
  src/cpp/Communications/ZeroMqReceiverBase.cpp,
  src/cpp/Communications/ZeroMqAddressedAttributedMessageReceiver.cpp,
  the subscription functions of src/cpp/Communications/LmcpObjectNetworkClientBase.cpp and
  src/cpp/Communications/LmcpObjectNetworkServer.cpp (the hub).

    Modelled as libzmq documents it: a SUB socket accepts a message when one of its subscriptions is a
  prefix of the message, and keeps what it accepted in order.  Simplified: a subscription is in
  effect at once (libzmq forwards it to the publisher asynchronously) and no message is dropped at
  the high water mark.  Messages have one part, as s_isZeroMqMultipartMessage is false
  (UxAS_ConfigurationManager.cpp:45) and nothing sets it.
* `OsmEgressModel`: Model of the ground planner answering requests for the roads that leave a circle.
  /repo/src/cpp/Services/OsmPlannerService.cpp:199-210 (processReceivedLmcpMessage), 223-259 (bProcessEgressRequest),
  1291-1300 (m_nodeIdVsSegmentBeginEndIds) and 1707-1820 (findRoadIntersectionsOfCircle).

    The map is that of OsmMapModel; positions are whole millimetres.  The iteration orders of an unordered_set and of
  the elements of equal key of an unordered_multimap are functions [set_ord] and [seg_ord].  Places are given by the
  ids of their nodes instead of latitude, longitude and height.  Nodes of recorded sections always have a position
  (they are dereferenced when the sections are recorded), so the branch for an unknown node only skips it.
* `OsmMapModel`: Model of the road map of the ground route planner: how a file of OpenStreetMap is turned into junctions, road
  sections and a graph, and how the graph is searched.  /repo/src/cpp/Services/OsmPlannerService.cpp:942-1182
  (isBuildRoadGraphWithOsm), 1187-1303 (isProcessHighwayNodes), 1367-1451 (isBuildGraph), 1512-1594
  (isFindShortestRoute) and OsmPlannerService.h:317-349 (the guess of the distance).

    The parsed file is given: ways with id, whether a tag says "highway", and node ids; nodes with id and position.
  Ways and nodes without id are skipped by the code and left out here.  Positions are whole millimetres north and
  east of the origin (double metres in the code), distances come from a function [dist], so sums do not round;
  conversions to whole metres are modelled.  Node ids, indices and lengths are unbounded.  The elements of equal key
  of an unordered_multimap come in an order [ord] that the library determines.  Dereferencing the end of a map is
  [None] (the code has undefined behaviour).  Plot files, metrics and log output are left out.
* `OsmNearModel`: Model of the search for the node of a road map that is closest to a position.
  /repo/src/cpp/Services/OsmPlannerService.cpp:1134-1164 (cells of the nodes), 1596-1632 (isFindClosestNodeId),
  1634-1672 (isExamineCellsInSquare) and 1674-1705 (isExamineCell).

    Positions and distances are as in OsmMapModel; cells are unbounded (int32_t in the code).  Only nodes with a
  position are entered in the cells, so the branch for a node that is not found is left out.  The nodes of a cell
  come in an order [ord] that the library determines.
* `OsmPlanModel`: Model of the ground route planner answering requests for route plans.
  /repo/src/cpp/Services/OsmPlannerService.cpp:157-181, 212-221 (processReceivedLmcpMessage) and 261-524
  (bProcessRoutePlanRequest).

    The map, the closest junction and the way between junctions are those of OsmMapModel and OsmNearModel.  Positions
  are whole millimetres, speeds millimetres per second; the cost of a route is given as a length and a speed, of
  which the code takes the quotient in floats.  Latitudes, longitudes and heights of the waypoints, turn type,
  metrics and plot files are left out.
* `OsmRoadModel`: Model of the ground planner answering requests for points along roads.
  /repo/src/cpp/Services/OsmPlannerService.cpp:181-195 (processReceivedLmcpMessage), 526-905
  (isProcessRoadPointsRequest), 912-940 (isGetRoadPoints), 1134-1164 (m_cellVsAllNodeIds), 1291-1300
  (m_nodeIdVsSegmentBeginEndIds) and 1822-1873 (isGetNodesOnSegment).

    The map, the closest node and the way between junctions are those of OsmMapModel and OsmNearModel.  The order of
  the elements of equal key of the unordered_multimap is a function [seg_ord].  A line is given by the ids of its
  nodes instead of latitudes, longitudes and heights.  Costs are unbounded, so every way is cheaper than the greatest
  int32_t.  Metrics, plot files and log output are left out.
* `OverwatchModel`: Model of where the target of an overwatch task is taken to be, /repo/src/cpp/Tasks/OverwatchTaskService.cpp:55-241
  (configureDynamicTask, processRecievedLmcpMessageDynamicTask, calculateTargetLocation), in real numbers.

    That a location is asked for is an event, with the time of the vehicle that asks; what is done with it is modelled elsewhere (DynModel).
  The logs in files are left out, as are altitudes.  The estimation of movement is always on and the window has four states, as nothing
  sets these members (OverwatchTaskService.h:174, 176); so what the target says about its own movement is not used.
* `PermuteModel`: Model of src/cpp/Utilities/Permute.h: enumeration of combinations and permutations, and the
  functions that count them.

    The range [first, mid) is the list [a], the range [mid, last) the list [b]; iterators into them
  are positions.  All ranges passed on by the code end where [a] or [b] ends, so a range is given
  by its first position.  The function object called for each arrangement is [g], which sees the
  range [first, mid) and has a state; it is taken not to change the range.  The functions with
  "reversible" in their name and [combine_discontinuous3] are modelled only as far as they
  count.
* `RasterModel`: Model of the lanes of an area search: isCalculateRasterScanRoute of src/cpp/Tasks/CmasiAreaSearchTaskService.cpp (lines 360-638) and of
  src/cpp/Tasks/AngledAreaSearchTaskService.cpp (347-685), with the intersections of Plans/Polygon.h and Plans/Edge.cpp.

    Numbers are real.  The loop over the lanes has fuel; [None] is a loop that has not ended.  Left out: altitudes, the flags that
  tell the route planner to disregard the headings of a lane, the bookkeeping of pending routes, areas of other types (which give no
  lane), areas without boundary points (for which an assertion fails), the classification of the boundary (its result is not
  used here and it never reports an error).
* `RegionModel`: Model of src/cpp/Services/OperatingRegionStateService.cpp.
* `RelayModel`: Model of where a radio relay goes, /repo/src/cpp/Tasks/CommRelayTaskService.cpp:59-212 (configureDynamicTask,
  processRecievedLmcpMessageDynamicTask, calculateTargetLocation, moveToHalfWayPoint), with what
  /repo/src/cpp/Tasks/TaskServiceBase.cpp:252-257, 305-312 remembers of states and configurations, in real numbers.

    Whether a location is asked for when a vehicle reports itself is part of the event (TaskServiceBase.cpp:258-265, see C33);
  what is done with the location is modelled elsewhere (DynModel).  States and configurations that are known when the task is
  configured are events before all others (no entity has identifier 0).  The converter of coordinates is the one for the whole program: that another service uses
  it is an event.  Positions are taken not to be null.
* `RendezvousModel`: Model of the options that a rendezvous offers, /repo/src/cpp/Tasks/RendezvousTask.cpp:188-346
  (buildTaskPlanOptions, without the parts for AFRL_INTERNAL_ENABLED), called for each request of the task.

    The eligible vehicles come in groups of the same speed and altitude, in the order in which the map of groups is gone through.
  The order in which the map of options by vehicle is gone through is a parameter.  Of a rendezvous state only the vehicle it is for
  counts; options name its position in the list.  It is taken that fewer than 256 vehicles have options, so the counters of one byte
  do not wrap; option numbers are unbounded.  An index that is out of range throws an exception: then nothing is published,
  as the loop of the service catches it and goes on with the next message (LmcpObjectNetworkClientBase.cpp:313-316).
* `RouteExtModel`: Model of the extension of routes, /repo/src/cpp/Utilities/RouteExtension.cpp (whole file), in real numbers.

    The constant 3.14159265359 of the code is taken as pi; they differ by less than a millionth of a millionth.  The number of full
  circles is not limited to 32 bits.  The bisection is cut off after 28 rounds, which gives no result instead of going on; it is
  proved that it never gets so far.  Turn radii and distances that are not positive, for which the code divides by zero, are modelled
  but nothing is said about them.
* `RouteVisModel`: Model of RoutePlannerVisibilityService, /repo/src/cpp/Services/RoutePlannerVisibilityService.cpp:156-452:
  zones, operating regions, vehicle configurations and requests for route plans.

    Parameters: a position ([P]), the graph made from a list of polygons ([make], [None] if the polygons cannot be
  expanded and merged; C54 and C55 are about what it contains), the length found in it ([length], C54) and the
  waypoints listed for it ([points]).  Entity states and RouteRequest messages do nothing here.  Turn radii and
  headings are left out: they enter the waypoints only.
* `RvRouteModel`: Model of how a rendezvous makes the route of one vehicle longer, /repo/src/cpp/Tasks/RendezvousTask.cpp:348-395, 460-517
  (isProcessTaskImplementationRouteResponse, the parts before and after those in RvTimeModel), in real numbers.

    Speeds per option are only for AFRL_INTERNAL_ENABLED.  Altitudes and speed types, which are set the same for all waypoints, are left
  out, as are the tasks that are entered in a new waypoint.  The constant 3.14159265359 is taken as pi.  Durations are not limited to
  64 bits.  A speed of 0, for which an infinite number is converted to an integer, is a result of its own.
* `RvSpeedModel`: Model of how a rendezvous controls the speed of its vehicles, /repo/src/cpp/Tasks/RendezvousTask.cpp:85-91, 519-707
  (the distances of processReceivedLmcpMessageTask, SpeedClip, activeEntityState, ArrivalDistance, FindWaypointIndex), in real numbers.

    Whether a vehicle is at the task when it reports is part of the report; TaskServiceBase.cpp:256-265 decides it.  The order in which the
  map of distances is gone through is a parameter.  Pointers to waypoints are not null, and states have a location.  Times are not
  limited to 64 bits.  A neighbour without configuration, for which the code dereferences the end of a map, is a result of its own.
* `RvTimeModel`: Model of how a rendezvous finds out when its vehicles arrive, /repo/src/cpp/Tasks/RendezvousTask.cpp:93-186
  (processReceivedLmcpMessageTask, updateStartTimes) and 397-458 (the first part of isProcessTaskImplementationRouteResponse).

    The order in which the map of selected options is gone through is a parameter.  Times are not limited to 64 bits.  The messages are
  those that reach the task: the task also gets the requests that are its own.
* `SearchOptionsModel`: Model of the options that the search tasks, the loiter and must-fly tasks and the watch tasks publish, with their
  composition:
  - which vehicles count, /repo/src/cpp/Tasks/TaskServiceBase.cpp:307-321 and 502-526;
  - CmasiLineSearchTaskService.cpp:113-240, 429-582 and ImpactLineSearchTaskService.cpp:144-255, 367-520;
  - CmasiAreaSearchTaskService.cpp:197-361, AngledAreaSearchTaskService.cpp:254-340,
  PatternSearchTaskService.cpp:282-365;
  - CmasiPointSearchTaskService.cpp:79-256 and ImpactPointSearchTaskService.cpp:115-375;
  - LoiterTaskService.cpp:77-108, MustFlyTaskService.cpp:92-133 (without the closed AFRL_INTERNAL_ENABLED part);
  - BlockadeTaskService.cpp:124-200 and MultiVehicleWatchTaskService.cpp:124-193;
  - the angles of Includes/Constants/Convert.h:181-203 and 229-243.

    Angles are whole multiples of a unit of which [2 * u] are one degree, and sums of angles are exact; the
  tolerances of the comparisons are parameters.  Whether a line can be flown along for a view angle is decided by
  an external planner: [fwd] and [rev] say so for a group and a view angle.  Places and headings of the options
  are left out, and costs except those of the point searches. Option numbers are unbounded.  A speed counts in
  tenths of m/s, as rounded; a standoff distance in mm.
* `SectorModel`: Model of the sector pattern of src/cpp/Tasks/PatternSearchTaskService.cpp (isCalculatePatternScanRoute_Sector, lines 593-706): legs
  through the place to be searched, in directions one lane apart at the extent, and the routes that are requested for them.

    Numbers are real.  The loop over the directions has fuel; [None] is a loop that has not ended.  The extent 0, for which the
  code divides by zero and finds no direction (the quotient is infinite), is a case of its own.  Left out: the altitude of the
  locations, which is the same for all, the bookkeeping of pending routes.
* `SegModel`: Model of the test whether two line segments cross, /repo/src/cpp/Plans/Edge.cpp:37-153.

    Simplification: the coordinates are rational numbers and the arithmetic is exact; the rounding of
  floating point numbers is not modelled.
* `SendMsgModel`: Model of src/cpp/Services/SendMessagesService.cpp: the sending loop.

    The loading of the message files is not modelled: a configured message is what configure
  reads from the attributes of a Message entry whose file was loaded.
* `SensorModel`: Model of SensorManagerService, /repo/src/cpp/Services/SensorManagerService.cpp:103-371: which camera, gimbal angle and
  field of view are chosen for a footprint request.

    Parameters: the ground sample distance at an altitude, angle, field of view and resolution ([gsd], 263-264 and
  300-304), the shape of the footprint ([shape], 342-371, see FootprintModel.v) and the radians in a degree ([deg]).
  Numbers are rational and not rounded; [abs] (305, 307) is the absolute value.
* `SensorSteeringModel`: Model of src/cpp/Utilities/SensorSteering.{h,cpp}, by which a pattern search task points the sensor of a vehicle: the part of
  the way flown so far is mapped to the same part of a road on the ground.

    Coordinates are real numbers, a [std::map] is a list with increasing keys, and the data of the points are fresh, as they are
  when [PatternSearchTaskService] adds segments.  Left out: rounding (the two [float]s of the projection among it), log messages.
  The projection on two waypoints at the same place divides zero by zero; the conversion of the result to an integer is
  undefined, which is the outcome [Undefined].
* `SerialBridgeModel`: Model of the serial bridge between the internal network and a line: LmcpObjectNetworkSerialBridge.cpp:147-247
  ([processReceivedSerializedLmcpMessage], [executeSerialReceiveProcessing]).

    Left out: the line itself and its failures (what was read is given, what is written is taken away), waiting, the end of the
  bridge and logging.  Of [setup] the aliases are not used.
* `SerialModel`: Model of src/cpp/Utilities/UxAS_SentinelSerialBuffer.{h,cpp}.
* `SerialReqModel`: Model of src/cpp/Services/SerialAutomationRequestTestService.cpp.

    The response timer is one timer of the timer manager, started for [m_maxResponseTime_ms].  The
  timer manager refuses to start a timer on its own thread (UxAS_TimerManager.cpp:214, see
  TimerModel), so the start at line 129 has an effect only if OnResponseTimeout was called from
  processReceivedLmcpMessage, not if the timer called it.  The service and the timer thread share
  the queue without a lock; here each call is one step.
* `ServiceMgrModel`: Model of src/cpp/Services/ServiceManager.cpp and of the ids of network clients in
  src/cpp/Communications/LmcpObjectNetworkClientBase.{h,cpp}.

    The sequences of events are the interleavings of the thread that handles the messages of the
  service manager, the main thread in [runUntil] and the threads of the services.  Each event
  is atomic: the lock [m_servicesByIdMutex] is not taken around the insertion in
  [createService] (ServiceManager.cpp:344), so this is a simplification.  Bridges
  (ServiceManager.cpp:280, 557) are left out: there are none.
* `SimplePlanModel`: Model of the simple waypoint plan manager, /repo/src/cpp/Services/SimpleWaypointPlanManagerService.cpp:78-178
  (processReceivedLmcpMessage, handleSingleWaypointPlan), in real numbers.

    The converter of coordinates is the one for the whole program: that another service uses it is an event.  Fields of missions and
  waypoints that the code does not touch are kept as one value.  States have a location, and air vehicles a nominal flight profile.
  Numbers of waypoints are not limited to 64 bits.
* `SpiralModel`: Model of the spiral pattern of src/cpp/Tasks/PatternSearchTaskService.cpp (isCalculatePatternScanRoute_Spiral, lines 438-591): the
  waypoints of the vehicle, the road on which its sensor looks, cut into segments, and the cost.

    Numbers are real.  The loop has fuel; [Running] is a loop that has not ended.  Left out: the altitude and speed of the
  waypoints, which are the same for all, and the entry of the route and the option in the lists of the task.
* `StareMapModel`: Model of the map from a vehicle's plan to the point of a road it looks at (src/cpp/DPSS/SegmentMap.cpp): the nearest point of a line
  (62-87), the point looked at, once from a plan and a road (138-207) and once from what Initialize stored of them (34-60, 89-132).

    Points, segments and nearest points are those of [EscortModel] (DpssDataTypes): east and north, in real numbers.  Initialize with no
  point of the plan or of the road runs over the end of an array, since the sizes are unsigned; this is the outcome [None].  Left out: heights.
* `StatusReportModel`: Model of src/cpp/Services/StatusReportService.{h,cpp} on top of the model of the timer manager
  ([TimerModel]).

    The thread of the service handles messages ([Recv]), the thread of the timer manager calls the
  three callbacks of the service; both hold [m_mutex] while they touch the report.  A history is
  a sequence of
  - [Boot], [initialize] and [start] of the service;
  - [Recv], a message handled by the service;
  - [Timer], any other use of the timer manager in the process: timers of other services, the
  worker that looks at the queue ([EvTurn]) and the end of a callback ([EvDone]);
  - [Body], the locked part of the callback of the service that is running.
  What is seen of the service is its calls of the timer manager with their results ([Call]), the
  reports it sends ([Sent]) and that its other two callbacks did their work ([Expired],
  [Outdated]).  Left out: subscriptions, the destructor, log messages, the destruction of the
  timers.
* `SteeringCourseModel`: Model of the heading commanded by the steering service, over the real numbers:
  /repo/src/cpp/Services/SteeringService.cpp:459-524, with the points in metres north and east.

    Simplifications: exact real arithmetic instead of floating point; the comparisons of angles in
  n_Const::c_Convert::dNormalizeAngleDeg, which have a tolerance, are exact.
* `SteeringModel`: Model of the steering service, /repo/src/cpp/Services/SteeringService.cpp: it flies a vehicle
  along the waypoints of its mission by heading commands.

    Modelled: all messages handled, the choice of the waypoint, the commands and the reports sent.
  Simplifications: places are pairs of integers; the flat earth conversion of a place to north and
  east relative to the vehicle (a conversion starts at the first place it is given,
  SteeringService.cpp:402-409) is a parameter giving millimetres; speeds are in mm/s and angles
  in thousandths of a degree.  The heading of a command is kept as the points it is computed from;
  the computation is modelled in SteeringCourseModel.v over the real numbers.  The turn radius
  belonging to a speed and bank angle is a parameter.  The clock is read once per message.
  Left out: command ids, command status, the configuration of the gains.
* `TaskBaseModel`: Model of the common part of all task services, /repo/src/cpp/Tasks/TaskServiceBase.cpp:
  notices about vehicles on the task (255-305), planning of options (322-539, 657-688, 762-825),
  resuming an interrupted task (336-499), assignment (555-595) and implementation of a chosen
  option (596-620, 691-760, 827-1035).

    Simplifications, common to the whole file:
  - positions are opaque values (an integer each); whether two of them are co-located is the
  parameter [coloc] (TaskServiceBase.cpp:57-66);
  - altitude, speed and vehicle actions of waypoints and headings of routes are left out;
  - the virtual functions of the concrete task are inputs: [buildTaskPlanOptions] is given by
  the list of options it makes, [isProcessTaskImplementationRouteResponse] changes nothing,
  [isBuildAndSendImplementationRouteRequest] and [isHandleOptionsRouteResponse] return false
  (their default, TaskServiceBase.h:296-311);
  - log output, sleeping and time stamps of notices are left out.
* `TaskMgrModel`: Model of src/cpp/Tasks/TaskManagerService.{h,cpp}.

    Messages that carry an id and are stored as they are, are pairs of the id and a token for
  the rest.  Option strings and type names are tokens.
* `TcpLinkModel`: Model of the way of messages through the TCP bridge: the list of clients (Communications/ZeroMq/Receivers/SetArrayClientList.cpp,
  ZmqTcpReceiver.cpp), sending to them (Senders/ZmqTcpSender.cpp, MsgSenderSentinel.cpp), the thread in between
  (Proxy/ZmqProxy.cpp), taking messages out of the data that came in (Receivers/MsgReceiverSentinel.cpp,
  ZmqAttributedMsgSenderReceiver.cpp) and the loop of the bridge (LmcpObjectNetworkTcpBridge.cpp:200-255).

    Left out: the sockets themselves (a packet that arrived is given, one that is sent is taken away), their set-up, pointers
  that are null from the beginning, the end of the bridge ([m_isTerminate]) and logging.  The order in which the clients get a
  message is that of their connecting, not of their identities.
* `TcpPipeModel`: Model of the other TCP transport of messages (Communications/ZeroMqAddressedAttributedMessageTcpReceiverSender.cpp, behind
  LmcpObjectMessageTcpReceiverSenderPipe.cpp): taking the next message (32-208) and sending one (220-255).

    What waits at the socket is a list of packets; a poll finds one exactly if there is one (its time limit is left out).  The loop over
  the texts in the buffer is [pump] of [TcpLinkModel]; an exception in it is caught and ends only the loop.  Left out: a socket that is
  not initialized or of another kind, frames that are null, the lock, memory that is not freed and logging.  The identity of the server that a
  client asks the socket for (246-247, kept in static variables of all instances) is a parameter.
* `TimerModel`: Model of src/cpp/Utilities/UxAS_TimerManager.{h,cpp}.

    Every operation holds [m_mutex] from start to end, except the waits in [startTimerImpl]
  (UxAS_TimerManager.cpp:272-274), which are never reached, and the callback in
  [executeManagement] (425-428), so histories are sequences of atomic operations, of the start
  of callbacks ([EvTurn] with an output) and of their end ([EvDone]).  The loops that retry
  while holding the lock (336-354 and 134-156) cannot make progress after the first attempt,
  because the thread that would change the outcome needs the lock; they are modelled by one
  attempt.  Times are in milliseconds, conversions from uint64_t do not overflow.  [t_ub] is
  set where the behaviour of the code is undefined; nothing happens after that.
* `TrackerModel`: Model of the task tracker, /repo/src/cpp/Tasks/TaskTrackerService.cpp: which tasks a vehicle is
  working on, as seen from the waypoints it reports to fly to, and the notices that it completed
  one of them.

    Simplifications: of waypoints only the number, the number of the next one and the associated
  tasks are kept; [m_tasks] and [m_states] are written but never read and left out; 64 bit
  numbers are unbounded.
* `UnescapeModel`: Model of the functions that undo the escaping of a text for XML (Utilities/UxAS_XmlUtil.h:102-163).  Those that escape are in
  [LogManagerModel].
* `ValidatorModel`: Model of src/cpp/Services/AutomationRequestValidatorService.{h,cpp}.

    One received message or one timer callback is one step.  In the code the callbacks run
  on the thread of the timer manager without synchronisation with the thread that handles
  messages; such interleavings inside a step are not modelled.  Texts of error messages
  are reduced to what they report; logging is left out.
* `VisModel`: Model of the visibility graph, /repo/src/cpp/Plans/VisibilityGraph.cpp, Polygon.cpp, Edge.cpp: which
  pairs of corners of the zones are joined, which way is chosen from a start to an end, and the corners
  it passes.

    The input are the polygons left by the expansion and merging of the zones (VisibilityGraph.cpp:83-184,
  VisiLibity), with the corners numbered; that merging is not modelled.  The test whether a point lies in a
  polygon ([inside], Polygon.cpp:49-90, CGrid.cpp), the classification of a polygon as not convex
  ([notconvex], Polygon.cpp:181-297) and the all pairs shortest paths of the boost library ([dist],
  [parent], VisibilityGraph.cpp:549-600) are parameters.  The smoothing of the way into turns is not
  modelled.  Coordinates are rational and the arithmetic is exact; the conversion of a distance to an
  integer is modelled for the lengths of ways, not for single legs, which would have to be longer than
  2^31 m to leave the range.
* `WayPointsModel`: Model of how the waypoints of a route are listed by the route planner once the way around the zones is found:
  [isCalculateWaypoints] (Services/RoutePlannerVisibilityService.cpp:432-446, 546-568), [isGenerateWaypoints] and [errGenerateWaypoints]
  (Plans/VisibilityGraph.cpp:1212-1266, 1306-1535), [errSmoothPath] (1540-1980), [dCalculateFinalHeading_rad] (Plans/Assignment.h:435-471),
  and of Plans/Trajectory.cpp [dMinimumDistance] (31-68), [dMinimumDistanceEuclidean] (71-118), [dMinimumDistanceDubins] (121-264) and
  [CalculateTaskHeading] (269-377).

    The way comes from [VisModel], the ways of turns from [DubinsModel].  Of a waypoint only its place is put into the plan
  (VisibilityGraph.cpp:1252-1256).  Left out: the rounding of distances and sines to 1.0e-9 in [CalculateTaskHeading], altitudes, the change
  to latitude and longitude (see [FlatEarthModel]).  The planner hands over one heading for the end, with no stand off and no free turn, so
  the loop over the headings at 134-224 has one round.  In [errSmoothPath] the flag for rounding off corners is never set (1568), so that
  part does nothing.
* `WaypointModel`: Model of src/cpp/Services/WaypointPlanManagerService.{h,cpp}.

    Left out: the options that add loiter, gimbal and zero speed actions or loop back to the
  first waypoint (all off by default), and the turn type, which is set on every waypoint.
  [m_isMoveToNextWaypoint] is never set, because the only assignment is under
  [#ifdef STEVETEST] (WaypointPlanManagerService.cpp:250-262), so lines 177-187 are dead.
* `ZyreModel`: Model of the peers of a Zyre bridge, /repo/src/cpp/Communications/
  LmcpObjectNetworkZeroMqZyreBridge.cpp:107-403 with ZeroMqZyreBridge.cpp:204-352: which peers are
  connected, which addresses they want, to which addresses the bridge subscribes on the local
  network, and to whom a local message is sent.  What is imported from peers is in BridgeModel.

    Simplifications: peers (Zyre UUIDs), labels and entity ids are integers; addresses are lists of
  character codes; a header is given by its values, the list of addresses being the result of
  splitting the header's value (305; see C05); that the handlers run in the thread of Zyre and
  change the subscriptions of the socket of the bridge's thread is not modelled, handlers and
  local messages exclude each other by [m_mutex] (224, 264, 354).

## Findings

Claims about the code that the model refutes are the theorems named `*_refuted` in the table above.
The following were noticed while reading; those with a theorem are marked.

Messages and text
* `AddressedMessage` rejects a payload of one byte that its own setter accepts (C01); the attributed
  parser accepts an empty address (C03); the setters accept delimiters inside attribute fields (C04);
  `updateAddress` is not validated and updating an object without attributes dereferences null (C43).
* `split` of the empty string gives one empty string, with maximum 0 it has undefined behaviour, and
  append mode loses delimiters (C05).  `ReplaceAll` with an empty pattern does not end (C06).
* Serial buffer: an empty number field and numbers above `INT_MAX` throw (C08); checksums of 2^31 and
  more are never accepted (C07); the receive loops stop at the first damaged frame (C09).

Network
* Unicast addresses are subscribed by prefix, so `eid1.sid2` also receives `eid1.sid21` (C12).
* Subscriptions changed between the creation of the socket and the start of the thread are lost
  (C10; `SubscribePushBridge::initialize` does this); `removeAllSubscriptionAddresses` does not end (C10).
* Ids of clients clash with reserved ids (C13).  The hub drops messages that claim source
  (entity, 1).  `sendMessage` of the stream pusher sends without an id frame.
* Serial and TCP bridges pass on messages of other entities by default; the TCP and Impact bridges do
  not check the entity on export (C14).
* `KillService` is obeyed without looking at the entity; serialized clients swallow one for another
  id; an aborted client is never reported as finished; the abort branch is unreachable if the warning
  threshold is not above the abort threshold (C32).
* Zyre bridge: a peer asking for one of the bridge's own addresses makes it deaf to it on leaving; a
  header without addresses asks for everything; one unreadable id ends the thread (C52).  The handlers
  change subscriptions of a socket that belongs to another thread.
* `BridgeManager` gives a bridge another id without updating its id text.

Services
* Validator: the error on expiry of the task timer names the wrong request; duplicate ids answer the
  wrong one; after a response timeout the next request is not guarded (C20-C22); the check for empty
  vehicle lists compares a list with itself (C46).
* Route aggregator: duplicate ids and user route ids of 1000000 and more are confused with others
  (C23); a request for unknown vehicles is never answered (C23); options of a concurrent request are
  forgotten when a matrix is sent (C24); with FastPlan on, elements are erased while iterating.
* Plan builder: implementation answers can be replayed (C25); an assignment to a vehicle without a
  projected state stalls silently (C25); speed overrides are taken from all requests.
* Waypoint manager: the overlaps N-1, N-2 and N give wrong cuts (C26); going back sends the command
  again, an empty mission stops the service (C27).
* Task manager: an update that names an unknown area, line or point kills the old service and creates
  none; options of task id 0 are sent twice (C28).
* Service manager: a clash of ids destroys the new service but reports success; killing the manager by
  its own id ends nothing (C29).
* Timer manager: timers due at the same instant are removed together; starting from another thread
  during the callback loses a destroy (C30); starts from callbacks are refused (C31).
* Operating region: an update of a live zone is not padded (C37).
* Batch summary: waypoints of repeated legs are appended; task ids are cut to 32 bits; a single task with
  relationships is answered without planning; foreign plan ids are taken for own ones (C38); without a
  tower everything is beyond range (C47).
* Coordinator: late reports recreate a request, id 0 is confused with no request (C39).
* Scheduled messages: 32 bit times wrap, an empty configuration never ends (C40).
* Serialised requests: the timer cannot be restarted from its own callback, so the queue blocks (C41);
  the queue is shared without a lock.
* Loiter leash: the altitude is replaced by the altitude type, heading rates give a loiter at 0/0 (C51);
  a radius of 0 is documented as the least turn radius but taken as 0; answers are not checked for the
  vehicle.

Assignment and algebra
* Ineligible vehicles are not excluded by the search but by the cost table only; vehicle ids may clash
  with packed option ids (C17); node limit 0, the default, is greedy (C18); option ids of 10000 and more
  clash (C42).
* Operators without operands and repeated actions give wrong offers (C15); a bare task as a
  relationship throws, an unknown option dereferences null (C45).

Tasks
* A vehicle reassigned while on the task never gets its complete notice (C33).
* The last waypoint of an implementation that ends in co-located places leads nowhere; a second request
  for the same option is not answered; a second option confuses the transition route (C34).
* A route too many publishes the options twice; a free route counts as an error (C48).
* A resumed task uses only route 2, fails when the vehicle heads to its first waypoint, and fails the second
  time; its cost is not the length of the path because a variable is shadowed (C49).
* Moving targets: a missing target ends the process once there was one; a route that never comes is never asked
  for again; later configurations are ignored; a target is moved out of one zone into the next and only zones of
  region 0 count; with a pause the first report is always put off (C57). Not modelled:
  OverwatchTaskService.cpp:188 subtracts a north coordinate from an east one.
* Cordon: the table of options is never emptied, so a request with other vehicles gets a composition with options
  that do not exist or are of other vehicles; a vehicle that is not eligible leaves an empty alternative, and then
  nothing is offered; a request for all vehicles gets an empty composition; the search reaches one posting per
  first action only (C58).
* Search options: a line search whose way back cannot be flown leaves the option out of the composition; a pattern
  search offers its options to the first vehicle of each group only, an area search uses the footprint of the first;
  one kind of point search counts seconds as ms; loiter and must-fly tasks ignore the vehicles of the request; watch
  and blockade tasks ignore the wanted number of vehicles and do not answer while the target is unknown; a vehicle
  configured anew counts in its old group, too; a view of 360 degrees has one direction twice (C59).
* Task tracker: the last task can be reported twice or without having been visited; a new mission does not forget
  the place reached in the old one, so its first waypoint can complete the task (C50).

Routes
* The crossing point given out is off by 1/2 in both coordinates; an overlap of collinear segments is not a
  crossing (C53).
* The search never fails: without a way it reports success with length -1, an undefined length or
  2^31 - 1; a start and an end inside the same keep-out zone are joined directly; a way around one corner
  lists the corner twice (C54).
* Sides of keep-in zones are legs even across keep-out zones (C55).
* Zone updates do not reach a region until it is told again; a failed region update keeps the old graph;
  zone ids are cut to 32 bits; surface vehicles always have cost 0; requests for an unknown vehicle or
  region are never answered (C56).
* Lengths and guesses are rounded down to metres, so the way found by the road search need not be a shortest one (C60).
* Road map: the running length is not reset at a junction, so later edges of a road are too long; of two roads between
  the same junctions only the first is recorded; two roads with the same id in a row, or a node without position, crash
  the service (C61).
* Ground planner: as later edges of a road are too long a way can be found that is longer than another one by any amount;
  a search from a junction without any section can read beyond its tables (C62).
* A node 295 m away can be taken for a position although another one is 102 m away; the search is not ended early by
  nodes whose id is not positive (C63).
* The cost of a ground plan can be that of another road than the one its waypoints follow; junctions are listed twice (C64).
* Egress requests: a road through the circle is missed if its junctions lie outside of the square around it (C65).
* Road points: a line from a node to the one before it on its section can run the other way to the end of the section;
  a line to a junction can run past it to the next one; nodes are given up to three times in a row; an item that starts
  on a road that returns to its own start, or near no road, leaves the whole request without an answer; without a map
  the answer has id 0 (C66).
* Steering: the first waypoint of a mission in which no waypoint leads to it is only passed by coming within a metre of it, a
  vehicle that misses it by two metres is sent back; the time of a loiter counts from when the vehicle is sent there, so it
  can be over before it arrives; a circuit of waypoints ends for good once the vehicle is within the acceptance distance of
  all of them (C67).
* `RoutePlannerService`: a zone told after the region that lists it does not count; a zone that changes makes the map anew
  with the zone as it was before the change; a region that changes is forgotten for vehicles heard of later, and this is
  how the service that collects zones sends it; a keep-out zone with padding listed before one without makes the map fail, and
  so does a keep-in zone that is for other vehicles only; an air vehicle whose first message is a configuration of a derived type
  never has a map.  Without a map plans lead straight through keep-out zones (C69).
* `SensorManagerService`: a request without elevation angles, which by the interface asks for the best angle, never gets a
  footprint, because its stand-in 0 is taken for an angle; a given angle is not compared with the upper limit of
  the gimbal; the first configuration of a vehicle is kept for good (C71).
* If the field of view reaches the horizon the leading edge of the footprint is reported to be under the vehicle (C72).
* `FlatEarth`: the origin is the first point given by any call; the constants for degrees and radians are not inverse to each other
  (relative error below 2e-13); at a pole, and for a converter without origin, positions come back as 0; the distance of two points
  asked of a new converter depends on their order; the equatorial radius is 6378135 m although WGS-84, which is named in the
  header, has 6378137 m (C73).
* `RouteExtension`: a negative length is not refused and makes the way longer (C74). Waypoints that are put in copy all fields of
  the waypoint behind, with its tasks and actions; new numbers can collide with earlier ones if numbers do not go up; a last waypoint that
  led back into the route leads to itself afterwards (C75).
* `RendezvousTask`: a rendezvous of some of the vehicles at one place never gets options: an index out of range throws and the
  request stays unanswered (C76_one_place_fails). With one place for one vehicle and several for another it depends on the order of
  a hash table whether an empty answer is published or none (C76_order_refuted). With too few vehicles the composition lets fewer
  meet (C76_too_few_refuted). Of the ways of meeting that begin with the same option the assignment finds one (C76_search_refuted).
* `RendezvousTask`: vehicles that told nothing are counted with the start time of another vehicle, so the time to meet differs between the
  answers for two vehicles of the same meeting (C77_assumed_refuted); marks of a request are never removed (C77_again_refuted).
* When no segment is long enough for the time to lose, a full circle is flown, and the vehicle comes late (C78_late_refuted).
* With the preference for speed changes the route is kept whenever time to lose times change of speed is less than the length of the route;
  even at the slowest speed the vehicle may then be hours early (C78_speed_refuted).
* `RendezvousTask::activeEntityState`: the centre of an infeasible window is taken as `(mintime - maxtime)/2 + mintime`, which is beyond both
  ends, so vehicles that cannot meet are driven further apart (C79_center_refuted).
* The same function tests the iterator of the vehicle itself instead of that of the neighbour, so a neighbour without a configuration
  dereferences the end of the map (C79_undefined, C79_defined_refuted).
* `SimpleWaypointPlanManagerService`: the waypoint that is added to a single one is a copy and keeps its next waypoint, so the vehicle flies
  back and forth between the two (C80_stays_refuted).
* `BlockadeTaskService`: the place on the line is the number of active vehicles with higher identifiers less half of all active ones, so the line
  is not centred: a lone vehicle stands half the standoff left of the way.  A vehicle is counted only after its first command, so its first
  post is another one than that of the next report (C81_stays_refuted).
* `EscortTaskService`: a line whose legs all lead against the movement of the entity is not reversed, because the distance of the missing forward
  leg is -1 and must be above 0 (C82_against_refuted).  For an entity at rest the length of each segment is added twice and the one of the
  nearest segment before the distance from its start, so a line of two points is always reversed (C82_at_rest_refuted).  A line that the entity
  is exactly on does not count (C82_on_line_refuted).  `abs` of a double is unqualified: with the integer one, standoffs below a meter count as zero.
* `OverwatchTaskService`: the way to the east between two states is the new east less the new *north* (`ceast - cnorth`), so a target that moves
  north is expected as far in the west as in the north (C83_north_refuted).  Two states at the same place count as heading east.
* `CommRelayTaskService`: configurations of entities that are not eligible are dropped by `TaskServiceBase`, so a tower that is known by its
  configuration only is overlooked by a task with a list of eligible vehicles (C84_tower_refuted).  The middle of two longitudes is on the other
  side of the earth across the date line (C84_date_line_refuted).
* `StatusReportService`: if the timers of a keep-alive and of a state are due in the same millisecond, the next state takes both out of the queue
  and the vehicle is reported as authorised for ever (C85_authorized_refuted).  A keep-alive that is handled while the callback of the expiry waits
  for the lock is lost (C85_keeps_refuted).  A state that is handled while a report is being sent finds the timer of the reports inactive and
  starts it again, which leaves it in the queue twice: undefined behaviour (C85_restart_refuted).
* `SensorSteering`: if the road is a single point, a sensor looks at latitude 0, longitude 0 as soon as a thousandth of the way is flown
  (C86_point_refuted); `PatternSearchTaskService` sends this as a stare point, as it does for waypoints that are not found.  Two waypoints at the same
  place give 0/0, converted to an integer (C86_twice_refuted).  A segment is only found by its first waypoint if the segment before ends with it
  (C86_gap_refuted).
* `PatternSearchTaskService`, sector pattern: the directions stop up to one and a half lanes before half a turn, so that places at the extent
  between the last and the first direction are up to three quarters of a lane from all legs, more than half of the width of the footprint
  (C87_hole_refuted, with an instance in which 50 m are missing).  A negative extent makes the loop endless (C87_endless_refuted).  If the lane is as
  long as the circle at the extent, or the extent is 0, there are no legs and the option is still counted a success (C87_nothing_refuted).
* `PatternSearchTaskService`, spiral pattern: the cost includes the way from the origin of the flat earth coordinates to the first waypoint
  (C88_cost_refuted).  An extent below -0.55 lanes gives an empty list of waypoints of which the last one is used (C88_invalid_refuted); an extent below
  50 m less 0.55 lanes gives a single waypoint (C88_single_refuted), for which C86_point_refuted applies.  The steering of the sensor is stored with
  `unordered_map::insert` under the number of the option and never removed; numbers start anew with each automation request, so that the sensor is
  steered by the first plan ever made for that number (C88_stale_refuted).
* Area searches (`CmasiAreaSearchTaskService`, `AngledAreaSearchTaskService`): a lane in line with the first point of the boundary meets the first and the last
  side in that point; the code takes the first and the last intersection for the ends of the lane, so the leg has no length and the lane is not searched
  (C89_first_refuted; an isosceles triangle whose top is given first is not searched at all if it is narrower than two lanes).  The CMASI search flies a
  single lane if the area is narrower than two lanes, although the footprint is only 10/9 of a lane wide (C89_narrow_refuted).  If between 1/18 and
  1/2 of a lane is left over after the last lane, that strip is not seen (C89_strip_refuted).  The CMASI search ignores the rotation of a
  rectangle (C89_rotation_refuted).  The intersections are rounded as in C53, which moves the ends of the legs by half a metre.
* Callback timers (`CallbackTimer`): there is one variable for the command, and the thread clears it after it has done what it says.  A kill told in between is
  lost: the function is called on and on although KillTimer has returned, and the destructor waits for ever (C90_kill_refuted).  A kill or cancellation told when
  the time is just over stays behind and ends the next timer at once (C90_left_behind_refuted).  A periodic timer with time 0 or less never looks at commands
  (C90_no_time_refuted).  A start while the timer runs only extends the time, cut to 32 bits; its function is never called, against what the header says
  (C90_restart_refuted).  An extension of a periodic timer that is about to fire becomes the period from then on (C90_period_refuted).
* Clock (`Time`): hours, minutes and seconds add two numbers that are each rounded, so that just after the clock has been set to 01:00 the hour may be that of
  00:00 (C91_units_refuted).  31 April is taken for 1 May (C91_day_refuted).  A date after 2262 is not refused, it overflows (C91_far_refuted).  In discrete time
  a calibration is accepted and moves the start time but not the time (C91_discrete_refuted).  A change of the mode makes a new clock that has lost its
  calibration (C91_mode_refuted).  The count of calibrations is cut to 32 bits (C91_count_refuted).
* Line search, thinning of the line: `RemoveZeroLengthSegments` subtracts the east coordinate from the north coordinate.  It does not remove points that coincide
  (C92_double_refuted), but removes the end of a line that is as far north as it is east of the point of reference if the point before it is as far east
  (C92_diagonal_refuted): a line due north or south to the point of reference itself cannot be searched.  The first pass looks only at one point at a time, so that
  a slow bend of any size is cut off (C92_drift_refuted).  The second pass measures from a straight line without ends, so that a detour straight back is left
  out first, however long it is (C92_spur_refuted).
* Line search, way beside the line: DPSS rotates counter-clockwise in a plane whose first coordinate is meant to be east, but the tasks pass north first.  So the
  line is seen at the wanted azimuth to the left instead of to the right (C93_side_refuted).  At a bend the way comes nearer to the line by the cosine of half the
  turn (C93_bend_refuted), and a slope of the line goes on in the altitude of the waypoints (C93_slope_refuted).  Looks that are parallel count as crossing if the
  point of reference happens to be abreast of them, because `intersectPoint` answers with the point of reference then (C93_parallel_refuted).
* Impact line search, headings: the end heading is set in the `else` branch of "this is the first leg", so that it stays 0 (north) for every way of two waypoints,
  which is that of every straight line (C93_impact_two_refuted).  The CMASI line search sets both (C93_headings).
* Line search, sensor: the vehicle's place on the way is found again from its position alone at each step.  Where the way passes near itself a move of two centimetres
  takes the sensor from one end of the line to the other (C94_jump_refuted).
* Assignment service: without relationships every task whose options arrived under the id of the request is assigned, also one that the request does not list
  (C95_uninvited_refuted).  With relationships a task of the request that they do not mention is left out of the summary without an error (C95_left_out_refuted).
* Route aggregator and assignment service disagree about an option that lists no vehicle: the first lets every vehicle do it and sends costs for all of them, the second finds
  no entry for the vehicle and counts -1 ms for the option, whatever its cost (C96_open_option_refuted).
* Message log: the XML of a message is put into the SQL statement as it is (the call that would escape it is commented out), so a message whose XML holds an apostrophe is lost
  (C97_apostrophe_refuted), or may add rows that say another service sent another message (C97_forged_refuted).
* Message log: LogFileMessageCountLimit is documented to turn on a text log; the flag it should set is never set, so no text log is ever written (C97_no_text_refuted).  If it were, the
  limit would be given as the thread flag and the limit would be 2000.
* Message log without time stamps: starting the service removes the log of the run before (C97_run_before_refuted).
* Database log: when a file is full and the next one cannot be opened, the flag "opened" stays set and the next record is put into a database object that is null
  (C98_next_file_refuted).
* XML escaping: a text with `&apos;` gets the same row as the text with an apostrophe there (C98_entity_refuted).  escapeXmlAmpersandLessThanGreaterThanChars never ends for a text with
  an ampersand, since it puts in what it looks for (C98_ampersand_refuted); nothing in the code calls it.
* Diagram service: an automation request for all entities is changed, at the first response, to one for those heard of then; entities that appear later are left out of what is saved for
  later responses (C99_later_refuted).
* Numbered directories: names are searched for four digits, so the number stays at 10000 once it is reached; directories are then told apart by the clock only and are used again at the
  same reading (C99_ten_thousand_refuted).
* Ways of turns (Trajectory.cpp): the first circle is passed by reference and overwritten if it has the same centre as the second, so the pairs tried after it use the wrong circle;
  turning about in place is answered by a single waypoint at the start, of length 0 (C100_turnabout_refuted).
* Ways of turns: the distance between the centres is rounded to whole metres, so a way may miss its end by half a metre, or by up to a metre for opposite turns (C100_flyable says
  "within a metre"); turns within 0.005 radians of nothing and arcs under a metre get no waypoints.
* Ways of turns: whether three turns are tried at all is decided by places one radius east and west of the start whatever the heading, so a shorter way of three turns is not looked for
  in some directions (condition of C100_shortest_three); the condition at Trajectory.cpp:1096-1098 is always true, a closing parenthesis is misplaced.
* Waypoints of a route: if only one of the two headings is to be used, the other one is kept to all the same (C101_unasked_refuted).
* Waypoints of a route: where a route has one corner, its last part is worked out for a vehicle heading north at that corner (C101_one_corner_refuted): `dCalculateFinalHeading_rad` has nothing
  to look back to and gives 0.
* Waypoints of a route: if no corner is seen from the start or from the end, the waypoints are twice the origin of the map (C101_lost_refuted); `isCalculateWaypoints` ignores the result of listing them.
* Waypoints of a route: the last places are listed up to four times (C101_around); the flag for rounding off the corners is never set (VisibilityGraph.cpp:1568), so a route with headings
  turns at its inner corners on the spot.
* Configuration: after a load that fails, services and bridges that were asked for before are still answered, under the old entity, but the number of the entity is already that of the document
  refused (C102_failed_refuted).
* Configuration: a document without the element UxAS is loaded with success; nothing is enabled, under the entity loaded before (C102_no_entity_refuted).
* Line search: what `RemoveZeroLengthSegments` leaves over is compared with a place on the diagonal instead of the point before (C92_places_refuted).
* Bridges for tests: `createBridge` gives them another number but keeps the text of the old one, by which `executeSerializedNetworkClient` knows its messages to end; a message with the new number
  is ignored, one with the old number is obeyed (C103_test_refuted).
* Undoing the escaping of XML: `unescapeXmlChars` starts again from the end after each replacement, so that the ampersand of a replaced `&amp;` joins with what follows it; a text that contains `&amp;`
  never comes back after it was escaped (C104_amp_refuted, C104_twice), and one that contains `&quot;` or `&apos;` does not come back from the escaping of quotes (C104_quotes).
* TCP bridge: as it is set up by default (`ConsiderSelfGenerated` is true), a packet that ends within a message makes `receive` return a message without attributes, and `updateSourceAttributes`
  dereferences the null pointer to them: a message that TCP delivers in two pieces crashes the bridge, wherever it is cut (C105_cut_refuted).
* TCP bridge of a server: the data of all its clients go into one buffer; a message of one client that arrives between the two pieces of a message of another makes the latter lost (C105_peers_refuted).
* TCP bridge: an exception of `std::stoi` ends the thread that receives: 32 bytes of sentinels without numbers, or a message of the program itself the sum of whose bytes is 2^31 or more, sent by any
  client, end the receiving for good without an error being told to anybody (C105_ended_refuted).
* Serial bridge: unlike the TCP bridge it goes on after an exception (C106_survives), but a whole message that is read together with a malformed frame in front of it is held back until something else is
  read from the line (C106_late_refuted, C106_late_case).
* Command line: `-cfgPath` or `-runUntil` as the last word reads the null pointer behind the words (C107_missing_refuted); `-runUntil -n` runs for 2^32 - n seconds (C107_negative_refuted); a duration that
  is no number is taken as none (C107_unread_refuted).  If the bridges cannot be started, main returns while services and server, started before, have not been ended (C107_abandoned_refuted).
* SegmentMap: CalculateStarePoint of the stored plan and road subtracts a part of the whole from a length in meters, so that the point it gives is off by W (1 - 1/L), where W is the length of the road
  before the leg and L that of the road: for two legs of 100 m and a vehicle at 150 m it is at 249.5 m, beyond the end (C108_stored_refuted, C108_case).  The function of a plan and a road is right (C108_stare).
  Initialize with an empty plan or road runs over the end of an array (C108_empty_refuted).
* ZeroMqAddressedAttributedMessageTcpReceiverSender: a client that has left stays in the list and is still sent to (C109_gone_refuted); a comment in the code says that this is meant.
## What is not modelled

* `DPSS/*` apart from the thinning of a line, the way beside it, the point looked at and `SegmentMap`, `VisilibityLib`, `Plans/*` apart from the segment test, the visibility graph, the
  ways of turns and what is named above: rounding off of corners (never switched on), paths in wind, geometry of road search, expansion and merging of zones.
* Concrete tasks, except the tracker, the assignment coordinator, the rendezvous, the blockade, the escort, the overwatch, the radio relay, the composition of the cordon and the
  options of the search, loiter, must-fly and watch tasks: what they plan enters the models of `TaskServiceBase` and `DynamicTaskServiceBase` as parameters.
* Route planners other than `RoutePlannerVisibilityService`, `RoutePlannerService` and `OsmPlannerService`, console logging,
  SQLite itself, the parsing of XML.
* The serialisation of LMCP messages (generated code) and all transports below the bridges (what the TCP bridge does with its packets is modelled).
* Floating point arithmetic, memory allocation, data races.

Line citations: a script checked that every `file:lines` citation names a file of /repo and lines it has, and that a function named beside its citation occurs in these lines.  This found drifted line
numbers in the models of DPSS and of the OSM header, which were corrected against the source.  Citations without a function's name were not all read again, so some may still be off by a few lines.
