{"id": "C01", "title": "Addressed message text round trip", "statement": "Build an addressed message from an address and a payload that the setter accepts, take its string form, and give that string to the delimited-string setter of a fresh message: the fresh message is valid and has the same address, the same payload (even if the payload contains the '$' delimiter) and the same string. (The code guarantees this for payloads of two or more bytes; it rejects the string form of a one-byte payload.)", "quantifier": "every address and payload byte string accepted by the setter", "why_tests_cant": "Addresses and payloads are unbounded byte strings; delimiter bytes may occur anywhere in the payload and the boundary lengths are easy to get wrong.", "anchors": ["src/cpp/Communications/AddressedMessage.h:setAddressAndPayload", "src/cpp/Communications/AddressedMessage.h:setAddressAndPayloadFromDelimitedString", "src/cpp/Communications/AddressedMessage.h:parse"]}
{"id": "C02", "title": "Addressed attributed message text round trip", "statement": "A message built from an address, the five attribute fields and a payload, printed with getString and parsed by a fresh message, gives back the same address, the same five attribute fields and the same payload, whenever no attribute field contains one of the two delimiters; the payload may contain any bytes.", "quantifier": "every address, every five attribute fields free of delimiters, every non-empty payload", "why_tests_cant": "Six unbounded strings are concatenated with two delimiters; only a proof covers all placements of delimiter bytes and all empty/non-empty combinations.", "anchors": ["src/cpp/Communications/AddressedAttributedMessage.h:setAddressAttributesAndPayload", "src/cpp/Communications/AddressedAttributedMessage.h:setAddressAttributesAndPayloadFromDelimitedString", "src/cpp/Communications/MessageAttributes.h:setAttributesFromDelimitedString"]}
{"id": "C03", "title": "Accepted wire text is fully accounted for", "statement": "Whenever the parser of addressed attributed messages accepts a string, that string is exactly address + '$' + attributes + '$' + payload for the fields it reports, the attributes text is exactly the five reported fields joined by '|', the address and attribute fields contain no '$', no field contains '|', payload, content type, descriptor, entity id and service id are non-empty. Hence two different accepted strings never produce the same reported message.", "quantifier": "every byte string given to the parser", "why_tests_cant": "The input is arbitrary network data; soundness of a parser is a statement about all strings.", "anchors": ["src/cpp/Communications/AddressedAttributedMessage.h:parse", "src/cpp/Communications/MessageAttributes.h:setAttributesFromDelimitedString"]}
{"id": "C04", "title": "Delimiter in an attribute field cannot be smuggled past the receiver", "statement": "If a sender-side attribute field contains a delimiter, then the string the sender emits is either rejected by the parser or parsed into fields that differ from the ones set: it is never silently accepted as the message that was built. (The setter itself does not reject such fields.)", "quantifier": "every five attribute fields with at least one delimiter byte, every address and payload", "why_tests_cant": "Needs reasoning about all strings with delimiters in all positions.", "anchors": ["src/cpp/Communications/MessageAttributes.h:setAttributes", "src/cpp/Communications/AddressedAttributedMessage.h:parse"]}
{"id": "C05", "title": "Split loses nothing", "statement": "Splitting a string at a delimiter character with the default arguments returns exactly one more piece than there are delimiter characters, no piece contains the delimiter, and joining the pieces with the delimiter gives back the string. With a positive maximum count, the first that many pieces are returned; in append mode the last one is followed by the text of all surplus pieces. (That joining then still gives the string back is false of the code: append mode drops the delimiters of the surplus pieces.)", "quantifier": "every string, every delimiter character, every positive maximum", "why_tests_cant": "Strings are unbounded; boundary behaviour (leading, trailing, repeated delimiters) has infinitely many combinations.", "anchors": ["src/cpp/Utilities/UxAS_StringUtil.h:split"]}
{"id": "C06", "title": "Replace-all and XML escaping of embedded options", "statement": "ReplaceAll with a non-empty pattern terminates and performs the left-most non-overlapping replacement; after the task manager's escaping no '<' or '>' remains in the text; and the service manager's unescaping restores exactly the original text if and only if the original text contained neither '&lt;' nor '&gt;'.", "quantifier": "every string", "why_tests_cant": "Arbitrary XML text is embedded in another message; escaping correctness quantifies over all texts.", "anchors": ["src/cpp/Utilities/UxAS_StringUtil.h:ReplaceAll", "src/cpp/Tasks/TaskManagerService.cpp:processReceivedLmcpMessage", "src/cpp/Services/ServiceManager.cpp:processReceivedLmcpMessage"]}
{"id": "C07", "title": "Framed messages survive arbitrary chunking", "statement": "Concatenate the framed form of any sequence of payloads free of sentinel text and feed the bytes to a serial buffer in chunks of any sizes: draining the buffer after every chunk returns exactly those payloads, in order, each once, and nothing else.", "quantifier": "every finite sequence of sentinel-free non-empty payloads and every way of cutting the byte stream into chunks", "why_tests_cant": "The number of messages and of chunk boundaries is unbounded.", "anchors": ["src/cpp/Utilities/UxAS_SentinelSerialBuffer.cpp:getNextPayloadString", "src/cpp/Utilities/UxAS_SentinelSerialBuffer.cpp:createSentinelizedString"]}
{"id": "C08", "title": "Serial buffer returns only payloads that were framed with matching length and checksum", "statement": "Whatever bytes are received, every non-empty payload the buffer returns appeared contiguously in the received bytes between well-formed sentinels whose decimal length field equals the payload length and whose decimal checksum field equals the payload's checksum.", "quantifier": "every byte stream and every chunking", "why_tests_cant": "The input is arbitrary corrupted serial data.", "anchors": ["src/cpp/Utilities/UxAS_SentinelSerialBuffer.cpp:getNextPayloadString", "src/cpp/Utilities/UxAS_SentinelSerialBuffer.cpp:getDetectSentinelBaseStrings"]}
{"id": "C09", "title": "Serial buffer resynchronises after garbage", "statement": "After any garbage that does not contain the end sentinel, the next well-formed frame is returned intact by the first call that has seen all of it; after any garbage at all it is returned after at most one call per eight bytes of garbage.", "quantifier": "every garbage byte string, every following frame", "why_tests_cant": "Unbounded corrupted inputs.", "anchors": ["src/cpp/Utilities/UxAS_SentinelSerialBuffer.cpp:getNextPayloadString"]}
{"id": "C10", "title": "Publish/subscribe delivery", "statement": "A client receives exactly those messages of the bus, in bus order and each once, whose address starts with one of its subscription strings and that it did not send itself; adding a subscription twice changes nothing; removing it stops delivery unless another subscription is a prefix. (Subscriptions made between the creation of the socket and the start of the thread are lost in the code, and clearing all subscriptions of a started client does not return; both are refutation theorems.)", "quantifier": "every history of subscribe, unsubscribe and publish operations", "why_tests_cant": "Delivery is a property of all histories and schedules.", "anchors": ["src/cpp/Communications/TransportReceiverBase.cpp:addSubscriptionAddress", "src/cpp/Communications/ZeroMqAddressedAttributedMessageReceiver.cpp:getNextMessage"]}
{"id": "C11", "title": "Own messages are never handed back", "statement": "No message whose source entity and service ids are the receiver's own is ever returned by the receive call of a non-stream receiver, whatever else is on the bus; all others are returned in order.", "quantifier": "every sequence of bus messages", "why_tests_cant": "Quantifies over all message interleavings.", "anchors": ["src/cpp/Communications/ZeroMqAddressedAttributedMessageReceiver.cpp:getNextMessage"]}
{"id": "C12", "title": "A unicast message reaches only the addressed service", "statement": "A message sent to the unicast address of service n on entity e is delivered to a service m on the same entity only if m = n. (False of the code: subscriptions are prefixes, so service 1 receives the messages of service 10. What holds: it is delivered to m exactly when the decimal text of m is a prefix of the decimal text of n.)", "quantifier": "every pair of service ids and entity ids", "why_tests_cant": "Ids are unbounded; the prefix collisions only show for particular pairs.", "anchors": ["src/cpp/Communications/LmcpObjectNetworkClientBase.h:getNetworkClientUnicastAddress", "src/cpp/Communications/TransportReceiverBase.cpp:addSubscriptionAddress"]}
{"id": "C13", "title": "Service ids are unique", "statement": "No two network clients alive in one process ever have the same id, whatever the interleaving of constructing clients and reserving ids for services to be created. (False of the code because reserving returns the id the next construction takes; what holds is stated in the theorems.)", "quantifier": "every sequence of client constructions and id reservations", "why_tests_cant": "Quantifies over all interleavings of construction and reservation.", "anchors": ["src/cpp/Communications/LmcpObjectNetworkClientBase.cpp:getUniqueNetworkClientId", "src/cpp/Communications/LmcpObjectNetworkClientBase.cpp:LmcpObjectNetworkClientBase"]}
{"id": "C14", "title": "Bridged messages cannot circulate", "statement": "In any network of entities joined by bridges that check the source entity (SubscribePush, PublishPull, serial, Zyre) and do not relabel what they import, a message that enters an entity through a bridge is never exported again by any bridge of that entity and arrives unchanged: every message crosses at most one bridge, for every schedule. With bridges that relabel (the default of the TCP and serial bridges) the same holds if every entity has only one bridge, and no bridge sends back what it imported. A TCP bridge delivers a message for an address with a configured alias to that alias and all others to their address. (Circulation is possible otherwise: two default serial links between two entities, TCP bridges that do not relabel, forged sources; these are refutation theorems.)", "quantifier": "every network topology, message and schedule", "why_tests_cant": "Topologies and schedules are unbounded; loops need arbitrarily long executions to exhibit.", "anchors": ["src/cpp/Communications/LmcpObjectNetworkSubscribePushBridge.cpp:processReceivedSerializedLmcpMessage", "src/cpp/Communications/LmcpObjectNetworkSubscribePushBridge.cpp:executeExternalSerializedLmcpObjectReceiveProcessing", "src/cpp/Communications/LmcpObjectNetworkSerialBridge.cpp", "src/cpp/Communications/LmcpObjectNetworkTcpBridge.cpp", "src/cpp/Communications/LmcpObjectNetworkZeroMqZyreBridge.cpp"]}
{"id": "C15", "title": "Task relationship algebra offers exactly the legal next actions", "statement": "For every process-algebra expression with distinct actions and every legal history of executed actions, the list of next actions computed is exactly the set of actions that may come next according to the trace semantics of sequential, alternative and parallel composition.", "quantifier": "every expression (any size and nesting) and every legal history", "why_tests_cant": "Expressions are trees of unbounded size; histories are unbounded.", "anchors": ["src/cpp/Utilities/Algebra.cpp:operatorNode::nextActions", "src/cpp/Utilities/Algebra.cpp:actionNode::nextActions", "src/cpp/Utilities/Algebra.cpp:CAlgebra::searchNext"]}
{"id": "C16", "title": "Every schedule offered by the algebra can be completed and only complete schedules are final", "statement": "Following offered actions always terminates, never repeats an action, and when no action is offered the executed history is a complete trace of the expression.", "quantifier": "every expression and every maximal sequence of choices", "why_tests_cant": "Quantifies over all runs of all expressions.", "anchors": ["src/cpp/Utilities/Algebra.cpp:CAlgebra::searchNext", "src/cpp/Services/AssignmentTreeBranchBoundBase.cpp:ExpandNode"]}
{"id": "C17", "title": "Assignments obey the task relationships and vehicle eligibility", "statement": "Any assignment returned by the branch and bound search executes a complete legal trace of the algebra expression and assigns to each objective a vehicle that has a non-negative travel cost to it in the cost matrix.", "quantifier": "every cost matrix, algebra expression and node limit", "why_tests_cant": "Search space is exponential and unbounded.", "anchors": ["src/cpp/Services/AssignmentTreeBranchBoundBase.cpp:calculateAssignment", "src/cpp/Services/AssignmentTreeBranchBoundBase.cpp:ExpandNode", "src/cpp/Services/AssignmentTreeBranchBoundBase.cpp:NodeAssignment"]}
{"id": "C18", "title": "Unlimited search is optimal", "statement": "With a negative node limit the returned assignment has the minimum cost (mini-max) over all complete legal assignments, and one is returned whenever one exists.", "quantifier": "every cost matrix with non-negative task times and every expression", "why_tests_cant": "Optimality quantifies over all assignments.", "anchors": ["src/cpp/Services/AssignmentTreeBranchBoundBase.cpp:ExpandNode", "src/cpp/Services/AssignmentTreeBranchBoundBase.cpp:PruneChildren"]}
{"id": "C19", "title": "Node limit only degrades optimality", "statement": "With any node limit the search still ends, and if it visits a complete assignment it returns one at least as good as every complete assignment it visited.", "quantifier": "every limit, matrix and expression", "why_tests_cant": "Quantifies over all searches.", "anchors": ["src/cpp/Services/AssignmentTreeBranchBoundBase.cpp:ExpandNode"]}
{"id": "C20", "title": "Requests are released one at a time and in order", "statement": "The validator has at most one unique automation request outstanding: after releasing one it releases no other until that one is answered, timed out or rejected; requests whose tasks are ready are released in the order they became ready.", "quantifier": "every sequence of incoming messages and timer expiries", "why_tests_cant": "Quantifies over all message histories and timer schedules.", "anchors": ["src/cpp/Services/AutomationRequestValidatorService.cpp:sendNextRequest", "src/cpp/Services/AutomationRequestValidatorService.cpp:HandleAutomationResponse", "src/cpp/Services/AutomationRequestValidatorService.cpp:OnResponseTimeout"]}
{"id": "C21", "title": "At most one response per request, of the requester's type", "statement": "For every accepted request at most one response is sent, it is of the kind of the request (automation, impact with its play and solution ids, or task with its request id), and responses that match no outstanding request are ignored.", "quantifier": "every history of requests, responses and timeouts", "why_tests_cant": "Quantifies over all histories, including late and duplicated responses.", "anchors": ["src/cpp/Services/AutomationRequestValidatorService.cpp:SendResponse", "src/cpp/Services/AutomationRequestValidatorService.cpp:HandleAutomationResponse"]}
{"id": "C22", "title": "Timeout of task initialisation answers the request that timed out", "statement": "When tasks of a waiting request fail to initialise in time, an error response of that request's kind is sent for it and no other request is affected. (False of the code: the error is sent for the last released request.)", "quantifier": "every history", "why_tests_cant": "The failure needs one request in flight and another waiting.", "anchors": ["src/cpp/Services/AutomationRequestValidatorService.cpp:OnTasksReadyTimeout"]}
{"id": "C23", "title": "Route aggregator answers a route request exactly once, when complete", "statement": "A route response is sent for a route request exactly when the last outstanding plan for it arrives, it contains every plan received for it, and late or duplicated plan responses cause no second answer.", "quantifier": "every interleaving of route requests and route plan responses", "why_tests_cant": "Quantifies over all interleavings of several concurrent requests.", "anchors": ["src/cpp/Services/RouteAggregatorService.cpp:CheckAllRoutePlans", "src/cpp/Services/RouteAggregatorService.cpp:SendRouteResponse", "src/cpp/Services/RouteAggregatorService.cpp:HandleRouteRequest"]}
{"id": "C24", "title": "Cost matrix completeness", "statement": "The cost matrix sent for a request lists, for every vehicle and ordered pair of task options eligible for it, one cost entry, with the cost of the route computed for exactly that pair.", "quantifier": "every set of vehicles, task options and arrival order of plans", "why_tests_cant": "Matrix size is unbounded; arrival orders are factorial.", "anchors": ["src/cpp/Services/RouteAggregatorService.cpp:BuildMatrixRequests", "src/cpp/Services/RouteAggregatorService.cpp:SendMatrix"]}
{"id": "C25", "title": "Plan builder implements assignments one after another and reports once", "statement": "For each unique request with an assignment, implementation requests are sent one at a time in assignment order, and the response is sent once after the last; each vehicle's mission is the concatenation of the waypoints of its task implementations in order.", "quantifier": "every assignment list and every response content", "why_tests_cant": "Unbounded number of tasks and waypoints.", "anchors": ["src/cpp/Services/PlanBuilderService.cpp:processTaskAssignmentSummary", "src/cpp/Services/PlanBuilderService.cpp:sendNextTaskImplementationRequest", "src/cpp/Services/PlanBuilderService.cpp:processTaskImplementationResponse", "src/cpp/Services/PlanBuilderService.cpp:checkNextTaskImplementationRequest"]}
{"id": "C26", "title": "Waypoint plan segmentation covers the mission", "statement": "Cutting a mission command into segments of at most N waypoints with overlap V keeps every waypoint. For 2 <= V and 2V < N the segments are full except the last, consecutive ones share exactly V waypoints, each starts by heading for its second waypoint and each has its own command id; for V <= N-2 nothing is lost and segments still overlap. (For V = N-1 and V = N this is refuted.) A configured overlap below 2 counts as 2. A negative N gives a single segment.", "quantifier": "every waypoint list and every N, V", "why_tests_cant": "List length and parameters are unbounded.", "anchors": ["src/cpp/Services/WaypointPlanManagerService.cpp:isInitializePlan"]}
{"id": "C27", "title": "The vehicle is always served the segment around its waypoint", "statement": "Whenever the send timer expires, the last mission command sent holds the waypoint the vehicle was last known to head for and the waypoint after it; after a new mission it is the first part of that mission. Every command sent is a part of the last mission and sends the vehicle to a waypoint it has reported or past the start. If the vehicle does not go back, no command is sent twice.", "quantifier": "every history of missions, vehicle states and timer expiries", "why_tests_cant": "Quantifies over all missions and state histories.", "anchors": ["src/cpp/Services/WaypointPlanManagerService.cpp:processReceivedLmcpMessage", "src/cpp/Services/WaypointPlanManagerService.cpp:isGetCurrentSegment", "src/cpp/Services/WaypointPlanManagerService.cpp:OnSendNewMissionTimer"]}
{"id": "C28", "title": "At most one live service per task", "statement": "At any time each task id has at most one service created and not yet killed, re-sending a task kills the old service before creating the new one, removing tasks kills exactly their services, and no service is killed twice.", "quantifier": "every history of task definitions and removals", "why_tests_cant": "Quantifies over all histories.", "anchors": ["src/cpp/Tasks/TaskManagerService.cpp:processReceivedLmcpMessage"]}
{"id": "C29", "title": "Service manager bookkeeping", "statement": "A service that was created and has not finished terminating stays registered under its id, removal of terminated services removes exactly the finished ones and reports the exact number still running.", "quantifier": "every history of creations, terminations and sweeps", "why_tests_cant": "Quantifies over all histories.", "anchors": ["src/cpp/Services/ServiceManager.cpp:createService", "src/cpp/Services/ServiceManager.cpp:removeTerminatedServices"]}
{"id": "C30", "title": "A disabled timer does not fire; others are unaffected", "statement": "Provided no timer is started from another thread while its own callback runs, after a request to disable or destroy a timer its callback is not called until it is started again; the result tells whether the callback was running; and provided no two timers are due at the same instant, no other timer is affected and every timer whose time has come fires. Without either proviso this is false of the code.", "quantifier": "every history of timer operations and clock readings", "why_tests_cant": "Quantifies over all schedules and equal expiry times.", "anchors": ["src/cpp/Utilities/UxAS_TimerManager.cpp:disableOrDestroyExistingTimerImpl", "src/cpp/Utilities/UxAS_TimerManager.cpp:startTimerImpl", "src/cpp/Utilities/UxAS_TimerManager.cpp:executeManagement"]}
{"id": "C31", "title": "Timers fire in order and never early", "statement": "No callback runs before its expiry, callbacks run in expiry order, a single-shot timer fires at most once per start and a periodic timer fires at start+delay+k*period.", "quantifier": "every history of timer operations and clock readings", "why_tests_cant": "Quantifies over all schedules.", "anchors": ["src/cpp/Utilities/UxAS_TimerManager.cpp:executeManagement"]}
{"id": "C32", "title": "A client hands over every message until it is stopped, and then ends with its subclass", "statement": "Until a client is stopped by its own KillService or by its subclass, each received message not meant for the base class is handed to the subclass exactly once, even if the subclass throws (a serialized client ends then); once stopped it hands over nothing, asks the subclass to terminate until it agrees, and then ends; it gives up only in the window between an abort duration and a larger warning duration. (With the default durations it never gives up, so the expectation that a client which refuses to terminate is abandoned is false.)", "quantifier": "every sequence of messages, subclass answers and durations", "why_tests_cant": "Quantifies over unbounded executions.", "anchors": ["src/cpp/Communications/LmcpObjectNetworkClientBase.cpp:executeNetworkClient", "src/cpp/Communications/LmcpObjectNetworkClientBase.cpp:executeSerializedNetworkClient"]}
{"id": "C33", "title": "Task active and complete notices alternate", "statement": "For each task service and vehicle, between reassignments 'task active' and 'task complete' notices strictly alternate, starting with 'active', and are sent only for assigned vehicles.", "quantifier": "every sequence of entity states and automation responses", "why_tests_cant": "Quantifies over all message histories.", "anchors": ["src/cpp/Tasks/TaskServiceBase.cpp:processReceivedLmcpMessage"]}
{"id": "C34", "title": "Task implementation waypoints are numbered consecutively and linked", "statement": "Every implementation a task service sends answers an implementation request for that task, repeats its numbers, and its waypoints are numbered consecutively from the requested starting number, each pointing to the next. When the routes asked for arrive, the waypoints are exactly those of the prepared routes and the received routes in route order, where of consecutive waypoints at the same place only the last is kept; the tasks of a waypoint tell whether it is on the task. A route request leads to at most one implementation.", "quantifier": "every history of requests and responses, every set of route plans", "why_tests_cant": "Unbounded routes and histories.", "anchors": ["src/cpp/Tasks/TaskServiceBase.cpp:processImplementationRoutePlanResponseBase", "src/cpp/Tasks/TaskServiceBase.cpp:buildAndSendImplementationRouteRequestBase"]}
{"id": "C35", "title": "Enumeration of permutations and combinations is complete and without repetition", "statement": "for_each_permutation invokes the callback exactly once for every ordered selection of r elements out of n, for_each_combination once for every selection in the order of the range, for_each_circular_permutation once for every arrangement on a circle; the input range is restored at the end. If the callback returns true the enumeration stops at once and no element is lost.", "quantifier": "every n, r", "why_tests_cant": "n and r are unbounded.", "anchors": ["src/cpp/Utilities/Permute.h:for_each_permutation", "src/cpp/Utilities/Permute.h:for_each_combination"]}
{"id": "C36", "title": "Counting functions are exact or report overflow", "statement": "The counting functions return exactly n!/(n-r)!, n!/(r!(n-r)!) and the numbers of circular, reversible and reversible circular permutations when representable in the unsigned type and throw otherwise; they never return a wrong number, and the number is that of the callbacks of the enumeration.", "quantifier": "every pair of machine integers", "why_tests_cant": "Machine integer overflow boundaries cannot be exhaustively tested.", "anchors": ["src/cpp/Utilities/Permute.h:count_each_combination", "src/cpp/Utilities/Permute.h:count_each_permutation", "src/cpp/Utilities/Permute.h:gcd"]}
{"id": "C37", "title": "Operating region is the set of live zones", "statement": "After any history of zone definitions and removals the published region lists each keep-in/keep-out zone that was added and not later removed, exactly once, and nothing else.", "quantifier": "every history of zone messages", "why_tests_cant": "Quantifies over all histories.", "anchors": ["src/cpp/Services/OperatingRegionStateService.cpp:processReceivedLmcpMessage"]}
{"id": "C38", "title": "Batch summary request is answered exactly once", "statement": "A batch summary request is split into one planning request per (vehicle, task) or (vehicle, ordered task pair); exactly one summary is sent, when the last of them is answered; all internal ids are distinct. The summary has one line per vehicle, task and preceding task, which holds the waypoints and times of the matching legs of the planned missions.", "quantifier": "every interleaving of requests and responses", "why_tests_cant": "Quantifies over all interleavings.", "anchors": ["src/cpp/Services/BatchSummaryService.cpp:HandleBatchSummaryRequest", "src/cpp/Services/BatchSummaryService.cpp:HandleTaskAutomationResponse"]}
{"id": "C39", "title": "Coordinated request is forwarded when all entities reported", "statement": "A coordinated request is forwarded at the very report or request that makes the planning states of all its entities known, with its own entities and content and exactly the known planning states; otherwise it is forwarded at the first look at the clock past its deadline with whatever is known. If no report about it arrives after it was forwarded or answered it is forwarded at most once, and exactly once after its deadline when nobody answered it.", "quantifier": "every interleaving of requests, reports and timeouts", "why_tests_cant": "Quantifies over all interleavings.", "anchors": ["src/cpp/Tasks/AssignmentCoordinatorTaskService.cpp:CheckAssignmentReady", "src/cpp/Tasks/AssignmentCoordinatorTaskService.cpp:CheckForAssignmentTimeMax"]}
{"id": "C40", "title": "Scheduled messages are sent the configured number of times", "statement": "Each configured message is sent exactly its configured number of times, never before its time, and the loop ends once all are sent.", "quantifier": "every configuration and clock history", "why_tests_cant": "Quantifies over all clock readings.", "anchors": ["src/cpp/Services/SendMessagesService.cpp:sendMessages"]}
{"id": "C41", "title": "Serialised request test service keeps order and never overlaps", "statement": "Requests are forwarded in arrival order, each exactly once, and a second one is forwarded only after a response or timeout of the previous.", "quantifier": "every history", "why_tests_cant": "Quantifies over all histories.", "anchors": ["src/cpp/Services/SerialAutomationRequestTestService.cpp:processReceivedLmcpMessage"]}
{"id": "C42", "title": "Option ids survive packing", "statement": "Task and option ids packed into one number by the assignment service are recovered exactly, and distinct pairs get distinct numbers, for option ids between 0 and 99999.", "quantifier": "every task id and option id in range", "why_tests_cant": "Unbounded ids.", "anchors": ["src/cpp/Services/AssignmentTreeBranchBoundBase.h:getTaskAndOptionId"]}
{"id": "C43", "title": "A message object stays consistent over any history of operations", "statement": "After any sequence of successful set, parse, update-attributes and update-address operations on an attributed message, if the object says it is valid, the serialised string it hands out is the one built from the address, attributes and payload its getters report, and its mandatory fields are not empty.", "quantifier": "every history of operations on a message object", "why_tests_cant": "The object caches its serialised form; staleness shows only after particular operation orders.", "anchors": ["src/cpp/Communications/AddressedAttributedMessage.h:setAddressAttributesAndPayload", "src/cpp/Communications/AddressedAttributedMessage.h:updateSourceAttributes", "src/cpp/Communications/AddressedAttributedMessage.h:updateAddress"]}
{"id": "C44", "title": "Shuffling the algebra tree changes nothing observable", "statement": "Randomly reordering the children of the operators of a task relationship never changes which actions are offered after any history (up to their order) nor which executions are complete, whatever the random generator returns.", "quantifier": "every expression, every outcome of the random generator, every history", "why_tests_cant": "There are factorially many shuffles of every operator and unboundedly many expressions.", "anchors": ["src/cpp/Utilities/Algebra.cpp:randomlyShuffleChildren", "src/cpp/Utilities/Algebra.h"]}
{"id": "C45", "title": "Task relationship and composition strings are interpreted as written", "statement": "For relationship and composition texts that follow the notation, the expression used for planning is the written relationship with each task replaced by its written composition, every option named by its packed id; without a relationship all compositions are in parallel. A sign before the id of an action counts.", "quantifier": "every expression nesting, every spacing, every number of tasks and ids", "why_tests_cant": "Unbounded nesting, spacing and numbers of operands.", "anchors": ["src/cpp/Utilities/Algebra.cpp:parseFormula", "src/cpp/Services/AssignmentTreeBranchBoundBase.cpp:isInitializeAlgebra"]}
{"id": "C46", "title": "Only complete requests reach the planning services", "statement": "A request is refused at once, with one error reply of its kind, exactly when a vehicle it names lacks a configuration or a state, its operating region or one of the region's zones is unknown, or one of its tasks (or the area, line or point the task needs) is unknown; a request that is passed on to the planning services was complete on arrival and all its tasks reported initialisation before it was passed on.", "quantifier": "every history of messages and timer expiries, every request", "why_tests_cant": "Ranges over all histories of definitions, removals and requests.", "anchors": ["src/cpp/Services/AutomationRequestValidatorService.cpp:isCheckAutomationRequestRequirements", "src/cpp/Services/AutomationRequestValidatorService.cpp:checkTasksInitialized"]}
{"id": "C47", "title": "Batch summaries judge range and zones by the latest reports", "statement": "In a summary sent when the last answer arrives, a vehicle's way is said to be within communication range exactly when, by the latest reports, some tower reaches the vehicle, all its waypoints and the far side of all its loiters (or the vehicle or the tower's range is unknown); a way is marked as conflicting with a keep-out zone whenever one of its loiters meets a zone as last reported, and only if one met a zone that had been reported.", "quantifier": "every history of reports, requests and answers", "why_tests_cant": "Ranges over all orders in which reports, requests and answers arrive.", "anchors": ["src/cpp/Services/BatchSummaryService.cpp:UpdateVehicleSummary", "src/cpp/Services/BatchSummaryService.cpp:HandleTaskAutomationResponse"]}
{"id": "C48", "title": "Options of a planned task are published once, when all routes are known", "statement": "When a task service that plans routes for its options first is given the lanes to fly, it asks for the costs of the lanes of every option, one request with its own number per option. Its options are published exactly once, on the first response which leaves none of the requests unanswered; each published option carries the sum of the costs of its routes, starts at its first lane and ends at its last.", "quantifier": "every history of messages in between, every number of options and lanes, every order of responses", "why_tests_cant": "Orders of responses and numbers of options are unbounded.", "anchors": ["src/cpp/Tasks/TaskServiceBase.cpp:processOptionsRoutePlanResponseBase", "src/cpp/Tasks/CmasiAreaSearchTaskService.cpp:processRecievedLmcpMessageTask", "src/cpp/Tasks/TaskServiceBase.cpp:getOptionRouteId"]}
{"id": "C49", "title": "An interrupted task is resumed where it was left", "statement": "When a vehicle that was working on a task is interrupted and a new automation request allows to continue rather than to redo the task, the service answers at once with one option, for this vehicle only, that starts at the waypoint before the one the vehicle was flying to and ends where the route ends. The implementation of this option asks for a way to that waypoint and consists of the way followed by the remaining waypoints.", "quantifier": "every history before, in between and after, every plan and every waypoint of the route except the first", "why_tests_cant": "The waypoint at which a vehicle is interrupted and the messages around are arbitrary.", "anchors": ["src/cpp/Tasks/TaskServiceBase.cpp:processReceivedLmcpMessage (UniqueAutomationRequest)", "src/cpp/Tasks/TaskServiceBase.cpp:processImplementationRoutePlanResponseBase"]}
{"id": "C50", "title": "Tracked tasks are reported complete when they are left", "statement": "The task tracker reports a task complete for a vehicle exactly when the task is one that ends and the vehicle, which was last reported flying to a waypoint of the task, is now reported flying to a waypoint of its mission that does not belong to the task, or when it first reports the end of its mission and the task is the last one of it. Within a mission a task is reported again only after the vehicle reported one of its waypoints again, or on arrival.", "quantifier": "every history of task announcements, missions and vehicle reports, every iteration order", "why_tests_cant": "Histories and orders are unbounded.", "anchors": ["src/cpp/Tasks/TaskTrackerService.cpp:HandleVehicleState", "src/cpp/Tasks/TaskTrackerService.cpp:HandleMissionCommand"]}
{"id": "C51", "title": "A safe heading becomes a loiter only over a free way", "statement": "A heading command for the configured vehicle, once its position and configuration are known, asks for a route straight ahead under a new number. The loiter ahead of the vehicle is sent if and only if the response to the latest such request has a direct route, at most once per command, with the values of the command.", "quantifier": "every history of states, configurations, route responses and commands, every geometry", "why_tests_cant": "Responses may be late, repeated, or belong to replaced commands.", "anchors": ["src/cpp/Services/LoiterLeash.cpp:processReceivedLmcpMessage"]}
{"id": "C52", "title": "A bridge serves exactly the peers that are connected", "statement": "The bridge to peer hosts listens on the local network exactly to the addresses it is configured for and those that connected peers of other entities asked for when they entered (apart from its own addresses). A message of the own entity, other than one for an address kept back, is sent once to every connected peer that asked for a beginning of its address and to nobody else; messages of other entities are never passed on. The entering of a peer of another entity is announced with its id and label, the leaving of a connected peer with the id and label it was last introduced with, and nothing else is announced.", "quantifier": "every sequence of peers entering (also repeatedly) and leaving and of local messages, with readable entity ids", "why_tests_cant": "depends on all peers that entered and left before, in any interleaving with messages, and on the iteration order of a hash table", "anchors": ["src/cpp/Communications/LmcpObjectNetworkZeroMqZyreBridge.cpp: zyreEnterMessageHandler, zyreExitMessageHandler, processReceivedSerializedLmcpMessage", "src/cpp/Communications/ZeroMqZyreBridge.cpp: executeZyreEventProcessing"]}
{"id": "C53", "title": "Two segments are found to cross exactly when they do", "statement": "The test used by the route planner says that two segments of the plane cross exactly when they are not parallel and have a point in common, whichever is named first.", "quantifier": "all positions of the four ends, touching and degenerate segments included", "why_tests_cant": "ranges over all pairs of segments of the plane", "anchors": ["src/cpp/Plans/Edge.cpp:CEdge::bFindIntersection"]}
{"id": "C54", "title": "The way around zones is a shortest one", "statement": "Between two positions of which one sees the other the planner goes straight. Otherwise, if a corner is in sight of each and these are connected, the reported way starts and ends at the two positions, every leg is an edge of the graph or a sight line, and it is as short as every other such way.", "quantifier": "every set of zones, every pair of positions", "why_tests_cant": "sets of zones, corners and possible ways are unbounded", "anchors": ["src/cpp/Plans/VisibilityGraph.cpp:errFindShortestPathLinear, isFindPath"]}
{"id": "C55", "title": "Legs between corners run along sides or are in sight", "statement": "Two corners are joined by a leg exactly when they are neighbours on the boundary of a zone (on that of a keep-out zone only if both and the middle lie on the same side of every keep-in zone), or belong to two zones and see each other (with the middle inside the first one if that is to be kept in), or are not neighbours but belong to one zone that is not convex, see each other and have the middle on its free side. Its length is their distance. So every leg between corners is a side of a zone or a line of sight that no other side crosses.", "quantifier": "every set of zones, every pair of corners", "why_tests_cant": "every pair of corners has to be compared with every side of every zone", "anchors": ["src/cpp/Plans/VisibilityGraph.cpp:errBuildVisibilityGraph", "src/cpp/Plans/Polygon.cpp:errFindSelfVisibleEdges, errFindVisibleEdges, errAddExtraVisibleEdges"]}
{"id": "C56", "title": "Requests for route plans are answered with what was last told", "statement": "A request for route plans is answered once, to its sender, exactly when the vehicle it names was last configured as an air or surface vehicle and its region has a graph; the answer repeats the ids of the request and has, in order, one plan per route with the time the vehicle needs at its nominal speed for the length found, and waypoints unless only costs are asked. The graph is that of the last description of the region all whose zones were known when it came, with the zones as last told then.", "quantifier": "every history of vehicle, zone, region and request messages", "why_tests_cant": "histories, regions and zones are unbounded", "anchors": ["src/cpp/Services/RoutePlannerVisibilityService.cpp:bProcessOperatingRegion, bProcessRoutePlanRequest"]}
{"id": "C57", "title": "Vehicles on a task are sent after its moving target", "statement": "When a vehicle on the task reports itself, a route is asked for exactly when the pause since the last attended report is over, a ground vehicle has reached the end of its last route, the target is at least the threshold away from where the vehicle was last sent and, moved out of the first keep-out zone it meets, at least the threshold away from the vehicle. Two requests for a vehicle are at least the pause apart. A route that comes back becomes a mission for the vehicle with the task, the ordered speed and altitude on all waypoints, stare actions on the first and a loiter around the target on the last. Options are offered for the known vehicles, one each.", "quantifier": "every history of reports, configurations, zones, regions, plans and routes, every geometry", "why_tests_cant": "histories, vehicles and times of the reports are unbounded", "anchors": ["src/cpp/Tasks/DynamicTaskServiceBase.cpp:activeEntityState, processReceivedLmcpMessageTask, buildTaskPlanOptions, AttemptMoveOutsideKoz"]}
{"id": "C58", "title": "A cordon allows exactly the ways of posting vehicles at exits", "statement": "When the exits of the place are found after a request, one option per eligible vehicle and exit is published, with ids of their own. If the vehicles of the request are eligible and earlier requests had the same eligible vehicles, the complete orders of actions that the published composition allows are exactly the postings of distinct vehicles at distinct exits, as many as possible, and the search of the assignment service builds only postings.", "quantifier": "every history of requests, responses and exits found, any number of vehicles and exits", "why_tests_cant": "vehicles, exits and their permutations are unbounded in number", "anchors": ["src/cpp/Tasks/CordonTaskService.cpp:processReceivedLmcpMessageTask, buildTaskPlanOptions, calculateOption, isCalculateOption", "src/cpp/Utilities/Permute.h:for_each_permutation"]}
{"id": "C59", "title": "Search, loiter and watch tasks offer a choice of options that fits the task", "statement": "The options a search task publishes have ascending numbers from 10 and cover, in order, every view direction of the wanted wedge and every group of vehicles with the same speed and altitude (forwards and backwards for lines), with the vehicles of the group. The published composition lets the assignment do exactly one of them. The groups are of the vehicles that the task admits, the request names and that were configured before, by speed and altitude. Point searches from a distance cost the time to cover it. Watch and blockade tasks have one option per vehicle, all to be done in turn, once the target is known.", "quantifier": "every history of configurations and requests, every set of groups, wedge and distance", "why_tests_cant": "groups, vehicles, wedges and histories are unbounded", "anchors": ["src/cpp/Tasks/TaskServiceBase.cpp:processReceivedLmcpMessage", "src/cpp/Tasks/CmasiLineSearchTaskService.cpp:buildTaskPlanOptions", "src/cpp/Tasks/ImpactLineSearchTaskService.cpp:buildTaskPlanOptions", "src/cpp/Tasks/CmasiAreaSearchTaskService.cpp:buildTaskPlanOptions", "src/cpp/Tasks/AngledAreaSearchTaskService.cpp:buildTaskPlanOptions", "src/cpp/Tasks/PatternSearchTaskService.cpp:buildTaskPlanOptions", "src/cpp/Tasks/CmasiPointSearchTaskService.cpp:buildTaskPlanOptions", "src/cpp/Tasks/ImpactPointSearchTaskService.cpp:buildTaskPlanOptions", "src/cpp/Tasks/LoiterTaskService.cpp:buildTaskPlanOptions", "src/cpp/Tasks/MustFlyTaskService.cpp:buildTaskPlanOptions", "src/cpp/Tasks/BlockadeTaskService.cpp:buildTaskPlanOptions", "src/cpp/Tasks/MultiVehicleWatchTaskService.cpp:buildTaskPlanOptions"]}
{"id": "C60", "title": "The road search finds a way exactly if there is one, and a shortest one if the guess is exact enough", "statement": "The search over the road graph always ends. It finds a way from one junction to another exactly if the graph has one; the way that is reported starts and ends there, passes no junction twice, and follows edges. If along every edge the guessed distance drops by no more than the length of the edge the way is a shortest one and has the reported length; if it may drop by some slack more, the way is at most that slack per edge longer than any other.", "quantifier": "every graph with lengths that are not negative, every guess, every order in which equally good junctions are taken, both variants of the library", "why_tests_cant": "ranges over all graphs and heuristics", "anchors": ["src/cpp/Services/OsmPlannerService.cpp:isFindShortestRoute", "src/cpp/Services/OsmPlannerService.h:euclidean_distance_heuristic, astar_goal_visitor"]}
{"id": "C61", "title": "The road map has the junctions and sections of the file", "statement": "The map that is built from a file has as planning nodes exactly the junctions: nodes at the end of a road or passed more than once. For every two junctions that follow each other on a road, and no others, the nodes of the road between them and their length are recorded in both directions, and the graph has an edge; two junctions are connected in the graph exactly if one can drive from one to the other. The length of an edge is at least that of the road between its junctions, in whole metres.", "quantifier": "every file of roads and nodes, every distance, both orders in which the nodes of a road are kept", "why_tests_cant": "ranges over all road networks", "anchors": ["src/cpp/Services/OsmPlannerService.cpp:isBuildRoadGraphWithOsm, isBuildGraph"]}
{"id": "C62", "title": "The ground planner finds a way exactly if one can drive there, and nearly a shortest one", "statement": "Between two junctions of the road file a way is found exactly if one can drive from one to the other, provided the first has a road leading from it. The way goes over sections of roads from the one to the other and passes no junction twice. Its length is less than the reported metres plus one for each section, and, if the edges have the lengths of their sections, at most that of any other way plus one metre for each section of both.", "quantifier": "every file of roads, every metric, every order in which equally good junctions are taken", "why_tests_cant": "ranges over all road networks and pairs of junctions", "anchors": ["src/cpp/Services/OsmPlannerService.cpp:isFindShortestRoute, isBuildRoadGraphWithOsm, isBuildGraph", "src/cpp/Services/OsmPlannerService.h:euclidean_distance_heuristic"]}
{"id": "C63", "title": "The ground planner takes a closest node", "statement": "The node taken for a position is a closest one of those in a square of cells around it, which reaches at least one and at most ten cells in all directions. If a node is at most 1 km away one is found; if the one found is at most 100 m away it is a closest one of all.", "quantifier": "every set of nodes, every position, every order of the nodes in a cell", "why_tests_cant": "ranges over all maps and positions", "anchors": ["src/cpp/Services/OsmPlannerService.cpp:isFindClosestNodeId, isExamineCellsInSquare, isExamineCell"]}
{"id": "C64", "title": "Route plans of the ground planner follow the roads", "statement": "A request for route plans is answered once, to its sender, exactly if a ground vehicle of that id has been configured; the answer repeats its ids and has one plan per route in order. A plan has a cost unless no junction is near one end or one cannot drive from one to the other. Its waypoints are numbered from 1, each naming the next and the last itself; they lead from the start to a junction closest to it, from node to neighbouring node along roads, and from a junction closest to the end to the end.", "quantifier": "every history of configurations and requests, every road file, every metric", "why_tests_cant": "ranges over all histories and maps", "anchors": ["src/cpp/Services/OsmPlannerService.cpp:processReceivedLmcpMessage, bProcessRoutePlanRequest"]}
{"id": "C65", "title": "Roads leaving a circle", "statement": "A request for egress routes is always answered, once and to its sender, with its id and one heading per place. Each place is a road node on or outside the circle with a neighbouring node on or inside it, and none is given twice. Every such node on a section with a junction in the square around the circle is given, unless another road joins the same junctions.", "quantifier": "every road file, centre and radius, every iteration order of the tables", "why_tests_cant": "ranges over all maps and circles", "anchors": ["src/cpp/Services/OsmPlannerService.cpp:bProcessEgressRequest, findRoadIntersectionsOfCircle"]}
{"id": "C66", "title": "Lines along roads", "statement": "A request for road points gets an answer with its id to its sender, or none at all if some place has no road near it or an item starts on a closed section. The answer has, in the order of the items, a line for each item between whose closest nodes one can drive. A line goes from node to neighbouring node along roads, starts at the node closest to the start or the node before it, and has the node closest to the end. A long line leads over the cheapest ends of the two sections.", "quantifier": "every list of items, every road file, every iteration order of the tables", "why_tests_cant": "ranges over all requests and maps", "anchors": ["src/cpp/Services/OsmPlannerService.cpp:isProcessRoadPointsRequest, isGetRoadPoints, isGetNodesOnSegment"]}
{"id": "C67", "title": "A steered vehicle is flown along its mission in order", "statement": "After a mission for its vehicle has come, the waypoints that the steering service reports are reached one after the other along the next-waypoint numbers, from the first waypoint on; a waypoint is left exactly when it is passed: its line is crossed, its leg is at most a metre long, it is within the acceptance distance of a short turn, or the time of its loiter is over. Each report of the vehicle is passed on with the current waypoint and its tasks, after one command with the altitude of that waypoint and the speed last ordered, or its own, unless a flight director action has been seen since the mission came. A mission of a single waypoint has ended from the start. Once the mission has ended the waypoint stays the same until the next mission. Before the vehicle is configured, safe headings have a turn radius of 250 m and a lead of 1000 m. The operating region of safe headings is the one configured or that of the last request answered with a mission for the vehicle.", "quantifier": "every history of missions, reports, configurations, requests, responses and overrides; every conversion of places", "why_tests_cant": "ranges over all missions and flights", "anchors": ["src/cpp/Services/SteeringService.cpp:processReceivedLmcpMessage, reset, CheckLineAcceptance, CheckOrbitAcceptance, CheckProximity"]}
{"id": "C68", "title": "Commanded headings lead onto the leg or the loiter", "statement": "The heading commanded on a leg leads the vehicle forward along the leg, and towards it if it is beside it; on the leg it is that of the leg. The heading commanded for a loiter leads around its centre in the given direction, inward outside of the circle, outward inside, and along the tangent on it. A vehicle that flies as commanded never gets farther from the leg, or the circle, and in time as close to it as one likes. Headings are at least -180 and less than 180 degrees.", "quantifier": "every leg, position, circle, gain and flight, in real numbers", "why_tests_cant": "ranges over a continuum of positions and all trajectories", "anchors": ["src/cpp/Services/SteeringService.cpp:processReceivedLmcpMessage"]}
{"id": "C69", "title": "Which zones count for a vehicle in an operating region", "statement": "The route planner that keeps a polygon map per operating region and vehicle has, at every moment, exactly one map (or none) for each of them, fixed by the history of messages: a rim (the largest shrunk keep-in zone or, if the region lists none, a frame 50 km around all keep-out zones) that runs counterclockwise and holes for the widened keep-out zones that run clockwise, made of those listed zones that are known, affect the vehicle and have an outline. For a region told after its zones and left alone since, an air vehicle has the map of the zones as last told, whenever it was first heard of.", "quantifier": "every history of zones, regions, vehicles, water areas and requests; every way of merging, shifting and checking polygons", "why_tests_cant": "ranges over all orders of messages", "anchors": ["src/cpp/Services/RoutePlannerService.cpp:processReceivedLmcpMessage, BuildVisibilityRegion, UpdateRegions, BuildVehicleSpecificRegion"]}
{"id": "C70", "title": "Every route plan request for a known vehicle is answered", "statement": "A request for an air or surface vehicle that has been told of is answered to its sender, once, with the ids of the request and one plan per route in order; no other message is answered and requests change nothing. The plan of a route leads along the way found in the map of the region from the given start (or the place of the vehicle) to the given end at the speed and altitude of the vehicle, with waypoints numbered from 1, each followed by the next and the last by itself; without a map it is the straight line; the cost is the whole number of milliseconds the way takes. A plan has neither cost nor waypoints exactly if the vehicle has no usable speed or place or a place is not in the map.", "quantifier": "every history and request", "why_tests_cant": "ranges over all histories and requests", "anchors": ["src/cpp/Services/RoutePlannerService.cpp:processReceivedLmcpMessage, HandleRoutePlanRequestMsg"]}
{"id": "C71", "title": "Footprint requests are answered with the closest sensor settings", "statement": "Each message with sensor footprint requests is answered once, with its id, by the footprints of its requests in order: for each vehicle whose configuration is known one footprint per choice of wavelength, ground sample distance, altitude and elevation, with the ids of request and vehicle; empty lists stand for any wavelength, the largest distance and the nominal altitude. A footprint is that of the first setting (gimbal, angle, camera, field of view) of the vehicle whose ground sample distance is closest to what is asked for; it is empty exactly if there is no setting or the altitude is below 10 m. An angle that is left open is chosen within the limits of the gimbal.", "quantifier": "every history of configurations and requests, every set of gimbals and cameras", "why_tests_cant": "ranges over all configurations and requests", "anchors": ["src/cpp/Services/SensorManagerService.cpp:processReceivedLmcpMessage, ProcessSensorFootprintRequests, FindSensorFootPrint"]}
{"id": "C72", "title": "The edges of a footprint are those of the ground that is seen", "statement": "The center of a footprint is where the camera points to, at the reported distance, and its width is what the camera sees from left to right there. If the field of view is below the horizon, the ground between trailing and leading edge is exactly the ground that is seen, and the center is between them.", "quantifier": "every altitude, angle, field of view and aspect ratio, in real numbers", "why_tests_cant": "ranges over a continuum", "anchors": ["src/cpp/Services/SensorManagerService.cpp:CalculateSensorFootprint"]}
{"id": "C73", "title": "Positions in meters belong to positions in degrees", "statement": "A flat-earth converter has the first point given by any call as its origin for good. Meters north and east are the differences to it, scaled with the radii of curvature of an ellipsoid there. Between the poles, positions in radians come back exactly, positions in degrees and feet up to the error of the constants; distances are those of a plane.", "quantifier": "every sequence of calls and every position, in real numbers", "why_tests_cant": "ranges over a continuum of positions and all histories of calls", "anchors": ["src/cpp/Utilities/FlatEarth.cpp:Initialize, ConvertLatLong_degToNorthEast_m, ConvertNorthEast_mToLatLong_deg, dGetLinearDistance_m_Lat1Long1_deg_To_Lat2Long2_deg", "src/cpp/Utilities/UnitConversions.cpp:CUnitConversions"]}
{"id": "C74", "title": "A manoeuvre that extends a segment can be flown and has the length asked for", "statement": "For a turn radius above 0, a length to add that is not negative and two different points, the legs of the extension can be flown one after the other with turns of that radius, start at the first point towards the second, end on the line between them in the same direction, stay within two radii of the required part of the segment, and are longer than the way they stand for by the length asked for, up to a five millionth of the radius. The waypoints they are cut into are on this way, in even steps.", "quantifier": "every radius, length and pair of points, in real numbers", "why_tests_cant": "ranges over a continuum; the length is found by bisection", "anchors": ["src/cpp/Utilities/RouteExtension.cpp:ExtendSegment, RequiredSegmentLength, BuildRaceTrack, DiscretizeExtension"]}
{"id": "C75", "title": "Routes are extended on their longest segment and nowhere else changed", "statement": "Extending a route by a time either leaves it as it is, exactly if it has no speed or no segment is long enough, or puts a manoeuvre into the middle of the longest segment that is long enough for it. Waypoints before stay as they are, those behind stay where they are and get consecutive numbers. The manoeuvre can be flown, is back on the segment before its end and takes the time asked for at the speed of the segment. A chain of waypoints stays a chain, and numbers that go up still go up.", "quantifier": "every route, time, turn radius and distance of waypoints", "why_tests_cant": "ranges over all routes, of any length", "anchors": ["src/cpp/Utilities/RouteExtension.cpp:ExtendPath"]}
{"id": "C76", "title": "A rendezvous offers ways of meeting, all of them or 64", "statement": "A request for a rendezvous is answered with one option for every vehicle at every place that is for it, numbered from 10, or with none. If every vehicle that has places has as many as vehicles are to meet, and enough vehicles have places, the published composition allows only ways of meeting: as many different vehicles as are to meet, of which one goes to its first place, one to its second and so on; no way twice; and either all ways or 64. If every vehicle has one place and all are to meet, it allows exactly that all of them do. If a vehicle has several places, but not as many as are to meet, nothing is offered.", "quantifier": "every set of vehicles and places, every number of participants, every order of the hash table", "why_tests_cant": "vehicles and places, and the combinations of them, are unbounded", "anchors": ["src/cpp/Tasks/RendezvousTask.cpp:buildTaskPlanOptions"]}
{"id": "C77", "title": "A rendezvous is set for the latest arrival", "statement": "Until a request is answered, the start time that a rendezvous counts with for a vehicle is the last one that was told before it was asked to carry out the rendezvous: by a request to carry out a task or by the response to one for another task. If none was told it is that of the first request to any vehicle after the assignment. The time to meet exists exactly if an assignment, costs and a start time are known, and it is the latest arrival of the vehicles: start time plus the time from the task before, as given by the costs for the options that are assigned. The vehicle named as latest is one that arrives then.", "quantifier": "every history of assignments, costs, requests and responses, every order of the hash table", "why_tests_cant": "histories are unbounded and interleave the messages of several services", "anchors": ["src/cpp/Tasks/RendezvousTask.cpp:processReceivedLmcpMessageTask, updateStartTimes, isProcessTaskImplementationRouteResponse"]}
{"id": "C78", "title": "Vehicles with time to lose get a longer route to a rendezvous", "statement": "Unless a vehicle is the latest, has at most a second to lose or may lose time by flying slower, its route is made longer: one segment is left for turns of its radius and straight legs that come back to it, so that at planned speed it is at the end less than a millisecond after the time to meet, and before it by no more than the tolerance of the bisection. If no segment is long enough for this, the route is longer by a full circle and a second, or stays as it is if none is long enough for that either. A route with no or one waypoint is first one from where the vehicle is. The result is undefined exactly if the planned speed is 0.", "quantifier": "every route, vehicle and time, in real numbers", "why_tests_cant": "ranges over a continuum of routes and speeds", "anchors": ["src/cpp/Tasks/RendezvousTask.cpp:isProcessTaskImplementationRouteResponse", "src/cpp/Utilities/RouteExtension.cpp:ExtendPath"]}
{"id": "C79", "title": "The vehicles of a rendezvous are told speeds to arrive together", "statement": "When a vehicle at the rendezvous reports its state it is sent one speed, and nothing if it is no air vehicle or has no nominal speed. The speed is within the limits of the vehicle. It is the one to cover what is left of its route for the task by the time to meet, moved further from the nominal speed by twice the difference. The time to meet is the mean of the times at which this vehicle and the neighbours would arrive at nominal speeds, within the times possible for all. A neighbour counts if it reported less than five seconds ago and is more than a second away. If some time is possible for all, the vehicle that would be last is not made slower, and the one that would be first is not made faster but for 0.3 percent of rounding. Without neighbours that count the speed is the nominal one but for this rounding.", "quantifier": "every history of configurations, missions and reports, every order of the hash table, in real numbers", "why_tests_cant": "ranges over a continuum of positions and speeds and unbounded histories", "anchors": ["src/cpp/Tasks/RendezvousTask.cpp:SpeedClip, activeEntityState, ArrivalDistance, FindWaypointIndex"]}
{"id": "C80", "title": "The simple plan manager sends the vehicle its mission", "statement": "Every automation response with a mission for the vehicle is followed by exactly one mission command: the first mission for it. It is unchanged unless it has exactly one waypoint. In that case a second one is added, two turn radii behind the first as seen from where the vehicle last was, or to its north if that is not known. The turn radius is that of the last known nominal speed and bank angle. It is 0 only for a vehicle without speed. Nothing else is sent.", "quantifier": "every history of configurations, states and responses, every use of the converter by other services, in real numbers", "why_tests_cant": "ranges over a continuum of positions and unbounded histories", "anchors": ["src/cpp/Services/SimpleWaypointPlanManagerService.cpp:processReceivedLmcpMessage, handleSingleWaypointPlan"]}
{"id": "C81", "title": "A blockade posts its vehicles in a line across the way of the one that is blocked", "statement": "Every report of a vehicle that is at work on a blockade, once the blocked one was seen, is answered with exactly one mission to this vehicle: to go to its post at its speed, to stay there and to watch the blocked one with every gimbal. The line of posts crosses the straight way from the blocked one to the protected place at a right angle where vehicle and blocked one would arrive together, or at the protected place if the vehicle is too far, or at the standoff from the blocked one if the vehicle is there. Any two vehicles that are at work are posted at least the standoff apart. Nothing else is commanded.", "quantifier": "every history of configurations, reports and uses of the converter by other services, in real numbers", "why_tests_cant": "ranges over a continuum of positions and unbounded histories", "anchors": ["src/cpp/Tasks/BlockadeTaskService.cpp:activeEntityState, CalculateGimbalActions, CalculateCenterBlockingPosition", "src/cpp/DPSS/DpssDataTypes.cpp"]}
{"id": "C82", "title": "An escort is placed the standoff ahead of the supported entity on the path it is taken to follow", "statement": "One who asks for the place of the escort is told the point of the path of the supported entity that is the standoff ahead of the entity (behind it if negative), measured along the path from the nearest point of a leg that does not lead against the direction of movement; the end of the path if it is shorter; the place of the entity if the standoff is small or no path is known. The path is the line named by the task, else the last mission or commanded path of the entity, else the waypoints of the task, else the nearest known line in the direction the entity moves. Nothing is answered before the entity was seen.", "quantifier": "every task and every history of entity states, missions, commanded paths, lines and uses of the converter by other services, every order of the table of lines, in real numbers", "why_tests_cant": "ranges over a continuum of positions, headings and lines and over unbounded histories", "anchors": ["src/cpp/Tasks/EscortTaskService.cpp:processRecievedLmcpMessageDynamicTask, calculateTargetLocation, CalculateTargetPoint, DistanceToLine, FlipLine", "src/cpp/DPSS/DpssDataTypes.cpp:Segment"]}
{"id": "C83", "title": "An overwatch task expects its target where the last states lead it", "statement": "One who asks for the target is told nothing if no state of it is known or the last one is more than 15 seconds old; its last place if this is at most 100 milliseconds old; else the place it reaches from there with the mean speed and the mean direction of the movements between the last four states. States near latitude and longitude zero do not count, nor do movements that took less than 10 or more than 4000 milliseconds.", "quantifier": "every history of states of all entities and every time, in real numbers", "why_tests_cant": "ranges over a continuum of positions and unbounded histories", "anchors": ["src/cpp/Tasks/OverwatchTaskService.cpp:processRecievedLmcpMessageDynamicTask, calculateTargetLocation"]}
{"id": "C84", "title": "A radio relay is sent half way between the tower and the supported entity", "statement": "A vehicle on the task, or one that is offered for it, is sent to the place with the mean latitude and the mean longitude of the supported entity and the tower, at its nominal altitude if this is known. The tower is where it last reported to be, else where its first configuration says; the supported entity is where it last reported to be, or at the destination of the task if this names nobody. Without a known tower or supported entity the vehicle stays where it is.", "quantifier": "every task and every history of reports, configurations and uses of the converter by other services, in real numbers", "why_tests_cant": "ranges over a continuum of positions and unbounded histories", "anchors": ["src/cpp/Tasks/CommRelayTaskService.cpp:configureDynamicTask, processRecievedLmcpMessageDynamicTask, calculateTargetLocation, moveToHalfWayPoint", "src/cpp/Tasks/TaskServiceBase.cpp:processReceivedLmcpMessage"]}
{"id": "C85", "title": "Status reports say what was last heard of the vehicle, and only while it is recent", "statement": "A report is sent each period after the start. It names the vehicle, the entities that joined and have not left since, the time and the tasks of the vehicle's last state. It says that states are valid only if a state of the vehicle was handled less than the stale time before the report was due, and that the autopilot, the speed or the gimbal may be commanded only if a keep-alive that said so was handled less than the expiry time before; within these times what was said is reported.", "quantifier": "every history of messages, timer callbacks, uses of the timers by other services and every interleaving of the two threads", "why_tests_cant": "ranges over unbounded histories and interleavings of a message thread and a timer thread", "anchors": ["src/cpp/Services/StatusReportService.cpp:configure, initialize, start, processReceivedLmcpMessage, OnSendMessage, OnVsmKeepAliveExpired, OnStaleEntityState", "src/cpp/Utilities/UxAS_TimerManager.cpp:createTimer, startSingleShotTimer, startPeriodicTimer, isTimerActive, executeTimer"]}
{"id": "C86", "title": "On a pattern search the sensor looks as far along the road as the vehicle is on its way", "statement": "While a vehicle flies from one waypoint of a segment to the next, its sensor is told to look at the road on the ground: the part of the road that is behind this point differs by less than a thousandth from the part of the way that is behind the place of the leg that is nearest to the vehicle. The point is on the road if neighbouring points of it are at least a thousandth of its length apart, and otherwise no further from it than two thousandths. On the way to the first waypoint it looks at the first thousandth of the road. Segments that share their end waypoints work together: the segment of the leg that is flown decides.", "quantifier": "every route, every road of positive length, every place of the vehicle, every chain of segments, in real numbers", "why_tests_cant": "ranges over a continuum of places and unbounded routes and roads", "anchors": ["src/cpp/Utilities/SensorSteering.cpp:Initialize, FindSensorStarePoint, AddSegment", "src/cpp/Tasks/PatternSearchTaskService.cpp:activeEntityState"]}
{"id": "C87", "title": "A sector pattern leaves no place within the extent far from a leg", "statement": "For a positive extent and lane the sector pattern of a pattern search is finite. It consists of straight legs through the place, in alternating directions, one lane apart at the extent; each begins where the leading edge of the footprint reaches the extent and ends where the trailing edge does, and its heading is its course. Every place within the extent is passed by some leg at three quarters of a lane or less, with every part of the footprint from the trailing to the leading edge. The routes requested are numbered without gap and each begins where the one before ends, in the same direction.", "quantifier": "every place, extent, lane spacing and footprint, every place within the extent, in real numbers", "why_tests_cant": "ranges over a continuum of sizes and places; the number of legs is unbounded", "anchors": ["src/cpp/Tasks/PatternSearchTaskService.cpp:isCalculatePatternScanRoute_Sector", "src/cpp/Plans/Position.h:relativeAngle2D_rad", "src/cpp/Includes/Constants/Convert.h:dNormalizeAngleDeg"]}
{"id": "C88", "title": "A spiral pattern leaves no place within the extent unseen, outside of its innermost part", "statement": "For every positive lane the spiral pattern of a pattern search is planned in finite time. The road of the sensor is a spiral that grows by nine tenths of a lane per turn, with 50 m of arc between its points, from 50 m until it is half a lane beyond the extent; the waypoints are at the same angles, but never nearer than the given radius, and are numbered from 1 on. For lanes of 100 m or more, every place within the extent that is more than 1.05 lanes from the centre is within half of the width of the footprint of that road. The cost is the time for the way from the origin through the waypoints, the heading at the end is the course of the last leg, and on each leg the sensor is steered by the part of the spiral the leg is in.", "quantifier": "every place, extent, lane spacing, radius, speed, every place within the extent, every waypoint, in real numbers", "why_tests_cant": "ranges over a continuum of sizes and places; the number of waypoints is unbounded", "anchors": ["src/cpp/Tasks/PatternSearchTaskService.cpp:isCalculatePatternScanRoute_Spiral, isProcessTaskImplementationRouteResponse", "src/cpp/Utilities/SensorSteering.cpp:AddSegment"]}
{"id": "C89", "title": "The lanes of an area search are laid over the whole area", "statement": "For every boundary, direction and positive lane spacing, the area searches (CMASI and angled) lay out finitely many lanes in the given direction: exactly those at the first place plus multiples of the spacing that are within the area, alternately upwards and downwards, from the corner that the option selects. Every place of the area is within one lane of a leg, and within half a lane unless it is in the half lane at the end where the lanes end. In a convex area a leg that is not in line with the first point of the boundary sees its lane from one end of the area to the other, to within half a metre. The angled search of a rectangle sees every place of it, except in that last half lane. The legs are asked for from the route planner one after the other, joined by transitions.", "quantifier": "every boundary, centre, direction, lane spacing, footprint, option, every place of the area, in real numbers", "why_tests_cant": "ranges over a continuum of shapes and places; the number of lanes is unbounded", "anchors": ["src/cpp/Tasks/CmasiAreaSearchTaskService.cpp:isCalculateRasterScanRoute", "src/cpp/Tasks/AngledAreaSearchTaskService.cpp:isCalculateRasterScanRoute", "src/cpp/Plans/Polygon.h:findIntersections", "src/cpp/Plans/Edge.cpp:bFindIntersection"]}
{"id": "C90", "title": "A callback timer calls the function of the thread that is at work, never early", "statement": "Whatever functions of a callback timer are called, and however its thread and the calling one alternate: the function called back is the one given when the thread at work was made, and not before the time given then is over; a timer that is not periodic calls it at most once per thread; nothing is called after a cancellation, and a cancellation is only told of if one was asked for; periodic calls are apart by the least time ever given. A timer that is only started and left alone until its time is over calls every function it is given, once. A timer that is started once and killed ends within ten steps of its thread if those take less than its time, with at most one more call.", "quantifier": "every interleaving of the steps of the two threads, every sequence of calls and every clock that does not go back", "why_tests_cant": "interleavings of two threads are unbounded", "anchors": ["src/cpp/Utilities/CallbackTimer.cpp:StartCallbackTimer, ResetTime, ExtendTime, CancelTimer, KillTimer, CallbackTimerExecutitve", "src/cpp/Utilities/CallbackTimer.h:c_CallbackTimer"]}
{"id": "C91", "title": "The clock shows the UTC time it was set to and goes on with the system clock", "statement": "A call that sets the clock is accepted if and only if its date and time are in order, from 2016 on and within what 64 bits of nanoseconds hold. From then on the time in milliseconds is the one that was set, counted in days of the Gregorian calendar, and what the system clock has moved since, until the clock is set again or the mode changes. Times in hours, minutes and seconds agree with it to one unit; durations since the start and times in micro- and nanoseconds do not change when the clock is set. In discrete time every answer is what was set last, from the start, whatever the system clock says. The count is how often the clock in use was set.", "quantifier": "every history of calls and changes of mode, every reading of the system clock, every date", "why_tests_cant": "histories, readings of the clock and dates are unbounded", "anchors": ["src/cpp/Utilities/UxAS_Time.h:Time, DiscreteTime", "src/cpp/Utilities/UxAS_Time.cpp:getInstance, calibrateWithReferenceUtcTime, calibrateWithReferenceUtcTimeImpl"]}
{"id": "C92", "title": "A line search thins its line from end to end", "statement": "Before a line search makes its way, it thins the line. Points are only left out, the order stays, and so do the first and the last point. In the first pass a point stays if and only if it matters between the last point that stays and the next one: it turns by a tenth of a degree or more or is a metre or more off; of a straight line only the ends stay. In the second pass points are left out one by one, each time the first of those that lose least, until there is no more than one for each 200 metres, or two. Loss is the largest distance of a point of the line from the straight line that replaces it. Marked points stay.", "quantifier": "every line of at least two points, every number of points asked for, in real numbers", "why_tests_cant": "lines are unbounded and their points range over a continuum", "anchors": ["src/cpp/DPSS/DpssUtilities.cpp:PreProcessPath, ComputeSeperation, RemoveZeroLengthSegments", "src/cpp/DPSS/PlanQuickly.cpp:PlanQuickly", "src/cpp/Tasks/CmasiLineSearchTaskService.cpp:isCalculateOption"]}
{"id": "C93", "title": "A line search flies beside its line as the look angles ask", "statement": "The way of a line search is made of a point beside each point of the thinned line. From the first and the last point the ends of the line are seen at the distance that belongs to the altitude and the elevation and at the wanted azimuth from the course; in between, a point of the way is equally far from the leg before and the leg behind, on the same side of both; beside a straight line that is the same distance all along. Points whose looks at the line cross are made one, until no successive looks cross or two points are left; the last point stays and no point leaves the area the points surround. The cost of the option is the time for the way in milliseconds, its headings are those of the first and the last leg.", "quantifier": "every line of at least two points, every azimuth, elevation, altitude and speed, in real numbers", "why_tests_cant": "lines are unbounded and angles range over a continuum", "anchors": ["src/cpp/DPSS/PlanOffset.cpp:OffsetPlanForward, OffsetPlanReverse, CleanUpStareAngles, CorrespondingStarePoints", "src/cpp/DPSS/DpssDataTypes.cpp:Segment", "src/cpp/Tasks/CmasiLineSearchTaskService.cpp:isCalculateOption"]}
{"id": "C94", "title": "A line search looks at the part of the line it has come to", "statement": "While a vehicle flies a line search, the point that its sensor is pointed to is on the line. The part of the line behind that point is the part of the way behind the place of the way that is nearest to the vehicle, up to a few millionths.", "quantifier": "every way of two or more waypoints with legs of a metre or more, every line of positive length, every position of the vehicle, in real numbers", "why_tests_cant": "ways and lines are unbounded, positions range over a continuum", "anchors": ["src/cpp/DPSS/SensorSteering2.cpp:CalculateStarePoint, CalculateWpToRdIndexMap, BuildConversionMappings", "src/cpp/DPSS/CoordinateConversions.cpp:CorrespondingNormalizedRoadLocation, NormalizedRoadPosToXyRoadPos", "src/cpp/DPSS/DpssDataTypes.cpp:Segment", "src/cpp/Tasks/CmasiLineSearchTaskService.cpp:activeEntityState"]}
{"id": "C95", "title": "An assignment is worked out once, when all is there, and is what the texts allow", "statement": "The assignment service sends a result for an automation request exactly when the last of these has arrived, in any order: the request, the cost matrix for it, and the options of each of its tasks. If no message is repeated there is exactly one result. A summary names the request and its region, and if the texts of the relationships and compositions can be read, its tasks form a complete schedule that those texts allow: each vehicle is eligible, travels along legs of the matrix, and the times of completion are right. If any feasible schedule exists, a summary is sent, and with a negative node limit none is done earlier.", "quantifier": "every history of requests, options and matrices for any number of requests, every iteration order of the containers, every relationship text of any depth", "why_tests_cant": "messages of several requests may arrive in any order and interleaving; texts and tables are unbounded", "anchors": ["src/cpp/Services/AssignmentTreeBranchBoundBase.cpp:processReceivedLmcpMessage, isAssignmentReady, isInitializeAlgebra, calculateAssignment"]}
{"id": "C96", "title": "Missions carry out a schedule that the task relationships allow", "statement": "The route aggregator, the assignment service and the plan builder, each receiving what the one before sends: when the plan builder answers an automation request, there is a schedule that is a complete execution of the written task relationships, done by eligible vehicles along legs of the cost matrix, such that each vehicle was asked to do exactly its part of that schedule, in order; each of these orders was answered; and the missions are made of the answers.", "quantifier": "every history of the three services that fit together, every relationship text, every iteration order of their containers", "why_tests_cant": "the property spans three services whose messages interleave in any way", "anchors": ["src/cpp/Services/RouteAggregatorService.cpp:SendMatrix, BuildMatrixRequests", "src/cpp/Services/AssignmentTreeBranchBoundBase.cpp:calculateAssignment", "src/cpp/Services/PlanBuilderService.cpp:processTaskAssignmentSummary, sendNextTaskImplementationRequest, checkNextTaskImplementationRequest"]}
{"id": "C97", "title": "The message log holds each message received once, in order, at any crash point", "statement": "The message log service writes every message it receives, if its texts hold no apostrophe and no zero byte and SQLite can write, as exactly one row of the database file it began at its start, in the order of arrival, with the time, type, sender and XML text of the message. A crash at any point leaves all rows of the messages before and all or nothing of the one being handled. No file of another name is touched.", "quantifier": "every history of messages of any length and text, every crash point, every disk left by earlier runs, every configured limit", "why_tests_cant": "a message may hold any text, and a crash may come between any two writes", "anchors": ["src/cpp/Services/MessageLoggerDataService.cpp:configure, initialize, processReceivedLmcpMessage", "src/cpp/Utilities/UxAS_DatabaseLoggerHelper.cpp:openStream, closeStream, insertValuesIntoTable, closeAndOpenStream", "src/cpp/Utilities/UxAS_FileLogger.cpp:outputTextToStream"]}
{"id": "C98", "title": "Every logger gets the records it asked for, and a database log keeps each of them", "statement": "A logger that is added to the process log gets exactly the records at or above its severity threshold that are logged from then on, in order, until it is removed, whatever other loggers are added, removed or given other thresholds. A database log keeps every record it gets, with any text without a zero byte, in files numbered from one, each but the last with exactly the set number of rows, in order; the text can be read back unless it holds an XML entity for a quote itself. A crash at any point, also while a next file is begun, loses no earlier record.", "quantifier": "every history of operations of any threads, every text, every number of rows a file, every crash point, every disk left by earlier runs", "why_tests_cant": "the set of loggers changes over time, texts are unbounded, and a crash may come between any two writes", "anchors": ["src/cpp/Utilities/UxAS_LogManager.h:log, outputToLoggers", "src/cpp/Utilities/UxAS_LogManager.cpp:addLogger, removeLoggersByLoggerTypeAndNameImpl, setLoggerSeverityLevelByTypeAndNameImpl", "src/cpp/Utilities/UxAS_HeadLogDataDatabaseLogger.cpp:outputToStream", "src/cpp/Utilities/UxAS_DatabaseLoggerHelper.cpp", "src/cpp/Utilities/UxAS_XmlUtil.h"]}
{"id": "C99", "title": "Each automation request is saved to a directory of its own, and a saved response means that all its inputs are saved", "statement": "For every response to an automation request that was received, the diagram service makes a new directory with the next number and saves to it the response, the scripts, the tasks of the request, the places and entities they refer to, the zones of its operating region and the states of its entities (the planning state if one is given), each as last told, and nothing else; all else on the disk stays as it was. If the computer stops at any point while this is done and the file of the response is there, all inputs are there and complete. Any other message leaves the disk alone.", "quantifier": "every history of messages, every disk left by earlier runs, every crash point", "why_tests_cant": "what is saved depends on the whole history, the number on the disk found, and a crash may come between or within any two writes", "anchors": ["src/cpp/Services/AutomationDiagramDataService.cpp:processReceivedLmcpMessage, ProcessUniqueAutomationResponse, SavePythonScripts", "src/cpp/Utilities/FileSystemUtilities.cpp:bCreateUniqueDirectory, bCreateDirectory"]}
{"id": "C100", "title": "The way worked out between two places with headings can be flown, and no flight of the same kinds is shorter", "statement": "For every place and heading of a vehicle, every place and heading to come to and every turn radius, the way worked out follows a flight of turns of that radius and straight legs which begins with the vehicle's heading and comes to the heading wanted at the place wanted (within a metre); its waypoints on turns are on the circle, one every separation; its length is the length of the flight; and no flight of turn, straight leg and turn, or of three turns, is shorter (within half a metre).", "quantifier": "every start and finish, every heading, every turn radius from one metre, every separation of waypoints, every competing flight", "why_tests_cant": "the set of competing flights is a continuum, and each place, heading and radius is a real number", "anchors": ["src/cpp/Plans/Trajectory.cpp:dCalculateTrajectoryDubins, szMinimumDistanceCircle, szMinimumDistanceTurnTurnTurn, AddWaypointsForTurn", "src/cpp/Plans/Position.h:TransformPoint2D", "src/cpp/Services/RoutePlannerVisibilityService.cpp:isCalculateWaypoints"]}
{"id": "C101", "title": "The waypoints of a planned route pass the corners of a shortest way around the zones, and with headings they can be flown", "statement": "For every set of zones, every start and end: if no heading is asked for, the waypoints of the route are the start, the corners of a shortest way around the zones and the end, in this order, and no zone is in the way between one and the next. If a heading is asked for, the first waypoints follow a flight from the start with its heading to the first corner, then the corners follow without those less than a metre from the one before, and the last waypoints follow a flight from the last corner to the end with the heading asked for.", "quantifier": "every set of numbered zones, every start and end, every heading, every turn radius from one metre, every separation of waypoints", "why_tests_cant": "the zones, places and headings are unbounded; that nothing is in the way must hold for each leg of each route", "anchors": ["src/cpp/Services/RoutePlannerVisibilityService.cpp:isCalculateWaypoints", "src/cpp/Plans/VisibilityGraph.cpp:isGenerateWaypoints, errGenerateWaypoints, errSmoothPath", "src/cpp/Plans/Trajectory.cpp:dMinimumDistance, CalculateTaskHeading", "src/cpp/Plans/Assignment.h:dCalculateFinalHeading_rad"]}
{"id": "C102", "title": "What is enabled and set comes from the configuration loaded last", "statement": "After any loads, unloads and questions: once a configuration that names an entity is loaded, the services and bridges enabled are exactly its elements of these names, in order, under its entity, however often and in whatever order it is asked; the default of a service is its first element for it; each setting has the value last given by a configuration that names an entity; after unloading nothing is enabled.", "quantifier": "every sequence of loading, unloading and asking, every document", "why_tests_cant": "a configuration is kept over several calls with copies made at the first question; what is answered depends on the whole history", "anchors": ["src/cpp/Utilities/UxAS_ConfigurationManager.cpp:loadXml, unloadXml, getEnabledBridges, getEnabledServices, getDefaultServiceXmlNode, setEntityValuesFromXmlNode, populateEnabledComponentXmlNode"]}
{"id": "C103", "title": "Each bridge of the configuration is started once, is asked to end once and is let go only when it ended", "statement": "For every configuration and every sequence of other clients being made, bridges ending and ended ones being let go: the bridges that run after the start are exactly those of the configuration of a known kind that can be configured and started, each under its own number; a second start does nothing; a bridge is kept until it ended and ended ones are let go; when all are to end, each one that runs gets one message, which it obeys and no other bridge obeys; the counts of running and ended bridges are right.", "quantifier": "every list of elements up to 2^32, every outcome of starting them, every sequence of events", "why_tests_cant": "the elements, outcomes and orders of events are unbounded; the numbers wrap around", "anchors": ["src/cpp/Communications/LmcpObjectNetworkBridgeManager.cpp:initialize, createBridge, terminateAllBridges, removeTerminatedBridges, createTestBridges", "src/cpp/Communications/LmcpObjectNetworkClientBase.cpp:configureNetworkClient, executeSerializedNetworkClient"]}
{"id": "C104", "title": "Undoing the escaping of a text for XML", "statement": "For every text: undoing the escaping ends; a text that was escaped as XML has it comes back exactly when it does not itself contain an escaped ampersand; quotes and apostrophes that were escaped come back exactly when the text does not itself contain their escaped forms, and so do those that the program escapes itself; no text is undone to one that contains an escaped ampersand.", "quantifier": "every text", "why_tests_cant": "the texts are unbounded, and what a replacement leaves may join to a new entity", "anchors": ["src/cpp/Utilities/UxAS_XmlUtil.h:unescapeXmlQuoteApostropheChars, unescapeXmlAmpersandLessThanGreaterThanChars, unescapeXmlChars, escapeXmlQuoteApostropheChars"]}
{"id": "C105", "title": "The way of messages through a TCP bridge", "statement": "For every history of peers connecting, disconnecting and sending, and of messages of the bridge: a message of a server goes to each peer that is connected, once, and to no other, that of a client to its server; the messages whose data arrive come in on the internal network, each once and in order, with their alias as address and with the sender that is configured, except those to a blocked address, however their data are cut into packets if the bridge does not rewrite the sender, and for packets of whole messages always.", "quantifier": "every history, every cut of the data into packets, every list of messages, every setup of the bridge", "why_tests_cant": "the histories, cuts and messages are unbounded", "anchors": ["src/cpp/Communications/ZeroMq/Receivers/ZmqTcpReceiver.cpp:receive", "src/cpp/Communications/ZeroMq/Receivers/MsgReceiverSentinel.cpp:receive", "src/cpp/Communications/ZeroMq/Receivers/SetArrayClientList.cpp:addClient, removeClient", "src/cpp/Communications/ZeroMq/Senders/ZmqTcpSender.cpp:send", "src/cpp/Communications/ZeroMq/Proxy/ZmqProxy.cpp:executeOnThread", "src/cpp/Communications/ZeroMq/ZmqAttributedMsgSenderReceiver.cpp:send, receive", "src/cpp/Communications/LmcpObjectNetworkTcpBridge.cpp:executeTcpReceiveProcessing"]}
{"id": "C106", "title": "The way of messages through a serial bridge", "statement": "For every row of messages and every way in which the line cuts its data: the bridge writes to the line exactly the messages of its own entity that are not blocked, each framed and in order; what is read from the line comes in on the internal network, each message once and in order, with the sender that is configured, except those to a blocked address; a malformed frame at the end of a read does no harm to the messages in front of it nor to those of later reads; so a message given to the bridge at one end of a line comes in at the other.", "quantifier": "every row of messages, every cut of the data into reads, every setup of the bridges", "why_tests_cant": "the messages and cuts are unbounded", "anchors": ["src/cpp/Communications/LmcpObjectNetworkSerialBridge.cpp:processReceivedSerializedLmcpMessage, executeSerialReceiveProcessing", "src/cpp/Utilities/UxAS_SentinelSerialBuffer.cpp:getNextPayloadString"]}
{"id": "C107", "title": "The command line and the start of the program", "statement": "For every command line and every outcome of the steps of the start: the program is started with the configuration file and the run duration chosen last, or with cfg.xml and the duration of the configuration if none is chosen; a word that is no option ends it before anything is loaded; each step of the start is taken only if all those before it went well, and the first that fails ends the program with a status of its own, which a caller can tell from the others and from that of a full run.", "quantifier": "every row of words, every outcome of the steps", "why_tests_cant": "the rows of words are unbounded", "anchors": ["src/cpp/UxAS_Main.cpp:main"]}
{"id": "C108", "title": "The point of a road that belongs to a place on a plan", "statement": "For every plan and road of two points or more and every place of a vehicle: the place is taken to the nearest point of the plan, up to a hundredth of a millimeter, and the point looked at is as far along the road as this one is along the plan, as parts of the whole, so that it is on the road; without a way to go along it is the begin of the road.", "quantifier": "every plan, road and place", "why_tests_cant": "plans and roads are unbounded lists of real points", "anchors": ["src/cpp/DPSS/SegmentMap.cpp:SnapToSegment, CalculateStarePoint, Initialize"]}
{"id": "C109", "title": "Messages through the message pipe over TCP", "statement": "However the bytes of messages that can be framed, and of framed texts between them that are no messages, are cut into packets, with clients connecting and leaving in between: asking for the next message again and again gives these messages in order and each once, after as many calls as there are packets and messages all of them; and a server sends a message once to each client it has heard of, a client sends it to the server.", "quantifier": "every row of messages, cut into packets, identities of clients and number of calls", "why_tests_cant": "the packets, messages and calls are unbounded", "anchors": ["src/cpp/Communications/ZeroMqAddressedAttributedMessageTcpReceiverSender.cpp:getNextMessage, sendAddressedAttributedMessage"]}
