{"id": "C01", "title": "Shared-memory queue topics are loss-free FIFO once a send succeeds", "statement": "For a topic in queue mode (one subscriber, any number of publishers), the sequence of values returned by recv() is always a prefix of the sequence of values whose send succeeded, taken in claim order: no accepted message is lost, duplicated, reordered or overwritten before it is received, and the messages of any one publisher arrive in the order that publisher sent them.", "quantifier": "every number of publishers, every ring capacity that is a power of two, every sequence of sends and receives and every interleaving of their individual shared-memory steps", "why_tests_cant": "The number of interleavings of the claim CAS, slot write, ready stamp, and consumer steps is unbounded; a test samples a handful of schedules.", "anchors": ["horus_core/src/communication/topic/dispatch.rs: send_shm_mp_pod, recv_shm_mpsc_pod, send_shm_sp_pod, recv_shm_spsc_pod", "horus_core/src/communication/topic/shm_layout.rs"]}
{"id": "C02", "title": "A queue-mode receive never observes a half-written message", "statement": "Whenever recv() returns a value in queue mode, every word of that value was written by one and the same completed send; a publisher that has claimed a slot but not finished writing (or crashed while writing) makes recv() return None, never a mixture.", "quantifier": "all schedules at single-word granularity, all payload widths, all crash points of publishers", "why_tests_cant": "Torn reads need a precise preemption between two word writes; tests almost never hit it.", "anchors": ["horus_core/src/communication/topic/dispatch.rs: send_shm_mp_pod, recv_shm_mpsc_pod"]}
{"id": "C03", "title": "Broadcast topics with one publisher deliver an untorn, strictly increasing subsequence", "statement": "With a single publisher in broadcast (POD, many subscribers) mode, each subscriber's received values are values that were actually sent, whole, in send order, each at most once, even when the publisher laps the subscriber in the middle of a read.", "quantifier": "all capacities, payload widths, numbers of subscribers and interleavings at word granularity", "why_tests_cant": "The lap-during-read window is a few nanoseconds wide.", "anchors": ["horus_core/src/communication/topic/dispatch.rs: send_shm_pod_broadcast, recv_shm_pod_broadcast"]}
{"id": "C04", "title": "Broadcast topics with several publishers never deliver torn values", "statement": "With two or more publishers in broadcast mode every value returned by recv() was sent whole by one publisher.", "quantifier": "all schedules of two or more publishers and a subscriber", "why_tests_cant": "Requires one publisher to be lapped by another inside its slot write.", "anchors": ["horus_core/src/communication/topic/dispatch.rs: send_shm_pod_broadcast, recv_shm_pod_broadcast"]}
{"id": "C05", "title": "Fan-out channels deliver an untorn, strictly increasing subsequence and account for what was skipped", "statement": "On one publisher-to-subscriber fan-out channel, consume() returns only values published whole, in order, at most once; a consumer that is lapped loses only the oldest values. The skipped counter equals the number of messages that were never delivered.", "quantifier": "all capacities, payload widths and interleavings of one publisher and one consumer at word granularity", "why_tests_cant": "Lapping during the read is a narrow race; the accounting error needs two consecutive unlucky polls.", "anchors": ["horus_core/src/communication/topic/seqlock.rs: seqlock_publish, seqlock_consume", "horus_core/src/communication/topic/shm_fanout.rs: ShmSpscChannel"]}
{"id": "C06", "title": "Competing subscribers never receive the same queue message twice", "statement": "In the work-sharing (single publisher, several consumers on one shared tail) mode, each accepted message is returned by at most one successful recv() across all consumers, and the publisher never overwrites a message still unclaimed.", "quantifier": "any number of consumers, any capacity, every interleaving", "why_tests_cant": "Double delivery needs two consumers to race on the same CAS.", "anchors": ["horus_core/src/communication/topic/dispatch.rs: send_shm_sp_pod, recv_shm_spmc_pod"]}
{"id": "C07", "title": "A fan-out send reaches every registered subscriber exactly once", "statement": "A fan-out send appends the message to the channel of every subscriber active at that moment and to no other channel; recv drains every active publisher's channel in a fair round-robin: no publisher with pending data is passed over for more than one turn of every other publisher.", "quantifier": "all numbers of endpoints up to the limit, all activity patterns, all operation histories", "why_tests_cant": "Depends on histories of joins, leaves, sends and receives.", "anchors": ["horus_core/src/communication/topic/shm_fanout.rs: ShmFanoutRing send_pod recv_pod claim_endpoint_locked"]}
{"id": "C08", "title": "Backend choice is always safe for the number of endpoints and the message kind", "statement": "For every count of publishers and subscribers and either message kind, the selected backend together with the send and receive routines it installs never pairs a routine that assumes a unique producer (or a unique consumer) with more than one, and every live publisher/subscriber combination gets a data path.", "quantifier": "all publisher/subscriber counts and message kinds", "why_tests_cant": "Counts change concurrently; tests cover only small fixed combinations.", "anchors": ["horus_core/src/communication/topic/header.rs: detect_optimal_backend", "horus_core/src/communication/topic/mod.rs: resolve_send_fn resolve_recv_fn"]}
{"id": "C09", "title": "Participant registration keeps the publisher and subscriber counts exact", "statement": "After any history of register calls and lease expiries, at most one live participant slot exists per (process, thread), the publisher (subscriber) counter equals the number of occupied slots holding that role, and registration fails only when all slots are occupied by unexpired leases.", "quantifier": "all histories of registrations, role additions and lease expiries", "why_tests_cant": "The invariant is about every history of joins and expiries.", "anchors": ["horus_core/src/communication/topic/header.rs: register_role, ParticipantEntry"]}
{"id": "C10", "title": "Switching backends never re-delivers or invents messages", "statement": "When a live topic migrates or is resynchronised, the subscriber's new read position is never before a position it already consumed in the same ring and never beyond the newest published message.", "quantifier": "all positions, heads and migration histories", "why_tests_cant": "Needs migrations to coincide with arbitrary positions of both ends.", "anchors": ["horus_core/src/communication/topic/mod.rs: resynced_tail, sync_local, handle_epoch_change, ensure_role"]}
{"id": "C11", "title": "Topic memory layout: slots are disjoint and inside the mapped region", "statement": "For every capacity and slot size accepted by the constructor, the per-slot sequence words and data slots never overlap each other or the header, and all lie inside the required region length.", "quantifier": "all capacities and slot sizes", "why_tests_cant": "Arithmetic over all sizes, including boundary sizes.", "anchors": ["horus_core/src/communication/topic/shm_layout.rs", "horus_core/src/communication/topic/mod.rs: with_capacity_and_kind"]}
{"id": "C12", "title": "Zero-copy tensor pool never hands the same memory to two live tensors", "statement": "After any history of alloc, retain, release and clone calls by correct clients, the byte ranges of any two live tensors are disjoint, each lies inside the pool, and each has a positive reference count equal to its outstanding handles.", "quantifier": "all histories of pool operations and all shapes and element types", "why_tests_cant": "An aliasing bug appears only after a particular history of frees and re-allocations.", "anchors": ["horus_core/src/memory/tensor_pool.rs: alloc retain release return_slot data_ptr"]}
{"id": "C13", "title": "The lock-free free list never gives one slot to two allocators", "statement": "Under every interleaving of the pop and push steps of any number of threads and processes, no slot is held by two owners at once and no slot is lost: ABA is prevented by the generation tag as long as the tag does not wrap within one pop.", "quantifier": "any number of threads, all interleavings at atomic-step granularity", "why_tests_cant": "ABA schedules are practically unreachable by testing.", "anchors": ["horus_core/src/memory/tensor_pool.rs: find_free_slot push_free_slot"]}
{"id": "C14", "title": "A stale tensor handle is rejected after its slot is recycled", "statement": "Once a tensor's last reference is released, later uses of an old descriptor of it (validate, try_retain, try_release) fail, whatever other tensors have been allocated in that slot since.", "quantifier": "all operation histories (generation counter not wrapped)", "why_tests_cant": "Requires reuse histories and failed allocations in between.", "anchors": ["horus_core/src/memory/tensor_pool.rs: validate_descriptor try_retain try_release alloc"]}
{"id": "C15", "title": "Packet codecs are lossless and reject what they did not produce", "statement": "For every header, heartbeat, ack, fragment header and message header value, decoding the encoding returns the same value; and the packet-header decoder accepts a byte string only if it has the protocol magic and version.", "quantifier": "all field values and all byte strings", "why_tests_cant": "Domain is 2^96 values and all byte strings.", "anchors": ["horus_net/src/wire.rs: PacketHeader MessageHeader FragmentHeader HeartbeatPayload AckPayload"]}
{"id": "C16", "title": "Batch packets round-trip and hostile packets are parsed safely", "statement": "Decoding an encoded batch returns exactly the messages in order, for any number and sizes of messages that fit; for arbitrary bytes the decoder terminates, never reads outside the packet, and every payload it returns is a substring of the packet.", "quantifier": "all message lists that fit the buffer; all byte strings", "why_tests_cant": "Unbounded inputs from the network.", "anchors": ["horus_net/src/wire.rs: encode_batch encode_single decode_packet"]}
{"id": "C17", "title": "Fragment reassembly returns exactly the original payload under any arrival order", "statement": "For any payload up to the size limit, feeding its fragments to a reassembler in any order, with any duplicates and interleaved with other messages' fragments, yields the original payload exactly once - at the arrival of the last missing fragment - and nothing before.", "quantifier": "all payloads, permutations, duplications and interleavings", "why_tests_cant": "Factorially many arrival orders.", "anchors": ["horus_net/src/fragment.rs: Fragmenter Reassembler"]}
{"id": "C18", "title": "Reassembly memory is bounded whatever arrives", "statement": "Whatever fragments a peer sends, the reassembler holds at most 256 partial messages, each buffering at most its declared total length (<= 1 MiB) in at most 749 fragments.", "quantifier": "all sequences of fragments and garbage collections", "why_tests_cant": "Adversarial inputs.", "anchors": ["horus_net/src/fragment.rs: Reassembler::feed gc_stale"]}
{"id": "C19", "title": "Large messages survive the network path end to end", "statement": "A message larger than one fragment that a replicator exports is delivered, byte for byte, by the receiving replicator.", "quantifier": "all payloads larger than one fragment", "why_tests_cant": "Existing tests exercise fragmenter and codec separately.", "anchors": ["horus_net/src/replicator.rs: handle_export process_packet", "horus_net/src/wire.rs: encode_single", "horus_net/src/fragment.rs"]}
{"id": "C20", "title": "Duplicate copies are delivered at most once", "statement": "For each sender and topic, the redundant and latched copies of a message are delivered to local subscribers at most once, and an in-order stream without loss is delivered completely, including across the 32-bit sequence wrap.", "quantifier": "all arrival sequences with duplicates", "why_tests_cant": "Sequence-wrap needs 2^32 messages.", "anchors": ["horus_net/src/reliability.rs: is_new_message dedup_messages"]}
{"id": "C21", "title": "Latched messages are retried until acknowledged, and only boundedly", "statement": "A latched message is re-sent at most every 10 ms and at most 100 times, and never after its acknowledgement was processed.", "quantifier": "all histories of sends, acks and timer ticks", "why_tests_cant": "Timer/ack histories are unbounded.", "anchors": ["horus_net/src/reliability.rs: start_latch on_ack tick_resends"]}
{"id": "C22", "title": "Flow control degrades monotonically and decimates exactly", "statement": "The send rate chosen is monotone in the measured loss, real-time/immediate traffic is never suppressed beyond the documented rule, and in any run of n consecutive normal messages exactly floor-or-ceil n/2 (n/4, n/100) are sent at Half (Quarter, Keyframe) rate.", "quantifier": "all loss rates, sequence numbers and window lengths", "why_tests_cant": "Window and counter ranges unbounded.", "anchors": ["horus_net/src/flow_control.rs: SendRate::from_loss on_received should_send"]}
{"id": "C23", "title": "Import/export guards admit exactly what the configured patterns say", "statement": "allow_import/allow_export agree, for every topic name and configuration, with the declarative meaning of the mode and patterns: a * stands for any string, every other character for itself; Deny imports nothing, Auto imports exactly the topics the local registry lists as subscribed and not published, an allow-list admits exactly what one of its patterns matches, a deny-list entry always wins, and the three reserved _horus topics are always importable.", "quantifier": "all names, patterns and configurations", "why_tests_cant": "Infinite pattern/name space; backtracking matcher.", "anchors": ["horus_net/src/guard.rs: allow_import allow_export glob_match"]}
{"id": "C24", "title": "Peer address filter admits exactly the configured networks", "statement": "A source is admitted iff the configuration says any, or its (possibly IPv4-mapped) address lies in a configured block by prefix-bit equality, or no configured block parses and the address is in the built-in private ranges; parsing a CIDR string accepts exactly prefix lengths up to 32.", "quantifier": "all addresses, networks and prefix lengths", "why_tests_cant": "2^32 / 2^128 addresses.", "anchors": ["horus_net/src/netfilter.rs: Cidr PeerFilter"]}
{"id": "C25", "title": "Rate limiting bounds admitted traffic in every time window", "statement": "Over any interval of length T the token bucket admits at most burst + rate*T messages, however the calls are spaced.", "quantifier": "all call time sequences", "why_tests_cant": "All timing histories.", "anchors": ["horus_net/src/netfilter.rs: TokenBucket"]}
{"id": "C26", "title": "An emergency stop from the network is obeyed exactly if authentic and fresh", "statement": "A remote e-stop triggers the local safety stop iff the policy acts on remote stops, a key is configured, the packet carries that key's HMAC over its own host, reason and time, and that time is within five seconds of the local clock (or the local clock was never set). So no malformed, unkeyed or forged bytes trigger it, a genuine stop from a synchronised sender does, and a recording older than five seconds does not; a recording replayed within five seconds does trigger again.", "quantifier": "all byte strings, keys and message histories", "why_tests_cant": "Adversarial bytes and histories.", "anchors": ["horus_net/src/estop.rs: encode_estop_with_key decode_estop handle_remote_estop_at classify_estop_freshness_at"]}
{"id": "C27", "title": "Safety heartbeat reports link loss exactly once per outage", "statement": "A check reports a watched peer as lost iff the peer has been silent for threshold intervals by then (and has been heard, or had two seconds to speak up) and no earlier check of the same silence already found that; hearing any heartbeat re-arms it; peers never added or since removed are never reported. Holds for thresholds of at least two.", "quantifier": "all histories of heartbeats and checks", "why_tests_cant": "Timing histories.", "anchors": ["horus_net/src/heartbeat.rs: SafetyHeartbeat"]}
{"id": "C28", "title": "Message authentication primitives compute the standard functions", "statement": "Streaming SHA-256 over any chunking equals the FIPS 180-4 digest of the concatenation; HMAC equals RFC 2104 over it; tag comparison accepts iff equal; hex key parsing inverts hex printing.", "quantifier": "all messages, chunkings and keys", "why_tests_cant": "Infinite inputs.", "anchors": ["horus_net/src/mac.rs"]}
{"id": "C29", "title": "Discovery announcements round-trip and both sides derive compatible matches", "statement": "Decoding an encoded announcement returns the same topics (for names within the wire limit); two hosts that decode each other's announcements agree: one exports a topic to the other iff the other imports it from the first.", "quantifier": "all topic tables", "why_tests_cant": "All topic sets on both sides.", "anchors": ["horus_net/src/discovery.rs: encode_announcement decode_announcement find_matches"]}
{"id": "C30", "title": "Immediate-priority messages are never delayed, dropped, reordered or altered by optimizers", "statement": "Whatever optimizers are installed, every Immediate message given to the outgoing chain appears unchanged in its output of the same call, in order and ahead of all others.", "quantifier": "all optimizer chains, states and batches", "why_tests_cant": "Arbitrary optimizer behaviours.", "anchors": ["horus_net/src/optimize/mod.rs: OptimizerChain process_outgoing"]}
{"id": "C31", "title": "Cross-endian conversion is lossless", "statement": "A payload received from a machine of the other byte order is delivered with the same field values; byte-swapping preserves length and is its own inverse for every word size and payload; payloads in native order and bincode payloads are untouched.", "quantifier": "all payloads and word sizes", "why_tests_cant": "All payload lengths incl. non-multiples.", "anchors": ["horus_net/src/encoding.rs: byte_swap_words infer_word_size"]}
{"id": "C32", "title": "Delta-optimised traffic is reconstructed by the receiver", "statement": "A payload sent through the delta optimizer reaches the remote subscriber unchanged.", "quantifier": "all payload histories", "why_tests_cant": "Depends on history of previous payloads.", "anchors": ["horus_net/src/optimize/delta.rs: on_outgoing on_incoming compute_delta"]}
{"id": "C33", "title": "Topic registry roles track exactly the live local handles", "statement": "After any sequence of register/unregister events, a topic is listed with a role iff some registration for that role has not been undone, and roles survive the wire encoding; through the topic lifecycle, a topic is listed as published iff some live handle of the process has published on it.", "quantifier": "all histories of register/unregister", "why_tests_cant": "Histories.", "anchors": ["horus_net/src/registry.rs: TopicRole register unregister"]}
{"id": "C34", "title": "Execution order respects every producer-to-consumer dependency, and cycles are reported", "statement": "For every set of nodes and topic edges, the parallel steps returned list every node exactly once, every producer in an earlier step than each of its consumers; an error is returned iff the dependency relation has a cycle.", "quantifier": "all finite graphs", "why_tests_cant": "All graphs.", "anchors": ["horus_core/src/scheduling/dependency_graph.rs: build topological_parallel_sort build_from_order"]}
{"id": "C35", "title": "Failure policies restart, skip or stop exactly as configured", "statement": "Under Restart at most max_restarts restarts are ever granted and the k-th back-off is at least initial*2^(k-1) (saturating); under Skip the node is suppressed exactly after max_failures consecutive failures and until the cooldown has elapsed; Fatal always stops; Ignore never does.", "quantifier": "all failure/success/time histories", "why_tests_cant": "Histories.", "anchors": ["horus_core/src/scheduling/fault_tolerance/failure_policy.rs"]}
{"id": "C36", "title": "Degradation ladder moves one way under misses and recovers step by step", "statement": "A node is killed only after at least kill-threshold consecutive misses without an intervening good tick, Killed is permanent, rate is restored to exactly the original rate, and an isolated node must pass through reduced rate to become normal.", "quantifier": "all sequences of misses and successful ticks", "why_tests_cant": "Histories.", "anchors": ["horus_core/src/scheduling/safety_monitor.rs: evaluate_degradation record_successful_tick NodeTimingState"]}
{"id": "C37", "title": "Watchdog severity is exact and a fed watchdog never fires early", "statement": "A watchdog reports Ok/Warning/Expired/Critical exactly by elapsed time vs 1x/2x/3x timeout; feeding resets it; severity never decreases without a feed.", "quantifier": "all times, timeouts and feeds", "why_tests_cant": "All timings.", "anchors": ["horus_core/src/scheduling/safety_monitor.rs: Watchdog check_graduated feed set_scale"]}
{"id": "C38", "title": "Emergency stop latches and is broadcast exactly once per rising edge", "statement": "Once triggered by anything the emergency-stop state stays set until explicitly cleared; concurrent triggers queue exactly one broadcast, with the reason of the trigger that won.", "quantifier": "any number of concurrent triggers, all interleavings", "why_tests_cant": "Races between triggers.", "anchors": ["horus_core/src/scheduling/safety_monitor.rs: trigger_emergency_stop take_pending_local_estop"]}
{"id": "C39", "title": "Black box keeps the newest events, in order, and counts every loss", "statement": "After any sequence of records the black box holds exactly the newest min(n,max) events in order and reports n-max lost; after a crash at any point its log file reads back as everything recorded except at most the unflushed tail (fewer than the flush interval), and a saved snapshot loads back unchanged.", "quantifier": "all record sequences and sizes, all crash points, all points at which the write buffer drains", "why_tests_cant": "The loss bound must hold at every crash point and for every draining of the buffer; tests crash nowhere.", "anchors": ["horus_core/src/scheduling/blackbox.rs: record flush_wal save load get_loss_count", "horus_manager/src/commands/blackbox.rs: load_wal load_blackbox_records"]}
{"id": "C40", "title": "Runtime parameters: validation, read-only and optimistic locking are never bypassed", "statement": "No value that violates a parameter's rules or its read-only flag is ever stored through set or set_with_version; a versioned set succeeds iff nobody changed the parameter since the version was read; every successful set increments the version by one.", "quantifier": "all histories of sets, removes and loads", "why_tests_cant": "Histories and races.", "anchors": ["horus_core/src/params.rs: set set_with_version remove validate_value"]}
{"id": "C41", "title": "Action server: concurrency limit, admission policy and single terminal status", "statement": "At most max_concurrent goals run (plus one while the oldest is being preempted); every received goal is running, waiting or has exactly one terminal outcome, after which nothing more is published for it; queued goals start in arrival order and none waits while a slot is free; a goal that ignores its timeout twice gives its slot back; counters add up.", "quantifier": "all histories of goals, cancels, completions and timeouts", "why_tests_cant": "Histories.", "anchors": ["horus_core/src/actions/server.rs"]}
{"id": "C42", "title": "Shared log buffer returns the newest entries, whole and in order", "statement": "Readers see each of the newest capacity entries once in write order; a poll with a cursor returns only entries written after it.", "quantifier": "all push/read histories and interleavings", "why_tests_cant": "Histories and races.", "anchors": ["horus_core/src/core/log_buffer.rs: push get_since"]}
{"id": "C43", "title": "A local emergency stop is transmitted four times to every peer", "statement": "Broadcasting a stop sends it at once to the multicast group and every known peer, and again once for each of the 10, 20 and 30 ms marks that a later poll reaches; towards a peer known throughout that is exactly four datagrams once a poll happens 30 ms later, never more, whatever other stops are pending.", "quantifier": "all pending queues, peer lists and poll times", "why_tests_cant": "All interleavings of polls and peers.", "anchors": ["horus_net/src/estop.rs: EstopBroadcaster::broadcast EstopBroadcaster::tick"]}
{"id": "C44", "title": "A subscriber joining a live broadcast topic can receive what is published next", "statement": "A subscriber that registers on a broadcast topic starts at a position that is not beyond the newest published message, so that polling delivers it later messages, however its registration interleaves with sends and with other subscribers registering.", "quantifier": "all capacities, schedules and numbers of subscribers registering", "why_tests_cant": "The race needs another registration between two adjacent loads.", "anchors": ["horus_core/src/communication/topic/mod.rs: ensure_role sync_local"]}
{"id": "C45", "title": "Fan-out endpoint slots are exclusive and recoverable", "statement": "Two live handles never hold the same publisher (subscriber) slot of a fan-out topic, and a new publisher or subscriber is refused only when all slots are held by live handles: slots of dropped handles and crashed processes can be taken again.", "quantifier": "all histories of sends, receives, drops and process crashes, any assignment of handles to processes", "why_tests_cant": "Needs histories with crashes and PID reuse.", "anchors": ["horus_core/src/communication/topic/shm_fanout.rs: claim_endpoint_locked deregister_publisher deregister_subscriber", "horus_core/src/communication/topic/dispatch.rs: send_fanout_shm recv_fanout_shm"]}
{"id": "C46", "title": "Messages accepted by a fan-out send survive the publisher's departure", "statement": "A message whose fan-out send succeeded while a subscriber was registered is delivered to that subscriber when it polls, even if the publishing handle is dropped in between.", "quantifier": "all histories", "why_tests_cant": "Needs a drop between send and receive.", "anchors": ["horus_core/src/communication/topic/shm_fanout.rs: recv_pod deregister_publisher", "horus_core/src/communication/topic/mod.rs: Drop for Topic"]}
{"id": "C47", "title": "A handle that both sends and receives is an ordinary participant", "statement": "A topic handle used both to send and to receive behaves as any other participant: what it sends reaches the other subscribers, it receives what others send, its own messages come back in order, and messages waiting in the ring are not lost.", "quantifier": "all sequences of sends and receives by the handle and by other participants", "why_tests_cant": "The role of a handle changes with its first send and receive; a test of one order does not cover the others.", "anchors": ["horus_core/src/communication/topic/mod.rs: send try_send recv (role Both fast paths)", "horus_core/src/communication/topic/local_state.rs: LocalState"]}
{"id": "C48", "title": "A newly allocated tensor is zeroed", "statement": "The bytes of a tensor returned by alloc are all zero: data of an earlier tensor, of this or another process, is never visible through a new one.", "quantifier": "all histories of allocations, writes and releases, and all shapes", "why_tests_cant": "Regions are reused at other sizes; a leak shows only after a particular history.", "anchors": ["horus_core/src/memory/tensor_pool.rs: alloc return_slot reclaim_dead_slots volatile_zero"]}
{"id": "C49", "title": "Every process attached to a tensor pool agrees on its layout", "statement": "A process that opens or attaches to an existing pool finds slots and data where the creator put them, whatever configuration it passes, and never touches bytes outside the file.", "quantifier": "all configurations of the creator and of the attaching process, and all header contents", "why_tests_cant": "Tests use one configuration throughout.", "anchors": ["horus_core/src/memory/tensor_pool.rs: new open validate_fields initialize data_base_ptr"]}
{"id": "C50", "title": "Parallel dispatch keeps the dependency order", "statement": "When independent nodes are executed in parallel, in each cycle every node that is due ticks exactly once, no node ticks that is not due, and no node starts before the ticks of all due nodes it depends on have finished; the cycle always ends.", "quantifier": "Every dependency graph, every set of due nodes, every number of worker threads and every interleaving of their steps.", "why_tests_cant": "Ordering bugs appear only for particular thread interleavings and particular combinations of due and skipped nodes.", "anchors": ["horus_core/src/scheduling/scheduler/mod.rs:execute_ready_dispatch", "horus_core/src/scheduling/dependency_graph.rs:DependencyGraph"]}
{"id": "C51", "title": "Load shedding keeps foreground nodes running and is temporary", "statement": "On the compute executor a node of order below 200 runs in every pass it is due; a node of order 200 or more is left out only while one of the last three working passes overran the period, and runs again afterwards.", "quantifier": "every set of nodes with any orders and every sequence of passes, durations and due sets", "why_tests_cant": "The effect depends on the history of pass durations; tests exercise one mixed set of nodes.", "anchors": ["horus_core/src/scheduling/compute_executor.rs: compute_thread_main SHED_THRESHOLD SHED_COOLDOWN_CYCLES"]}
{"id": "C52", "title": "Safety responses survive panicking callbacks", "statement": "If a node's shutdown, enter_safe_state or on_error itself panics, an emergency stop demanded by the budget or miss policy is still latched, a fatal failure still stops the scheduler, the node is not left running, and nodes sharing the executor keep running.", "quantifier": "every configuration of policies, every tick outcome and every combination of panicking callbacks, on every executor", "why_tests_cant": "Needs the product of policies, outcomes and panicking callbacks on each executor; tests cover a few on the main loop.", "anchors": ["horus_core/src/scheduling/rt_executor.rs: tick_node rt_thread_main", "horus_core/src/scheduling/scheduler/mod.rs: check_timing_violations note_safing_failure handle_tick_failure", "horus_core/src/scheduling/compute_executor.rs: process_node_result"]}
{"id": "C53", "title": "An operator's pause holds until resumed", "statement": "From the pause command until the resume command a node does not tick, whatever executor runs it; after the resume it ticks again when due.", "quantifier": "every executor class and every history of passes between pause and resume", "why_tests_cant": "A test pauses one node class for a few passes.", "anchors": ["horus_core/src/scheduling/scheduler/mod.rs: process_control_commands should_tick_node", "horus_core/src/scheduling/rt_executor.rs: rt_thread_main", "horus_core/src/scheduling/compute_executor.rs", "horus_core/src/scheduling/event_executor.rs", "horus_core/src/scheduling/async_executor.rs", "horus_core/src/scheduling/types.rs: NodeControlMap"]}
{"id": "C54", "title": "Suppressed nodes do not run", "statement": "A node marked Unhealthy or Isolated does not tick except for the periodic recovery probe.", "quantifier": "every executor and every history of passes", "why_tests_cant": "The probe is one pass in a hundred and depends on history.", "anchors": ["horus_core/src/scheduling/scheduler/mod.rs: should_tick_node", "horus_core/src/scheduling/rt_executor.rs: rt_thread_main"]}
{"id": "C55", "title": "Repeated panics show in a node's health and counters", "statement": "A node is reported Unhealthy exactly when it has panicked in three consecutive ticks, and its tick counters equal the numbers of ticks and of successful ticks, on every executor.", "quantifier": "every executor and every history of successful and panicking ticks", "why_tests_cant": "Depends on the whole history and on the executor; tests replay one short history on one executor.", "anchors": ["horus_core/src/core/node.rs: record_tick record_tick_failure consecutive_failures start_tick", "horus_core/src/scheduling/event_executor.rs: watcher_thread", "horus_core/src/scheduling/scheduler/mod.rs: handle_tick_failure", "horus_core/src/scheduling/primitives.rs: FAILURES_BEFORE_UNHEALTHY"]}
{"id": "C56", "title": "Input freshness alarms are exact", "statement": "subscribe_with_timeout raises its policy exactly when no message has arrived on the topic for longer than the timeout.", "quantifier": "every history of publications and checks at any times, including a clock that is set back", "why_tests_cant": "Depends on the interleaving of publications and checks over time and on clock behaviour.", "anchors": ["horus_core/src/scheduling/types.rs: SubscriptionFreshness", "horus_core/src/scheduling/scheduler/mod.rs: process_tick_result"]}
{"id": "C57", "title": "A request to enter the safe state is carried out", "statement": "When the watchdog ladder or an outside system asks for a node to be safed, enter_safe_state is called on it at the executor's next pass, exactly once per request.", "quantifier": "every executor, every set of due and waiting nodes and every history of requests", "why_tests_cant": "Whether a request is seen depends on which other nodes are due in that pass.", "anchors": ["horus_core/src/scheduling/primitives.rs: honor_safe_state_request", "horus_core/src/scheduling/compute_executor.rs: compute_thread_main", "horus_core/src/scheduling/async_executor.rs", "horus_core/src/scheduling/rt_executor.rs", "horus_core/src/scheduling/safety_monitor.rs: trigger_external_safe_state install_safe_state_hook"]}
{"id": "C58", "title": "Start-up parameters: environment over file over built-in values, key by key", "statement": "A freshly built parameter store gives every key the value of the last HORUS_PARAM_ variable naming it, else of params.yaml, else the built-in default; no setting removes a built-in key; a file that cannot be read or parsed stops start-up; values saved before come back at the next start.", "quantifier": "all file contents, environments and crash points of a save", "why_tests_cant": "Every combination of layers and every crash point matters; tests set one variable at a time.", "anchors": ["horus_core/src/params.rs: RuntimeParams::new parse_env_value save_to_disk default_params"]}
{"id": "C59", "title": "An action client's handle tells the truth about its goal", "statement": "A goal handle only ever shows statuses, results and feedback the server published for that goal; a handle that shows success holds its result; once it holds a result it never changes; when all messages have been taken it shows the server's last status, and a result exactly if one was published; the client's counters count the finished goals.", "quantifier": "all interleavings of one server, any number of client threads sending goals and pumping messages, other clients, and time", "why_tests_cant": "Depends on which message is taken in which pump and on what the server publishes in between; tests run one schedule.", "anchors": ["horus_core/src/actions/client.rs: process_messages handle_status_update handle_feedback handle_result sweep_stale_terminal_goals register_goal send_goal_with_priority await_result await_result_with_feedback tick"]}
{"id": "C60", "title": "The list of remote hosts is bounded, fresh and not displaced by strangers", "statement": "The peer list never exceeds its limit; a host is listed exactly while its last accepted announcement is younger than the timeout; losing a host is reported exactly once; a host that keeps announcing is not dropped from the list, whatever announcements others send.", "quantifier": "every history of announcements and liveness checks at any times, with any number of senders", "why_tests_cant": "Depends on the whole history of senders and times; tests use a handful of peers.", "anchors": ["horus_net/src/peer.rs: PeerTable update_peer check_liveness remove_dead_peers alive_peers", "horus_net/src/discovery.rs: decode_announcement"]}
{"id": "C61", "title": "A topic crosses the network exactly while it should", "statement": "At any time a local topic is exported iff some listed host subscribes to it with the same type, and imported iff some listed host publishes it with the same type, in the directions this host itself uses; topics it has not opened never cross, and only hosts presenting the configured secret are listed.", "quantifier": "every history of announcements and losses, every local topic table and every iteration order of the peer table", "why_tests_cant": "Depends on the history of several peers and on hash-map iteration order.", "anchors": ["horus_net/src/replicator.rs: update_matches handle_announcement", "horus_net/src/discovery.rs: find_matches match_one"]}
{"id": "C62", "title": "Hosts configured for the same discovery group find each other", "statement": "Two hosts with matching discovery settings (same multicast group and port, or each other's address listed) receive each other's announcements.", "quantifier": "all discovery modes, groups, addresses and ports", "why_tests_cant": "Tests use the default port only.", "anchors": ["horus_net/src/replicator.rs: send_announcement", "horus_net/src/transport.rs: UdpTransport bind join_multicast"]}
{"id": "C63", "title": "Fused messages are all delivered, in order and promptly", "statement": "With fusion on, every message given to the exporter goes out once, unchanged and in order, and none is held longer than the fusion window.", "quantifier": "all histories of export passes at any times", "why_tests_cant": "Depends on the times and contents of later passes.", "anchors": ["horus_net/src/optimize/fusion.rs: FusionOptimizer on_outgoing", "horus_net/src/replicator.rs: handle_export"]}
{"id": "C64", "title": "Prediction withholds only messages the receiver can do without", "statement": "With prediction on, messages that go out are unchanged and in order, no more than 100 messages of a topic in a row are withheld, and a withheld value is close to the last value sent.", "quantifier": "all histories of values on all topics, every error threshold", "why_tests_cant": "Depends on the whole history of values per topic.", "anchors": ["horus_net/src/optimize/predict.rs: PredictOptimizer on_outgoing"]}
{"id": "C65", "title": "Remote data changes only what it may", "statement": "Datagrams from an address that is not admitted have no influence on a host at all. Whatever an admitted address sends, a local topic is written only if the host imports that topic, its import is allowed, the sender did not announce another type for it, and the bytes are those of a message for that topic; and an allowed message of the right type is written once.", "quantifier": "every history of datagrams (any bytes, any senders), export passes and timers, every configuration", "why_tests_cant": "Quantifies over all byte strings and all earlier histories; tests send a few well-formed packets.", "anchors": ["horus_net/src/replicator.rs: process_packet process_incoming_message", "horus_net/src/guard.rs: ImportGuard", "horus_net/src/peer.rs: announced_type_hash"]}
{"id": "C66", "title": "A message published on one host is written exactly once on a subscribing host", "statement": "If at least one copy of an exported message arrives, the subscribing host writes it into its own topic exactly once with the bytes that were published, and acknowledges it if it is urgent; an acknowledgement ends the retransmissions for the host that sent it; an urgent message is retransmitted until each subscriber has it.", "quantifier": "every message, every multiset and timing of arriving copies, every state of both hosts that satisfies the configuration", "why_tests_cant": "Depends on which copies are lost or repeated and on the state of both ends.", "anchors": ["horus_net/src/replicator.rs: handle_export send_message process_packet handle_timer", "horus_net/src/reliability.rs: ReliabilityManager", "horus_net/src/wire.rs: encode_single"]}
{"id": "C67", "title": "A networked emergency stop is obeyed after any history, and only a genuine one", "statement": "A host stops because of the network only on a recent stop message made with its key and coming from an admitted address; and a genuine recent stop that reaches a running host stops it, whatever traffic the host has handled before.", "quantifier": "every history of datagrams, export passes and timers from start-up, every configuration, every reason text", "why_tests_cant": "Must hold after any hostile traffic; tests start from a fresh handler.", "anchors": ["horus_net/src/replicator.rs: process_packet process_incoming_message handle_timer", "horus_net/src/estop.rs: EstopHandler encode_estop_with_key", "horus_net/src/flow_control.rs: on_received"]}
{"id": "C68", "title": "Every datagram that reaches the host is processed", "statement": "Each datagram that the socket holds is eventually handed to the receive path, in order of arrival, without waiting for further traffic.", "quantifier": "every pattern of arrivals relative to the receive loop's steps", "why_tests_cant": "Depends on bursts and on edge-triggered wake-ups; tests send single packets.", "anchors": ["horus_net/src/replicator.rs: run handle_data_packets", "horus_net/src/transport.rs: recv_from", "horus_net/src/event_loop.rs: EventLoop"]}
{"id": "C69", "title": "Exports reach exactly the subscribers", "statement": "An export pass sends only messages that are new, of topics this host may export, and only to listed hosts that announced that they subscribe; each new message goes to each of them, three times if urgent and once otherwise; the same message is not sent by a later pass.", "quantifier": "every history before the pass, every content of the local topics and every peer table", "why_tests_cant": "Depends on the peer table, the filters and which messages were exported before.", "anchors": ["horus_net/src/replicator.rs: handle_export send_message", "horus_net/src/shm_reader.rs: ShmRingReader try_read_latest", "horus_net/src/peer.rs: subscribers_of"]}
{"id": "C71", "title": "Imported messages are not sent back", "statement": "A message that a host imported from the network is not exported again by that host, so no message circulates.", "quantifier": "every history of announcements, datagrams and export passes on hosts with any roles", "why_tests_cant": "Loops appear only with several hosts and certain role combinations.", "anchors": ["horus_net/src/replicator.rs: update_matches handle_export process_incoming_message", "horus_net/src/guard.rs: ImportGuard allow_import"]}
{"id": "C70", "title": "Network export sends the newest message of a topic", "statement": "The network exporter watches a topic's shared file. After any sequence of send() calls on the topic the exporter sees the newest message with its number, sees each number at most once, and sees every message published while it keeps up.", "quantifier": "all ring sizes and message sizes, all sequences of publications and receptions, all moments at which the exporter looks", "why_tests_cant": "It ranges over every history of the ring, including refused sends, and over the points inside a send at which another process may look.", "anchors": ["horus_core/src/communication/topic/header.rs:read_latest_slot_bytes", "horus_core/src/communication/topic/mod.rs:send", "horus_net/src/shm_reader.rs"]}
{"id": "C72", "title": "Topic files are not trusted", "statement": "Reading or importing into a topic file, whatever bytes another user put in it, never crashes the program, never touches memory outside the file, and an import changes nothing but the next slot and the counters.", "quantifier": "all file lengths and contents, all requested positions, all payloads, and files that change after being opened", "why_tests_cant": "The input space is every byte string of every length; a test supplies a few malformed headers.", "anchors": ["horus_core/src/communication/topic/header.rs:read_slot_inner", "horus_net/src/shm_writer.rs:open_path", "horus_net/src/shm_writer.rs:write"]}
{"id": "C73", "title": "Imported messages reach the local subscriber", "statement": "Messages that arrive over the network and are written into a local topic are received by the local subscriber in order, each exactly once, and do not disturb local publishers.", "quantifier": "all ring and message sizes, all interleavings of imports and receptions, both receive paths", "why_tests_cant": "Every interleaving of an importer that does not look at the reader's position with the reader; unit tests import a few messages into an idle ring.", "anchors": ["horus_net/src/shm_writer.rs:write_pod", "horus_core/src/communication/topic/dispatch.rs:recv_shm_spsc_pod", "horus_core/src/communication/topic/dispatch.rs:recv_shm_mpsc_pod"]}
{"id": "C74", "title": "topic echo shows every message", "statement": "While horus topic echo runs, every message published on the topic is printed once and in order, or reported as missed if the ring overwrote it; what does not fit one poll is returned by the next.", "quantifier": "all ring sizes, poll budgets, numbers of messages between polls, and files that advance while being read", "why_tests_cant": "The defect appears only when more messages arrive between polls than the budget and ring allow, for any such numbers.", "anchors": ["horus_core/src/communication/topic/header.rs:read_slots_since", "horus_manager/src/commands/topic.rs:echo_topic"]}
{"id": "C75", "title": "A service call returns the answer to its own request", "statement": "What a service call returns is the server handler's outcome (answer, refusal or panic) on exactly the request that call sent, or a timeout once its time is over; never another caller's answer or an earlier one.", "quantifier": "all interleavings of any number of clients, processes and servers, all lost messages, all handlers", "why_tests_cant": "It quantifies over every interleaving of clients and servers and every id ever issued; the collision needs a process id to come round again.", "anchors": ["horus_core/src/services/client.rs:call", "horus_core/src/services/client.rs:next_request_id", "horus_core/src/services/server.rs:run_server_loop"]}
{"id": "C76", "title": "A service call runs the handler at most once", "statement": "The handler runs at most once for each call and only for calls that were made; a call with automatic retry repeats only after passing failures and returns the result of its last attempt.", "quantifier": "all histories with any number of servers and clients, all retry limits", "why_tests_cant": "The repeated execution appears only when a server is slower than the caller's timeout, for any number of retries.", "anchors": ["horus_core/src/services/client.rs:call_resilient_with", "horus_core/src/services/server.rs:run_server_loop"]}
{"id": "C77", "title": "Every service call that reaches a running server is answered", "statement": "If a server takes a request in time and nothing is lost, the caller's next looks before its deadline return the handler's outcome, also when the handler panicked or refused, for however many clients the service has had.", "quantifier": "all histories, all numbers of waiting requests and clients, all handlers", "why_tests_cant": "The failure needs 64 clients over the lifetime of a server, which no unit test creates, and is then permanent.", "anchors": ["horus_core/src/services/server.rs:run_server_loop", "horus_core/src/services/client.rs:check"]}
{"id": "C78", "title": "Several calls of one client do not disturb each other", "statement": "A client may have several asynchronous calls in progress; each gets its own answer, in whatever order they are looked at.", "quantifier": "all orders of calls, answers and looks", "why_tests_cant": "All interleavings of answers and looks are involved; tests keep one call in progress.", "anchors": ["horus_core/src/services/client.rs:PendingServiceCall", "horus_core/src/services/client.rs:call_async"]}
{"id": "C79", "title": "A service called from the command line runs once and answers its own caller", "statement": "For every number of servers of a service, every number of `horus service call` commands with different request ids, and every interleaving of their file operations (including writes that become visible in pieces): the handler runs at most once per call; each run is on the whole request of one of the calls; what a call prints is the outcome of the run made for it. A call whose request file is complete before a server reads it, and whose response is complete before the command reads it, prints its answer.", "quantifier": "All histories of calls, partial writes, polls, reads and claims by any number of servers and commands; all request texts and handlers.", "why_tests_cant": "The races are between a file being created, written, read and removed by different processes; each has a window of microseconds that a test hits by chance only. The two windows in which a request or a response is lost are shown as theorems.", "anchors": ["horus_manager/src/commands/service.rs: call_service", "horus_core/src/services/server.rs: gateway loop", "horus_sys/src/shm/mod.rs: write_shm_file_new"]}
{"id": "C80", "title": "Every goal sent from the command line reaches the action server", "statement": "Every goal for which `horus action send-goal` reports success is taken by the action server, once, in the order sent.", "quantifier": "All sequences of goals sent and polls by the server.", "why_tests_cant": "Depends on how sends interleave with the server's polling; a test sends one goal and polls. Sending two goals before a poll loses the first.", "anchors": ["horus_manager/src/commands/action.rs: send_goal", "horus_core/src/actions/server.rs: goal file polling"]}
{"id": "C81", "title": "A recording holds the ticks its configuration asks for", "statement": "With a recording interval, a size limit and a snapshot limit configured, the recording of a node holds, for exactly the ticks whose number is a multiple of the interval and that fit the limits, the tick's number, time stamp, newest input and output messages; with a snapshot limit it holds the newest ones; the first and last tick it names are those it holds.", "quantifier": "All configurations, all sequences of ticks with any messages.", "why_tests_cant": "The outcome is a function of the whole history (sizes add up, snapshots are dropped one at a time); a test records a few ticks. The interplay of the two limits, which stops the recording for ever, needs a long history.", "anchors": ["horus_core/src/scheduling/record_replay.rs: NodeRecorder::begin_tick, end_tick, record_input, record_output", "horus_core/src/scheduling/record_replay.rs: NodeRecording::add_snapshot"]}
{"id": "C82", "title": "A replay publishes what was recorded, tick by tick", "statement": "A replayed node publishes at tick k of the replay the messages the original published at tick k (or k ticks after the chosen start), each topic with an override gets the override, and the replay ends with the recording.", "quantifier": "All recordings, all overrides, all start ticks, all numbers of replayed ticks, all publishing patterns of the recorded node.", "why_tests_cant": "Depends on gaps in the tick numbers, on bursts and silent ticks of the recorded node and on what happens after the end; a test replays a recording it built by hand with one output per tick.", "anchors": ["horus_core/src/scheduling/scheduler/mod.rs: replay branch of the tick, recorder hooks", "horus_core/src/scheduling/record_replay.rs: NodeReplayer", "horus_core/src/scheduling/scheduler/recording.rs: start_at_tick"]}
{"id": "C83", "title": "Saved recordings can be loaded, are written atomically, and stay in their directory", "statement": "A recording that was saved is loaded again unchanged; if the process dies at any point during the save, the file holds its old content or the whole new recording; a file of an unknown version is refused; whatever the session, node and id are called, the file lies two levels below the recordings directory, and different sessions have different files.", "quantifier": "All recordings and encodings of any size; all points at which the process dies and all ways in which the writes are cut; all byte strings as names.", "why_tests_cant": "Crash points and write boundaries cannot be enumerated by a test, nor can names; the size limit is at 100 MiB.", "anchors": ["horus_core/src/scheduling/record_replay.rs: Recording::save_with_compression, load", "horus_core/src/scheduling/record_replay.rs: sanitize_path_component, RecordingConfig::session_dir, node_path"]}
{"id": "C86", "title": "Nodes on real-time, compute and async threads are recorded like others", "statement": "The recording of a node that runs off the main thread carries the tick numbers, respects the interval, and its replay publishes what the node published.", "quantifier": "All tick histories of such nodes, all configurations, all replays.", "why_tests_cant": "Needs multi-threaded executors with recording switched on; the claim is about every history and fails for every one.", "anchors": ["horus_core/src/scheduling/rt_executor.rs", "horus_core/src/scheduling/compute_executor.rs", "horus_core/src/scheduling/async_executor.rs"]}
{"id": "C87", "title": "A scheduler replay restores all nodes, their order and the time", "statement": "Replaying a scheduler recording runs every recorded node, in the recorded execution order, under a clock that advances as time did when recording.", "quantifier": "All scheduler recordings: any nodes with any names, any recorded orders, any number of ticks.", "why_tests_cant": "Depends on the iteration order of a hash map and on node names; a test has one or two nodes with harmless names and does not look at the clock.", "anchors": ["horus_core/src/scheduling/scheduler/recording.rs: Scheduler::replay_from, replay_tick_period_ns", "horus_core/src/core/clock.rs: ReplayClock", "horus_core/src/scheduling/scheduler/mod.rs: execution order"]}
{"id": "C84", "title": "Comparing two recordings reports exactly their differences", "statement": "For two recordings of a node, the comparison reports, for the ticks both span, exactly the outputs whose data differ (with their sizes), the outputs only one of them has and the ticks only one of them has, in the order of the ticks; it reports nothing exactly if the recordings agree there.", "quantifier": "All pairs of recordings with one snapshot per tick; all topics and data.", "why_tests_cant": "A universal statement about pairs of recordings, in both directions: nothing missed, nothing invented.", "anchors": ["horus_core/src/scheduling/record_replay.rs: diff_recordings"]}
{"id": "C85", "title": "The replay debugger stops, steps and resumes as documented", "statement": "Continuing stops at the first later snapshot at which the condition of an enabled breakpoint is met, names the first such breakpoint and counts a hit for each of them, and otherwise runs to the end; steps forward and backward are inverse to each other; a saved session resumes with the same position, breakpoints and watches; breakpoint numbers stay unique; the history holds the newest 1000 events; a watch is reported exactly when its value is new or has changed.", "quantifier": "All recordings, all breakpoints of all kinds, all watches, all sequences of debugger operations.", "why_tests_cant": "Quantifies over whole debugging sessions; a test has a handful of snapshots and one breakpoint.", "anchors": ["horus_core/src/scheduling/record_replay.rs: ReplayDebugger, Breakpoint::should_trigger, WatchExpression::evaluate, DebugSessionState"]}
{"id": "C88", "title": "A comparison without findings means equal recordings, and a finding names the right one", "statement": "If the comparison of two recordings reports nothing they hold the same; where it reports something missing, the recording it names is the one that lacks it.", "quantifier": "All pairs of recordings.", "why_tests_cant": "A universal claim about pairs of recordings; it fails for every recording and its continuation, and for every missing output.", "anchors": ["horus_core/src/scheduling/record_replay.rs: diff_recordings", "horus_manager/src/commands/record.rs: diff"]}
{"id": "C89", "title": "Every breakpoint stops the replay where its condition is met", "statement": "A breakpoint at any tick of the recording, one after n ticks, and stepping back work for every recording.", "quantifier": "All recordings, positions and breakpoints.", "why_tests_cant": "The conditions concern the position of a snapshot in the recording and the history of steps; tests place breakpoints in the middle of hand-made recordings.", "anchors": ["horus_core/src/scheduling/record_replay.rs: ReplayDebugger::continue_execution, step_internal, step_backward"]}
{"id": "C90", "title": "A deterministic run does not depend on the machine, and virtual time advances one period per tick", "statement": "In deterministic mode two runs of the same program see the same times, tick numbers, time steps and random numbers in the same order, however fast the machine is; virtual time advances by exactly one period per tick; now(), elapsed(), dt(), tick() and rng() mean what their documentation says.", "quantifier": "All sets of nodes, topics, rates, failure policies and deadlines, all programs, all timings of the machine, runs of any length.", "why_tests_cant": "Determinism is a statement about pairs of runs under all machine timings; a test compares two runs on one machine, usually of a single node, where a tick has one step.", "anchors": ["horus_core/src/core/clock.rs: SimClock", "horus_core/src/core/tick_context.rs", "horus_core/src/scheduling/scheduler/mod.rs: execute_single_tick, execute_nodes, should_tick_node, run_node_tick", "horus/src/time.rs"]}
{"id": "C91", "title": "A deterministic run with a duration executes the ticks that fit", "statement": "Running for a duration in deterministic mode ends after exactly the number of ticks whose periods cover the duration.", "quantifier": "All durations, periods, sets of nodes and dependency graphs.", "why_tests_cant": "The number of ticks depends on the shape of the dependency graph; tests use a single step.", "anchors": ["horus_core/src/scheduling/scheduler/mod.rs: should_stop_loop, execute_nodes"]}
{"id": "C92", "title": "An anytime algorithm guarded by budget_remaining() ends", "statement": "A loop in tick() that leaves once budget_remaining() falls below a margin ends in every mode of the scheduler.", "quantifier": "All budgets, margins and clocks.", "why_tests_cant": "Termination in every mode; in one mode the loop never ends, which a test can only observe as a hang.", "anchors": ["horus/src/time.rs: budget_remaining", "horus_core/src/core/tick_context.rs: ctx_budget_remaining"]}
{"id": "C93", "title": "Real-time nodes that depend on each other run in order", "statement": "Real-time nodes connected by a topic or an order run one after the other on one thread; independent ones get threads of their own.", "quantifier": "All sets of real-time nodes, all dependency graphs, all schedules of the threads.", "why_tests_cant": "A claim about all interleavings of threads.", "anchors": ["horus_core/src/scheduling/dependency_graph.rs: independent_chains", "horus_core/src/scheduling/scheduler/mod.rs: rt_chains"]}
{"id": "C94", "title": "The node builder: order of calls, what is accepted, what is in force", "statement": "Configuring a node through the builder depends only on what is asked about each setting, not on how calls about different settings are interleaved. A chain of calls is accepted exactly when: with an execution class, its topic is non-empty and no budget, deadline, no_alloc or freshness timeout is asked; without one, either no timing and no no_alloc is asked, or timing is asked, no freshness timeout is, and the resulting budget and deadline are non-zero and representable. Whatever was accepted is in force: a node built with no_alloc, budget or deadline is real-time, a node with a freshness timeout runs on the main loop. A wrong value is an error, not a panic (refuted: a rate whose period exceeds the longest duration panics in build).", "quantifier": "all chains of builder calls, all rates (as exact rationals) and durations", "why_tests_cant": "The claims range over all sequences of calls and all values; tests try a handful of chains in one order.", "anchors": ["horus_core/src/scheduling/node_builder.rs: NodeRegistration::finalize, validate, rate, budget, deadline, no_alloc, compute, on, async_io", "horus_core/src/core/duration_ext.rs: Frequency::budget_default, deadline_default, period"]}
{"id": "C95", "title": "Budget and deadline of a real-time node", "statement": "With only a rate, budget <= deadline <= period, at 80% and 95% of the period to the nearest nanosecond, so a missed deadline is always also an overrun. A budget without rate and deadline is the hard deadline. Refuted once a rate is given too: the deadline is 95% of the period whatever the budget, so a smaller budget is overrun without on_miss firing, and any larger budget, even beyond the period, is accepted although the node then misses its deadline within its budget.", "quantifier": "all rates, budgets, chains of calls and tick durations", "why_tests_cant": "The relation must hold for all rates and budgets; rounding makes single values uninformative.", "anchors": ["horus_core/src/scheduling/node_builder.rs: finalize", "horus_core/src/scheduling/primitives.rs: TimingEnforcer::check_tick_budget, check_deadline", "horus_core/src/scheduling/rt_executor.rs: process_node_tick"]}
{"id": "C96", "title": "Node names are clean and distinct", "statement": "Whatever names nodes are given, the names the scheduler keeps contain no control character, names without any are kept unchanged, and the scheduler starts exactly when the kept names are pairwise different; otherwise the error names one that two nodes share. Refuted: nodes with different names can always run together (a name with a control character collides with the name that spells out its escape).", "quantifier": "all lists of names over all Unicode code points", "why_tests_cant": "Holds for every name; tests try a few forged ones.", "anchors": ["horus_core/src/core/presence.rs: escape_control_chars", "horus_core/src/scheduling/scheduler/mod.rs: add_configured_internal, run_with_filter, tick_once"]}
{"id": "C97", "title": "The thread of a real-time node has the settings it asked for", "statement": "However many real-time nodes a scheduler has and whatever the dependency graph, each real-time node's thread runs with the node's own period (the scheduler's if it has no rate), at the priority it asked for (80 by default), pinned to the core it asked for (one of the recommended ones in turn otherwise), and, if it asked for deadline scheduling and has a rate, with its own budget, deadline and period. Refuted: a node asking for deadline scheduling gets it or a message (without a rate it is dropped silently); an accepted configuration can be started (a rate whose period exceeds the longest duration is accepted with explicit budget and deadline, and starting the threads then panics).", "quantifier": "all lists of chains of builder calls, all dependency graphs, hash orders and recommended CPU sets", "why_tests_cant": "The combinations of settings of many nodes are unbounded and the settings are only visible in the kernel.", "anchors": ["horus_core/src/scheduling/rt_executor.rs: start_pool, rt_thread_main", "horus_core/src/scheduling/scheduler/mod.rs: rt_chains"]}
{"id": "C98", "title": "A rate-paced loop keeps its frequency, and reports it", "statement": "A loop that calls Rate::sleep at the end of every turn never runs ahead of the rate, does not accumulate lateness while its turns fit in the period, makes up for at most one period when it falls behind, and actual_hz reports the frequency the loop achieves.", "quantifier": "all periods, all interleavings of work, sleep and reset, all operating-system oversleeps", "why_tests_cant": "a test sees one schedule; drift and catch-up bounds are about every history", "anchors": ["horus_core/src/core/timer.rs: Rate::sleep, actual_hz, is_late, reset"]}
{"id": "C99", "title": "A generic message carries its payload and metadata unchanged", "statement": "GenericMessage accepts every payload up to 4096 bytes and metadata up to the documented limit, gives both back unchanged before and after shared memory and after serialization, refuses larger ones, and no message a reader can obtain makes its accessors panic.", "quantifier": "all payloads and metadata, all serialized documents, all shared-memory images", "why_tests_cant": "tests use a few sizes; the claim is about every byte string and every hostile document", "anchors": ["horus_types/src/generic.rs: GenericMessage::new, with_metadata, data, metadata, Serialize, Deserialize, truncate_on_char_boundary", "horus_core/src/communication/topic/mod.rs: type compatibility check"]}
{"id": "C100", "title": "Names in fixed-size message fields read back", "statement": "A name stored in a fixed-size field of a message (frame id, source, topic, component) reads back as given when it fits and as a shortened name when it does not; a time reference's offset converts local time into reference time.", "quantifier": "all names, all field sizes, all offsets and times", "why_tests_cant": "tests use short ASCII names; cuts inside a character need particular lengths", "anchors": ["horus_types/src/time.rs: TimeReference, RateRequest", "horus_types/src/diagnostics.rs", "horus_core/src/types/mod.rs: impl_frame_id_field"]}
{"id": "C101", "title": "Occupancy grids keep their cells and place points in them", "statement": "Setting a cell of an occupancy grid succeeds exactly inside the grid and changes that cell only; every cell is one of unknown, free and occupied; a point of the world belongs to exactly the cell whose square holds it, and the centre of a cell belongs to that cell.", "quantifier": "all grid sizes, resolutions, origins, histories of calls and points", "why_tests_cant": "tests set a few cells of small grids; 32-bit index wrap-around, rotated maps, points just outside and odd resolutions need particular values", "anchors": ["horus_core/src/memory/occupancy_grid.rs: OccupancyGrid::{set,get,row,world_to_grid,grid_to_world,fill}"]}
{"id": "C102", "title": "Cost maps keep occupancy and costs apart", "statement": "Writing one layer of a cost map leaves the other layer and all other cells as they were; after costs are taken from occupancy a cell is lethal exactly when it is occupied and traversable exactly when it is free.", "quantifier": "all cost maps with any history, all cells and values", "why_tests_cant": "tests look at a handful of cells", "anchors": ["horus_core/src/memory/costmap.rs: CostMap::{set_cost,set_occupancy,apply_from_occupancy}"]}
{"id": "C103", "title": "Images show what was painted", "statement": "A pixel of an image has the value last set or filled at it, and zero before; wrong lengths and places outside change nothing; a region of interest is exactly its pixels row by row, and is given exactly when it fits.", "quantifier": "all sizes, all encodings, all histories of set and fill, all pixels and regions", "why_tests_cant": "tests use one or two encodings and small images; overlap of neighbouring pixels or rows shows only for particular sizes", "anchors": ["horus_core/src/memory/image.rs: Image::{new,pixel,set_pixel,fill,roi}", "horus_core/src/types/image_encoding.rs: ImageEncoding", "horus_core/src/types/image_descriptor.rs: ImageDescriptor::new"]}
{"id": "C104", "title": "Depth images store depths to the millimetre", "statement": "A depth accepted by a millimetre depth image reads back within one raw unit, every other pixel is unchanged, and depths that do not fit are refused; a depth read and written back is unchanged; statistics are the least, greatest and mean positive depth.", "quantifier": "all images, scales, pixels and depths, in single-precision arithmetic", "why_tests_cant": "the 739 readings that a round trip changes are spread over 65536 values, and tests use round metres", "anchors": ["horus_core/src/memory/depth_image.rs: DepthImage::{get_depth,set_depth,get_depth_u16,depth_statistics}"]}
{"id": "C105", "title": "Point clouds hold their points", "statement": "A cloud made of points holds those points in order and no others, their coordinates come out as they went in, and extraction from any descriptor stays in range; a cloud that says it has intensity carries one.", "quantifier": "all numbers of points, all field counts, all values, all descriptors", "why_tests_cant": "tests use two or three points of one layout", "anchors": ["horus_core/src/memory/pointcloud.rs: PointCloud::{from_xyz,from_xyzi,from_xyzrgb,point_at,extract_xyz}", "horus_core/src/types/pointcloud_descriptor.rs: has_intensity"]}
{"id": "C106", "title": "Views of a tensor are the same elements, inside the same bytes", "statement": "A reshaped tensor has the asked shape and the same elements in the same order, or is refused; a slice has exactly the rows asked for; any chain of views and slices stays inside the bytes of the original; the check made on descriptors from other processes accepts exactly those that stay inside their allocation.", "quantifier": "all shapes, strides, offsets, all chains of views and slices, all descriptors", "why_tests_cant": "shapes and strides are unbounded; overflow modulo 2^64, more than eight dimensions and padded rows need particular shapes", "anchors": ["horus_core/src/types/tensor.rs: Tensor::{new,view,slice_first_dim,addressed_extent_bytes,descriptor_is_within_allocation,is_contiguous}"]}
{"id": "C107", "title": "Topic names and files", "statement": "A topic name accepted by the checks stands for a file strictly below the topics directory, and different topics use different files for their memory and their description.", "quantifier": "every topic name, every topics directory", "why_tests_cant": "names are arbitrary strings; a test tries a handful and cannot rule out an escape or a collision", "anchors": ["horus_sys/src/shm/mod.rs:validate_region_name", "horus_sys/src/shm/mod.rs:topic_shm_path", "horus_sys/src/shm/mod.rs:write_topic_meta", "horus_core/src/communication/topic/mod.rs:with_capacity_and_kind"]}
{"id": "C108", "title": "Users of one topic share one memory", "statement": "All handles open on a topic, in any processes, are on the same memory, the one its name leads to; the file is removed when the last one leaves and never under a user; stale files are reclaimed only when nobody uses them.", "quantifier": "every sequence of opens, drops, crashes and cleanups, and every interleaving of their system calls", "why_tests_cant": "the failures need a system call of one process to fall between two of another", "anchors": ["horus_sys/src/shm/linux.rs:ShmRegion::new", "horus_sys/src/shm/linux.rs:Drop for ShmRegion", "horus_sys/src/shm/mod.rs:is_shm_file_stale", "horus_manager/src/discovery/topics.rs:cleanup_stale_topics_in_dir"]}
{"id": "C109", "title": "A topic's mapping lies within its file", "statement": "No handle is mapped beyond the end of the topic's file, whatever sizes the openers ask for and whoever grows it, and opening a topic never erases what its users have written.", "quantifier": "every set of sizes, every interleaving of creation, joining and growth", "why_tests_cant": "depends on the order of system calls of several processes and on the sizes they ask for", "anchors": ["horus_sys/src/shm/linux.rs:ShmRegion::new", "horus_sys/src/shm/linux.rs:grow_unchecked", "horus_core/src/communication/topic/mod.rs:auto_grow_slot_size"]}
{"id": "C110", "title": "A scan lists exactly the live nodes", "statement": "Listing the nodes of a machine shows a node, with what it last announced, exactly while it has not withdrawn and its process still runs; process numbers that are used again deceive nobody.", "quantifier": "every history of process starts and exits, announcements, withdrawals and scans; every node name", "why_tests_cant": "stale files, reuse of process numbers and scans interact over long histories a test does not produce", "anchors": ["horus_core/src/core/presence.rs:NodePresence::read_all", "horus_core/src/core/presence.rs:NodePresence::write", "horus_core/src/core/presence.rs:is_alive", "horus_sys/src/discover/mod.rs:find_nodes"]}
{"id": "C111", "title": "Presence files are replaced whole", "statement": "A reader of a presence file finds nothing or one whole record, whatever moment the writer dies at.", "quantifier": "every sequence of the writers' system calls, every crash point", "why_tests_cant": "crashes between two system calls and two writers at once", "anchors": ["horus_core/src/core/presence.rs:NodePresence::write", "horus_sys/src/fs/mod.rs:open_private"]}
{"id": "C112", "title": "Nodes of other machines", "statement": "What another machine announces is read back as sent, is written only as a file of that host directly in the nodes directory, stays exactly while the host was heard in the last 30 seconds, and is shown with its true age.", "quantifier": "every byte string received, every history of broadcasts and cleanups, every clock difference", "why_tests_cant": "the input comes from an untrusted network and the clocks of two machines", "anchors": ["horus_net/src/presence.rs:handle_broadcast", "horus_net/src/presence.rs:cleanup_stale", "horus_net/src/presence.rs:build_local_presence", "horus_manager/src/discovery/nodes.rs:discover_nodes_uncached"]}
{"id": "C113", "title": "The order of a launch", "statement": "The nodes of a launch file are started in an order in which each comes after the nodes it depends on and every node of the file appears; a circle of dependencies is reported, and only that.", "quantifier": "every launch file, however many nodes and dependencies", "why_tests_cant": "graphs of any shape and size", "anchors": ["horus_manager/src/commands/launch.rs:sort_by_dependencies", "horus_manager/src/commands/launch.rs:run_launch"]}
{"id": "C114", "title": "A launch starts everything or leaves nothing", "statement": "A launch that succeeds has started every node once, after its dependencies; one that fails leaves no process running.", "quantifier": "every order, every outcome of starting each process", "why_tests_cant": "which process cannot be started is not under a test's control, and files can have any missing dependency", "anchors": ["horus_manager/src/commands/launch.rs:run_launch", "horus_manager/src/commands/launch.rs:launch_node"]}
{"id": "C115", "title": "Restarts follow the policy and its limits", "statement": "A process that ended is restarted exactly if its restart policy says so and at most ten times, after 100 ms doubled each time up to 10 s; StopNode stops a node; RestartNode restarts it once.", "quantifier": "every history of ends, commands and restarts", "why_tests_cant": "a history of any length decides the count and the wait", "anchors": ["horus_manager/src/commands/launch.rs:run_launch", "horus_manager/src/commands/launch.rs:should_restart_node"]}
{"id": "C116", "title": "Watching and ending a launch", "statement": "However a launch went, when it ends no process it started is left; an emergency stop is seen promptly; the session file names the right process for each node, and stopping a node concerns that node only.", "quantifier": "every history of rounds, commands and ends of processes", "why_tests_cant": "depends on which processes end in which order", "anchors": ["horus_manager/src/commands/launch.rs:run_launch", "horus_manager/src/commands/launch.rs:LaunchSession"]}
{"id": "C117", "title": "Dependencies are resolved to compatible versions", "statement": "Resolving ends; a result gives each package one available version that meets what the caller asks and what every chosen version asks, as high as the requirements allow; a conflict is reported only if there is one; a dependency keeps its source.", "quantifier": "every registry, every list of requirements, circles included", "why_tests_cant": "registries of any size and shape; what matters is the interplay of many requirements", "anchors": ["horus_manager/src/dependency_resolver.rs:DependencyResolver::resolve", "horus_manager/src/dependency_resolver.rs:resolve_package", "horus_manager/src/dependency_resolver.rs:find_best_version_with_requirements"]}
{"id": "C118", "title": "An installation meets the requirements", "statement": "After a successful installation every dependency is in the workspace, at a version that meets its requirement; what was installed before is unchanged.", "quantifier": "every registry, every workspace, every list of dependencies", "why_tests_cant": "the result depends on what is installed on the way, to any depth", "anchors": ["horus_manager/src/registry/install.rs:install_dependencies", "horus_manager/src/registry/install.rs:install_from_registry", "horus_manager/src/registry/install.rs:install_dependency_spec"]}
{"id": "C119", "title": "A dependency is read as written", "statement": "The text of a dependency gives its name, source and requirement; one that cannot be read is an error and not something else.", "quantifier": "every text, every parser of requirements", "why_tests_cant": "texts are arbitrary; prefixes, at signs and features can occur anywhere", "anchors": ["horus_manager/src/dependency_resolver.rs:DependencySpec::parse", "horus_manager/src/registry/helpers.rs:get_dependencies"]}
{"id": "C120", "title": "Log entries reach other machines exactly once and in order", "statement": "A machine that replicates its log hands to the network every new entry at or above the chosen severity, once and in order, and the receiving machine reads back from those payloads the same node names (with the sender's host before them), severities and texts; after a poll fewer than 64 entries wait, and none once 100 ms have passed since the last broadcast. Bytes from anywhere never crash the receiver and give at most one entry per five bytes. Found false: an entry logged between the two looks of one poll is sent twice; all new entries of a poll go into one datagram, so a burst that does not fit is lost whole; any machine can send entries in another's name.", "quantifier": "all logs, severities, histories of pushes and polls, host names, and all received byte strings", "why_tests_cant": "duplicates and losses depend on where a push falls between two reads of the buffer and on the size of a burst; tests use a few short entries", "anchors": ["horus_net/src/log_replication.rs:LogDrain::poll", "horus_net/src/log_replication.rs:handle_remote_logs", "horus_net/src/replicator.rs:send_system_topic"]}
{"id": "C121", "title": "An image is freed when, and only when, nobody has it", "statement": "Images are made, cloned, sent on any number of topics, received by any number of subscribers and dropped, in any interleaving. At every moment an image a program has is valid memory inside the pool, its reference count is the number of those who have it (programs and topics), and two different images share no byte. Once all programs have dropped their images and topics, every slot of the pool is free again.", "quantifier": "all numbers of threads, topics and slots, all pool sizes, and all histories of the pool's phases in which no process is killed", "why_tests_cant": "a use after free or a leak needs one interleaving of sends, receives and drops among several subscribers", "anchors": ["horus_core/src/communication/topic/mod.rs:Topic::<Image>::send", "horus_core/src/communication/topic/mod.rs:publish_keepalive_on", "horus_core/src/communication/topic/topic_message.rs:try_from_wire", "horus_core/src/memory/mod.rs:Clone", "horus_core/src/memory/tensor_handle.rs:Clone"]}
{"id": "C122", "title": "An image that was sent can be received", "statement": "The last image sent on a topic handle can be received by every subscriber, whoever dropped it meanwhile, and an image nobody has any more is never handed out. Found false: that images waiting in a topic can be received. A topic keeps only the last image sent, so of several images sent and given away before a subscriber reads, all but the last are gone and receiving them gives nothing; and if the ring was full, the last one is not in it, so the subscriber gets none at all.", "quantifier": "all histories, all numbers of images sent before a read, all ring capacities", "why_tests_cant": "tests read after each send; the loss needs a subscriber that falls behind by more than one image", "anchors": ["horus_core/src/communication/topic/mod.rs:publish_keepalive", "horus_core/src/communication/topic/mod.rs:Topic::<Image>::recv", "horus_core/src/communication/topic/mod.rs:send_lossy"]}
{"id": "C123", "title": "Pins of the lock file", "statement": "After any history of pins, the project's lock file lists for each package (name and source) exactly its last pinned version and checksum, each package once, ordered by source and then name; so two histories that end with the same pins write the same list whatever the order they were made in. Running horus lock keeps the pins of a lock file it can read, and the file counts as out of date exactly when its recorded hash is not the configuration's. Refuted: with two entries for one package in a loaded file, a pin leaves the second as it was; horus lock over an unreadable or older lock file silently replaces it by one without pins; a version-3 file is not upgraded on the next write as the message says.", "quantifier": "every history of pins, every lock file, every toolchain", "why_tests_cant": "A test pins two or three packages in one order; that the listing does not depend on the order or on what was pinned before needs all histories.", "anchors": ["horus_manager/src/lockfile.rs: pin, load_from, is_stale", "horus_manager/src/main.rs: Lock command"]}
{"id": "C124", "title": "Project files are saved whole", "statement": "Saving the lock file or the manifest and being stopped at any point (crash, Ctrl-C, full disk) leaves on disk either the whole of what was there or the whole of the new content, after any history of such saves, and never something older than a save that ended. Refuted: two processes saving at once share the temporary file, so for any two contents there is a schedule in which one reports success, the file is empty, and the other never succeeds; and the registry of plugins is written in place, so stopping it leaves it empty.", "quantifier": "every content, every point at which a save stops, every size of each write, every history of saves; for the refutations every pair of contents and every prior state", "why_tests_cant": "A test saves once without being interrupted; crash points and interleavings are not reachable from it.", "anchors": ["horus_manager/src/lockfile.rs: save_to", "horus_manager/src/manifest.rs: save_to", "horus_manager/src/plugins/registry.rs: save_to"]}
{"id": "C125", "title": "The watchdog of a node in the main loop", "statement": "A node with a watchdog, ticked by the main loop, whose every cycle is checked within its timeout is ticked in every cycle, stays healthy and never stops the robot; a node with a warning is healthy again after one good tick. Refuted: a node suppressed at twice its timeout never becomes fit again, whatever its probe ticks do, and is ticked at most once in a hundred cycles; a single tick that took between two and three timeouts stops the robot, because the skipped node no longer feeds its watchdog; an event node with a watchdog stops the robot when no event arrives for three timeouts.", "quantifier": "every history of cycles with any times, tick results, pauses and back-offs; every timeout below 2^64/3 ns; for the refutations every such history", "why_tests_cant": "Tests drive one transition at a time with chosen times; that no later history restores a node, or that one late tick always ends in a stop, is about all continuations.", "anchors": ["horus_core/src/scheduling/scheduler/mod.rs: should_tick_node, prepare_node_tick, process_tick_result, check_safety_monitors", "horus_core/src/scheduling/safety_monitor.rs: check_watchdogs_graduated", "horus_core/src/scheduling/event_executor.rs"]}
{"id": "C126", "title": "The live node list shows each node of a scheduler with the numbers last written for it", "statement": "A scheduler publishes its nodes in a shared file that the command line reads. Whatever the file held before, after any sequence of registrations and per-tick updates the list has every registered node in order of registration, with its name, class, order, rate and the counters and timings last written for that node and for no other. More than 64 nodes, names longer than 47 bytes, priorities above 255, states other than running and a second scheduler of the same name are not shown faithfully.", "quantifier": "every prior content of the file, every history of at most 64 registrations and any number of updates of registered nodes, all names and values", "why_tests_cant": "the fields of 64 slots overlap or not by arithmetic over every slot, width and interleaving of writes; tests write one slot and read it back", "anchors": ["horus_core/src/scheduling/registry.rs: SchedulerRegistry::open, init_header, register_node, update_node, read_all_slots_from_path", "horus_core/src/scheduling/scheduler/mod.rs: registry_slots, update_registry_slot", "horus_core/src/scheduling/types.rs: SharedMonitors::update_registry"]}
{"id": "C127", "title": "A topic's backend is changed by one participant at a time, and every change has its own number", "statement": "Any number of threads and processes may ask at once that a topic change its backend. Unless a lock is taken away from its holder, at most one is changing it at any time, successful changes are numbered 1, 2, 3, ... in the order they return, and when no call is under way the topic's epoch is their count and its mode that of the last. Under every schedule, crash and forced unlock no two changes get the same number. A crashed holder blocks changes until its lock is taken away, after which a caller succeeds. Taking the lock from a slow holder, a crash between the two stores, and asking for the current mode after growing a topic are not safe.", "quantifier": "every number of callers, every interleaving of their accesses to the header, every crash point, every forced unlock", "why_tests_cant": "the faults need particular interleavings of single memory accesses of several callers and crashes between them; tests run a few threads", "anchors": ["horus_core/src/communication/topic/migration.rs: BackendMigrator::try_migrate, perform_migration, drain_in_flight, migrate_to_optimal", "horus_core/src/communication/topic/header.rs: try_lock_migration, unlock_migration", "horus_core/src/communication/topic/mod.rs: check_migration, auto_grow_slot_size"]}
