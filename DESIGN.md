# Formal model of softmata/horus in Rocq (Coq 8.16.1)

## Layout

```
rocq/theories/Base/    lists, little-endian bytes, small tactics (no horus content)
rocq/theories/Model/   Gallina model of the Rust functions; each definition cites file:lines. No proofs.
rocq/theories/Spec/    small declarative specifications, independent of the model's helpers
rocq/theories/Proofs/  lemmas and proofs
rocq/theories/Props/   the property theorems: statement, short proof, satisfiability Example, Print Assumptions
seeded/LOG.jsonl       wrong programs tried against the theorems, and which theorems rejected them
```

Build: `cd rocq && coq_makefile -f _CoqProject -o Makefile && make -j4`.

## Conventions

* Byte = `N` (`< 256`, stated where it matters); u16/u32/u64 = `N` with explicit `mod 2^k`
  wherever the code wraps and the wrap matters; lengths and indices = `nat` when small, `N` when they can be large.
* Rust panics are an explicit error value (`Panic`, `Fault`, `None` of an outer option); `Option`/`Result` stay data.
* Time is a parameter (`N`, nanoseconds or milliseconds as in the code); every clock read is an operand, so the theorems
  quantify over clocks, including clocks set back where the code reads wall-clock time.
* Hash-map iteration orders, user callbacks, optimizers, codecs, and the YAML reader are arbitrary: Section variables of the
  model, discharged, so each theorem quantifies over them in its own statement.
* Concurrency: a program is a transition system over a shared store. One step = one atomic access (load, store, CAS,
  fetch_add) or one payload word copied (rings, seqlock, Treiber stack, broadcast, emergency stop, work-stealing loop), or one
  lock-protected phase where the code holds a lock or the property is about whole calls (pool, params, action server). Each
  model's header comment says which. Interleavings are arbitrary.
* A property that is false of the faithful model is proved as `..._refuted`, and the strongest true version found is proved
  beside it, with suffix `_partial` when it is weaker than the English property.
* Beside the theorems of each property stand `Example`s in which concrete cases meet their hypotheses (one case often serves
  several theorems; theorems that hold without hypotheses have none of their own).

## How the properties are proved

| id | what is modelled | how proved |
|----|------------------|-----------|
| C01 C02 | MPSC ring (claim CAS, word writes, ready stamp) and its consumer, N producers | inductive invariant over reachable states; ghost history of claims; refinement to a FIFO queue |
| C03 C04 | broadcast ring, word-granular writers and readers | invariant for one writer; refutation by an explicit schedule for two writers |
| C05 | seqlock publish/consume, word-granular | invariant; the skipped counter is only a lower bound, refuted as exact |
| C06 | single producer, N consumers CASing the shared tail | invariant; refutations for an overtaken copy |
| C07 C45 C46 | fan-out matrix as a map of channels, slots, round-robin cursor | functional specification by induction on histories |
| C08 | backend choice and the send/recv function tables | case analysis over all counts |
| C09 | participant table with leases | invariant over histories |
| C10 | reader position arithmetic on resync | monotonicity; refutation where the code regresses |
| C11 | region layout arithmetic, growth | nonlinear arithmetic, invariant over attach histories |
| C12 C14 C48 C49 | tensor pool: interleaved phases of any number of processes, kills | invariant over interleavings; refutations for reclaim, failed alloc, stale writes |
| C13 | Treiber stack with tagged head, N threads | inductive invariant (distinctness, well-formed chain, ABA tag) |
| C15 C16 | wire codecs over byte lists | round-trip laws; decoder accepts exactly a grammar |
| C17 C18 C19 | fragmentation and reassembly; export composed with receive | invariant over arrival histories; general refutation for payloads above 1400 bytes |
| C20 C21 C22 | reliability and flow control tables | invariants, counting lemmas, wrap refutation |
| C23 C24 C25 | guards, glob matcher, address filter, token bucket | equivalence with an inductive relation; bit-vector arithmetic; potential function |
| C26 C27 C28 C43 | emergency stop, heartbeat, SHA-256/HMAC/hex | exact characterisation over histories; streaming = one-shot specification |
| C29 C33 C60 C61 C62 | discovery codec, peer table, topic registry and matching | round trip, symmetry, multiset invariants |
| C30 C32 C63 C64 | outgoing optimizers | arbitrary optimizer functions; refutation of delta decoding; conservation |
| C31 | cross-endian conversion | induction; refutation of the word-size guess |
| C34 C50 | dependency graph and the executor that follows it | Kahn invariant, error iff cycle; invariant over interleavings |
| C35 C36 C37 C51-C57 | failure policies, deadline ladder, watchdogs, the five executors | history-only specification, refinement of each executor to it |
| C38 | e-stop latch with any number of threads | invariant |
| C39 | black box: ring, write-ahead log, crash prefix | histories over any line codec |
| C40 C58 | parameters: calls interleaved by lock phases; files | histories, refutations |
| C41 C59 | action server and client | histories; server/client composed over lossless FIFO topics |
| C42 | shared log buffer, byte-level entries | whole calls exact; interleaved processes by invariant |
| C44 C47 | broadcast registrations; a handle that sends and receives | explicit schedules; partial theorems |
| C65-C69 C71 | replicator receive and export loops composed with codecs, tables, MAC and registry | soundness for any bytes from the network, end-to-end theorem by composition |
| C70 C72-C74 | a topic's backing file as bytes: exporter, importer, echo, local endpoints | frame lemmas over byte stores; ring invariant; refinement to a queue |
| C75-C78 | clients, servers and topics of a service as one transition system with lossy queues; the handler is any function of the run number and the request | invariant over all histories tying every request, run and response to one call; refutations hold for every continuation |
| C79-C80 | request, response and goal files of the command line, with creation, partial writes, reads and removals as separate steps of any number of processes | invariant over all histories; losses as theorems about every continuation |
| C81-C89 | node recorder, replayer, the files of recordings with every crash point of a save, the scheduler recording with the replay's clock, order and file names, the comparison of recordings, the debugger with breakpoints, watches, events and sessions | invariant over all tick histories; refutations for every configuration; the limits are exact |
| C90-C93 | virtual clock, tick context, graph steps and the fallback order, failure policies and skip deadlines under arbitrary machine timings, runs with a duration, the anytime loop, assignment of real-time nodes to threads | induction over steps and ticks; simulation between two runs on different machines; refutations for every graph of the shape |
| C94-C97 | builder calls, finalize and validate, default budgets and deadlines as rounded rationals, registration under escaped names, setup of real-time threads | each field of the registration as the last call about it; case analysis over what was asked; rounding inequalities; invariant over registrations |
| C98-C100 | rate limiter on a nanosecond clock with arbitrary work, oversleep and clock-read delays; generic message buffers, their shared-memory image and the serde data model; fixed-size text fields | invariant over all histories (cycle start, returns); round-trip laws; soundness of every decoded document; UTF-8 prefix lemma |
| C101-C102 | occupancy grid and cost map as lists of cells with 32-bit index arithmetic; world coordinates as rationals | invariant over all histories of calls; index injectivity; floor arithmetic |
| C103-C105 | image bytes with the row step of the descriptor; depth readings with a 24-bit rounding function for each `f32` operation; float clouds | refinement of a picture (a function of coordinates) over all histories; relative error bound of the rounding; list lemmas |
| C106 | tensor descriptor (offset, size, shape, strides) with 64-bit wrap-around | row-major strides equal the rank of an index; soundness and completeness of the extent check; closure of allocated tensors under views |
| C107-C109 | Model/ShmFiles.v: name checks and paths; the system calls of creation, drop, crash and cleanup on one name as a transition system over inodes and locks; the length and contents of one file | names by list induction on components; invariants over whole operations and over calls while one handle stays; races as universal counterexamples |
| C110-C112 | Model/Presence.v: the nodes directory and the process table under any history of events; the system calls that replace one file; the broadcast format, the receiver of other machines' records and how their age is shown | history functions (last announcement, current process) as the specification, induction on the history from its end; invariant over inodes for the replacement; round trip by consumption of the encoded bytes |
| C113-C116 | Model/Launch.v: the depth-first order of a launch file, the loop that starts processes, and rounds of the watching loop (commands, emergency stop, ended processes, session) | invariant over visited and in-progress names with a path of dependencies for the circle; induction over the order and over rounds for restarts, waits and what is left running |
| C117-C119 | Model/Resolver.v: the breadth-first collection of requirements over an arbitrary registry (versions as ordered numbers, matching as a relation), the choice of versions, installation into a workspace with its recursion, the parser of dependency texts | invariant: what is behind every visited package at its present requirements is visited or queued, so the last requirement brings the final version's dependencies; counting of new keys for termination; induction over depth and list for installation |
| C120 | `Model/LogNet.v`: the sender's position, batch and flush, the byte format, the receiver's parser with panics explicit. Invariant over histories: groups sent and entries held are together the wanted entries before the position; round trip of a payload; the parser's result bounded by the input. |
| C121-C122 | `Model/ImageTopic.v`: image objects, the keep-alive of each topic handle and the reference that a send is about to release, on the pool of `Model/TensorPool.v`. Refinement: each image event is an event of a correct pool client, with the pool's references a permutation of the holders; the pool's theorems then carry over. The refutations follow the books of a thread that sends any list of images. |
| C123-C124 | `Model/Lockfile.v`: pinned packages as a list kept by a stable sort; a directory with two names over numbered files, and `save_to` as steps (open and cut, write some bytes, rename), one process stopped anywhere or two interleaved. Sorting by permutation and a unique sorted list; saving by an invariant over the steps; the refutations give the schedule. |
| C125 | `Model/Suppress.v`: one cycle of the main loop for one node, built from the gate of `Model/ExecLoop.v` and the watchdog of `Model/Safety.v`: gate, feed, tick, recovery, check, reaction. Induction over cycles, with the health and the probe counter as invariants. |
| C126 | `Model/NodeTable.v`: the file as a byte at every address, the header, 64 slots and the offset and width of each field; opening, registering, updating and reading. Fields are pairwise disjoint, so each read returns the last write; an invariant ties the memory to a list of nodes, by induction over histories. |
| C127 | `Model/Migrate.v`: `try_migrate` as single accesses to the header by any number of callers, with crashes and forced unlocks as actions of the schedule. An invariant ties lock, epoch and mode to the one caller inside and to the results returned; induction over schedules. |

## Trusted base

* Coq 8.16.1's kernel, and `coqchk`, which re-checks the compiled files.
* `Print Assumptions` stands beneath every property theorem (those whose name starts with a property id) and prints `Closed under the global context` for each: no axiom is
  used, not even the standard library's. No axiom, Parameter, Admitted, functor or module type is declared.
* The reading of the Rust source embodied in `Model/` (nothing is extracted from the source automatically; the comment on
  each definition says which lines it models and what it leaves out), and the statements in `Spec/` and `Props/`.

## What the model leaves out

* Rust's weak memory model: all atomic accesses are sequentially consistent. A theorem about an interleaving is about the
  interleavings of the listed accesses, not about Acquire/Release reorderings.
* In the interleaved ring models sequence counters are unbounded numbers; a wrap of a 64-bit counter is outside the theorems
  (stated in each model). 32-bit counters on the wire do wrap.
* The operating system: mmap, flock, sockets, signals, process death other than "takes no further step", file system errors
  other than those made explicit (torn last line, failed write, vanished file).
* serde/bincode/YAML/JSON text formats, except bincode of log entries and the places a property is about the format; they are
  arbitrary functions.
* Floating point: rates and loss ratios are exact numbers. Real time and scheduling latency.
* The CLI's package management and network operations, drivers, Python and C++ bindings, the monitor.


## Where each property is proved

Generated from the theories and MANIFEST.json. Theorems are named `Cnn_...`; `_partial` marks a weaker statement than the property, `_refuted` a proof that the code does not have the property as stated (with the execution that shows it, or for every such execution).

| id | property | Props file | models | status | theorems | what is proved and what is missing |
|---|---|---|---|---|---|---|
| C01 | Shared-memory queue topics are loss-free FIFO once a send succeeds | RingProps | Ring, RingMem | proved | `fifo`, `drain`, `bounded`, `refused_only_when_half_full`, `refused_when_empty_refuted`, `crashed_publisher_blocks`, `crash_loses_others_refuted` | FIFO, no loss and no overwriting for all interleavings; the model has sequentially consistent memory and unbounded counters. C01_crash_loses_others_refuted and C01_refused_when_empty_refuted record that a publisher crash inside a send blocks the queue and that a stale head causes a spurious refusal. |
| C02 | A queue-mode receive never observes a half-written message | RingProps | Ring, RingMem | proved | `whole_messages` |  |
| C03 | Broadcast topics with one publisher deliver an untorn, strictly increasing subsequence | BroadcastProps | Broadcast, RingMem | proved | `whole_in_order_accounted`, `received_was_sent`, `catches_up` | Also the missed_count accounting and catching up; catching up assumes registrations do not overlap (see C44) and fewer than 2^64 messages. |
| C04 | Broadcast topics with several publishers never deliver torn values | BroadcastProps | Broadcast, RingMem | partial | `not_overtaken_partial`, `torn_value_refuted` | False of the code: C04_torn_value_refuted. It holds while no publisher is overtaken by a whole ring inside its own send (C04_not_overtaken_partial). |
| C05 | Fan-out channels deliver an untorn, strictly increasing subsequence and account for what was skipped | SeqlockProps | RingMem, Seqlock | partial | `whole_in_order`, `accounted_partial`, `turn_by_turn`, `drain`, `poll_returns`, `skipped_count_refuted` | Whole, in-order, at-most-once delivery and a lower bound on the skipped counter are proved for every interleaving; the counter is exact only when a poll never gives up during a write (C05_accounted_partial), which is refuted in general (C05_skipped_count_refuted). |
| C06 | Competing subscribers never receive the same queue message twice | SpmcProps | RingMem, Spmc | partial | `each_once_partial`, `nothing_lost_partial`, `unclaimed_intact`, `each_once_refuted`, `torn_refuted` | Claims are exclusive and unclaimed messages are never overwritten (unconditional); the delivered value is the claimed one only if no subscriber is overtaken while copying (not_overtaken). Without it the code loses, duplicates and tears messages: C06_each_once_refuted, C06_torn_refuted. |
| C07 | A fan-out send reaches every registered subscriber exactly once | FanoutProps | Fanout | proved | `in_order_once`, `caught_up`, `polling_ends`, `exact_within_capacity`, `fair`, `received_was_sent` | Operation-level model (calls do not overlap; the races inside one channel are C05). For publisher/subscriber pairs that stay; leaving publishers are C46, slot exhaustion C45. |
| C08 | Backend choice is always safe for the number of endpoints and the message kind | TopologyProps | Topology | partial | `choice_safe`, `one_sided`, `publishers_join_seamlessly`, `same_mode_protocol`, `mode_byte`, `fanout_fallback_refuted`, `quiet_subscriber_refuted` | Proved: for every pair of endpoint counts, type and topic kind the chosen backend tolerates that many publishers and subscribers and delivers to all unless the topic is work-sharing; every routine resolved for a (mode, role) speaks the mode's protocol; a further publisher joins without changing protocol. Missing/refuted: when the fan-out segment cannot be opened the fallback uses a single-publisher routine, and a subscriber whose lease lapsed is not counted, so the choice is made for fewer endpoints than exist (C08_*_refuted). |
| C09 | Participant registration keeps the publisher and subscriber counts exact | TopologyProps | Topology | partial | `counts_exact`, `refused_iff_full`, `registered`, `refreshing_stays`, `quiet_subscriber_refuted`, `same_thread_refuted` | Proved for every history of registrations and lease refreshes (calls atomic, any clock): the two counters equal the number of table entries with the role, registration is refused iff the table is full of live entries, and registered handles hold the role they asked for. Refuted: a subscriber that receives nothing for the lease time loses its entry, and two handles on one thread share one entry. Missing: interleavings of the individual atomic steps of two registrations. |
| C10 | Switching backends never re-delivers or invents messages | ResyncProps | Resync, Topology | partial | `no_redelivery_partial`, `position_partial`, `resync_bounds`, `skips_unread_refuted`, `counter_wrap_refuted` | Proved for subscribe-only handles, fixed capacity and fewer than 2^32 operations per history: a resync never moves a reader back and never past the published head (C10_no_redelivery_partial, C10_position_partial, C10_resync_bounds). Refuted in general: another consumer's flush of the shared tail makes a reader skip unread messages (C10_skips_unread_refuted), and the counter wrap re-delivers (C10_counter_wrap_refuted). |
| C11 | Topic memory layout: slots are disjoint and inside the mapped region | LayoutProps | Layout | partial | `slots_disjoint`, `send_stays_in_its_slot`, `mappings_cover_partial`, `grow_makes_room`, `epoch_catches_up`, `grower_in_bounds`, `tiny_slot_refuted`, `grow_then_join_refuted`, `open_race_refuted`, `second_grow_shrinks_refuted` | Proved: slots, ready words and header are disjoint and inside the region for all capacities and strides; a send stays in its slot; mappings cover the header's geometry for every orderly history without growth; the grown slot holds the message. Missing: histories with growth or a racing creator, where the property is false (C11_*_refuted: tiny slot size, open race, first use after growth, second growth truncates the file). |
| C12 | Zero-copy tensor pool never hands the same memory to two live tensors | TensorPoolProps | TensorPool | partial | `tensors_disjoint_partial`, `no_slot_lost_partial`, `alloc_succeeds`, `reclaim_under_live_reader_refuted`, `double_free_list_entry_refuted` | Proved for every interleaving of allocation, retain, release and write phases of any number of processes that use only descriptors they hold, none of which is killed. With kills it is false of the code: a slot is reclaimed under a live reader (C12_reclaim_under_live_reader_refuted), and a slot can enter the free list twice (C12_double_free_list_entry_refuted). |
| C13 | The lock-free free list never gives one slot to two allocators | TreiberProps | Treiber | proved | `each_slot_one_owner`, `failure_means_progress`, `tag_wrap_refuted` | All interleavings at atomic-step granularity, sequentially consistent memory, tag not wrapping within one attempt as the property says; C13_tag_wrap_refuted shows the condition is needed. |
| C14 | A stale tensor handle is rejected after its slot is recycled | TensorPoolProps | TensorPool | partial | `stale_descriptor_inert_partial`, `stale_descriptor_invalid_partial`, `live_descriptor_valid`, `forged_descriptor_refused`, `writes_confined`, `validate_after_failed_alloc_refuted`, `validate_during_alloc_refuted`, `released_tensor_writable_refuted` | try_retain/try_release of a descriptor whose tensor is gone fail in every interleaving (phases atomic). validate_descriptor is proved except in two windows, both refuted: after a failed allocation and during an allocation; data_slice_mut still writes after release (C14_released_tensor_writable_refuted). |
| C15 | Packet codecs are lossless and reject what they did not produce | WireProps | Wire | proved | `packet_header_roundtrip`, `packet_header_rejects`, `packet_header_fields`, `message_header_roundtrip`, `fragment_header_roundtrip`, `heartbeat_roundtrip`, `ack_roundtrip`, `truncated_rejected`, `message_header_fields` | All header codecs round-trip, reject exactly the malformed prefixes, and read the documented little-endian fields. |
| C16 | Batch packets round-trip and hostile packets are parsed safely | WireProps | Wire | proved | `batch_roundtrip`, `batch_fits`, `single_roundtrip`, `single_too_big`, `hostile_grammar`, `grammar_unambiguous`, `hostile_bounds` | Batch and single-packet round trips; hostile packets decode exactly to the grammar in Spec/WireSpec.v. |
| C17 | Fragment reassembly returns exactly the original payload under any arrival order | FragmentProps | Fragment, NetPath, Wire | proved | `fragments_are_slices`, `reassembly`, `deliveries_silent`, `deliveries_fire`, `cross_sender_refuted` | Reassembly proved for every interleaving of one sender's fragments; C17_cross_sender_refuted shows the code does not separate two senders (the key lacks the sender). |
| C18 | Reassembly memory is bounded whatever arrives | FragmentProps | Fragment, NetPath, Wire | proved | `bounded_memory`, `gc_fresh` |  |
| C19 | Large messages survive the network path end to end | FragmentProps | Fragment, NetPath, Wire | partial | `small_delivered_partial`, `large_never_delivered_refuted`, `large_is_exported`, `receiver_reassembles_partial`, `control_packets_silent` | False of the code: messages above 1400 bytes are exported as FRAGMENT packets the receiver cannot parse (C19_large_never_delivered_refuted). The parts that hold: small messages (C19_small_delivered_partial), large messages from a peer that writes the fragment header (C19_receiver_reassembles_partial), control packets never surface (C19_control_packets_silent). |
| C20 | Duplicate copies are delivered at most once | ReliabilityProps | FlowControl, Reliability, Wire | partial | `delivers_the_newest`, `at_most_once`, `in_order_complete`, `wrap_duplicate_refuted`, `flood_duplicate_refuted`, `restart_starves_refuted` | Newest-wins, at-most-once and in-order completeness are proved under stated window bounds; the unconditional property is refuted for the code (32-bit wrap, table flush at 4096 keys, sender restart). |
| C21 | Latched messages are retried until acknowledged, and only boundedly | ReliabilityProps | FlowControl, Reliability, Wire | proved | `resends_exact`, `bounded_and_spaced`, `silent_after_ack` |  |
| C22 | Flow control degrades monotonically and decimates exactly | ReliabilityProps | FlowControl, Reliability, Wire | partial | `thresholds`, `monotone`, `urgent_never_suppressed`, `gap_accounting`, `bounded_table`, `decimation_partial`, `all_or_nothing_refuted`, `starvation_refuted`, `gap_overflow_refuted` | Thresholds, monotonicity, urgent bypass, gap accounting and table bound are proved; decimation holds only when receptions and sends alternate (C22_decimation_partial), and is refuted otherwise; the gap counter overflow is refuted too. Loss rate is an exact rational in the model, f32 in the code. |
| C23 | Import/export guards admit exactly what the configured patterns say | GuardProps | Guard, Registry, Reliability, Wire | proved | `pattern_meaning`, `import_exact`, `export_exact`, `reserved_always_imported` |  |
| C24 | Peer address filter admits exactly the configured networks | NetFilterProps | Guard, NetFilter | proved | `block_exact`, `parse_block`, `parse_sound`, `admits_exact`, `typo_fails_closed` | Only ASCII white space is trimmed in the model. |
| C25 | Rate limiting bounds admitted traffic in every time window | NetFilterProps | Guard, NetFilter | proved | `window_bound`, `burst_passes`, `idle_passes`, `estop_budget` | Token arithmetic is exact (integers) in the model; the code uses f64. |
| C26 | An emergency stop from the network is obeyed exactly if authentic and fresh | SafetyNetProps | Estop, Heartbeat, Mac | proved | `obeyed_iff_authentic_and_fresh`, `budget_needs_authentic`, `genuine_obeyed`, `no_forgery_without_breaking_hmac`, `old_replay_ignored`, `replay_within_window_refuted` | Exact characterisation of when a stop is obeyed, relative to the HMAC relation of Spec/MacSpec.v; C26_replay_within_window_refuted records that the same bytes trigger again inside the five-second window. UTF-8 display of the reason is not modelled. |
| C27 | Safety heartbeat reports link loss exactly once per outage | SafetyNetProps | Estop, Heartbeat, Mac | proved | `reported_at_first_due_check`, `no_spurious_reports`, `low_threshold_refuted`, `new_address_ignored_refuted` | Threshold 0 or 1 is accepted by the configuration and then fails (C27_low_threshold_refuted); a known peer announcing a new address keeps its old one (C27_new_address_ignored_refuted). |
| C28 | Message authentication primitives compute the standard functions | SafetyNetProps | Estop, Heartbeat, Mac | proved | `sha256_standard`, `chunking_irrelevant`, `hmac_standard`, `pbkdf2_standard`, `tag_compare`, `hex_parse`, `estop_key` | Timing of the comparison is not modelled. |
| C29 | Discovery announcements round-trip and both sides derive compatible matches | DiscoveryProps | Discovery, LogEntry, NetFilter, Registry, Wire | partial | `roundtrip`, `agree`, `any_datagram`, `not_confused`, `long_name_refuted`, `many_topics_refuted` | Round trip proved for every table within the wire limits (names at most 63 bytes, at most 200 topics), agreement proved for every pair of well-formed tables, and every datagram decodes to legal content or is rejected. Refuted beyond the limits: a longer name is announced under a shortened name and so never matches, and topics beyond the 200th are not announced. |
| C30 | Immediate-priority messages are never delayed, dropped, reordered or altered by optimizers | OptimizeProps | Optimize, Wire | partial | `bypass`, `unseen`, `no_optimizers`, `ahead_refuted` | Proved for arbitrary optimizers (any type, any behaviour): the output of a call starts with exactly the Immediate messages of the batch, and neither optimizer state nor the other output depends on them. 'Ahead of all others' is refuted for the default empty chain, where the batch keeps its own order. |
| C31 | Cross-endian conversion is lossless | EncodingProps | EncodingSwap, Wire | partial | `involution`, `length`, `bytes`, `native`, `uniform`, `narrow_fields_refuted` | Length, involution, byte positions and native pass-through proved for all payloads; value-preservation proved for 8-byte fields and odd counts of 4-, 2- and 1-byte fields. Refuted for an even number of 4-byte fields: the word size is guessed from the length, so fields change places. |
| C32 | Delta-optimised traffic is reconstructed by the receiver | OptimizeProps | Optimize, Wire | partial | `format`, `applied_partial`, `keyframes`, `refuted`, `ambiguous_refuted`, `loss_refuted` | Refuted as stated: no receiver applies deltas, and no receiver could (two histories give the same wire messages). Proved: the format is sound, a receiver that applied deltas on a lossless link would follow fixed-size topics exactly, and a full payload goes out at least every 100 messages. The documentation's 'loss gives old but valid values' is refuted. |
| C33 | Topic registry roles track exactly the live local handles | GuardProps | Guard, Registry, Reliability, Wire | partial | `publishers`, `subscribers`, `listed`, `role_wire`, `live_handles_partial`, `shared_topic_refuted` | Registry operations fully proved; the claim about live handles holds with one handle per topic (C33_live_handles_partial) and is refuted with two (C33_shared_topic_refuted). |
| C34 | Execution order respects every producer-to-consumer dependency, and cycles are reported | DepGraphProps | DepGraph | proved | `order_respects_topics`, `sort_any_graph`, `order_tiers` | Dependency graph built from topics: every node once, producers in strictly earlier steps, no node later than needed, refusal exactly on cycles; order tiers without topics. |
| C35 | Failure policies restart, skip or stop exactly as configured | FailurePolicyProps |  | partial | `policy_exact`, `restart_budget`, `gives_up_after_all_restarts`, `backoff_respected`, `cooldown_respected`, `fatal_stops`, `ignore_never`, `callbacks`, `fatal_severity`, `transient_severity`, `event_cooldown_refuted`, `event_backoff_refuted`, `no_panic_refuted` | Every policy proved exact against a history-only specification for the main loop and the RT, compute and async executors (restart budget, back-off, cooldown, fatal, ignore). The event executor checks the policy once per batch of notifications: cooldown and back-off are refuted there. The claim that the arithmetic cannot panic is refuted for huge back-offs. |
| C36 | Degradation ladder moves one way under misses and recovers step by step | SafetyProps |  | partial | `killed_is_final`, `kill_needs_misses`, `kill_needs_streak_rt_partial`, `kill_needs_streak_refuted`, `kill_needs_streak_no_budget_refuted`, `rate_restored`, `rate_restored_unset_refuted`, `isolated_goes_through_reduced`, `recovery_takes_ticks`, `recovery_consecutive_refuted`, `critical_first_miss_stops`, `callbacks_once` | Killed is final, needs kill_after misses, configured rates come back exactly, isolated goes through reduced rate, recovery needs the configured number of successful ticks: proved on every executor. That the misses are consecutive is proved only for RT nodes with a budget and refuted on the main loop and for RT nodes without one; that recovery ticks are consecutive good ones, and that a node without a configured rate gets its old pacing back, are refuted. |
| C37 | Watchdog severity is exact and a fed watchdog never fires early | SafetyProps |  | partial | `severity_exact`, `never_improves_unfed`, `detects_and_spares`, `scale_restores`, `expired_flag`, `clock_set_back_refuted` | Exact for all feed/check histories and all clock readings; monotone without feeds when readings do not go back. The readings are wall-clock time: refuted when the clock is set back. |
| C38 | Emergency stop latches and is broadcast exactly once per rising edge | SafetyProps |  | proved | `latched`, `one_broadcast`, `state_reports_stop_partial`, `state_reports_stop_refuted` | Any number of local, remote, safe-state and drain threads under any interleaving. Additionally the reported state can be overwritten by a later safe-state request (refuted), while the latch itself cannot. |
| C39 | Black box keeps the newest events, in order, and counts every loss | BlackBoxProps |  | partial | `ring_exact`, `disabled`, `crash_keeps_prefix`, `flush_complete`, `save_load`, `next_run_readable_refuted`, `every_loss_counted_refuted`, `cli_after_crash`, `capacity_after_load_refuted`, `save_atomic_refuted`, `cli_reads_snapshot_refuted` | Ring contents, loss count, crash prefix, flush and snapshot round trip are proved for all histories; the record encoding is any line codec. Refuted: the next run's first record after a torn line, counting of events dropped on a busy lock, the capacity bound after loading a larger snapshot, atomic save, and reading saved snapshots from the command line. |
| C40 | Runtime parameters: validation, read-only and optimistic locking are never bypassed | ParamsProps |  | partial | `rules_enforced`, `validation_exact`, `read_only`, `version_counts`, `versioned_set`, `one_winner`, `no_lost_update`, `callbacks_consulted`, `lock_released`, `lost_update_refuted`, `remove_read_only_refuted`, `remove_unnoticed_refuted`, `load_checked_refuted`, `versioned_callbacks_refuted`, `reset_atomic_refuted`, `required_keys_refuted`, `nan_bound_refuted` | Rules, read-only, versions and callbacks are proved for every interleaving of set, set_with_version, remove and reset (loads excluded where stated). Refuted: a concurrent plain set can be lost, remove ignores read-only and versions, load checks nothing, versioned sets skip callbacks, reset is not atomic, required-keys on non-objects, NaN bounds. No public call writes metadata, so the rules are taken as given; lock poisoning and the audit log are not modelled. |
| C41 | Action server: concurrency limit, admission policy and single terminal status | ActionClientProps, ActionProps |  | partial | `message_order`, `slots`, `threads`, `preempt_bound`, `one_outcome`, `outcome_bound`, `over_is_over`, `metrics`, `fifo`, `timeout`, `executions`, `single_status_refuted`, `shutdown_reports_refuted`, `duplicate_refuted`, `priority_bound_refuted`, `preempt_abandoned_refuted`, `queue_overtaken_refuted`, `cancel_all_refuted`, `no_executor_refuted` | Proved for every history: slot bound (reject/queue), thread bound, max+1 for preempt-oldest, one outcome per goal and FIFO starts without timeouts, nothing published after a goal is over, counters add up, timeouts free the slot. Refuted: one terminal status with timeouts, any status after shutdown, duplicate ids, priority-policy bound, preempting abandoned goals, queue order after abandonment, cancel-all with a nil id, servers without an executor. |
| C42 | Shared log buffer returns the newest entries, whole and in order | LogBufferProps |  | partial | `entry_stored`, `sequential`, `errors_kept`, `drain_exact`, `drain_complete`, `drain_once_refuted`, `steps_push`, `steps_read`, `positions`, `quiescent_partial`, `concurrent_partial`, `whole_refuted`, `cursor_refuted`, `poll_complete_refuted`, `crash_phantom_refuted`, `capacities_refuted` | Whole calls exact for all histories (byte-level: truncation at character boundaries, bincode layout, ring arithmetic); drain thread complete, exact when uninterrupted; interleaved processes: positions unique always, reads exact once no push runs and correct among running pushes under stated conditions. Refuted: whole entries when a slot is replaced during a read, cursor order (stale entry), polling completeness, drain exactly-once, crash phantom entry, mixed capacities. Missing: memory model is sequentially consistent; 2^64 wrap not modelled. |
| C43 | A local emergency stop is transmitted four times to every peer | SafetyNetProps | Estop, Heartbeat, Mac | proved | `poll_sends_due`, `one_plus_marks`, `four_in_all` | Send failures of the transport are not modelled. |
| C44 | A subscriber joining a live broadcast topic can receive what is published next | BroadcastProps | Broadcast, RingMem | partial | `joins_within_partial`, `deaf_subscriber_refuted` | False of the code: C44_deaf_subscriber_refuted. It holds when registrations do not overlap (C44_joins_within_partial). |
| C45 | Fan-out endpoint slots are exclusive and recoverable | FanoutProps | Fanout | partial | `slots_exclusive`, `refused_only_when_full_partial`, `pid_reuse_refuted` | Exclusive slots proved; refusal only when full proved unless a process with the same PID crashed before (C45_pid_reuse_refuted). |
| C46 | Messages accepted by a fan-out send survive the publisher's departure | FanoutProps | Fanout | partial | `nothing_after_drop`, `left_publisher_lost_refuted` | False of the code: a dropped publisher's unread messages are no longer served (C46_nothing_after_drop, C46_left_publisher_lost_refuted). |
| C47 | A handle that both sends and receives is an ordinary participant | BothProps | Both, RingMem, Topology | partial | `loopback_partial`, `one_way_partial`, `one_way_bound_refuted`, `others_get_nothing_refuted`, `deaf_refuted`, `full_loses_all_refuted` | Its own messages come back in order until the ring is full (C47_loopback_partial). Refuted otherwise: other subscribers get nothing from it, it never hears others, and when the ring is full every waiting message is discarded. |
| C48 | A newly allocated tensor is zeroed | TensorPoolProps | TensorPool | partial | `fresh_tensor_zeroed_partial`, `reclaimed_tensor_not_scrubbed_refuted` | Proved without process deaths; refuted with them (reclaimed slots are not scrubbed). |
| C49 | Every process attached to a tensor pool agrees on its layout | TensorPoolProps | TensorPool | partial | `open_sees_creators_layout`, `other_pool_refused`, `open_stays_in_file`, `new_with_other_config_refuted` | open is proved; new on an existing pool with another configuration is accepted and misplaces the data (C49_new_with_other_config_refuted). |
| C50 | Parallel dispatch keeps the dependency order | DepGraphProps | DepGraph | partial | `dispatch_order`, `dispatch_completes`, `dispatch_bounded`, `graph_edges_in_range`, `order_through_skipped_refuted`, `tiers_all_due` | Proved for every interleaving: each due node at most once and after its due direct predecessors, no deadlock, bounded number of actions, completion. Refuted: order is not kept through a node skipped in this cycle (C50_order_through_skipped_refuted). |
| C51 | Load shedding keeps foreground nodes running and is temporary | ExecLoopProps |  | partial | `shedding_exact`, `only_open_nodes_run`, `orders_stable`, `background_recovers_refuted` | Exact characterisation of which nodes run after any history. The claim that background nodes come back is false when every node is a background node: C51_background_recovers_refuted. Which nodes are due is an input. |
| C52 | Safety responses survive panicking callbacks | ExecLoopProps |  | partial | `main_estop`, `main_halt`, `main_safing_failure_stops`, `rt_estop_partial`, `rt_halt_partial`, `rt_critical_overrun`, `rt_callback_panic_stops_node`, `enforce_exact`, `safe_once_per_streak`, `rt_safing_refuted`, `rt_budget_estop_refuted`, `rt_fatal_refuted`, `compute_survives_partial`, `compute_isolated_refuted` | Holds on the main loop for every combination of panicking callbacks. On the RT executor it holds when no callback panics, and is refuted for BudgetPolicy::EmergencyStop with a panicking shutdown and for a fatal failure with a panicking on_error; the compute thread dies on a panicking on_error. The degradation ladder is modelled separately (C36). |
| C53 | An operator's pause holds until resumed | ExecLoopProps |  | partial | `pause_holds_main`, `pause_holds_rt`, `resume_main`, `resume_rt`, `pause_holds_compute_refuted`, `pause_holds_event_refuted`, `stopped_never_ticks`, `skip_is_one_tick` | Proved for the main loop and the RT executor; refuted for the compute, async and event executors, which never read the pause flag. |
| C54 | Suppressed nodes do not run | ExecLoopProps |  | partial | `suppressed_main`, `probe_main`, `suppressed_rt_refuted`, `isolated_rt_ticks_refuted` | Proved for the main loop, for stretches in which the failure policy admits the node; refuted for the RT executor, which never reads health. |
| C55 | Repeated panics show in a node's health and counters | ExecLoopProps |  | partial | `unhealthy_exact`, `unhealthy_main_refuted`, `unhealthy_event_refuted`, `counters_exact`, `counters_event_refuted` | Proved for the RT, compute and async executors; refuted for the main loop (no check) and the event executor (resets the count before every failure and counts no successful tick). |
| C56 | Input freshness alarms are exact | ExecLoopProps |  | partial | `stale_exact`, `no_false_alarm`, `silence_detected`, `first_check_refuted`, `clock_step_refuted` | Exact for a forward-moving clock, with no false alarm after the first check; refuted for the first check and for a clock set back. The topic's header is assumed mappable and not replaced. |
| C57 | A request to enter the safe state is carried out | ExecLoopProps |  | partial | `compute_working_pass_partial`, `async_every_pass`, `rt_every_pass`, `failed_safing_stops`, `compute_failed_safing_ticks_refuted`, `compute_request_honoured_refuted`, `compute_idle_request_refuted`, `external_request_refuted` | Proved for the async executor on every pass, for the RT executor unless the node is stopped, and for the compute executor in passes that run some node; refuted for idle or starved compute passes and for requests from outside. |
| C58 | Start-up parameters: environment over file over built-in values, key by key | ParamsProps |  | partial | `layers`, `defaults_survive`, `bad_file_refused`, `save_start`, `default_keeps_builtins`, `integers`, `save_crash_refuted`, `text_values_refuted` | Layering and refusal proved for any YAML reader; refuted: a crash while saving leaves an empty file that starts on built-in values, and text spelt like a special float becomes null. Non-ASCII lowercase and overlarge decimals are not modelled. |
| C59 | An action client's handle tells the truth about its goal | ActionClientProps |  | partial | `success_has_result`, `final`, `true`, `settled`, `counted_once`, `feedback_new`, `successes_counted_refuted`, `rejections_counted_refuted`, `two_threads_refuted`, `late_registration_refuted`, `terminal_stays_refuted`, `late_result_refuted`, `feedback_complete_refuted` | Proved for every interleaving with one server: shown status, result and feedback were published (C59_true); success shown between pumps implies its result is held (C59_success_has_result); a held result is final (C59_final); agreement with the server once everything is taken, for servers without timeouts (C59_settled). Refuted: the success counter counts the goals that succeed (it stays 0 in every one-threaded history), rejected goals are counted, two pumping threads, goal answered before it is registered, aborted handles stay aborted, late results, every feedback reaches the closure. Topics are lossless FIFO queues; user callbacks and payloads left out; goal ids distinct. |
| C60 | The list of remote hosts is bounded, fresh and not displaced by strangers | DiscoveryProps | Discovery, LogEntry, NetFilter, Registry, Wire | partial | `bounded`, `listed`, `lost`, `not_evicted`, `flood_refuted` | Bound, exact listing, once-only loss reports and staying listed (fewer than the table's limit of hosts) proved for every history. Refuted for floods: strangers announcing faster fill the table and a new genuine host is not listed. |
| C61 | A topic crosses the network exactly while it should | DiscoveryProps | Discovery, LogEntry, NetFilter, Registry, Wire | partial | `publisher`, `subscriber`, `unopened`, `secret`, `both_refuted`, `role_change_refuted` | Proved for topics used in one direction, for every history and every hash-map iteration order. Refuted for topics used in both directions (one direction can be lost) and when the local role changes (stale export remains). |
| C62 | Hosts configured for the same discovery group find each other | DiscoveryProps | Discovery, LogEntry, NetFilter, Registry, Wire | partial | `unicast`, `multicast_default_port`, `custom_port_refuted` | Proved for unicast and for multicast on the default port. Refuted for any other port: announcements are always sent to port 9100. |
| C63 | Fused messages are all delivered, in order and promptly | OptimizeProps | Optimize, Wire | partial | `conserved`, `released`, `prompt_refuted` | Conservation, order and release by the next export at least 500 us later proved for every history. Promptness refuted: with nothing else to export a message is held for ever. |
| C64 | Prediction withholds only messages the receiver can do without | OptimizeProps | Optimize, Wire | partial | `unchanged`, `freshness`, `drift_refuted` | Unchanged, in order, and at most 100 withheld in a row proved for every threshold test. Closeness refuted: a steady ramp is withheld 100 times while the receiver keeps the old value. |
| C65 | Remote data changes only what it may | ReplicatorProps | Discovery, EncodingSwap, Estop, FlowControl, Fragment, Guard, NetFilter, NetPath, Registry, Reliability, Replicator, Wire | partial | `outsider_no_influence`, `write_sound`, `taken_was_sent`, `import_complete`, `hash_collision_refuted`, `reserved_collision_refuted`, `shared_address_refuted` | Outsiders have no influence; soundness of writes for any bytes; completeness of import for a topic whose hash is unique among the host's topics. Refuted: two topics with colliding 32-bit name hashes are confused; a topic colliding with a reserved name is never imported; the type check asks only the first peer at an address. |
| C66 | A message published on one host is written exactly once on a subscribing host | ReplicatorProps | Discovery, EncodingSwap, Estop, FlowControl, Fragment, Guard, NetFilter, NetPath, Registry, Reliability, Replicator, Wire | partial | `end_to_end_partial`, `retransmitted`, `ack_accepted`, `one_ack_silences_all_refuted`, `lost_ack_refuted`, `ack_without_writer_refuted` | Export to import proved end to end for messages up to 1400 bytes with any number of copies arriving. Refuted: one acknowledgement ends retransmission to all subscribers; after a lost acknowledgement none follows; hosts acknowledge messages they do not store. |
| C67 | A networked emergency stop is obeyed after any history, and only a genuine one | ReplicatorProps | Discovery, EncodingSwap, Estop, FlowControl, Fragment, Guard, NetFilter, NetPath, Registry, Reliability, Replicator, Wire | partial | `halt_sound`, `stop_obeyed_partial`, `stop_framed`, `killed_refuted` | Soundness proved for every history. Obeyed after every history with fewer than 128 genuine stops in which the receive thread has not panicked; refuted in general because five datagrams with chosen sequence numbers overflow the gap arithmetic (panic in builds with overflow checks). |
| C68 | Every datagram that reaches the host is processed | ReplicatorProps | Discovery, EncodingSwap, Estop, FlowControl, Fragment, Guard, NetFilter, NetPath, Registry, Reliability, Replicator, Wire | partial | `all_read_partial`, `in_order`, `left_behind_refuted` | Proved when never more than 256 datagrams wait at once; order always; refuted for bursts of 257: the last is left until more traffic comes. |
| C69 | Exports reach exactly the subscribers | ReplicatorProps | Discovery, EncodingSwap, Estop, FlowControl, Fragment, Guard, NetFilter, NetPath, Registry, Reliability, Replicator, Wire | partial | `export_sound`, `export_exact_partial`, `not_again`, `once_refuted`, `wrong_type_refuted` | Soundness and no re-export for every history; exact datagrams for one new message of up to 1400 bytes. Refuted: subscribers that announced another type are also sent to. |
| C71 | Imported messages are not sent back | ReplicatorProps | Discovery, EncodingSwap, Estop, FlowControl, Fragment, Guard, NetFilter, NetPath, Registry, Reliability, Replicator, Wire | partial | `no_echo_partial`, `echo_refuted` | Proved for topics the host only subscribes to; refuted for topics that two hosts both publish and subscribe with imports allowed by name. |
| C70 | Network export sends the newest message of a topic | TopicFileProps | TopicFile | partial | `newest_exported_partial`, `import_visible`, `try_send_refuted`, `dropped_send_refuted`, `counted_early_refuted` | Proved: after any send/recv history without a refused send the tap returns the newest message and number; imports are visible at once. Refuted: try_send data is never exported; a refused send shifts every later export to a stale slot; a send is counted before it is written so a tap in between takes stale bytes and the message is never exported. |
| C72 | Topic files are not trusted | TopicFileProps | TopicFile | partial | `open_new`, `read_safe_partial`, `read_safe_pod`, `read_inside`, `length_word_refuted`, `overread_refuted`, `import_confined` | Proved: reading never leaves the mapping and faults only on a serialized slot whose length word is within the file length of 2^64; imports never fault and change only counters and the next slot. Refuted: such a length word panics every reader; a length word beyond the slot returns the neighbouring slot. |
| C73 | Imported messages reach the local subscriber | TopicFileProps | TopicFile | partial | `fifo_partial`, `lapped_refuted`, `stalled_refuted`, `overwritten_refuted` | Proved: FIFO exactly once as long as no message arrives with a full ring, both receive paths. Refuted: a lapped spsc subscriber gets messages out of order and twice; a lapped mpsc subscriber gets nothing ever again; a local publisher overwrites an imported message. |
| C74 | topic echo shows every message | TopicFileProps | TopicFile | partial | `after_sends`, `after_import`, `all_accounted`, `all_shown_partial`, `budget_skips_refuted`, `stuck_refuted` | Proved: every wanted message is returned in order or counted as missed, and counted only if overwritten; over polls all are printed if arrivals fit ring and budget. Refuted: messages beyond the budget are skipped; behind by budget plus ring echo prints nothing for ever. |
| C75 | A service call returns the answer to its own request | ServiceProps | Service | partial | `answer`, `own_topic`, `ids`, `same_pid_refuted` | Proved for every history in which request ids do not repeat (no process id reuse, fewer than 2^32 calls per process). Refuted when two processes share an id (one after the other, or containers sharing the topics). |
| C76 | A service call runs the handler at most once | ServiceProps | Service | proved | `once`, `once_always`, `resilient`, `resilient_refuted` | At most once per call in every history with fresh ids, and, without that assumption, the calls made are one by one those run, those waiting and those lost (C76_once_always); call_resilient sends a new request per attempt, so the handler may run several times for one call_resilient (C76_resilient_refuted). |
| C77 | Every service call that reaches a running server is answered | ServiceProps | Service | partial | `answered_partial`, `cap_refuted`, `late_check_refuted` | Proved while the calls name at most 64 response topics and the pass takes at most 1000 requests. Refuted beyond: a server that has answered 64 clients never answers another one; an answer looked at after the deadline is a timeout. |
| C78 | Several calls of one client do not disturb each other | ServiceProps | Service | partial | `overlapping_refuted` | Refuted: a look at one call throws away the answer to another that is next in the topic, and that call is never answered. For one call at a time see C77. |
| C79 | A service called from the command line runs once and answers its own caller | GatewayProps | Gateway | partial | `once`, `answer`, `answered_partial`, `lost_request_refuted`, `lost_response_refuted` | Runs at most once, and only whole requests are run and answers shown are those of the call's own run: proved for all histories (C79_once without any assumption on the text; C79_answer given that no proper part of a JSON text parses). That a call is answered is proved for the order in which each file is complete before it is read; it is false otherwise: a server that reads a request file between its creation and its writing deletes it, and a command that reads a response between creation and writing deletes that; in both cases, whatever follows, the call prints nothing. |
| C80 | Every goal sent from the command line reaches the action server | GatewayProps | Gateway | partial | `taken_partial`, `all_taken`, `overwritten_refuted` | False as stated: of two goals sent before the server looks, the first is never taken (C80_overwritten_refuted). Proved: the server takes some of the goals sent, in order, none twice; and all of them if it looks between any two. Send and look are each one step in the model; the gap between removal, creation and writing of the goal file is not modelled. |
| C81 | A recording holds the ticks its configuration asks for | RecordingProps | Recording | partial | `recorded`, `bounds`, `ring_stops_refuted`, `range`, `finished`, `interrupted` | what is kept under interval, size limit and snapshot limit is proved exactly; that a recording with both limits goes on keeping the newest snapshots is refuted (it stops for ever) |
| C82 | A replay publishes what was recorded, tick by tick | RecordingProps | Recording | partial | `plays`, `repeats_refuted`, `aligned_partial`, `interval_refuted`, `start_late_refuted`, `one_each_partial`, `one_per_tick_refuted` | the messages of every replay tick are proved exactly; alignment with the recorded ticks is proved for recordings without gaps and refuted for an interval above 1; faithfulness is proved for nodes that publish once per tick and refuted otherwise; replay does not end; a late start tick is ignored |
| C83 | Saved recordings can be loaded, are written atomically, and stay in their directory | RecordingProps | Recording | partial | `round_trip_partial`, `too_large_refuted`, `version`, `atomic`, `confined`, `sessions_collide_refuted`, `cut` | atomicity under crashes, version check and confinement proved; round trip proved up to 100 MiB and refuted above; sessions whose names end alike share their files (refuted) |
| C86 | Nodes on real-time, compute and async threads are recorded like others | RecordingProps | Recording | partial | `rt_refuted`, `pool_refuted`, `interval_refuted` | refuted for every history: tick number always 0, no outputs, interval without effect |
| C87 | A scheduler replay restores all nodes, their order and the time | RecordingProps | Recording | partial | `clock_frozen_refuted`, `order_refuted`, `found`, `skipped_refuted`, `position`, `clock` | files are found exactly when the name's last level has no @ (proved); order and clock of the replay are refuted for every recording the scheduler can write |
| C84 | Comparing two recordings reports exactly their differences | DebuggerProps | Debugger, Recording | proved | `differences`, `missing_ticks`, `missing_outputs`, `ordered`, `none` | exact in both directions for recordings with one snapshot per tick |
| C85 | The replay debugger stops, steps and resumes as documented | DebuggerProps | Debugger, Recording | proved | `continue`, `steps`, `back_and_forth`, `session`, `ids`, `history`, `watches`, `value`, `switch`, `off`, `seek`, `forget` | steps and sessions for recordings with increasing ticks (those of main-thread nodes); breakpoint numbers are unbounded in the model (u32 in the code) |
| C88 | A comparison without findings means equal recordings, and a finding names the right one | DebuggerProps | Debugger, Recording | partial | `label_refuted`, `same_refuted` | refuted: a recording and any continuation of it compare as equal; for missing outputs the recording named is always the one that has the output (for missing ticks the label is right, C84_missing_ticks) |
| C89 | Every breakpoint stops the replay where its condition is met | DebuggerProps | Debugger, Recording | partial | `first_refuted`, `after_refuted`, `rt_refuted` | refuted: the first snapshot is never checked; AfterTicks(n) with n of two or more never stops in a recording without gaps; recordings of nodes off the main thread cannot be stepped back or resumed; the positive part is C85_continue |
| C90 | A deterministic run does not depend on the machine, and virtual time advances one period per tick | VirtualTimeProps |  | partial | `elapsed`, `views`, `order`, `reproducible_partial`, `deadline_not_reproducible_refuted`, `restart_not_reproducible_refuted`, `one_period_refuted`, `frozen_refuted`, `dt_sum_refuted`, `seeds`, `normal_entropy_refuted`, `fatal`, `by_number`, `rate` | Proved: the order, the readings of every tick, the tick numbers, the seeds; reproducibility for nodes that do not wait on the wall clock. Refuted: one period per tick (each step of the graph takes one), time passing under circular dependencies (frozen), dt() adding up to the time (a node with a rate ticks on every tick), reproducibility with a skip deadline or a restart backoff, system entropy in normal mode. |
| C91 | A deterministic run with a duration executes the ticks that fit | VirtualTimeProps |  | partial | `run_for`, `short_refuted`, `never_ends_refuted`, `ended` | Exact number of ticks proved; refuted that it is duration/period when the graph has two or more steps; refuted that the run ends when dependencies are circular or there is no node. |
| C92 | An anytime algorithm guarded by budget_remaining() ends | VirtualTimeProps |  | partial | `anytime_partial`, `never_ends_refuted` | Proved for a clock that moves; refuted for deterministic mode, where the clock stands still during a tick. |
| C93 | Real-time nodes that depend on each other run in order | VirtualTimeProps |  | partial | `own_thread`, `dependent_order_refuted` | Refuted: every real-time node gets its own thread whatever the graph, so every order occurs. |
| C94 | The node builder: order of calls, what is accepted, what is in force | BuilderProps |  | partial | `order_free`, `accepts`, `built`, `in_force`, `slow_rate_refuted`, `panics_exactly` | Order independence, exact acceptance, the built configuration and the checks being in force are proved; 'errors, never panics' is refuted with the exact condition. f64 rounding of rates is not modelled. |
| C95 | Budget and deadline of a real-time node | BuilderProps |  | partial | `rate_only`, `budget_alone`, `budget_with_rate_refuted`, `budget_over_period_refuted` | Proved for rate-only and budget-only nodes; refuted for rate + budget. |
| C96 | Node names are clean and distinct | BuilderProps |  | partial | `clean`, `distinct`, `different_names_refuted` | Clean and distinct names proved; 'different names can run together' refuted for every control character. |
| C97 | The thread of a real-time node has the settings it asked for | BuilderProps |  | partial | `own_settings`, `slow_rate_refuted`, `edf_without_rate_refuted` | Proved for every set of real-time nodes (each has a thread of its own by C93); refuted for deadline scheduling without a rate and for very low rates. What the kernel answers is not modelled. |
| C98 | A rate-paced loop keeps its frequency, and reports it | TimerProps | Timer | partial | `never_early`, `catch_up`, `no_drift`, `spacing_refuted`, `actual_hz_refuted`, `is_late` | Proved: the n-th sleep never returns before n periods after creation; between any two returns lie all the periods but one; no drift while turns are on time; is_late agrees with sleep. Refuted: actual_hz reports one over the working time rather than the loop's frequency (elapsed is taken before the sleep); two turns may be closer than a period. |
| C99 | A generic message carries its payload and metadata unchanged | MessagesProps | LogEntry, Messages | partial | `carries`, `carries_data`, `metadata_limit_refuted`, `named_format`, `decoded_safe`, `compact_format_refuted`, `foreign_bytes_refuted`, `preview` | Proved: payload and metadata round trip directly, through the shared-memory image and through map formats; every decoded document is readable without panic; previews cut on character boundaries. Refuted: metadata of the documented 256 bytes is refused; formats that store structs as sequences (bincode, compact MessagePack) cannot be read back; bytes of another type on the topic make the accessors panic, exactly when a length is out of range. |
| C100 | Names in fixed-size message fields read back | MessagesProps | LogEntry, Messages | partial | `round_trip`, `long_name_refuted`, `same_prefix_refuted`, `correction`, `reference` | Proved: names shorter than the field round trip (cleared or overwritten fields); offset correction. Refuted: a longer name reads back as the empty string whenever the cut falls inside a character, and names agreeing up to the field size are indistinguishable. The lossy readers of diagnostics.rs (from_utf8_lossy) are modelled only up to the stored bytes. |
| C101 | Occupancy grids keep their cells and place points in them | GridProps | Grid | partial | `set_get`, `total`, `row`, `large_refuted`, `world`, `one_cell`, `centre`, `outside_refuted`, `rotation_refuted`, `zero_resolution_refuted`, `wide_refuted`, `classified`, `fill_refuted` | Proved for grids below 2^32 cells with any history; refuted beyond 2^32 cells (two cells share a place), for points within a millionth of a cell outside (taken as inside), for rotated maps (rotation ignored), for a zero resolution, for 2^31 columns and for fill below -1. Exact numbers in place of f32/f64. |
| C102 | Cost maps keep occupancy and costs apart | GridProps | Grid | proved | `apply`, `layers` | For all cost maps with any history of calls. |
| C103 | Images show what was painted | PixelsProps | Grid, Pixels | proved | `picture`, `region`, `size` | All sizes, encodings and histories. Rows of 2^32 bytes and more are not modelled. |
| C104 | Depth images store depths to the millimetre | PixelsProps | Grid, Pixels | partial | `set_get`, `refused`, `outside`, `write_back_refuted`, `statistics` | Round trip within one unit with 24-bit rounding modelled (subnormals and overflow left out); that a depth read and written back is unchanged is refuted for 251 mm at any pixel. |
| C105 | Point clouds hold their points | PixelsProps | Grid, Pixels | partial | `points`, `coordinates`, `total`, `intensity_refuted` | Contents, order, coordinates and safety proved; refuted that has_intensity implies an intensity field (every XYZRGB cloud). 2^32 points and more not modelled. |
| C106 | Views of a tensor are the same elements, inside the same bytes | TensorViewProps | TensorView | partial | `allocated`, `view`, `slice`, `slice_refused`, `chain`, `checked`, `incompatible_refuted`, `ninth_refuted`, `padded_refuted` | Views, slices, chains and the descriptor check proved for up to eight dimensions; refuted: an incompatible shape may panic (modulo 2^64), a ninth dimension is dropped, a slice of a padded tensor fails the check although it is inside. |
| C107 | Topic names and files | ShmFilesProps | Grid, ShmFiles | partial | `confined`, `distinct`, `doubled_refuted`, `nested_refuted`, `meta_refuted`, `shared_meta_refuted` | Confinement below the topics directory and distinct files for names without empty components are proved. Refuted: a doubled slash gives another topic the same file; a topic's file is a directory for topics below it; the memory of topic n.meta is the description file of topic n; names that differ in punctuation share one description file. |
| C108 | Users of one topic share one memory | ShmFilesProps | Grid, ShmFiles | partial | `serial`, `new`, `drop`, `clean`, `keeper`, `join_refuted`, `cleaner_refuted` | Proved for whole operations in any order, and for every interleaving of system calls as long as one user stays. Refuted otherwise: a newcomer whose open falls before the last user's removal and whose lock falls after it holds a memory no name leads to, and its own leaving removes the next users' file; likewise between the cleaner's check and its removal. Not modelled: users of a topic that take no lock (network bridge), directories. |
| C109 | A topic's mapping lies within its file | ShmFilesProps | Grid, ShmFiles | partial | `same_size`, `serial`, `kept`, `sizes_refuted`, `growth_refuted`, `cleared_refuted` | Proved for equal sizes without growth under every interleaving, and for any sizes with one operation at a time and growth to no less than the file. Refuted: a joiner of a smaller size cuts the file below the creator's mapping; growth compares with the grower's own mapping, so the file shrinks under a user that grew it more; the creator clears the memory after a joiner may already have written. |
| C110 | A scan lists exactly the live nodes | PresenceProps | Presence, ShmFiles | partial | `listing`, `prefix_refuted`, `duplicate_refuted`, `scan_race_refuted`, `recycled_refuted` | Proved for read_all for every history, with start times readable and never reused for one number. Refuted: names starting with remote_ or bridged_ are never listed; a duplicate name's withdrawal hides the other; a scan can remove the file of a node that just came back; the command line listing ignores start times and shows a dead node whose process number was reused. |
| C111 | Presence files are replaced whole | PresenceProps | Presence, ShmFiles | partial | `whole`, `unchanged`, `found`, `two_writers_refuted` | Proved for one writer under every crash point. Refuted for two processes with a node of the same name, which share the temporary file. |
| C112 | Nodes of other machines | PresenceProps | Presence, ShmFiles | partial | `round_trip`, `confined`, `cleaned`, `present`, `injection_refuted`, `clock_refuted`, `status` | Round trip, confinement and the 30 second rule are proved for every input and history. Refuted: names are not escaped, so one crafted name is written as two nodes; the age shown compares the sender's clock with the reader's. from_utf8_lossy is not modelled. |
| C113 | The order of a launch | LaunchProps | Launch | partial | `order`, `circle`, `duplicate_refuted` | proved: with distinct names the order is a permutation of the file that respects every dependency, and the error is a circle exactly; of nodes with one name only one is launched (C113_duplicate_refuted) |
| C114 | A launch starts everything or leaves nothing | LaunchProps | Launch | partial | `started`, `succeeds`, `incomplete`, `cleanup`, `orphans_refuted` | proved: success starts all once in order, success if the file is complete and all can be started, never with a dependency missing, and a start that fails kills the earlier ones; a missing dependency leaves the earlier processes running (C114_orphans_refuted) |
| C115 | Restarts follow the policy and its limits | LaunchProps | Launch | partial | `policy`, `bounded`, `told`, `stop_refuted`, `sticky_refuted`, `exhausted_refuted` | proved: the decision, the limit of ten and the waits in every history; StopNode on an always node only restarts it (C115_stop_refuted), RestartNode changes the policy for good (C115_sticky_refuted) and after ten restarts ends the node (C115_exhausted_refuted) |
| C116 | Watching and ending a launch | LaunchProps | Launch | partial | `all_stopped`, `estop`, `delay`, `delay_refuted`, `session_refuted`, `wrong_node_refuted` | proved: nothing is left at the end, an emergency stop that is seen ends the launch, a round sleeps at most 10 s per process; that delay is attained (C116_delay_refuted), the session gives another node's process after one ended (C116_session_refuted), and StopNode can shut down another node's scheduler (C116_wrong_node_refuted) |
| C117 | Dependencies are resolved to compatible versions | ResolverProps | Guard, NetFilter, Resolver | partial | `solution`, `highest`, `conflict`, `ends`, `complete_refuted`, `silent_refuted`, `source_refuted` | proved: every result is a solution, closed under the dependencies of the chosen versions, each version excluded only by somebody's requirement; conflicts only where nothing meets all that is asked; it ends on every finite registry; but requirements of versions not chosen count (C117_complete_refuted), a registry that fails counts as no dependencies (C117_silent_refuted) and sources are ignored (C117_source_refuted) |
| C118 | An installation meets the requirements | ResolverProps | Guard, NetFilter, Resolver | partial | `present`, `exact_partial`, `sourced`, `stale_refuted`, `joint_refuted` | proved: presence and that nothing changes; that every package added comes from the cache in that version or from the registry (C118_sourced); exact versions if the resolved packages have no dependencies; refuted: any version already there is kept (C118_stale_refuted), and a package installed on the way brings versions that contradict the joint resolution (C118_joint_refuted) |
| C119 | A dependency is read as written | ResolverProps | Guard, NetFilter, Resolver | partial | `name`, `bare`, `pip`, `horus_py_refuted`, `scoped_refuted`, `dropped_refuted`, `features_refuted` | proved for names, requirements and PyPI; refuted: a bad requirement of horus_py is any version, packages of an organisation are never read and silently dropped from a registry's answer, features are dropped |
| C120 | Log entries reach other machines exactly once and in order | LogNetProps | LogEntry, LogNet | partial | `every`, `level`, `safe`, `twice_refuted`, `burst_refuted`, `forge_refuted` | C120_every, C120_level and C120_safe proved for all histories, with the hypothesis that no entry is pushed between the two looks of a poll and that fewer entries than the buffer holds come between polls; C120_twice_refuted, C120_burst_refuted and C120_forge_refuted show what fails. Not modelled: the receiver's rate limit, loss of datagrams. |
| C121 | An image is freed when, and only when, nobody has it | ImageTopicProps | ImageTopic, TensorPool | partial | `counted_partial`, `freed_partial` | Proved for every history without a killed process (what happens then is C12's refutations), by showing that the image layer is a correct client of the pool. One pool; the two tensors of a cost map are left out. |
| C122 | An image that was sent can be received | ImageTopicProps | ImageTopic, TensorPool | partial | `latest`, `gone`, `backlog_refuted`, `starved_refuted` | C122_latest and C122_gone proved for all histories without a killed process; C122_backlog_refuted and C122_starved_refuted show for every reachable state that a backlog of images cannot be received. |
| C123 | Pins of the lock file | LockfileProps | Lockfile | partial | `pinned`, `sorted`, `same`, `relock`, `stale`, `duplicate_refuted`, `dropped_refuted`, `upgrade_refuted` | The three refuted claims are proved false for every lock file; the rest is proved. TOML text is not modelled: a file is what the parser makes of it. |
| C124 | Project files are saved whole | LockfileProps | Lockfile | partial | `atomic`, `history`, `kept`, `concurrent_refuted`, `plugins_refuted` | Proved for one process at a time; false with two (C124_concurrent_refuted) and for the plugin registry (C124_plugins_refuted). Losing power before the data reaches the disk is outside the model (no fsync is called). |
| C125 | The watchdog of a node in the main loop | SuppressProps |  | partial | `kept`, `recovers`, `warned`, `failed_tick`, `safe_once`, `recovery_refuted`, `rare`, `one_late_tick_refuted`, `idle_event_refuted` | Positive part proved for nodes of the main loop without budget or deadline (no degradation ladder). Three claims of the code's comments are refuted for every history. An emergency stop is recorded but the end of the loop is not modelled here. |
| C126 | The live node list shows each node of a scheduler with the numbers last written for it | NodeTableProps | LogEntry, NodeTable | partial | `shown`, `place`, `more_refuted`, `cut_refuted`, `split_refuted`, `state_refuted`, `same_name_refuted`, `mixed_refuted`, `order_refuted` | proved for every history of up to 64 nodes with names of up to 47 bytes: the list is exactly the registered nodes with the numbers last written (C126_shown), and each node has its own place (C126_place); refuted: a 65th node is not listed and its numbers appear as the 64th node's, long names are cut (alike, or unlisted if a character is split), the state shown is always running, priorities are shown modulo 256, and a second scheduler of the same name empties and mixes the list |
| C127 | A topic's backend is changed by one participant at a time, and every change has its own number | MigrateProps | Migrate | partial | `exclusive`, `numbered`, `settled`, `seen`, `once`, `stuck`, `forced`, `pair_refuted`, `crash_refuted`, `force_refuted`, `grow_refuted` | proved for every schedule and crash without forced unlocks: exclusion, numbering, and the settled epoch and mode (C127_exclusive, C127_numbered, C127_settled, C127_seen, C127_stuck); with forced unlocks: numbers are unique (C127_once) and a caller recovers a stuck topic (C127_forced); refuted: a stable epoch does not mean mode and epoch belong together, a crash between the two stores leaves a mode nobody is told of, a forced unlock of a slow holder leaves the mode of an earlier change, growing a topic raises no epoch if the mode is already right; accesses are sequentially consistent in the model |

## What is modelled

One line per model file, with the source files and lines its comments cite. Anything in /repo not listed here is not modelled.

| model | definitions | source cited |
|---|---|---|
| Action | 50 | server.rs 93-113, 287-302, 493-525, 818-823, 1049, 1164-1200; types.rs 60-111, 311-349 |
| ActionClient | 35 | client.rs 60-86; types.rs 102-111 |
| BlackBox | 23 | blackbox.rs 112-121, 179-203; rt_executor.rs 325-333, 430-438 |
| Both | 14 | dispatch.rs 754-816, 1217-1272; mod.rs 1299-1371, 2041-2082, 2132-2200, 2263-2311 |
| Broadcast | 16 | dispatch.rs 823-873, 1349-1539; mod.rs 1193-1245, 1299-1370, 1669-1728, 2013 |
| Builder | 41 | duration_ext.rs 50-88; mod.rs 1721-1876, 2131-2146, 2472-2487; node.rs; node_builder.rs 103-758, 930-947, 985-988; presence.rs 2, 266-285; primitives.rs 318-360; rt_executor.rs 86-140, 290-300, 372-373, 618-700; safety_monitor.rs; types.rs |
| Debugger | 52 | record_replay.rs 892-894, 1075-1974 |
| DepGraph | 31 | dependency_graph.rs 51-175, 258-313; mod.rs 5101-5338 |
| Discovery | 52 | config.rs 298-333; discovery.rs 13-16, 47-356; netfilter.rs 307; peer.rs 17-55, 84-195, 250-279; priority.rs 32-39; registry.rs 206-223; replicator.rs 48-105, 311-344, 781-799, 989-1047; shm_writer.rs 60-140; udp.rs 23-25 |
| EncodingSwap | 6 | encoding.rs 12-80 |
| Estop | 27 | config.rs; estop.rs 26-165, 197-311, 343-381, 441-578; mac.rs 40 |
| ExecLoop | 80 | _executor.rs; async_executor.rs 126-152, 325-336; compute_executor.rs 35-42, 106-420; event_executor.rs 163-171, 217-221, 258-272; mod.rs 4165-4250, 4478-4640, 4735, 4948-5030; node.rs 405-475; primitives.rs 36-71, 305-372; rt_executor.rs 291-612, 762-841; safety_monitor.rs 73-87, 930-957, 1176-1183; types.rs 589-717, 790-885 |
| FailurePolicy | 25 | async_executor.rs; compute_executor.rs; event_executor.rs 165-302; failure_policy.rs 31-58, 93-138, 188-318, 344-358; mod.rs 4172, 5030; rt_executor.rs; types.rs 562-609 |
| Fanout | 28 | dispatch.rs 504-691; mod.rs 2567-2584; seqlock.rs 111-160; shm_fanout.rs 83, 115-216, 253-274, 375, 440-975 |
| FlowControl | 13 | flow_control.rs 12-157; replicator.rs 667-671 |
| Fragment | 20 | fragment.rs 16-290 |
| Gateway | 24 | action.rs 496-521; mod.rs 418-430; server.rs 217-307, 1262-1318; service.rs 361-540 |
| Grid | 44 | costmap.rs 40-43, 84-118, 313-434; costmap_descriptor.rs 47-83, 156; occupancy_grid.rs 55-74, 123-126, 165-275; occupancy_grid_descriptor.rs 46-79 |
| Guard | 14 | guard.rs 16-200 |
| Heartbeat | 14 | heartbeat.rs 16-92, 123-262 |
| ImageTopic | 11 | mod.rs 213-227, 2116-2190, 2653-2725, 2806-2810, 3193-3237; tensor_pool.rs 964-1000, 1093-1126; topic_message.rs 104-146 |
| Launch | 33 | launch.rs 15-90, 121-131, 213-227, 303-356, 444-552, 607-871, 1003-1009, 1055-1108 |
| Layout | 22 | dispatch.rs 727, 1040-1062, 1103-1128; header.rs; linux.rs 86-150, 224-260; local_state.rs 10-60; mod.rs 908-956, 1036-1120, 1193, 1299-1335, 1762-1825, 1879-1958; shm_layout.rs 60, 92-99, 128-155 |
| Lockfile | 25 | lockfile.rs 46, 97-226; main.rs 2385-2441; manifest.rs 1214-1226; registry.rs 272-281 |
| LogBuffer | 30 | log_buffer.rs |
| LogEntry | 26 | log_buffer.rs 11-67, 128-142, 285-311, 341-353, 458 |
| LogNet | 21 | log_buffer.rs 41, 286-292; log_replication.rs 13-231; replicator.rs 815-818, 916-966; wire.rs 26-46, 181 |
| Mac | 35 | mac.rs 44-338 |
| Messages | 31 | diagnostics.rs 79-82; generic.rs 60-181, 262-271, 343-468; header.rs 413-419; math.rs 24-30; mod.rs 29-40; time.rs 178-204 |
| Migrate | 11 | header.rs 181-195, 351-356, 586-607; migration.rs 18-30, 67-207; mod.rs 1455-1468 |
| NetFilter | 32 | netfilter.rs 39-288 |
| NetPath | 8 | replicator.rs 345-427, 617-678 |
| NodeTable | 25 | mod.rs 2592-2625, 4435-4476; registry.rs 16-410; types.rs 928-975 |
| Optimize | 31 | delta.rs 17-161; fusion.rs 16-100; mod.rs 22-25, 51-111; predict.rs 21-34, 74-170; replicator.rs 612-617; spatial.rs 95-106 |
| Params | 41 | params.rs 15-33 |
| Pixels | 32 | depth_image.rs 38-65, 96-227; image.rs 44-47, 73-92, 123-202; image_descriptor.rs 89-171; image_encoding.rs 19-43, 72-111; pointcloud.rs 44-47, 76-126, 162-221; pointcloud_descriptor.rs 136-144 |
| Presence | 44 | mod.rs 186-246; nodes.rs 180-194; presence.rs 25-311, 419-586 |
| Recording | 63 | async_executor.rs 174-176, 277-279; clock.rs 196-201, 231-257; compute_executor.rs 184-185, 322-324; mod.rs 1789-1803, 2218-2241, 4277-4330, 4503-4535; record_replay.rs 21-76, 116-131, 187-406, 476-553, 582-743, 784-889; recording.rs 99, 135-218, 347-358; rt_executor.rs 213-237, 285-287 |
| Registry | 20 | lib.rs 61-110; mod.rs 160-188, 286-302, 979, 1299-1356; registry.rs 24-98, 130-223 |
| Reliability | 26 | netfilter.rs 301-336; registry.rs 101-119; reliability.rs 16-162; replicator.rs 392 |
| Replicator | 46 | config.rs 277, 404; epoll.rs 174-178; flow_control.rs 90-119; priority.rs 44-59, 111-119; replicator.rs 48-170, 243-954, 1042-1064; shm_reader.rs 31-39, 71-100 |
| Resolver | 30 | dependency_resolver.rs 18-368; helpers.rs 1712-1727; install.rs 306-344, 399-940, 1969-2121 |
| Resync | 14 | dispatch.rs 895-897; header.rs; local_state.rs 20-70; migration.rs; mod.rs 762-772, 1193-1280, 1357-1518, 1898-1929, 1960-1981; types.rs |
| Ring | 19 | dispatch.rs 756-815, 1217-1272; mod.rs 1193-1320, 1669-1728 |
| RingMem | 13 | dispatch.rs 801; header.rs 165-370; mod.rs 953; shm_layout.rs 104-160; simd.rs |
| Safety | 35 | mod.rs 4569-4573, 4662-4694, 4736-4785, 4837-4929; primitives.rs 87-196; rt_executor.rs 292-299, 372-436, 491-524; safety_monitor.rs 128-140, 172-275, 466-479, 930-958 |
| Seqlock | 15 | seqlock.rs 55-162; shm_fanout.rs 82-93, 253-301, 464-530 |
| Service | 31 | client.rs 41-63, 93-158, 196-284, 320-360; mod.rs 2041-2081; server.rs 44, 194-211, 309-400; types.rs 50-161 |
| ShmFiles | 29 | linux.rs 101-165, 224-259, 297-307; mod.rs 37-47, 206-208, 456-490, 589-602, 674-709, 883-907, 1593; topics.rs 131-144 |
| Spmc | 18 | dispatch.rs 698-748, 1279-1345; mod.rs 1669-1728 |
| Suppress | 7 | mod.rs 1344-1354, 2835-2850, 3249-3303, 4555-4568; safety_monitor.rs 911-926 |
| TensorPool | 48 | backend.rs 235-280; tensor.rs 45-76; tensor_pool.rs 103-205, 231-232, 277-304, 342-466, 557-675, 705-880, 978-1461, 1585-1795 |
| TensorView | 15 | tensor.rs 24-83, 130-181, 222-232, 260-347 |
| Timer | 12 | timer.rs |
| TopicFile | 46 | dispatch.rs 699-746, 1162-1270; header.rs 21-33, 219-223, 330-391, 670-925, 2269-2323; local_state.rs; mod.rs 2041-2080; shm_layout.rs 56-90, 123-155; shm_writer.rs 44-130, 174-275; topic.rs 241-293 |
| Topology | 34 | dispatch.rs; header.rs 29-93, 229-233, 271, 368-386, 489-643; mod.rs 1522-1530, 1582-1634, 1669-1726; types.rs 20-100 |
| Treiber | 16 | tensor_pool.rs 110-123, 575-613, 1625-1649, 1772-1825 |
| VirtualTime | 30 | clock.rs 172-176; dependency_graph.rs 209-236; mod.rs 2015-2057, 2163-2240, 2748-2783, 2834-2852, 3098-3124, 4165-4253, 4364-4387, 4415-4427, 4478-4650, 4972-5036, 5067-5089; node.rs 428, 465; rt_executor.rs 740-845; tick_context.rs 64-105, 177-228; time.rs 176-190 |
| Wire | 48 | priority.rs 8-29, 89-151; wire.rs 20-542 |
