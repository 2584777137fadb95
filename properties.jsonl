{"id": "C01", "title": "A query returns the most recent write", "statement": "In any sequential history of Put/Query/Noop operations accepted by the key-value specification, the value returned by a Query of key k is the value of the last earlier Put to k, or the default value 0 if there is none.", "quantifier": "every finite sequence of map operations starting from the empty store, every key", "why_tests_cant": "the claim ranges over all histories of unbounded length and all keys; a test fixes one history", "anchors": ["Splinter/src/spec/MapSpec_t.rs: MapSpec::{query,put,noop}", "Splinter/src/spec/TotalKMMap_t.rs: TotalKMMap::{empty,insert}"]}
{"id": "C02", "title": "Concurrent clients see linearizable, exactly-once replies", "statement": "Every reply delivered to a client answers a request accepted earlier with the same id; the request took effect exactly once, between its acceptance and its reply; and replies taken in the order the operations took effect form a legal sequential history of the map.", "quantifier": "every interleaving of request / execute / reply events of any number of outstanding requests", "why_tests_cant": "schedules are unbounded and nondeterministic; testing samples a few interleavings", "anchors": ["Splinter/src/spec/MapSpec_t.rs: AsyncMap::{request,execute,reply}"]}
{"id": "C03", "title": "A crash exposes only a prefix of the executed operations", "statement": "After any crash the visible store equals the store produced by some prefix of the operations executed so far: never a torn, reordered or partially applied sequence.", "quantifier": "every execution of the crash-tolerant system, every crash point, any number of crashes", "why_tests_cant": "crash points are everywhere in unboundedly long executions, and crashes can repeat", "anchors": ["Splinter/src/spec/MapSpec_t.rs: CrashTolerantAsyncMap::{operate,crash,sync}", "Splinter/src/spec/FloatingSeq_t.rs"]}
{"id": "C04", "title": "An acknowledged sync is durable", "statement": "Once a sync request has been acknowledged, the effect of every operation executed before that sync was requested survives every later crash.", "quantifier": "every execution, every sync id, every later crash sequence", "why_tests_cant": "needs all crash points after the acknowledgement, in all executions", "anchors": ["Splinter/src/spec/MapSpec_t.rs: CrashTolerantAsyncMap::{req_sync,reply_sync,sync,crash}"]}
{"id": "C05", "title": "Journal plus map behave as one crash-tolerant store", "statement": "The system built from a crash-tolerant journal and a crash-tolerant map, coordinated by a superblock, shows clients only behaviours that the crash-tolerant key-value specification allows, across requests, queries, puts, replies, background work, syncs, commits and crashes.", "quantifier": "every execution of the coordination system from its initial state, with every commit-protocol interleaving and crash point", "why_tests_cant": "a refinement over all interleavings of a three-party commit protocol; no finite set of runs covers it", "anchors": ["Splinter/src/abstract_system/AbstractCrashAwareSystem_v.rs: CoordinationSystem", "Splinter/src/abstract_system/AbstractCrashAwareSystemRefinement_v.rs: next_refines"]}
{"id": "C06", "title": "Requested syncs can make progress", "statement": "From a recovered state with executed operations the system can start a commit, i.e. there is a reachable execution in which a sync requested after an operation is eventually acknowledged.", "quantifier": "all states of the coordination system / existence of an execution", "why_tests_cant": "if a commit is impossible in every reachable state, safety tests and safety proofs still pass vacuously", "anchors": ["Splinter/src/abstract_system/AbstractCrashAwareSystem_v.rs: CoordinationSystem::commit_start", "Splinter/src/abstract_system/AbstractCrashAwareJournal_v.rs: CrashTolerantJournal::commit_start"]}
{"id": "C07", "title": "Recovery reconstructs exactly the durable operations", "statement": "After a crash and full recovery (loading the durable map image and replaying the durable journal suffix) the in-memory store equals the store obtained by replaying every operation up to the durable journal's end, in order.", "quantifier": "every reachable crash state, every way of chunking the replay", "why_tests_cant": "recovery must be right for every durable image a crash can leave", "anchors": ["Splinter/src/abstract_system/AbstractCrashAwareSystem_v.rs: load_ephemeral_from_persistent, recover", "Splinter/src/abstract_system/MsgHistory_v.rs"]}
{"id": "C08", "title": "Truncating the journal never loses an operation", "statement": "Whenever the journal drops records that the durable map already covers, replaying the remaining journal on top of the map image gives the same store as replaying the full log from scratch.", "quantifier": "every log, every truncation point covered by the map image", "why_tests_cant": "ranges over all logs and all truncation points", "anchors": ["Splinter/src/abstract_system/MsgHistory_v.rs: discard_old, discard_recent, maybe_discard_old", "Splinter/src/journal/PagedJournal_v.rs: discard_old_defn"]}
{"id": "C09", "title": "Replaying a log in pieces equals replaying it whole", "statement": "Applying a message log to a store in any number of consecutive pieces gives the same store, with the same sequence number, as applying the concatenated log at once.", "quantifier": "all well-formed logs, all split points, all starting stores", "why_tests_cant": "algebraic law over unbounded logs", "anchors": ["Splinter/src/abstract_system/MsgHistory_v.rs: concat, apply_to_stamped_map, map_plus_history", "Splinter/src/abstract_system/AbstractCrashAwareSystemRefinement_v.rs: journal_associativity"]}
{"id": "C10", "title": "Message merging is associative and keeps the newest definition", "statement": "Merging messages for a key is associative (so buffers may be combined in any grouping) and a newer definition always overrides everything older; merging into a definition yields a definition.", "quantifier": "all messages", "why_tests_cant": "an algebraic law over all value/delta combinations; the repo leaves associativity commented out", "anchors": ["Splinter/src/spec/Messages_t.rs: Message::merge, combine_deltas, apply_delta"]}
{"id": "C11", "title": "The paged journal is a faithful journal", "statement": "A journal stored as a chain of pages plus an in-memory tail answers reads for recovery, freezes, appends, truncations and end-of-log queries exactly as the plain message-log specification does, whatever marshalling happens in the background.", "quantifier": "every execution of the paged journal", "why_tests_cant": "chains of unbounded depth, arbitrary page cuts and truncation points", "anchors": ["Splinter/src/journal/PagedJournal_v.rs: PagedJournal", "Splinter/src/journal/PagedJournalRefinement_v.rs"]}
{"id": "C12", "title": "The linked journal is a faithful journal", "statement": "A journal stored as pages linked by disk addresses, including garbage collection of unreachable pages, behaves exactly as the plain message-log specification; its page graph stays acyclic and free of dangling links.", "quantifier": "every execution of the linked journal and every choice of fresh addresses and of retained garbage", "why_tests_cant": "pointer structures of unbounded size and depth", "anchors": ["Splinter/src/journal/LinkedJournal_v.rs: LinkedJournal", "Splinter/src/journal/LinkedJournalRefinement_v.rs"]}
{"id": "C13", "title": "The in-memory page index always locates the right journal page", "statement": "The index from log sequence numbers to disk pages maintained by the journal maps exactly the live, marshalled sequence numbers, and each to the page that stores that message; the set of referenced pages equals the pages reachable from the freshest record.", "quantifier": "every execution of the indexed journal", "why_tests_cant": "must hold after every append/truncate sequence", "anchors": ["Splinter/src/allocation_layer/LikesJournal_v.rs", "Splinter/src/implementation/JournalModel_v.rs: lsn_addr_index_discard_up_to, append_record, build_lsn_addr_index"]}
{"id": "C14", "title": "Journal truncation frees only space no live record uses", "statement": "When the journal releases allocation units at truncation, no released unit holds a page still needed by the journal, and a page handed out for a new journal record is never one in use.", "quantifier": "every execution of the allocation-level journal", "why_tests_cant": "aliasing bugs appear only in particular allocation histories", "anchors": ["Splinter/src/allocation_layer/AllocationJournal_v.rs: AllocationJournal"]}
{"id": "C15", "title": "Be-tree reorganisation never changes query answers", "statement": "Flushing the in-memory table, growing the root, splitting nodes and flushing buffers to children leave the answer to every query unchanged; the tree always answers as the plain versioned map does.", "quantifier": "every execution of the be-tree from any well-formed image, every key", "why_tests_cant": "trees of unbounded size and depth, arbitrary reorganisation schedules", "anchors": ["Splinter/src/betree/PagedBetree_v.rs: PagedBetree", "Splinter/src/betree/PagedBetreeRefinement_v.rs: next_refines"]}
{"id": "C16", "title": "The pivot be-tree is a faithful versioned map", "statement": "The be-tree whose nodes route by pivot keys keeps its structural invariants (sorted pivots, children domains tile the parent) under every operation and behaves as the plain versioned map.", "quantifier": "every execution, every well-formed tree, every path and split request", "why_tests_cant": "structural induction over unbounded trees", "anchors": ["Splinter/src/betree/PivotBetree_v.rs: PivotBetree", "Splinter/src/betree/PivotBetreeRefinement_v.rs", "Splinter/src/betree/PivotTable_v.rs"]}
{"id": "C17", "title": "Buffer stacks with flushed offsets, garbage collection and compaction are invisible", "statement": "In the be-tree that stores a stack of buffers per node with per-child flushed offsets, flushes that garbage-collect buffers and compactions of any buffer subrange leave all query answers unchanged; the tree behaves as the plain versioned map.", "quantifier": "every execution, every compaction range, every gc amount", "why_tests_cant": "offset arithmetic must be right for all stacks, ranges and offsets", "anchors": ["Splinter/src/betree/FilteredBetree_v.rs: FilteredBetree", "Splinter/src/betree/FilteredBetreeRefinement_v.rs", "Splinter/src/betree/BufferOffsets_v.rs: adjust_compact"]}
{"id": "C18", "title": "The on-disk (linked) be-tree is a faithful versioned map", "statement": "The be-tree whose nodes and buffers live at disk addresses, with copy-on-write paths and arbitrary retained garbage, stays acyclic without dangling pointers and behaves as the plain versioned map.", "quantifier": "every execution, every choice of fresh addresses and of sub-disks retained", "why_tests_cant": "pointer graphs of unbounded size", "anchors": ["Splinter/src/betree/LinkedBetree_v.rs: LinkedBetreeVars", "Splinter/src/betree/LinkedBetreeRefinement_v.rs"]}
{"id": "C19", "title": "Every query has exactly one answer", "statement": "For every well-formed tree and every key in its domain there is a valid query receipt, and any two valid receipts for the same tree and key give the same value.", "quantifier": "all well-formed trees, all keys, all receipts", "why_tests_cant": "existence and uniqueness over unbounded trees", "anchors": ["Splinter/src/betree/PagedBetree_v.rs: QueryReceipt", "Splinter/src/betree/PivotBetree_v.rs: QueryReceipt", "Splinter/src/betree/FilteredBetree_v.rs: QueryReceipt"]}
{"id": "C20", "title": "Routing finds the unique covering range", "statement": "For a well-formed pivot table and a key within its bounds, routing returns the one index i with pivot[i] <= key < pivot[i+1]; the binary position functions on sorted key sequences return the largest index whose key is <= (or <) the needle, and -1 if there is none.", "quantifier": "all sorted sequences, all needles", "why_tests_cant": "all lengths and needles; the repo assumes two of these facts without proof", "anchors": ["Splinter/src/betree/PivotTable_v.rs: route, route_lemma, route_is_lemma", "Splinter/src/spec/KeyType_t.rs: largest_lte, largest_lt, largest_lte_ensures, largest_lt_ensures"]}
{"id": "C21", "title": "Disk model: a completed read returns the last completed write", "statement": "A read response carries the content of the last write processed for that address; every request gets at most one response with its id; a crash loses exactly the unprocessed requests and undelivered responses and never tears a page.", "quantifier": "every execution of the asynchronous disk", "why_tests_cant": "all reorderings of outstanding I/O", "anchors": ["Splinter/src/spec/AsyncDisk_t.rs: AsyncDisk"]}
{"id": "C22", "title": "The whole program on a crashing disk is a crash-tolerant store", "statement": "The program model (in-memory store, superblock write-out, recovery) running against the asynchronous disk shows clients only behaviours the crash-tolerant key-value specification allows.", "quantifier": "every execution of program + disk + environment, with crashes anywhere", "why_tests_cant": "interleaves program, disk and crash nondeterminism; the repo leaves this theorem assumed", "anchors": ["Splinter/src/implementation/AtomicState_v.rs: AtomicState", "Splinter/src/implementation/ModelRefinement_v.rs: next_refines", "Splinter/src/trusted/SystemModel_t.rs"]}
{"id": "C23", "title": "A sync is only acknowledged if it was requested, and at most once", "statement": "Every sync acknowledgement delivered to a client corresponds to an earlier, not yet acknowledged sync request with that id.", "quantifier": "every execution of the system model", "why_tests_cant": "depends on all orders in which the program may accept and answer sync requests", "anchors": ["Splinter/src/trusted/SystemModel_t.rs: program_accept_sync_request, program_deliver_sync_reply", "Splinter/src/implementation/AtomicState_v.rs: accept_sync_request, deliver_sync_reply"]}
{"id": "C24", "title": "The executable server answers as the specification does", "statement": "For every sequence of client requests handled by the executable event loop, puts and noops are acknowledged with the specified outputs, queries are answered with the latest written value, and the volatile map tracks the specification map.", "quantifier": "every request sequence handled by the event loop", "why_tests_cant": "all request sequences and interleavings with disk responses", "anchors": ["Splinter/src/implementation/Implementation_v.rs: handle_noop, handle_put, handle_query, handle_sync_request, handle_disk_response"]}
{"id": "C25", "title": "The executable server recovers what it synced", "statement": "If the executable server acknowledged a sync, then after a crash and restart on the same disk its store contains every operation executed before that sync.", "quantifier": "every run of the executable server, every crash point", "why_tests_cant": "needs crash at every point of every run", "anchors": ["Splinter/src/implementation/Implementation_v.rs: recover, send_superblock, handle_disk_response, deliver_inflight_replies"]}
{"id": "C26", "title": "Page cache never loses or mixes up page contents", "statement": "Each page cache slot that claims to hold an address holds that address's latest data; at most one slot holds an address; a slot is evicted only when clean; and what is written back is the latest data.", "quantifier": "every execution of the cache", "why_tests_cant": "needs all interleavings of loads, writebacks, evictions and accesses", "anchors": ["Splinter/src/implementation/Cache_v.rs: Cache"]}
{"id": "C27", "title": "The journal in the page cache is the message log, and a frozen snapshot survives a crash", "statement": "A journal whose pages are read and written through the page cache over the disk behaves as the log of its messages: every put, recovery read, end query, truncation and freeze gives the answer the plain log gives, whatever the cache loads, evicts and writes back in between. The snapshot a freeze returns is stored entirely on the disk, stays there until the log is truncated past it, and a journal started from it after a crash is exactly the history that was frozen.", "quantifier": "every starting snapshot and store the cache can reach, every execution of the journal, the cache and the disk together, every crash point", "why_tests_cant": "all chains of pages, all interleavings with loading, eviction and write-back, all crash points", "anchors": ["Splinter/src/implementation/CachedJournal_v.rs: CachedJournal", "Splinter/src/implementation/JournalCoordinationSystem_v.rs: JournalCoordinationSystem, journal_i, valid_journal_structure"]}
{"id": "C28", "title": "Integers survive marshalling", "statement": "For each integer width (8, 16, 32, 64 bits) encoding then decoding returns the same number, decoding then encoding returns the same bytes, and encodings have the fixed width.", "quantifier": "all integers of each width, all byte strings of that width", "why_tests_cant": "2^64 values", "anchors": ["Splinter/src/marshalling/IntegerMarshalling_v.rs: IntFormattable, IntFormat"]}
{"id": "C29", "title": "Fixed-size-element sequences survive marshalling and in-place update", "statement": "Marshalling a sequence of fixed-size elements and parsing it returns the sequence; setting element i in place changes element i only and touches no byte outside the slice; appending and resizing change only the length and the new element.", "quantifier": "all element formats that round-trip, all sequences that fit, all indexes", "why_tests_cant": "unbounded sequences and nested formats; several of the repo's own lemmas are assumed", "anchors": ["Splinter/src/marshalling/UniformSizedSeq_v.rs", "Splinter/src/marshalling/ResizableUniformSizedSeq_v.rs"]}
{"id": "C30", "title": "Variable-size-element sequences survive append and read back", "statement": "Appending elements of varying size to a table-of-boundaries page keeps all earlier elements readable with the same contents, the new one readable with the appended contents, and appendability is refused exactly when space is short.", "quantifier": "all element sequences, all page sizes", "why_tests_cant": "packing arithmetic for all sizes", "anchors": ["Splinter/src/marshalling/VariableSizedElementSeq_v.rs"]}
{"id": "C31", "title": "Key/value pairs survive marshalling", "statement": "Marshalling a key/value pair and parsing returns the same pair, for every key and value format that round-trips; a parse of malformed bytes is refused rather than misread.", "quantifier": "all pairs that fit the length field, all byte strings", "why_tests_cant": "unbounded lengths", "anchors": ["Splinter/src/marshalling/KVPairFormat_v.rs: KVPairFormat"]}
{"id": "C32", "title": "The page allocator never hands out a page twice", "statement": "Between resets the allocator never returns the same page twice, returns only pages of the units it was given, and units are pruned only when no page of theirs is in use.", "quantifier": "every sequence of allocator calls", "why_tests_cant": "all call sequences", "anchors": ["Splinter/src/allocation_layer/MiniAllocator_v.rs: MiniAllocator, PageAllocator", "Splinter/src/exec/MiniAllocator_v.rs: reserve, allocate_and_observe, prune"]}
{"id": "C33", "title": "B+-tree branches are faithful sorted maps", "statement": "A branch (b+-tree) built by insert, bulk append, grow and split answers each query with the last inserted message for the key; grow and split never change any answer and keep keys sorted.", "quantifier": "all trees reachable by the operations, all keys", "why_tests_cant": "unbounded trees", "anchors": ["Splinter/src/betree/PivotBranch_v.rs: Node", "Splinter/src/betree/PivotBranchRefinement_v.rs"]}
{"id": "C34", "title": "Linked (on-disk) branches are faithful sorted maps", "statement": "The branch whose nodes live at disk addresses behaves as the in-memory branch under insert, append, grow, split and query, and its node graph stays acyclic and tight.", "quantifier": "all linked branches satisfying the invariant, all operations", "why_tests_cant": "unbounded pointer graphs", "anchors": ["Splinter/src/betree/LinkedBranch_v.rs: LinkedBranch"]}
{"id": "C35", "title": "Unique request ids make the request multiset a map", "statement": "If every live request id is unique then the bag of live requests corresponds one-to-one with a map from id to request, and inserting or removing a request commutes with that view.", "quantifier": "all bags of requests", "why_tests_cant": "all finite bags", "anchors": ["Splinter/src/implementation/MultisetMapRelation_v.rs"]}
{"id": "C36", "title": "Bank example: money is conserved and replies are exact", "statement": "Transfers never create or destroy money, never overdraw an account or overflow it, and every request is answered exactly once with success or failure as the specification dictates.", "quantifier": "every interleaving of transfers", "why_tests_cant": "all schedules", "anchors": ["Splinter/src/example/BankSpec_t.rs", "Splinter/src/example/Bank_v.rs", "Splinter/src/example/SimpleBank_v.rs: maybe_transfer"]}
{"id": "C37", "title": "Reference-counted be-tree space is freed only when unreachable", "statement": "The reference counts kept for be-tree nodes and buffers equal the number of references from the live tree; a page is released only when no live node refers to it.", "quantifier": "every execution of the reference-counting be-tree", "why_tests_cant": "all sharing patterns after splits and flushes", "anchors": ["Splinter/src/allocation_layer/LikesBetree_v.rs", "Splinter/src/allocation_layer/Likes_v.rs"]}
{"id": "C38", "title": "Page cache capacity", "statement": "A page cache created with n slots never holds more than n pages at once.", "quantifier": "every number of slots and every execution of the cache, crashes included", "why_tests_cant": "the bound must hold for all schedules of reservations, loads and evictions", "anchors": ["Splinter/src/implementation/Cache_v.rs: Cache::initialize, valid_new_slots_mapping"]}
{"id": "C39", "title": "A built branch is what was put in, and accounts for its space", "statement": "A branch built from a stream of sorted runs answers every query with the last message given for the key; its pages are exactly those reserved for it; once sealed it never changes, its summary lists exactly the allocation units that hold one of its pages, and every other unit it was given has been given back.", "quantifier": "every sequence of build events, every geometry and set of units", "why_tests_cant": "unbounded streams, sizes and allocation choices", "anchors": ["Splinter/src/allocation_layer/AllocationBranch_v.rs: AllocationBranch::build_next, branch_seal, get_summary"]}
{"id": "C40", "title": "Asking a branch whether it holds a key", "statement": "The membership test on an on-disk branch says yes exactly for the keys under which the branch holds a message that changes something.", "quantifier": "all branches satisfying the invariant, all keys", "why_tests_cant": "unbounded trees and keys", "anchors": ["Splinter/src/allocation_layer/AllocationBranch_v.rs: impl Buffer for BranchNode, linked_contains", "Splinter/src/betree/Buffer_v.rs", "Splinter/src/betree/LinkedBetree_v.rs: compaction"]}
{"id": "C41", "title": "The crash-aware journal on disk keeps what it made durable", "statement": "Across any sequence of puts, page writes, commits, crashes and recoveries, the journal behaves as a log with a persistent prefix: after a crash recovery succeeds and yields exactly the old persistent journal or the one being committed; records covered by a sync answer are never lost or changed afterwards, except by being truncated as old; and space is taken and given back without touching a page a crash might need.", "quantifier": "every execution of the crash-aware journal, with any number of crashes, for any disk geometry", "why_tests_cant": "all crash points, commit schedules and allocation choices", "anchors": ["Splinter/src/allocation_layer/AllocationCrashAwareJournal_v.rs: AllocationCrashAwareJournal", "Splinter/src/allocation_layer/UnifiedCrashAwareJournal_v.rs: UnifiedCrashAwareJournal, ImageState", "Splinter/src/abstract_system/AbstractCrashAwareJournal_v.rs"]}
{"id": "C42", "title": "A be-tree of branches accounts for every allocation unit", "statement": "When the buffers of the be-tree are on-disk branches built in the background and compactions run concurrently with flushes and splits, every allocation unit taken and not returned is needed by exactly one owner (the tree's nodes, one branch in use, or one branch being built); no step takes a unit in use or returns one still needed; the pages on disk are those of the branches in use and of the units of the nodes in use; and a branch in use, in particular one a compaction is reading, is never changed.", "quantifier": "every execution of the be-tree over branches, with any number of compactions and builders in progress, every geometry", "why_tests_cant": "all interleavings of compactions, splits, flushes and builders, and all sharing patterns", "anchors": ["Splinter/src/allocation_layer/AllocationBranchBetree_v.rs: AllocationBranchBetree", "Splinter/src/allocation_layer/AllocationBranch_v.rs: AllocationBranch"]}
{"id": "C43", "title": "A be-tree of branches answers as a map", "statement": "When the buffers of the be-tree are on-disk branches, queries, puts and freezes behave as on one abstract map, in every state every key has exactly one answer, and background work (building, flushing, splitting, compacting) changes no answer.", "quantifier": "every execution of the be-tree over branches, all keys, every geometry", "why_tests_cant": "all interleavings and histories of puts and background work", "anchors": ["Splinter/src/allocation_layer/AllocationBranchBetree_v.rs: AllocationBranchBetree", "Splinter/src/allocation_layer/AllocationBranchBetreeRefinement_v.rs", "Splinter/src/allocation_layer/AllocationBranch_v.rs: impl Buffer for BranchNode"]}
{"id": "C44", "title": "What passes through the client and disk interface is a history of the trusted system", "statement": "Whatever program runs behind the interface and in whatever order it receives requests, answers them, asks for disk operations, takes disk responses, crashes and restarts, the requests and replies seen at the interface form a history of the trusted system model; whoever holds a token for a disk response or a sync request finds it in that system; and with the repository's program clients see a crash-tolerant store: every reply answers one request once, every sync acknowledgement answers one sync request once, and what was visible when an acknowledged sync was asked for survives every crash.", "quantifier": "every program model, every sequence of interface calls, disk steps and crashes", "why_tests_cant": "all programs, interleavings of client and disk traffic, and crash points", "anchors": ["Splinter/src/trusted/KVStoreTokenized_t.rs: KVStoreTokenized", "Splinter/src/trusted/ClientAPI_t.rs: ClientAPI", "Splinter/src/trusted/KVStoreTrait_t.rs: open_system_invariant_disk_response, open_system_invariant_user_request", "Splinter/src/trusted/TrustedEntry_t.rs"]}
{"id": "C45", "title": "Requests are numbered as predicted and never twice", "statement": "A request sent to the disk gets the number that was predicted for it, and no two requests, from a client or to the disk, ever get the same number, also when the machine restarts in between.", "quantifier": "every program model, every sequence of interface calls, disk steps and crashes", "why_tests_cant": "all interleavings of predictions, receptions and sends, any number of restarts", "anchors": ["Splinter/src/trusted/ClientAPI_t.rs: receive_request, send_disk_request_predict_id, send_disk_request, new", "Splinter/src/trusted/SystemModel_t.rs: fresh_id"]}
{"id": "C46", "title": "The executable server obeys its interface", "statement": "Whatever the executable server does (answering gets, puts and no-ops, batching syncs, writing and reading the superblock, crashing inside a handler and restarting) is a legal use of the token interface: clients see exactly the same requests, replies and failures, no token is kept back when a handler returns, and between handlers the model the token carries agrees with the server (same newest contents, same outstanding syncs, and the disk holds a prefix of the server's journal, that of the persistent version or of the write in flight). So its clients see a crash-tolerant store.", "quantifier": "every execution of the executable server, any number of crashes, every encoding of the superblock that decodes the journals the execution's puts can make", "why_tests_cant": "all interleavings of requests, disk steps and crashes, and the ghost state is not present at run time", "anchors": ["Splinter/src/implementation/Implementation_v.rs: Implementation, inv, handle_user_request, handle_disk_response, recover", "Splinter/src/trusted/KVStoreTokenized_t.rs: KVStoreTokenized", "Splinter/src/trusted/ClientAPI_t.rs: ClientAPI", "Splinter/src/implementation/DiskLayout_v.rs"]}
{"id": "C47", "title": "What the holder of tokens may conclude is true", "statement": "Before the superblock was asked for, no disk response has come; while it is awaited, a response is the superblock as it is on the disk; once recovered, a response acknowledges the write in flight; the id of a sync request still to be accepted is not among those accepted; and there is always a newest version, the version being written is still kept, and the oldest kept is the persistent one.", "quantifier": "every use of the interface by the repository's program model, any number of crashes", "why_tests_cant": "all interleavings of interface calls, disk steps and crashes", "anchors": ["Splinter/src/implementation/Implementation_v.rs: system_inv_response_implies_in_flight, system_inv_implies_atomic_state_wf, system_inv_sync_request_fresh_id", "Splinter/src/implementation/AtomicState_v.rs: wf", "Splinter/src/implementation/ModelRefinement_v.rs"]}
{"id": "C48", "title": "The store assembled from its layers is one crash-tolerant store", "statement": "Put together a coordinator, a journal on disk pages and a copy-on-write tree, any of the repository's trees and either of its page journals: clients see what a crash-tolerant map allows. After a crash the persistent tree and journal pages hold exactly the writes of a log that explains everything clients saw and contains every synced write; loading them and replaying journal pages, in whatever pieces, never leads to an answer other than the last write of that log; and some page-by-page replay leads to a store that answers every key.", "quantifier": "every tree of the repository up to the one that counts allocation units, both page journals, every interleaving of client, background, commit and crash steps, any number of crashes, every replay of pages", "why_tests_cant": "all interleavings of four machines and all crash points; the machines are only ever tested alone", "anchors": ["Splinter/src/abstract_system/AbstractCrashAwareSystem_v.rs: CoordinationSystem", "Splinter/src/abstract_system/AbstractCrashAwareMap_v.rs: CrashTolerantMap", "Splinter/src/allocation_layer/AllocationCrashAwareJournal_v.rs", "Splinter/src/allocation_layer/UnifiedCrashAwareJournal_v.rs", "Splinter/src/betree/PagedBetree_v.rs", "Splinter/src/allocation_layer/AllocationBetree_v.rs"]}
{"id": "C49", "title": "The journal can always make its records durable", "statement": "From every reachable state of the page journal that is loaded, if the device has room for one more journal page, then background work alone (no client request, no crash) can reach a state where the journal reports everything it held as persistent, and where the persistent log starts at any chosen record not before the start of the logs now on disk.", "quantifier": "every reachable state of both page journals, also during a commit; every geometry; every new start of the log", "why_tests_cant": "all histories leading to the state, and that some continuation exists from each of them", "anchors": ["Splinter/src/allocation_layer/AllocationCrashAwareJournal_v.rs: internal, commit_start, commit_complete, query_lsn_persistence", "Splinter/src/allocation_layer/UnifiedCrashAwareJournal_v.rs: internal, commit_start, commit_complete", "Splinter/src/allocation_layer/AllocationJournal_v.rs: tight_next_addr, internal_journal_marshal, internal_mini_allocator_fill, freeze_for_commit, discard_old"]}
{"id": "C50", "title": "The assembled store can always finish a sync", "statement": "From every reachable state of the assembled store in which a client waits for a sync, also in the middle of a commit or of background work, if the device has room for one more journal page, then background work alone (no client request, no crash) leads to a state where the store confirms that sync.", "quantifier": "every tree of the repository up to the one that counts allocation units, both page journals, every reachable state, every waiting sync", "why_tests_cant": "all histories leading to the state, and that some continuation exists from each of them", "anchors": ["Splinter/src/abstract_system/AbstractCrashAwareSystem_v.rs: CoordinationSystem (map_internal, commit_start, commit_complete, reply_sync)", "Splinter/src/abstract_system/AbstractCrashAwareMap_v.rs: CrashTolerantMap", "Splinter/src/allocation_layer/AllocationCrashAwareJournal_v.rs", "Splinter/src/allocation_layer/UnifiedCrashAwareJournal_v.rs", "Splinter/src/betree/PagedBetree_v.rs", "Splinter/src/allocation_layer/AllocationBetree_v.rs"]}
{"id": "C51", "title": "The assembled store can always answer what it was asked", "statement": "From every reachable state of the assembled store that holds an accepted query or put, also right after a reload or in the middle of replaying the journal, background work alone leads to a state where the store executes that request and delivers a reply with its id.", "quantifier": "every tree of the repository up to the one that counts allocation units, both page journals, every reachable state, every accepted query or put", "why_tests_cant": "all histories leading to the state, all points of a recovery, and that some continuation exists from each of them", "anchors": ["Splinter/src/abstract_system/AbstractCrashAwareSystem_v.rs: CoordinationSystem (recover, accept_request, query, put, deliver_reply)", "Splinter/src/journal/LinkedJournal_v.rs: read_for_recovery, internal_journal_marshal", "Splinter/src/allocation_layer/AllocationCrashAwareJournal_v.rs", "Splinter/src/allocation_layer/UnifiedCrashAwareJournal_v.rs", "Splinter/src/spec/MapSpec_t.rs: NoopInput"]}
{"id": "C52", "title": "The page cache never gets stuck", "statement": "From every reachable state of the page cache over the disk, whatever loads and write backs are in flight, any set of pages not larger than the number of slots that are not reserved can be brought into the cache by steps of the cache and the disk alone, all together, so that one access reads all of them and may write any of them. A page for which a slot is reserved can be written at once, which frees the slot for other use.", "quantifier": "every reachable state of the cache, with crashes in the past; every set of pages; every number of slots", "why_tests_cant": "all histories leading to the state, all combinations of requests in flight, and that some continuation exists from each of them", "anchors": ["Splinter/src/implementation/Cache_v.rs: reserve, load_initiate, load_complete, access, writeback_initiate, writeback_complete, evict", "Splinter/src/spec/AsyncDisk_t.rs: process_read, process_write", "Splinter/src/implementation/JournalCoordinationSystem_v.rs: cache_disk_ops, cache_internal, disk_internal"]}
{"id": "C53", "title": "The journal in the page cache can always make its records durable and be restarted", "statement": "From every reachable state of the journal whose pages live in the page cache, whatever loads and write backs are in flight, background work alone leads to a state where the journal can freeze everything it was given, with all of it on the disk; a single slot of the cache that is not reserved is enough, as long as no page of the journal is reserved and there are as many free pages as are needed for the records not yet on pages. After a crash at any later moment the journal can be started again on any new cache that its pages fit into, and then holds the frozen history; on a cache they do not fit into it cannot be started.", "quantifier": "every reachable state of the journal, the cache and the disk; every start snapshot and earlier cache history; every crash point after the freeze; every size of the new cache", "why_tests_cant": "all histories leading to the state, all combinations of requests in flight, and that some continuation exists from each of them", "anchors": ["Splinter/src/implementation/CachedJournal_v.rs: freeze_for_commit, internal_journal_marshal, initialize", "Splinter/src/implementation/JournalCoordinationSystem_v.rs: freeze_for_commit, journal_marshal, cache_disk_ops, cache_internal, disk_internal, initialize", "Splinter/src/implementation/Cache_v.rs: reserve, load_initiate, access, writeback_initiate, evict, evictable"]}
{"id": "C54", "title": "The tree can always be written out and frozen, give up unfinished work, flush, split and compact", "statement": "From every reachable state of the tree whose buffers are branches of pages, whatever compactions and branches are under way, background steps that use no more than three free units lead to a state where the tree can be frozen; the frozen image has the version and the contents the tree had, with the memtable. All unfinished work can be given up without taking space or changing the contents, and then only the tree's own units are in use. If no two nodes of the image the tree was started from share a unit, a flush to a child and a split of a child can be carried out, and a compaction whose input is still in the tree can be finished, whenever their conditions hold and there is a free unit for each new page.", "quantifier": "every reachable state of the tree, every image it was started from, every choice of free units, every node, child and split request", "why_tests_cant": "all histories leading to the state, all sets of unfinished compactions and branches, and that some continuation exists from each of them", "anchors": ["Splinter/src/allocation_layer/AllocationBranchBetree_v.rs: au_likes_noop, branch_begin, branch_build, branch_abort, internal_flush_memtable, internal_grow, internal_flush, internal_split, internal_compact_begin, internal_compact_abort, internal_compact_complete, initialize"]}
{"id": "C55", "title": "The journal keeps no space it does not need", "statement": "When the page journal is loaded it holds exactly the allocation units of the pages of its persistent image; from then on what it holds is what it took, less what it gave back. At every moment until a crash each page on disk lies in a unit it holds; each unit it holds has a record not yet truncated, or has no page at all and can be given back at once; and it never takes a unit it holds nor gives back one it does not. While it is loaded, the persistent image and the image being committed need no space of their own: their pages are pages of the journal. As long as there is room to write what is in memory, background work alone can make everything durable, truncate all of it and give back every unit.", "quantifier": "every reachable state of the journal since the last load, any number of crashes before it, during commits, every geometry", "why_tests_cant": "a leak or a double use of a unit shows only after some history of takes, truncations and crashes; that some continuation gives everything back must hold from all states", "anchors": ["Splinter/src/allocation_layer/UnifiedCrashAwareJournal_v.rs: load_ephemeral_from_persistent, internal, commit_complete, tight_dv", "Splinter/src/allocation_layer/AllocationCrashAwareJournal_v.rs: load_ephemeral_from_persistent, internal, commit_start, commit_complete", "Splinter/src/allocation_layer/AllocationJournal_v.rs: accessible_aus, discard_old, internal_mini_allocator_fill, internal_mini_allocator_prune, build_lsn_au_index", "Splinter/src/allocation_layer/MiniAllocator_v.rs: add_aus, can_remove, prune"]}
{"id": "C56", "title": "The tree that counts references can always do its background work", "statement": "In every state the memtable can be written out, a new root put on top, any child that can be split be split, any child that can be flushed to be flushed to, and any consecutive buffers of any node be compacted, whatever free pages are chosen for what is written. If every node of the image the tree was started from is a leaf or has all its children, this stays so, and from every state background work alone can bring all messages down to the leaves, one buffer in each; the tree can then be frozen as of the last put, and the frozen image alone answers every query the way the state did. The same holds of the tree whose buffers are branches, where flushes bring all messages to the leaves as soon as three units are free.", "quantifier": "every reachable state of the tree that counts references by pages, of the one that counts them by allocation units and of the one whose buffers are branches, every image it was started from, every choice of free pages, node, child and split request", "why_tests_cant": "all histories and tree shapes leading to the state, and that a continuation exists from each of them", "anchors": ["Splinter/src/allocation_layer/LikesBetree_v.rs: internal_flush_memtable, internal_grow, internal_split, internal_flush, internal_compact, initialize", "Splinter/src/allocation_layer/AllocationBetree_v.rs: internal_flush_memtable, internal_grow, internal_split, internal_flush, internal_compact_complete", "Splinter/src/betree/LinkedBetree_v.rs: can_flush, can_split_parent, can_compact, Path::valid, is_fresh, freeze_as", "Splinter/src/allocation_layer/AllocationBranchBetree_v.rs: internal_flush_memtable, internal_flush, freeze_as, initialize"]}
{"id": "C57", "title": "The program on its crashing disk never gets stuck", "statement": "From every reachable state of the program on its disk, also in the middle of a recovery or of a superblock write and whatever crashed before: a request the client made, and that was neither answered nor lost in a crash since, can be answered by steps of the program and the disk alone; so can a sync, if the stores of this history fit in a superblock. The executable server can from every reachable state start up by its own steps and the disk's, without panicking, and then take any request.", "quantifier": "every reachable state of the program, the disk and the clients; every request and every sync that waits; the program as written and repaired; every configuration of the server", "why_tests_cant": "all histories leading to the state, all crash points, and that some continuation exists from each of them", "anchors": ["Splinter/src/trusted/SystemModel_t.rs: program_execute, program_accept_sync_request, program_deliver_sync_reply, program_disk, disk_internal", "Splinter/src/implementation/AtomicState_v.rs: map_transition, initiate_recovery, complete_recovery, execute_sync_begin, execute_sync_end, deliver_sync_reply", "Splinter/src/implementation/ConcreteProgramModel_v.rs: next", "Splinter/src/implementation/Implementation_v.rs: recover, kvstore_main, handle_user_request", "Splinter/src/trusted/ClientAPI_t.rs"]}
{"id": "C58", "title": "The tree of branches can always be made into an image to start from", "statement": "From every state of the tree whose buffers are branches, background work that takes at most three free units leads to a state whose tree is itself an image the tree can be started from: with the same version number, and answering every query as the tree with its memtable did. Whenever nothing is in the memtable and no compaction or branch is under way the tree is already such an image; starting from it leads to exactly the state that was left, so all counts of references and the units of every branch that the start works out from the disk agree with those kept in memory. Of the trees that count references and have plain buffers, every image that is frozen is one to start from, and starting leads to exactly the state it was frozen in.", "quantifier": "every reachable state of the tree whose buffers are branches, every image it was started from, every three free units; every reachable state of the trees that count references in which they are frozen", "why_tests_cant": "all histories of puts, flushes, splits and compactions leading to the state, and that a continuation exists from each of them", "anchors": ["Splinter/src/allocation_layer/AllocationBranchBetree_v.rs: initialize, build_branch_summary, internal_flush_memtable, internal_compact_abort, branch_abort, internal_grow", "Splinter/src/allocation_layer/AllocationBranch_v.rs: valid_sealed_branch, sealed_root, full_repr, get_summary", "Splinter/src/betree/LinkedBetree_v.rs: initialize, transitive_likes"]}
{"id": "C59", "title": "The store over the tree of branches loses no synced write, recovers and never gets stuck", "statement": "A store assembled from either page journal and the tree whose buffers are branches of pages, in which the tree writes to the disk what it would have if all unfinished compactions and branches were given up, shows its clients only what a crash-tolerant map allows: at every moment one log of writes explains all answers, and no crash loses a write that was synced. After a crash, loading the images and replaying journal pages never leads to a wrong answer, and some replay leads to a store that answers every key. From every state, also in the middle of compactions, flushes and half-built branches, each query and put that waits can be answered, and each sync that waits can be confirmed, as long as the journal has room for a page and the tree finds three units it does not need.", "quantifier": "every run of the assembled store with any number of crashes, every interleaving of requests, commits, flushes, splits and compactions, both kinds of journal, every geometry", "why_tests_cant": "all histories, schedules and crash points, and that some continuation exists from each of them", "anchors": ["Splinter/src/abstract_system/AbstractCrashAwareSystem_v.rs", "Splinter/src/abstract_system/AbstractCrashAwareMap_v.rs: load_ephemeral_from_persistent, freeze_map_internal, crash", "Splinter/src/allocation_layer/AllocationBranchBetree_v.rs: initialize, au_likes_noop, branch_abort, internal_compact_abort, internal_flush_memtable", "Splinter/src/allocation_layer/UnifiedCrashAwareJournal_v.rs", "Splinter/src/allocation_layer/AllocationCrashAwareJournal_v.rs"]}
