# Formal model of verified-betrfs (Splinter) in Rocq/Coq

Source: `/repo/Splinter/src` (Verus/Rust). The rest of the repository is the
older Dafny/C++ code base and is not modelled.

## How the code is modelled

* **State machines** (`state_machine!`, `transition!`, `init!`): one Coq record
  for the fields, one inductive for `Label`, one `Definition <transition> ...
  : Prop` per `transition!` (each `require` a conjunct, each `update` an
  equation on the post state) and one `next` that is their disjunction, with the
  nondeterministic parameters existentially quantified. `run` is the usual reflexive
  transitive closure with the list of labels.
* **`spec fn`s**: total Gallina functions of the same name. Where the Rust text
  has a `recommends`/`when` precondition, the Gallina function returns an
  arbitrary (documented) value outside it.
* **`exec fn`s**: Gallina functions on pure state; panics, overflow checks and
  I/O are explicit results.
* **Types**: `Seq` is `list`, finite `Map` is std++ `gmap`, `Set` is `gset` or a
  predicate, `TotalKMMap` (a total map) is a function `Key -> Message`,
  `Multiset` is `gmultiset` or a list up to permutation, `nat` is `nat`.
  `Key(u64)` is `N`: only its total order with least element is used; the
  absence of a largest key is a stated simplification. Values and deltas are `N`
  with default/nop 0, as in `Messages_t.rs`.
* **Ghost tokens / Verus ownership** (`Tracked`, `Instance`) are erased: they
  carry no run-time effect.

Every definition cites the file and lines it models.

## Layout of `rocq/theories`

* `*_Model.v`: definitions only (the model of the code).
* `*_Proof.v`: invariants, refinement relations and proofs.
* `*_Example.v`: concrete runs.
* `*_Spec.v`: small independent specifications used to state properties.
* `Props_*.v`: property theorems per area: statements closed by `exact`, a
  non-vacuity example, and `Print Assumptions`.

## Trusted base

Coq 8.16.1's kernel; the correspondence between model and Rust text (by
reading); the assumptions printed by `Print Assumptions` below each property
theorem, which is "Closed under the global context" for every one of them: no
theorem rests on an axiom. No axioms of our own, no functors, no disabled checks.

### Modelled

All state machines and the specification and executable functions of these files,
under `/repo/Splinter/src`:

* `spec/`: MapSpec, FloatingSeq, KeyType, Messages, TotalKMMap, AsyncDisk, ImplDisk.
* `abstract_system/`: MsgHistory, StampedMap, AbstractMap, AbstractJournal, the
  crash-aware map, journal and system.
* `journal/`: PagedJournal, LinkedJournal. `disk/`: GenericDisk.
* `betree/`: Buffer, BufferSeq, BufferOffsets, BufferDisk, Domain, LinkedSeq, OffsetMap,
  Memtable, SplitRequest, PivotTable, PagedBetree, PivotBetree, FilteredBetree,
  LinkedBetree, PivotBranch, LinkedBranch.
* `allocation_layer/`: Likes, LikesJournal, LikesBetree, MiniAllocator,
  AllocationJournal, AllocationBetree, AllocationBranch, AllocationBranchBetree,
  AllocationCrashAwareJournal, UnifiedCrashAwareJournal. `exec/`: MiniAllocator.
* `marshalling/`: integers, slices, uniform, resizable and variable-sized sequences,
  key-value pairs. The Rust traits become Gallina records or one function per instance.
* `implementation/`: AtomicState, Cache, CachedJournal, ConcreteProgramModel,
  DiskLayout, Implementation, JournalCoordinationSystem, MultisetMapRelation.
* `trusted/`: ClientAPI, KVStoreTokenized, KVStoreTrait, ProgramModelTrait, ReqReply,
  SystemModel, and the obligations of RefinementObligation as properties.
* `example/`: the bank.

### Not modelled

* The older Dafny and C++ code outside `Splinter/`.
* The repository's own proofs: `*Refinement_v.rs`, `proof fn` bodies, `#[inductive]`
  functions. Only label maps and abstraction functions are used, where a comment says so.
* `spec/AppIO_t.rs`, `spec/AppIODriver_t.rs` (stubs without behaviour),
  `trusted/TrustedEntry_t.rs` and the `main` functions, beyond the loop they describe.
* `model-exp/` and `resource-experiment/`: unfinished sketches nothing else uses.
* `marshalling_test.rs`, `correspondence_test.rs` (tests), `betree/Utils_v.rs` (lemmas),
  `marshalling/StaticallySized_v.rs` (a constant), module lists.
* The Rust compiler, memory layout, threads inside the Verus library (atomics and
  hash maps are modelled by their documented behaviour), and the real disk below the
  disk model of `spec/AsyncDisk_t.rs`.

## Plan per property

| id | modelled | proof |
|----|----------|-------|
| C01 | MapSpec | induction over histories against a list-based last-write function |
| C02 | AsyncMap | history invariant; linearisation order = order of `execute` |
| C03 | CrashTolerantAsyncMap, FloatingSeq | invariant linking versions to a ghost log of executed operations |
| C04 | same | invariant: acknowledged sync index <= stable index, monotone |
| C05 | AbstractMap, AbstractJournal, CrashTolerantMap/Journal, CoordinationSystem | forward simulation to CrashTolerantAsyncMap |
| C06 | same | refuted for the text as written (`commit_start` is contradictory); proved possible for the corrected transition |
| C07 | load_ephemeral/recover | invariant of C05 specialised to recovery |
| C08 | MsgHistory discard functions | algebra of `discard_old`/`discard_recent`/replay |
| C09 | MsgHistory | induction on log length |
| C10 | Messages | case analysis |
| C11 | PagedJournal | interpretation function + simulation |
| C12 | LinkedJournal | ranking-based interpretation to PagedJournal |
| C13 | LikesJournal / JournalModel | index invariant over the linked journal |
| C14 | AllocationJournal, MiniAllocator | invariant |
| C15 | PagedBetree | interpretation by query receipts |
| C16 | PivotBetree, PivotTable, Domain | interpretation to PagedBetree |
| C17 | FilteredBetree, BufferSeq, BufferOffsets, OffsetMap | interpretation to PivotBetree |
| C18 | LinkedBetree, BufferDisk, LinkedSeq | ranking-based interpretation to FilteredBetree |
| C19 | QueryReceipt at each layer | structural induction |
| C20 | KeyType, PivotTable | induction on sorted lists |
| C21 | AsyncDisk | invariant over executions with ghost write log |
| C22 | AtomicState, ConcreteProgramModel, SystemModel, AsyncDisk | forward simulation; refuted as written for sync ids, proved for the corrected transitions |
| C23 | SystemModel | refuted as written / proved with the missing guard |
| C24 | Implementation (exec) on AsyncDisk | refuted for queries (no reply is ever sent); puts and noops proved; everything proved with the handler filled in, for every encoding that decodes the journals the execution's puts can make (`codec_fits`) |
| C25 | Implementation (exec) on AsyncDisk | refuted (`recover` ignores the superblock); proved by invariant with the superblock restored, while the journal fits its page; refuted, by counting, for every encoding with finitely many pages |
| C26 | Cache over AsyncDisk, with crashes | refuted as written (one batch may write a page back twice), code's own invariant refuted; proved by invariant when requests of a batch are distinct |
| C27 | `CachedJournal_Model.v`: CachedJournal_v.rs and JournalCoordinationSystem_v.rs over the cache and disk of C26 | simulation to the indexed linked journal of C13, hence to the log; invariant that the pages below a frozen snapshot are saved; refuted as written for `put` and `discard_old` |
| C28 | IntegerMarshalling (u8, u16, u32, u64; usize is 64 bits) | done: Marshal_*.v; both round trips by induction on byte lists; every format satisfies the contract `honours` (Marshal_Spec.v) |
| C29 | UniformSizedSeq, ResizableUniformSizedSeq, with panics (overflow, slice bounds, capacity) as explicit outcomes | done: contract proved for any element format that meets it, and a page refines a bounded list over every history of guarded operations |
| C30 | VariableSizedElementSeq | done: invariant over boundary tables; a page keeps exactly the offered elements for which there is room |
| C31 | KVPairFormat | done: codec composition, and an exact account of the bytes accepted |
| C32 | MiniAllocator spec + exec, as histories of calls | invariant over histories; refinement exec to spec with the view repaired; unguarded prune refuted |
| C33 | `Branch_Model.v` `PBranch` (PivotBranch_v.rs) | search-tree invariant, zipper over the path, last-write history by induction on the calls |
| C34 | `Branch_Model.v` `LBranch` (LinkedBranch_v.rs) | the inductive relation `stores` between pages and trees, simulation in both directions |
| C35 | MultisetMapRelation | multiset induction |
| C36 | Bank example: specification, state machine, system model, and the threads of SimpleBank step by step (lock operations atomic) | invariants; refinement program to system to specification; deadlock freedom by the lock order and a measure |
| C37 | `LikesBetree_Model.v`: Likes_v.rs, LikesBetree_v.rs, AllocationBetree_v.rs (the units' counts) | the tree is unfolded into a finite tree of references; each operation is an exchange of references; invariant over runs, equality of runs with LinkedBetree's `strong_next`, simulation of the unit counts |
| C38 | Cache | invariant on the slots; refuted as written (signed slots), where a weaker bound is proved |
| C39 | `Branch_Model.v` `ABranch` (AllocationBranch_v.rs) | invariant over build events on top of C34 |
| C40 | `Branch_Model.v` `linked_contains` | from C34; refuted as written |
| C41 | `CrashJournal_Model.v`: AllocationCrashAwareJournal_v.rs and UnifiedCrashAwareJournal_v.rs over the journal of C14 | simulation to the crash-tolerant journal of histories (`CTJournal`, C04); invariant that the root of every image a crash may need is on the path of the running journal; durability proved on histories and transferred; where images are separate, the invariant that their pages are pages of the running journal in units it still indexes. The proof does not use the check of `AllocCrash.fresh` on the units taken: it is implied by the journal's own |
| C42 | `BranchBetree_Model.v`: AllocationBranchBetree_v.rs over the branches of C39 and the linked tree of C37, with compactors and builders | invariant: the branch disk is a forest of disjoint search trees whose units the summaries list; every step is a step of the counting tree of C37 on the tree with its branches read off as maps |
| C43 | the same, with the membership test of C40 as written and repaired | simulation to `LikesBetree` (C37) and from there to the map; refuted as written |
| C44 | `Token_Model.v`: KVStoreTokenized_t.rs (tokens), ClientAPI_t.rs (calls and what they do physically) on the disk of C21, with restarts | forward simulation to `SystemModel` for an arbitrary program model: bags of tokens are the system's bags, requests asked for but not yet sent and responses taken but not yet used are on the system's disk; then C22 and C23 |
| C45 | the same; three switches for the gaps in the interface | invariant: every number in use is below the counter and in one place; refuted as written |
| C46 | `Exec_Model.v` (C24, C25) against `Token_Model.v` (C44); `Serve_Model.v`: the invariant of Implementation_v.rs 193-220 as stated and as it would have to be | forward simulation: each handler is a sequence of interface calls and token transitions with the same client-visible events; the model's history is the versions of the journal from the persistent one on |
| C47 | the same interface, with the repository's program model | from the simulation of C44 and the invariants of C22 and C23; well-formedness by induction on the token's transitions |
| C48 | CoordinationSystem and CrashTolerantMap over any of six trees and either page journal (the assembly itself is not in /repo; start of commit as repaired in C06; the tree over branches is C59; journal and tree addresses are separate) | layer by layer simulation of C05's machine; what the disk holds from C07 through it; page-by-page replay by induction on the chain of journal pages |
| C49 | the two crash-aware page journals of C41, with the allocator that fills one unit after another | invariant: the unit being filled has a page left; explicit schedule: write the tail, finish the commit under way, cut, commit |
| C50 | the assembled store of C48 | invariant: while a sync waits, the tree has replayed the whole journal; every tree can push its memtable down and freeze; explicit schedule: finish the commit under way, freeze the tree, write the journal's tail, commit, complete |
| C51 | the assembled store of C48 | invariant: the tree has been replayed up to the end of a journal page, or completely; the pages left are readable and follow one another |
| C52 | the page cache over the disk of C26 | every slot is cleaned and emptied, then each page loaded, by steps that change one slot only; the number of slots bounds the number of pages |
| C53 | the journal over the page cache of C27 | a tail is cut into pieces that fit a page, each is marshalled to a new page through one slot, then every page of the journal is cleaned, then frozen; a restart loads the pages as in C52; the pages visited are a function of the disk, and C38 bounds how many fit |
| C54 | the be-tree with branch buffers of C42 | explicit schedules: write the memtable as a new branch, growing a root where needed, then freeze; abort every compaction and branch to give up; a flush, split or compaction is enabled because with nodes in different units the old pages leave the disk together with the step, which is kept along runs |
| C55 | the journals of C14 and C41 | an account kept from the labels alone (units taken and given back since the load) is equal to the units the journal can touch along every run; a unit held without records was never written to, kept along runs, so it can be given back; giving back everything is the schedule of C49 up to the end of the log, then one prune; the images with pages of their own are pages of the loaded journal: invariant that the pages of an image in flight are in units with records it does not truncate |
| C56 | the trees of C37 (LikesBetree_v.rs, AllocationBetree_v.rs) over the linked tree, and the tree of branches of C42 | each operation of the linked tree carried out with free pages leaves a disk on which all counted pages are kept, so the counting step exists; in the tree of values (finite, by induction on it) flush every child and then compact every leaf, and lift each of these steps to the disk; the shape is an invariant of the runs; the contents are kept as in C18, so the frozen image holds the map; for the tree of branches, whose nodes form the same tree, the flushes alone are lifted, each on units not in use, after the memtable was written out as in C54 |
| C57 | the program on the crashing disk of C22 (SystemModel_t.rs, AtomicState_v.rs), as written and repaired, and the executable server of C24 (Implementation_v.rs) | with the relation of C22 between program, disk and visible versions: finish the read or write in flight, then execute the request, or accept the sync, write the newest version and confirm; invariants over the run say where a request or sync that waits is held, that no sync waits for a version to come, and that every version is what some executed puts lead to, so its superblock fits; for the server, one read is in transit while it recovers and ids in transit are old |
| C58 | the be-tree with branch buffers of C42, and the trees of C37 (LikesBetree_v.rs, AllocationBetree_v.rs) | by the invariant of C42 the branches on the disk of a state with nothing under way are exactly those of the tree, each sealed and in units of its own, and the summary kept is the one the start builds; from any state write the memtable out as for C54, then abort all compactions and branches |
| C59 | the assembled store of C48 over the be-tree with branch buffers of C42 (queries corrected as in C43); a frozen image is the tree on its pages with all unfinished work given up (C58) | the tree meets what C48, C50 and C51 ask of any tree: by the invariant of C42 every step is one of the map, every image so frozen can be started from and holds what the tree holds, and with three free units it can always be frozen (C54) |

Findings (places where the text in `/repo` violates a property) are recorded at
the end of this file as they are proved.

## Findings

* **C06** (`C06_*_refuted`): `commit_start` of the abstract coordination system
  (AbstractCrashAwareSystem_v.rs 527-557) is never enabled as written:
  it requires the journal to take a `CommitStartLabel` step from `pre.journal` to
  `pre.journal`, but that step must change `in_flight` from `None` to `Some`. Under that text no sync is ever acknowledged and every
  crash loses everything. The corrected transition is modelled beside it.
* **C16** (`C16_uncovered_image_refuted`): `initialize` of the pivot and filtered
  trees only requires a well-formed image; their refinement lemma `init_refines`
  (PivotBetreeRefinement_v.rs 698-703, FilteredBetreeRefinement_v.rs 1108-1113)
  does not establish the invariant `inv` that the step lemmas need. From an image
  whose root covers only part of the key space a put succeeds and its key can
  never be queried again. All positive theorems assume the root covers every key,
  and `*_frozen_image_restarts` shows frozen images keep that true.
* **C20**: `Key::largest_lte_ensures` and `Key::largest_lt_ensures`
  (KeyType_t.rs 178, 243) are `assume(false)` in the source; the statements hold
  and are proved here.
* **C18** (`C18_reused_address_refuted`): `next` of LinkedBetreeVars (LinkedBetree_v.rs
  1063-1203) never asks that new addresses are unused; only the predicate
  `strong_step` (1209-1240) does, and the generated machine does not use it.
  `internal_grow` onto the address of the current root turns the tree into a cycle
  after which no query is ever answered. The positive theorems are about the runs
  that satisfy `strong_step`, as the code's own refinement lemmas are.
* **C22, C23** (`C22_as_written_sync_not_durable_refuted`, `C23_as_written_unasked_refuted`,
  `C23_as_written_twice_refuted`): `program_accept_sync_request` (SystemModel_t.rs
  131-138) does not require the request to be pending, and `deliver_sync_reply`
  (AtomicState_v.rs 118-127) tests the version by an implication that holds for ids
  it does not know. A sync nobody asked for is acknowledged; one request is
  acknowledged twice; a client's put is lost although a sync it asked for after
  the put was acknowledged. The refinement theorem of the code
  (ModelRefinement_v.rs 337) is `assume(false)`, and its invariant
  `sync_requests_inv` (103-109) is not inductive. Adding the two guards (the
  first is the one KVStoreTokenized_t.rs 97 has) makes C22 and C23 hold.
* **C24** (`C24_as_written_never_answers_queries`, `C24_as_written_refuted`): the body
  of `handle_query` (Implementation_v.rs 370-420) is commented out, so a query is
  consumed and no reply is ever sent.
* **C25** (`C25_as_written_restart_is_empty`, `C25_unrestored_refuted`): `recover`
  (Implementation_v.rs 789-925) reads and decodes the superblock and drops the
  result behind `assume(false)` (872): every restart begins with an empty store,
  and the next sync overwrites the old superblock. `marshall` and `unmarshall`
  (DiskLayout_v.rs 92-106) have no body. In the model they are a parameter; two
  switches fill in `handle_query` and `recover`, and with both on C24 and C25 hold,
  whether or not a restart goes on numbering where it was (C45), as long as the
  journal of all puts still fits the page (`codec_fits`).
* **C25, one page** (`C25_one_page_refuted`): `send_superblock` (Implementation_v.rs
  486-563) puts the whole journal into one page and nothing bounds the journal. With
  P possible pages there are, for every encoding, puts of zeros and ones to at most
  log2 P + 1 keys after which a sync is acknowledged and a crash loses one of them (or
  the restart panics). The code's contract of `marshall` (DiskLayout_v.rs 92-98) has no
  precondition, and ModelRefinement_v.rs 23-27 assumes that it can be undone.
* **C26** (`C26_as_written_refuted`, `C26_declared_invariant_refuted`):
  `writeback_initiate` (Cache_v.rs 212-225) lets one batch hold two requests that
  write the same page. The page is marked clean when the first is acknowledged;
  it can then be written, written back, checked and evicted while the second is
  still in flight, and the second then puts the old content back on the disk. The
  invariant of the code (299-314) is not preserved by `reserve` or `load_initiate`,
  since it rebuilds the lookup table from filled slots only; its proofs are `assume`s
  (349-482). With the guard that `load_initiate` has (120) added to
  `writeback_initiate` all of C26 holds.
* **C38** (`C38_capacity_refuted`): `initialize(slots)` (Cache_v.rs 292-297) makes a slot
  of every `i32` below `slots`, negative ones included. `C38_capacity` is the claim with
  the slots numbered from zero; the theorems of C26 and C27 hold for any range of slots.
* **C32** (`C32_as_written_view_refuted`, `C32_exec_prunes_used_units_refuted`): the view of the
  executable allocator (exec/MiniAllocator_v.rs 105-115) calls a unit current before
  any page of it was taken, which `add_aus` of the specification does not; the
  code claims no refinement for `add_aus` (127-136). And `prune` (183-194) does not
  ask whether pages are in use.
* **C36** (`C36_spec_creates_money_refuted`): `transfer` of the trusted specification
  (example/BankSpec_t.rs 57-78) does not ask that the two accounts differ. For
  `from = to` its second `insert` overwrites the first, and the account gains the
  amount. The state machine and the program refuse such transfers.
  (`C36_total_during_transfer_refuted`): `get_total` beside a transfer returns a sum the
  bank never had, as its comment "not thread safe" warns.
  (`C36_request_ids_wrap_refuted`): the request counter is a wrapping 64 bit word, while
  BankContract_t.rs 48-49 relies on fresh ids for ever.

### C29, C30: a malformed length makes parsing panic

`ResizableUniformSizedElementSeqFormat::try_parse` (ResizableUniformSizedSeq_v.rs 526-555)
passes the stored length to `Vec::with_capacity` (532) before anything checks it
against `max_length`. For a 64-bit length field and bytes that are not a page (say
eight bytes of ones) the request overflows `isize::MAX` bytes and Rust panics with
"capacity overflow", although `try_parse` is the function that is meant to report
malformed bytes by returning `None`. `exec_well_formed` of the variable-size format
(VariableSizedElementSeq_v.rs 611-666) calls it and inherits the panic. Verus does not
see this: `Vec::with_capacity` has no precondition in vstd. Theorems
`C29_malformed_length_refuted` and `C30_check_panics_refuted`. The positive theorems
hold as written when the largest length field times the element size stays below
`isize::MAX` (so for 8, 16 and 32-bit length fields), and for all widths with a check
added (`checked = true`). Allocation failure below that limit (an abort) is not
modelled. Several lemmas of these files are `assume(false)` in the source; the
corresponding facts are proved here.

### C39: the branch builder cannot build a branch of more than one page

`BuildEvent` (AllocationBranch_v.rs 45-52) has `Initialize`, `Append`, `Split`,
`AllocFill` and `Seal`. `Split` splits a child of an index node, but no event makes an
index node: `LinkedBranch::grow` (LinkedBranch_v.rs 281-293) is not offered. So a built
branch is always one leaf page, `Split` is never enabled, and `Seal` never writes a
summary page. Theorem `C39_second_page_refuted`. The positive theorems are about the
events of the code together with a `Grow` event written in the manner of `Split`
(`ABranch.build_next_grow`), which contains the code as written.

### C40: the membership test of an on-disk branch is inverted

`linked_contains` of `impl Buffer for BranchNode` (AllocationBranch_v.rs 28-32) answers
`linked_query(..) == Update{nop_delta()}`, which is true of the keys the branch does not
hold; `SimpleBuffer`'s version (Buffer_v.rs 33-35) answers by the domain of its map. The
test is used by the compaction guards of LinkedBetree_v.rs (839, 852) and by
BufferDisk_v.rs 80, so with branches as buffers a compaction must produce a buffer whose
keys are the complement of the right ones. Theorem `C40_contains_refuted`;
`C40_contains_finds_the_keys` is the claim with `!=`. A branch that stores the message
`Update{nop_delta()}` under a key is still reported as not holding it, hence the wording
"a message that changes something".

### C27: the coordination of journal and cache never stores a put

`put` of JournalCoordinationSystem_v.rs (190-194) asks for a `Put` step of the cached
journal from `pre.journal` to `pre.journal` and updates nothing, so only empty message
sequences are accepted. Theorem `C27_put_refuted`. `discard_old` of CachedJournal_v.rs
(174-186) compares `require_end` with the end of the marshalled part, where the log
(AbstractJournal_v.rs 92) and the indexed linked journal (LikesJournal_v.rs 706) compare
with the end of the whole log; once puts are stored the journal accepts truncations the
log refuses. Theorem `C27_truncation_end_refuted`. The positive theorems hold for the
code with both repairs, for the code with `put` as written, and not for the repaired
`put` with `discard_old` as written. Both also rest on the repair of the cache (C26).

The two functions between records and pages (JournalCoordinationSystem_v.rs 25-38) have no
body, and the code assumes of all records that decoding an encoded record gives it back.
No such functions exist for finitely many pages (`C27_every_record_refuted`), and the
journal does not bound the length of a record. In the model the functions are a parameter
together with the records that fit a page; only those are written, and only of those the
theorems assume that they decode (met by `num_codec`, at most two messages to a page).
The invariant of the source (260-520) uses the invariant the cache
declares, which is not one (C26); the proof here uses what a cache can reach instead.

### C43: a compaction over branches can change the value of a key

The compaction guard (LinkedBetree_v.rs 834-860) asks that the new buffer contain the same
keys as the buffers it replaces, and agree with them on the keys it contains. With the
inverted `linked_contains` of AllocationBranch_v.rs 28-33 (see C40) the keys "contained" are
those the branches do not hold, so the guard accepts any branch with the same set of keys
whatever values it stores. `C43_compaction_keeps_answers_refuted` is such a run: 50 is put
under a key, flushed, and after a compaction the key answers 99 without any put in between.
The refinement proof of the source does not notice, because its case for
`internal_compact_complete` is `assume(false)` (AllocationBranchBetreeRefinement_v.rs 655).
C42 does not depend on the test and is proved for the code as written.

### C44, C45: the interface between the trusted code and the implementer

Four places where the trusted interface does not do what the trusted system model does.

- `execute_transition` (KVStoreTokenized_t.rs 67-77) excludes sync requests but not sync
  replies, and `mapspec_reply` (ReqReply_t.rs 58-68) turns a sync reply into a no-op reply.
  So a no-op request can be answered with `SyncOutput`, which the client takes for an
  acknowledgement. Theorem `C44_untyped_replies_refuted`, with the program of the repository.
- `open_system_invariant_user_request` (KVStoreTrait_t.rs 52-66) promises, for the token of
  any request, that its id is among the pending sync requests. For a put that is false in
  every state of the system with the same history. Theorem `C44_request_promise_refuted`.
  The promise is proved for sync requests (`sync_promise`), the only use made of it
  (Implementation_v.rs).
- A new `ClientAPI` numbers from 0 (ClientAPI_t.rs 54), so after a restart numbers are used
  again, which `fresh_id` (SystemModel_t.rs 83-89), whose history survives crashes, excludes.
  Theorem `C45_restarted_numbering_refuted`, for every program.
- `send_disk_request` promises that the number drawn is the predicted one (119-129), and
  `receive_request` draws from the same counter (65-81). The model takes a prediction to be
  the number that would be drawn at that moment; then a request received between prediction
  and sending breaks the promise. Theorem `C45_early_prediction_refuted`.
  (The prediction is a ghost value without a body. Read as a prophecy of the next send it
  survives this, but nothing in the interface says for which send it is.)

The implementation in the repository does none of these things except the third: it matches
replies to requests, and predicts immediately before sending (Implementation_v.rs 510-555,
812-846).

### C46: the invariant between the server and its model does not hold

`Implementation::inv` (Implementation_v.rs 193-220) says that the model's history is that of
the whole journal, from version 0 on (201: `self.i().history == self.view_as_floating_versions()`).
Two of the program's own transitions cut the history: `execute_sync_end` keeps the versions
from the one just written on, `complete_recovery` only the recovered one (AtomicState_v.rs
139-190). So the invariant fails after the first sync that follows a put, and after every
restart of a store that is not empty. Theorem `C46_stated_invariant_refuted`. The source does
not notice: `handle_disk_response` and `recover` go through `assume(false)` where they would
have to re-establish it. With `history == view_as_floating_versions().get_suffix(persistent_version)`
the invariant holds in every state between two handlers (`kept_inv`, part of `agree`).

### C47: a fact about fresh sync requests is stated too strongly

`system_inv_sync_request_fresh_id` (Implementation_v.rs 697-715) concludes that `req.id` is
not in `sync_req_map`, for any `req` and an unrelated token ("TODO req ~~ req_shard?"), and
ends in `assume(false)`. As stated it is false as soon as a sync was accepted
(`C47_any_sync_refuted`). For the request whose token is held it is true (`sync_is_new`,
part of `C47_tokens_tell_the_truth`), provided numbers are not used twice (C45).

### C51: an accepted no-op is never answered
The map specification knows a no-op request (spec/MapSpec_t.rs 30, 118) and
`CoordinationSystem::accept_request` (AbstractCrashAwareSystem_v.rs 210-255) accepts any
request, but only `query` and `put` execute one. A no-op stays among the requests until a
crash drops it. `C51_noop_answered_refuted` shows it; C51 is proved for queries and puts.
The executable server answers no-ops itself (Implementation_v.rs), so this is a gap of the
abstract system only: nothing it proves covers a store that answers a no-op.

### C52: slots of the page cache that never come back
`Cache::reserve` (implementation/Cache_v.rs 93-105) is an internal step, and only a write to
the page it was reserved for ends a reservation; no step withdraws it. In a cache of one slot
that reserved it, no other page can ever be read (`C52_reserved_slots_refuted`).
`load_initiate` (113-137) does not ask that the address exists, and the disk answers only for
addresses that do (spec/AsyncDisk_t.rs 152-168), so a load of any other address holds its slot
for ever (`C52_missing_pages_refuted`). C52 is proved for the remaining slots: any pages that
fit into them can be brought in together.

### C53: a journal larger than the cache cannot be restarted
`JournalCoordinationSystem::initialize` (implementation/JournalCoordinationSystem_v.rs) reads
the whole journal in a single access of the cache, and an access needs every page it reads in
a slot at the same time. A journal grows page by page through a cache of any size, one slot is
enough to freeze it, but once it has more pages than the cache has slots it cannot be started
again: `C53_restart_needs_room` for every such journal, `C53_small_cache_refuted` for a run
that produces two pages and restarts with one slot. A comment in the code (CachedJournal_v.rs
203) hints at it. The journal stays readable on a larger cache (`C53_can_restart`).
`Cache::reserve` may also pick a page of the journal itself. The journal never writes a page
twice, so nothing ends that reservation, the check of `freeze_for_commit` that all pages are
clean can never pass again for a snapshot with that page, and the history cannot be frozen
before a crash (`C53_reserved_page_refuted`). C53 is proved without such a reservation.

### C54: a flush or a compaction can be impossible
`AllocationBranchBetree::initialize` (allocation_layer/AllocationBranchBetree_v.rs) does not
ask that the node pages of the image lie in different units. The steps of the tree drop old
pages unit by unit and ask that the remaining disk is well formed. If the old parent shares
its unit with another node of the tree, its page stays on the disk but still names the old
child, whose unit is dropped, so no choice of new pages makes the flush possible
(`C54_can_flush_shared_refuted`: the root in page 0 of a unit whose page 1 is one of its
children). The tree itself only writes one node to a unit, and for images that do so, flushes
and splits are always possible (`C54_can_flush`, `C54_can_split`), and a compaction can be
finished (`C54_can_compact`) with the membership test of C40 corrected. As written, two
buffers that do not hold the same keys can never be compacted (`C54_can_compact_refuted`): a
key missing from one of them counts as contained, so the new branch must not hold it, yet must
answer it as the other buffer does. Freezing never depends on
it (`C54_can_freeze`): a new root can always be grown above the old one.

### C58: a tree that may be frozen need not be an image to start from
`freeze_as` of the be-tree with branch buffers only asks for an empty memtable. A branch that
has left the tree stays in `buffer_dv` as long as an unfinished compaction reads it, while
`AllocationBranchBetree::initialize` asks that every page of `buffer_dv` lies in a unit of a
branch of the tree (`addrs_closed(buffer_dv.entries.dom(), summary_aus)`). With two
compactions of the same branch, one of them finished, the tree can be frozen but nothing can
be started from what it has on its disk (`C58_frozen_is_image_refuted`). When no compaction
and no branch is under way the tree is an image (`C58_idle_is_image`), and such a state can
always be reached (`C58_can_restart`).
