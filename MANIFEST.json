{
 "claims": [
  {
   "property": "C01",
   "status": "proved",
   "theorems": [
    "C01_query_returns_last_write",
    "C01_histories_legal",
    "C01_every_history_possible"
   ],
   "note": "MapSpec state machine, all histories"
  },
  {
   "property": "C02",
   "status": "proved",
   "theorems": [
    "C02_linearizable"
   ],
   "note": "AsyncMap state machine, all traces"
  },
  {
   "property": "C03",
   "status": "proved",
   "theorems": [
    "C03_crash_exposes_prefix"
   ],
   "note": "CrashTolerantAsyncMap, all traces"
  },
  {
   "property": "C04",
   "status": "proved",
   "theorems": [
    "C04_acknowledged_sync_durable"
   ],
   "note": "CrashTolerantAsyncMap, all traces; same logs as C03"
  },
  {
   "property": "C10",
   "status": "proved",
   "theorems": [
    "C10_merge_associative",
    "C10_newest_definition_wins",
    "C10_merge_into_definition",
    "C10_nop_is_identity"
   ],
   "note": "Messages_t.rs"
  },
  {
   "property": "C05",
   "status": "proved",
   "theorems": [
    "C05_coordination_system_allowed",
    "C05_repaired_system_allowed"
   ],
   "note": "forward simulation of CoordinationSystem into CrashTolerantAsyncMap, as written and with commit_start repaired"
  },
  {
   "property": "C06",
   "status": "proved",
   "theorems": [
    "C06_sync_progress_refuted",
    "C06_as_written_commit_never_starts",
    "C06_as_written_crash_forgets_everything",
    "C06_repaired_sync_progress"
   ],
   "note": "FINDING: false of the code as written (commit_start is never enabled, AbstractCrashAwareSystem_v.rs 536-552); proved for the repaired transition"
  },
  {
   "property": "C07",
   "status": "proved",
   "theorems": [
    "C07_recovered_store_is_logged",
    "C07_recovery_replays_the_journal",
    "C07_recovery_possible",
    "C07_durable_journal_is_log"
   ],
   "note": "for the repaired system, which includes every behaviour of the code as written"
  },
  {
   "property": "C08",
   "status": "proved",
   "theorems": [
    "C08_truncation_loses_nothing",
    "C08_parts_are_the_log"
   ],
   "note": "MsgHistory; the paged/linked journal forms of truncation are C11-C13"
  },
  {
   "property": "C09",
   "status": "proved",
   "theorems": [
    "C09_replay_in_pieces",
    "C09_replay_is_in_order"
   ],
   "note": "MsgHistory"
  },
  {
   "property": "C11",
   "status": "proved",
   "theorems": [
    "C11_paged_journal_faithful",
    "C11_content_unique"
   ],
   "note": "PagedJournal, all runs; refinement to the message-log journal"
  },
  {
   "property": "C12",
   "status": "proved",
   "theorems": [
    "C12_linked_journal_faithful",
    "C12_links_resolve",
    "C12_truncation_keeps_live_pages"
   ],
   "note": "LinkedJournal, all runs; refinement through PagedJournal"
  },
  {
   "property": "C13",
   "status": "proved",
   "theorems": [
    "C13_index_locates",
    "C13_referenced_pages",
    "C13_indexed_journal_faithful"
   ],
   "note": "LikesJournal (= implementation/JournalModel), all runs from any decodable image"
  },
  {
   "property": "C14",
   "status": "proved",
   "theorems": [
    "C14_alloc_journal_faithful",
    "C14_given_back_units_are_unused",
    "C14_space_accounting",
    "C14_pages_stable",
    "C14_unit_index_locates",
    "C14_frozen_image_recoverable"
   ],
   "note": "AllocationJournal + MiniAllocator, all runs from any valid image, any page/AU geometry"
  },
  {
   "property": "C15",
   "status": "proved",
   "theorems": [
    "C15_paged_faithful",
    "C15_paged_reorganisation_invisible"
   ],
   "note": "PagedBetree with memtable, all runs from any image"
  },
  {
   "property": "C16",
   "status": "proved",
   "theorems": [
    "C16_pivot_faithful",
    "C16_pivot_structure",
    "C16_pivot_reorganisation_invisible",
    "C16_pivot_frozen_image_restarts",
    "C16_uncovered_image_refuted"
   ],
   "note": "PivotBetree, all runs from any well-formed image whose root covers every key; the code's initialize does not demand the latter and C16_uncovered_image_refuted shows why it is needed (see Findings)"
  },
  {
   "property": "C17",
   "status": "proved",
   "theorems": [
    "C17_filtered_faithful",
    "C17_filtered_structure",
    "C17_filtered_reorganisation_invisible",
    "C17_filtered_frozen_image_restarts"
   ],
   "note": "FilteredBetree, all runs from any well-formed image whose root covers every key"
  },
  {
   "property": "C19",
   "status": "proved",
   "theorems": [
    "C19_paged_receipts_agree",
    "C19_pivot_receipts_agree",
    "C19_filtered_receipts_agree",
    "C19_paged_one_answer",
    "C19_pivot_one_answer",
    "C19_filtered_one_answer"
   ],
   "note": "query receipts of the paged, pivot and filtered trees"
  },
  {
   "property": "C20",
   "status": "proved",
   "theorems": [
    "C20_largest_lte",
    "C20_largest_lt",
    "C20_element_largest_lte",
    "C20_largest_lte_window",
    "C20_route"
   ],
   "note": "includes the two lemmas KeyType_t.rs leaves as assume(false) (178, 243)"
  },
  {
   "property": "C18",
   "status": "proved",
   "theorems": [
    "C18_linked_faithful",
    "C18_linked_one_answer",
    "C18_linked_reorganisation_invisible",
    "C18_linked_copy_on_write",
    "C18_linked_disk_legal",
    "C18_linked_frozen_image_restarts",
    "C18_reused_address_refuted"
   ],
   "note": "LinkedBetree, all runs whose steps satisfy the file's strong_step (fresh addresses, reachable buffers kept), which is what all of the code's own lemmas assume and what the layer above provides; the bare next lacks it and C18_reused_address_refuted shows why it is needed (see Findings)"
  },
  {
   "property": "C21",
   "status": "proved",
   "theorems": [
    "C21_executions_are_event_traces",
    "C21_content_is_last_write",
    "C21_response_is_right",
    "C21_one_response_per_request",
    "C21_effects_were_requested",
    "C21_requests_are_kept",
    "C21_crash_loses_queues_only"
   ],
   "note": "AsyncDisk, all executions and geometries"
  },
  {
   "property": "C22",
   "status": "proved",
   "theorems": [
    "C22_repaired_system_allowed",
    "C22_as_written_data_allowed",
    "C22_as_written_sync_not_durable_refuted"
   ],
   "note": "FINDING: false of the system model as written (missing guards on sync requests, SystemModel_t.rs 131-138, AtomicState_v.rs 118-127); everything but the sync handshake proved as written, everything proved with the guards added; any geometry, any superblock decoder"
  },
  {
   "property": "C23",
   "status": "proved",
   "theorems": [
    "C23_repaired_syncs_answered_once",
    "C23_as_written_requests_answered_once",
    "C23_as_written_unasked_refuted",
    "C23_as_written_twice_refuted"
   ],
   "note": "FINDING: false of the system model as written; proved with the guards added"
  },
  {
   "property": "C35",
   "status": "proved",
   "theorems": [
    "C35_same_entries",
    "C35_one_to_one",
    "C35_onto",
    "C35_size",
    "C35_insert",
    "C35_remove"
   ],
   "note": "MultisetMapRelation, all finite bags over any key and value types"
  },
  {
   "property": "C24",
   "status": "proved",
   "theorems": [
    "C24_repaired_server_answers",
    "C24_acknowledgements",
    "C24_as_written_map",
    "C24_as_written_never_answers_queries",
    "C24_as_written_refuted",
    "C24_never_panics"
   ],
   "note": "FINDING: false as written, handle_query (Implementation_v.rs 370-420) never replies; puts, no-ops and the in-memory map proved as written, everything proved with handle_query doing what its commented-out body intends. Any superblock codec that decodes the journals the puts of the execution can make (marshall/unmarshall have no body in the code)"
  },
  {
   "property": "C25",
   "status": "proved",
   "theorems": [
    "C25_repaired_sync_is_durable",
    "C25_repaired_sync_is_answerable",
    "C25_as_written_restart_is_empty",
    "C25_unrestored_refuted",
    "C25_one_page_refuted"
   ],
   "note": "FINDING: false as written, recover (Implementation_v.rs 869-872) discards the superblock it read; FINDING: also false, with everything repaired, for every encoding with finitely many pages once the journal outgrows its page (C25_one_page_refuted); proved with the journal restored, at every crash point including inside a handler"
  },
  {
   "property": "C26",
   "status": "proved",
   "theorems": [
    "C26_reads_what_the_page_holds",
    "C26_reads_last_write",
    "C26_one_slot_per_page",
    "C26_writes_back_the_latest",
    "C26_disk_gets_the_latest",
    "C26_evicts_only_clean_pages",
    "C26_pages_can_be_cleaned",
    "C26_pages_can_be_loaded",
    "C26_as_written_refuted",
    "C26_declared_invariant_refuted"
   ],
   "note": "FINDING: false as written, writeback_initiate (Cache_v.rs 212-225) may send the same page twice in one batch and a late write then undoes a newer one; proved with the batch's requests distinct, over the asynchronous disk with crashes. The code's own invariant is not preserved by reserve"
  },
  {
   "property": "C38",
   "status": "proved",
   "theorems": [
    "C38_capacity",
    "C38_capacity_as_written",
    "C38_capacity_refuted"
   ],
   "note": "FINDING: false as written, slots are i32 and initialize (Cache_v.rs 292-297) also creates the negative ones; the bound n is proved with the slots numbered from zero, and the bound n + 2^31 for the code as written (both with the write back repair of C26)"
  },
  {
   "property": "C32",
   "status": "proved",
   "theorems": [
    "C32_exec_pages_are_fresh",
    "C32_exec_pages_are_own",
    "C32_exec_pages_are_available",
    "C32_exec_never_panics",
    "C32_exec_refines_spec",
    "C32_as_written_view_refuted",
    "C32_exec_prunes_used_units_refuted",
    "C32_pages_are_fresh",
    "C32_pages_are_own",
    "C32_guarded_pages_never_twice",
    "C32_guarded_prunes_unused_units"
   ],
   "note": "FINDING: the executable prune (exec/MiniAllocator_v.rs 183-194) gives up a unit whose pages are in use, so that part of the claim holds only of callers that ask can_remove first; and the executable view takes a fresh unit for the current one. Everything else proved for every sequence of calls that meets the calls' requires clauses"
  },
  {
   "property": "C36",
   "status": "proved",
   "theorems": [
    "C36_spec_creates_money_refuted",
    "C36_spec_conserves_money",
    "C36_system_refines_spec",
    "C36_system_conserves_money",
    "C36_system_balances",
    "C36_system_answers_at_most_once",
    "C36_system_replies_are_decisions",
    "C36_program_refines_system",
    "C36_program_conserves_money",
    "C36_program_never_overflows",
    "C36_program_decides_exactly",
    "C36_program_calls_can_finish",
    "C36_program_never_deadlocks",
    "C36_program_answers_exactly_once",
    "C36_request_ids_wrap_refuted",
    "C36_sum_is_exact",
    "C36_total_during_transfer_refuted"
   ],
   "note": "FINDINGS: the trusted specification (BankSpec_t.rs 57-78) lets a transfer from an account to itself create money; get_total beside a transfer returns a wrong sum; request ids repeat after 2^64 requests. Everything else proved for every interleaving of the threads of SimpleBank, down to single lock operations, including absence of deadlock"
  },
  {
   "property": "C28",
   "status": "proved",
   "theorems": [
    "C28_encode_then_decode",
    "C28_decode_then_encode",
    "C28_format_is_reliable"
   ],
   "note": "all four widths"
  },
  {
   "property": "C29",
   "status": "proved",
   "theorems": [
    "C29_sequences_survive",
    "C29_set_in_place",
    "C29_pages_survive",
    "C29_page_history",
    "C29_malformed_length_refuted"
   ],
   "note": "FINDING: as written try_parse (ResizableUniformSizedSeq_v.rs 532) panics on a malformed 64-bit length; everything else proved as written for any element format that meets the contract, panics modelled explicitly"
  },
  {
   "property": "C30",
   "status": "proved",
   "theorems": [
    "C30_page_history",
    "C30_append_keeps_elements",
    "C30_reading_never_panics",
    "C30_check_decides",
    "C30_check_panics_refuted"
   ],
   "note": "FINDING: exec_well_formed inherits the panic of C29 for 64-bit lengths; everything else proved as written"
  },
  {
   "property": "C31",
   "status": "proved",
   "theorems": [
    "C31_pairs_survive",
    "C31_malformed_is_refused"
   ],
   "note": "any key and value format that meets the contract"
  },
  {
   "property": "C33",
   "status": "proved",
   "theorems": [
    "C33_queries_return_last_write",
    "C33_stays_sorted_and_balanced",
    "C33_queries_read_the_contents",
    "C33_insert_sets_one_key",
    "C33_append_sets_its_keys",
    "C33_reorganising_is_invisible",
    "C33_insert_is_always_possible",
    "C33_full_leaf_can_be_split"
   ],
   "note": "PivotBranch_v.rs, all trees and all sequences of calls"
  },
  {
   "property": "C34",
   "status": "proved",
   "theorems": [
    "C34_pages_spell_one_tree",
    "C34_behaves_as_in_memory",
    "C34_accepts_the_same_calls",
    "C34_same_answers",
    "C34_history"
   ],
   "note": "LinkedBranch_v.rs against PivotBranch_v.rs, both directions (same behaviour, same calls accepted)"
  },
  {
   "property": "C39",
   "status": "proved",
   "theorems": [
    "C39_branch_answers_what_was_built",
    "C39_as_written_answers_what_was_built",
    "C39_pages_are_those_reserved",
    "C39_summary_lists_the_units",
    "C39_units_are_accounted_for",
    "C39_sealed_is_final",
    "C39_second_page_refuted"
   ],
   "note": "FINDING: the builder has no event that grows the tree, so as written a branch is always one page and Split is never enabled (C39_second_page_refuted). The other theorems are about the events of the code together with a Grow event, hence also about the code alone"
  },
  {
   "property": "C40",
   "status": "proved",
   "theorems": [
    "C40_contains_finds_the_keys",
    "C40_contains_refuted"
   ],
   "note": "FINDING: as written the test is inverted (AllocationBranch_v.rs 28-32); proved with the comparison corrected, refuted as written"
  },
  {
   "property": "C37",
   "status": "proved",
   "theorems": [
    "C37_counts_are_references",
    "C37_unit_counts_are_references",
    "C37_nothing_live_is_released",
    "C37_units_nothing_live_is_released",
    "C37_copy_on_write",
    "C37_units_copy_on_write",
    "C37_faithful",
    "C37_units_faithful",
    "C37_same_runs",
    "C37_garbage_can_be_collected",
    "C37_units_garbage_can_be_collected",
    "C37_nodes_stay_unshared",
    "C37_units_nodes_stay_unshared"
   ],
   "note": "LikesBetree_v.rs and AllocationBetree_v.rs (the C37_units_ theorems), all runs"
  },
  {
   "property": "C27",
   "status": "proved",
   "theorems": [
    "C27_faithful",
    "C27_runs_as_the_linked_journal",
    "C27_structure",
    "C27_index_finds_the_page",
    "C27_frozen_snapshot_survives",
    "C27_restart_recovers",
    "C27_restart_is_possible",
    "C27_put_refuted",
    "C27_truncation_end_refuted",
    "C27_every_record_refuted"
   ],
   "note": "FINDING: as written put stores nothing (C27_put_refuted) and truncation compares the wrong end (C27_truncation_end_refuted). Proved with both repaired, and with put as written; the cache is the repaired one of C26, and record encoding is a parameter that must decode the records the journal may write; FINDING: the code assumes this of all records, which no encoding in finitely many pages satisfies (C27_every_record_refuted)"
  },
  {
   "property": "C41",
   "status": "proved",
   "theorems": [
    "C41_alloc_faithful",
    "C41_faithful",
    "C41_alloc_recovery",
    "C41_recovery",
    "C41_alloc_persistent_grows",
    "C41_persistent_grows",
    "C41_alloc_synced_put_survives",
    "C41_synced_put_survives",
    "C41_durable_pages",
    "C41_space",
    "C41_alloc_space"
   ],
   "note": "AllocationCrashAwareJournal_v.rs (the C41_alloc_ theorems) and UnifiedCrashAwareJournal_v.rs, where all images share one disk"
  },
  {
   "property": "C42",
   "status": "proved",
   "theorems": [
    "C42_units_are_accounted_for",
    "C42_steps_take_free_units_and_return_used_ones",
    "C42_one_owner",
    "C42_counts_are_references",
    "C42_nothing_missing_nothing_leaked",
    "C42_copy_on_write"
   ],
   "note": "AllocationBranchBetree_v.rs as written and with the two repairs (membership test of C40, Grow event of C39), all runs"
  },
  {
   "property": "C43",
   "status": "proved",
   "theorems": [
    "C43_faithful",
    "C43_one_answer_per_key",
    "C43_background_changes_no_answer",
    "C43_compaction_keeps_answers_refuted"
   ],
   "note": "FINDING: as written a compaction can replace the value of a key (C43_compaction_keeps_answers_refuted), because the membership test is inverted (C40); proved with that test repaired, with or without the Grow event of C39"
  },
  {
   "property": "C44",
   "status": "proved",
   "theorems": [
    "C44_interface_implements_system",
    "C44_clients_see_a_store",
    "C44_untyped_replies_refuted",
    "C44_request_promise_refuted"
   ],
   "note": "FINDINGS: as written any request may be answered with a sync acknowledgement (C44_untyped_replies_refuted), and the promise about pending sync requests is made for every request (C44_request_promise_refuted). Proved for every program model with the gaps of C44 and C45 closed"
  },
  {
   "property": "C45",
   "status": "proved",
   "theorems": [
    "C45_numbers_as_predicted",
    "C45_numbers_distinct",
    "C45_early_prediction_refuted",
    "C45_restarted_numbering_refuted"
   ],
   "note": "FINDINGS: as written numbering restarts at 0 (C45_restarted_numbering_refuted) and nothing keeps a request from being received between prediction and sending (C45_early_prediction_refuted). Proved with both closed"
  },
  {
   "property": "C46",
   "status": "proved",
   "theorems": [
    "C46_server_obeys_interface",
    "C46_server_is_a_store",
    "C46_stated_invariant_refuted"
   ],
   "note": "FINDING: the invariant the code states between server and model (Implementation_v.rs 201) fails once a put was synced (C46_stated_invariant_refuted); proved with the history cut at the persistent version. The server is the one of C24 and C25 with its two gaps filled in; the interface with those of C44 closed; C46_server_is_a_store needs numbering that survives restarts (C45)"
  },
  {
   "property": "C47",
   "status": "proved",
   "theorems": [
    "C47_tokens_tell_the_truth",
    "C47_model_well_formed",
    "C47_any_sync_refuted"
   ],
   "note": "FINDING: system_inv_sync_request_fresh_id is stated for any request and ends in assume(false); so stated it is false (C47_any_sync_refuted), proved for the request whose token is held"
  },
  {
   "property": "C48",
   "status": "proved",
   "theorems": [
    "C48_assembled_store_allowed",
    "C48_assembled_store_recovers"
   ],
   "note": "The assembly is not written out in /repo, which has the layers and their refinement claims; start of commit repaired as in C06, fresh addresses as in C29. The tree over branches is C59; addresses of journal and tree are not drawn from one pool"
  },
  {
   "property": "C49",
   "status": "proved",
   "theorems": [
    "C49_alloc_can_sync",
    "C49_can_sync"
   ],
   "note": "AllocationCrashAwareJournal_v.rs and UnifiedCrashAwareJournal_v.rs; room means a page left in the unit being filled, an untouched unit already held, or a unit of the device the journal does not use"
  },
  {
   "property": "C50",
   "status": "proved",
   "theorems": [
    "C50_assembled_store_can_sync"
   ],
   "note": "The assembly of C48. Room is asked of the journal only: the models of the trees draw new pages from an address space without end, as the code's state machines do"
  },
  {
   "property": "C51",
   "status": "proved",
   "theorems": [
    "C51_assembled_store_can_answer",
    "C51_noop_answered_refuted"
   ],
   "note": "FINDING: the coordination system accepts a no-op request but has no step that executes it, so it is never answered (C51_noop_answered_refuted); proved for queries and puts whose id no undelivered reply carries"
  },
  {
   "property": "C52",
   "status": "proved",
   "theorems": [
    "C52_pages_can_be_held_together",
    "C52_reservations_can_be_used",
    "C52_reserved_slots_refuted",
    "C52_missing_pages_refuted"
   ],
   "note": "FINDING: a reservation is never withdrawn, and a load of an address the disk does not have never ends, so such slots are lost until a crash (the two refuted statements); proved for the slots that are neither, for the cache with the repaired write back of C26"
  },
  {
   "property": "C53",
   "status": "proved",
   "theorems": [
    "C53_can_freeze",
    "C53_can_restart",
    "C53_restart_needs_room",
    "C53_small_cache_refuted",
    "C53_reserved_page_refuted"
   ],
   "note": "FINDING: a restart reads all pages of the journal in one access, so a journal with more pages than the new cache has slots can never be started (C53_small_cache_refuted, C53_restart_needs_room), and a reservation for a page of the journal keeps it from ever being frozen again (C53_reserved_page_refuted); proved without such reservations, for any cache size the pages fit into, with the repairs of C26 and C27"
  },
  {
   "property": "C54",
   "status": "proved",
   "theorems": [
    "C54_can_freeze",
    "C54_can_give_up",
    "C54_can_flush",
    "C54_can_split",
    "C54_can_compact",
    "C54_can_compact_refuted",
    "C54_can_flush_shared_refuted"
   ],
   "note": "FINDING: an image whose nodes share units is accepted, and on it a flush whose conditions hold can be impossible (C54_can_flush_shared_refuted); as written, buffers with different keys can never be compacted (C54_can_compact_refuted); freezing and giving up are proved for every image, flush, split and (with the membership test of C40 repaired) compaction for images with one node to a unit"
  },
  {
   "property": "C55",
   "status": "proved",
   "theorems": [
    "C55_books",
    "C55_own_books",
    "C55_alloc_books",
    "C55_images_share_pages",
    "C55_can_give_back_all",
    "C55_alloc_can_give_back_all"
   ],
   "note": "UnifiedCrashAwareJournal_v.rs (shared disk), AllocationCrashAwareJournal_v.rs (images with pages of their own) and AllocationJournal_v.rs by itself. Units taken before a crash and not used by the persistent image leave the books with the crash: the code does not say who takes them back"
  },
  {
   "property": "C56",
   "status": "proved",
   "theorems": [
    "C56_can_work",
    "C56_units_can_work",
    "C56_keeps_shape",
    "C56_units_keep_shape",
    "C56_can_settle",
    "C56_units_can_settle",
    "C56_branches_keep_shape",
    "C56_branches_can_drain"
   ],
   "note": "for the trees that count references by pages and by units; an image with a node that has some but not all of its children is accepted by the code, and then settling is not claimed (no step of the code makes such a node); for the tree of branches with the membership test of C42 and an image whose nodes are on units of their own (C54)"
  },
  {
   "property": "C57",
   "status": "proved",
   "theorems": [
    "C57_requests_answerable",
    "C57_syncs_answerable",
    "C57_as_written_requests_answerable",
    "C57_as_written_syncs_answerable",
    "C57_server_starts_up"
   ],
   "note": "that a continuation exists, not that a scheduler takes it; that the executable server acknowledges pending syncs is C25_repaired_sync_is_answerable, and that as written it answers no query is C24"
  },
  {
   "property": "C58",
   "status": "proved",
   "theorems": [
    "C58_idle_is_image",
    "C58_image_determines_start",
    "C58_can_restart",
    "C58_frozen_restarts",
    "C58_units_frozen_restarts",
    "C58_frozen_is_image_refuted"
   ],
   "note": "FINDING: the tree may be frozen while a compaction still reads a branch that has left the tree, and what it then has on its disk is rejected by the start (C58_frozen_is_image_refuted)"
  },
  {
   "property": "C59",
   "status": "proved",
   "theorems": [
    "C59_branch_store_allowed",
    "C59_branch_store_recovers",
    "C59_branch_store_can_answer",
    "C59_branch_store_can_sync"
   ],
   "note": "the assembly of C48 over AllocationBranchBetree_v.rs, with the queries of branches corrected (C43); frozen images are the tree on its pages with all unfinished work given up, because with it they need not be accepted at the start (C58); as in C48 the addresses of the journal and of the tree are apart"
  }
 ]
}