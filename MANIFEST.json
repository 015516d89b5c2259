{"claims": [
 {"property": "C01", "status": "proved", "theorems": ["C01_order_is_tag_then_payload", "C01_strict_total_order", "C01_nan_refuted"], "note": "NaN floats excluded; the NaN exception is shown by C01_nan_refuted."},
 {"property": "C02", "status": "proved", "theorems": ["C02_any_comparisons"], "note": ""},
 {"property": "C03", "status": "proved", "theorems": ["C03_validate_exact", "C03_key_values_validate_exact", "C03_type_validate_exact"], "note": ""},
 {"property": "C04", "status": "partial", "theorems": ["C04_decode_encode", "C04_decode_encode_float_partial", "C04_encoding_injective", "C04_decode_sound", "C04_decode_unknown_tag"], "note": "decimal printing/parsing of floats by strconv is a parameter of the float theorem"},
 {"property": "C05", "status": "proved", "theorems": ["C05_type_restrictions"], "note": ""},
 {"property": "C06", "status": "proved", "theorems": ["C06_create_is_map_insert", "C06_create_or_find"], "note": "NaN keys excluded; one caller at a time"},
 {"property": "C07", "status": "proved", "theorems": ["C07_delete_is_map_remove"], "note": ""},
 {"property": "C08", "status": "proved", "theorems": ["C08_histories", "C08_height"], "note": "histories of creations (constructor yields a value) and deletions; constructors yielding nothing break it, see C12"},
 {"property": "C09", "status": "proved", "theorems": ["C09_find_key", "C09_find_any"], "note": ""},
 {"property": "C10", "status": "partial", "theorems": ["C10_range_lookups_exact", "C10_range_lookups_partial", "C10_type_restriction_refuted"], "note": "exact behaviour proved; the English statement holds when the argument's own type satisfies the restriction and is refuted by a witness otherwise"},
 {"property": "C11", "status": "proved", "theorems": ["C11_stops_when_told"], "note": ""},
 {"property": "C12", "status": "partial", "theorems": ["C12_nil_constructor_refuted", "C12_empty_refuted", "C12_nil_constructor_partial"], "note": "the property is false of the code (shift is not undone); proved when at most one stored key is greater"},
 {"property": "C13", "status": "partial", "theorems": ["C13_locks_released_partial", "C13_find_leaks_exactly", "C13_leak_refuted", "C13_iterate_refuted"], "note": "the property is false of the code; proved clean under the stated conditions, leaks characterised for Find"},
 {"property": "C14", "status": "proved", "theorems": ["C14_blocked", "C14_rejected", "C14_only_that_key", "C14_effects"], "note": "Any number of concurrent callers; each call's effect on the tree is one atomic step (the node locking that makes it so is not modelled). A call made before the destroy recorded its key may still take effect."},
 {"property": "C15", "status": "proved", "theorems": ["C15_destroy_all", "C15_exclusive", "C15_usable_again"], "note": "sync.WaitGroup misuse panics not modelled."},
 {"property": "C16", "status": "proved", "theorems": ["C16_combinations"], "note": "Order proved for keys given in any order (on the sorted forms of the combinations); the reordering of strings inside a combination by the comparator is not modelled."},
 {"property": "C17", "status": "proved", "theorems": ["C17_sets", "C17_sorted_values_refuted"], "note": "At string, the only instance used. SortedValues (not part of the interface) always returns an empty slice."},
 {"property": "C18", "status": "partial", "theorems": ["C18_query_validate_exact", "C18_match_never_panics", "C18_nil_query_refuted", "C22_empty_part_refuted"], "note": "Validation is exact and direct matching of a validated query never panics. Missing because false: the nil query, and queries with a part-less node other than the literal select-all, pass validation and then crash the matcher or the tree query (refuted theorems)."},
 {"property": "C19", "status": "partial", "theorems": ["C19_match_partial", "C19_or_only_refuted"], "note": "Exact for every validated query in which no node consists of Or parts only; for such nodes the code matches everything (C19_or_only_refuted). Queries with NaN values excluded."},
 {"property": "C20", "status": "proved", "theorems": ["C20_unique", "C20_create", "C20_create_or_find"], "note": "For every history of calls, one at a time. The B-trees inside are finite maps (AssocBridge.v relates them to the B-tree model); the id-node locks are not modelled."},
 {"property": "C21", "status": "proved", "theorems": ["C21_delete", "C21_delete_by_id", "C21_destroy_by_id", "C21_destroy_tree", "C21_index", "C21_lookup_key_values", "C21_lookup_id", "C21_update", "C21_offered"], "note": "For every history of calls, one at a time."},
 {"property": "C22", "status": "partial", "theorems": ["C22_query_partial", "C22_two_not_equals_refuted", "C22_range_restriction_refuted", "C22_empty_part_refuted"], "note": "Proved for validated queries whose every node has a part, with at most one != per selection and ranges whose value lies within the restriction (or with ids). False otherwise: refuted theorems."},
 {"property": "C23", "status": "partial", "theorems": ["C23_agree_partial", "C23_disagree_refuted"], "note": "Proved for queries without ids, Or-only nodes and the queries C22 excludes; refuted for each of those."},
 {"property": "C24", "status": "partial", "theorems": ["C24_match_partial", "C24_crossed_bounds_refuted"], "note": "Proved for all validated match queries whose bounds do not cross; crossed bounds pass validation and panic (refuted)."},
 {"property": "C25", "status": "proved", "theorems": ["C25_isolated", "C25_noninterference", "C25_found", "C25_query_reveals", "C25_match_reveals", "C25_unique", "C25_create", "C25_delete", "C25_destroy_by_id", "C25_destroy_owner", "C25_refused", "C25_query_partial", "C25_match_partial", "C25_update"], "note": "Non-interference for every history of calls (one call at a time); the two _partial theorems add which items a query or match selects, for the queries covered by C22/C24. Overlapping calls are not modelled."},
 {"property": "C26", "status": "proved", "theorems": ["C26_exclusive", "C26_one_destroy", "C26_admitted"], "note": "Transition system with any number of goroutines over the documented behaviour of sync.RWMutex and atomic.Bool; statements are about event histories only. The progress half says that the winning destroy can return as soon as no operation runs."},
 {"property": "C27", "status": "proved", "theorems": ["C27_mutual_exclusion"], "note": "Transition system of the lock manager: any number of clients, keys, lock objects and goroutines, with time; statements over event histories. Server shutdown is not modelled."},
 {"property": "C28", "status": "proved", "theorems": ["C28_heartbeat", "C28_release", "C28_refused_no_effect", "C28_session_fresh"], "note": "Same model. The id generator is assumed never to repeat an id (that is what its uuid promises)."},
 {"property": "C29", "status": "proved", "theorems": ["C29_count", "C29_no_panic"], "note": "Same model."},
 {"property": "C30", "status": "partial", "theorems": ["C30_expiry_needs_silence", "C30_handed_on_partial", "C30_always_handed_on_refuted", "C30_heartbeat_restarts_refuted"], "note": "Expiry needs a full silent timeout, and after one every waiting client can be the next holder. Two parts of the English claim are false and refuted: a second tick of the go 1.22 ticker can leave Execute blocked on blockDone for ever, and a heartbeat accepted after the tick was buffered does not restart the timeout. Missing: fairness (that it is eventually handed on when no second tick occurs)."},
 {"property": "C31", "status": "proved", "theorems": ["C31_ends_once", "C31_answers", "C31_calls_return", "C31_timeout_needs_silence", "C31_shutdown", "C31_accepted_heartbeat_refuted"], "note": "Transition system with time, any number of concurrent calls, go 1.22 tickers. The refuted theorem records that a heartbeat accepted after the tick was buffered does not prevent the timeout."},
 {"property": "C32", "status": "proved", "theorems": ["C32_unit", "C32_bulk", "C32_concurrent", "C32_lost_lock_refuted"], "note": "Sequential histories of unit increments (fewer than 2^63 requests) never exceed a limit; increments by up to n overshoot by less than n; the same for all interleavings of concurrent increments while no lock is lost. C32_lost_lock_refuted: if a lock is lost after its last check the limit can be exceeded."},
 {"property": "C33", "status": "partial", "theorems": ["C33_increment_partial", "C33_refused_requests", "C33_overflow_refuted"], "note": "The decision and the effect of an increment, provided the sum of all counters fits an int64; without that the statement is false (C33_overflow_refuted)."},
 {"property": "C34", "status": "proved", "theorems": ["C34_unique", "C34_decrement", "C34_set", "C34_query_partial"], "note": "Also what QueryCounters reports, for the queries covered by C22."},
 {"property": "C35", "status": "proved", "theorems": ["C35_acyclic", "C35_progress", "C35_finishes"], "note": "All schedules of any number of increments, with other requests and lock losses interleaved; locks as specified by C27-C29."},
 {"property": "C36", "status": "proved", "theorems": ["C36_rules_unique", "C36_overrides_unique", "C36_consistent", "C36_values", "C36_create_rule", "C36_update_rule", "C36_get_rule", "C36_delete_rule", "C36_create_override", "C36_update_override", "C36_get_override", "C36_delete_override"], "note": "All histories of requests, one at a time."},
 {"property": "C37", "status": "proved", "theorems": ["C37_exactly_one", "C37_waiting", "C37_with_clients", "C37_one_client", "C37_leaves", "C37_comes"], "note": "All interleavings on one channel while the service runs and no request is blocked (see C47, C50)."},
 {"property": "C38", "status": "proved", "theorems": ["C38_order", "C38_enqueued", "C38_retried", "C38_replaced", "C38_undelivered"], "note": "Order of hand-out is the order of the waiting list; where each event puts an item in it."},
 {"property": "C39", "status": "proved", "theorems": ["C39_update", "C39_append", "C39_unchanged", "C39_only_waiting"], "note": "Only the newest waiting item is replaced, and only when both are updateable."},
 {"property": "C40", "status": "partial", "theorems": ["C40_bound_partial", "C40_dropped_partial", "C40_wrap_refuted"], "note": "For MaxRetryAttempts < 2^64-1; at 2^64-1 the comparison wraps and the item is retried without bound (C40_wrap_refuted)."},
 {"property": "C41", "status": "partial", "theorems": ["C41_ack", "C41_failed_ack_partial", "C41_waiting_refuted", "C41_once", "C41_stale_refuted"], "note": "A failed ack of a waiting (not processing) item is accepted (C41_waiting_refuted); a stale ack of an earlier delivery settles a later one (C41_stale_refuted)."},
 {"property": "C42", "status": "partial", "theorems": ["C42_enqueued_partial", "C42_running_partial", "C42_running_bound", "C42_places_refuted", "C42_running_refuted"], "note": "Exact values of both counters including the leaks; the property without leaks is refuted."},
 {"property": "C43", "status": "proved", "theorems": ["C43_slot", "C43_returned"], "note": "An item that was taken but not delivered returns to the front of the waiting list and gives its place back."},
 {"property": "C44", "status": "partial", "theorems": ["C44_empty", "C44_refused", "C44_closed", "C44_enqueued_zero", "C44_running_zero_partial", "C44_running_refuted"], "note": "The running counter can be raised by the forwarder after it was reset (C44_running_refuted)."},
 {"property": "C45", "status": "partial", "theorems": ["C45_isolated", "C45_create", "C45_update", "C45_delete", "C45_dropped", "C45_unknown", "C45_list", "C45_delete_refuted", "C45_create_refuted", "C45_create_nil_refuted", "C45_update_refuted"], "note": "Holds for histories of requests as they should be (limits at least -1, channel keys that do not clash with willow's own). Refuted: deleting an unknown queue answers success; a refused creation removes another queue; a failed update is reported."},
 {"property": "C46", "status": "partial", "theorems": ["C46_never_wedged_refuted", "C46_idle_partial"], "note": "False as stated: a stale release that waits inside the tree for an idle lock whose last client has disconnected blocks the key for ever. Proved: an idle lock can be claimed by every client still waiting."},
 {"property": "C47", "status": "partial", "theorems": ["C47_blocks_partial", "C47_ack_refuted", "C47_item_refuted", "C47_channel_refuted", "C47_forwarder_refuted"], "note": "Refuted: which requests block, and that they stay blocked in every continuation."},
 {"property": "C48", "status": "partial", "theorems": ["C48_lookups_partial", "C48_no_deadlock_partial", "C48_blocked_refuted", "C48_all_refuted"], "note": "Holds while no queue is being created or deleted, and there is no deadlock as long as every wait ends; refuted otherwise: a creation or deletion of any queue that meets a waiting dequeue blocks every later request that passes the same node, at the root all of them, until the dequeue ends."},
 {"property": "C49", "status": "partial", "theorems": ["C49_counted_partial", "C49_counted_refuted"], "note": "Proved for channel keys that do not clash with willow's own (queue_name, enqueued, _willow_enqueued); refuted for those."},
 {"property": "C50", "status": "partial", "theorems": ["C50_crash_partial", "C50_timeout_refuted", "C50_delete_refuted", "C50_channel_refuted"], "note": "The only crashes of the channel model are the two refuted cases; of the service, also the deletion of a channel with invalid key-values."},
 {"property": "C51", "status": "partial", "theorems": ["C51_step_partial", "C51_history_partial", "C51_refuted"], "note": "Proved for histories in which no limit is lowered, channel keys are plain and others leave willow's rule and counters alone; an item is only ever stored where there is room. Refuted for unusual channel keys."},
 {"property": "C52", "status": "partial", "theorems": ["C52_restart_refuted", "C52_start"], "note": "Refuted for every state of every history; the first start is proved to work."},
 {"property": "C53", "status": "partial", "theorems": ["C53_refused_partial", "C53_limit_partial", "C53_refuted"], "note": "A refusal is due to a governing limit that the counters have reached; the counters can be higher than the number of stored items."},
 {"property": "C54", "status": "proved", "theorems": ["C54_one_item", "C54_created_once", "C54_deleted_once", "C54_nonvacuous"], "note": "All schedules of the modelled calls, destructions and nil callbacks included."},
 {"property": "C55", "status": "proved", "theorems": ["C55_answers", "C55_nonvacuous", "C55_not_destroyed"], "note": "The table SpecAssocSync.right has the meaning of each answer; destructions may run at the same time."},
 {"property": "C56", "status": "proved", "theorems": ["C56_appears", "C56_leaves", "C56_keeps", "C56_never_back", "C56_nonvacuous"], "note": ""},
 {"property": "C57", "status": "partial", "theorems": ["C57_nil_partial", "C57_leaves_partial", "C57_exists_refuted", "C57_neither_refuted", "C57_deletes_refuted"], "note": "Refuted: until the failed creation has cleaned up, Create reports that the key-values exist and CreateOrFind calls neither callback (and reports success); its cleanup can delete an item created meanwhile. Proved: all other answers stay right, and an item is only removed by a call with its key-values or a destruction of it."},
 {"property": "C58", "status": "partial", "theorems": ["C58_same_partial", "C58_own_partial", "C58_other_refuted"], "note": "Refuted: between the lookup of the id and the deletion of its key-values the item may be replaced, and the new one is deleted. Proved: what is deleted has the key-values of the id, and it is the item itself if that stays stored during the call."},
 {"property": "C59", "status": "partial", "theorems": ["C59_end_partial", "C59_no_endless", "C59_busy_refuted", "C59_destroy_refuted"], "note": "Proved without destructions. Refuted with them: a Delete that meets a Destroy of its item returns with the locks taken, and a Destroy and a Create that share a key-value pair wait for each other; both freeze the tree for good."},
 {"property": "C60", "status": "proved", "theorems": ["C60_obtained", "C60_not_done", "C60_done_once", "C60_delete_once", "C60_delete_last", "C60_one_nil", "C60_released", "C60_late_release", "C60_late_no_delete"], "note": "All histories of lock clients, service and network; a complete life of a lock is LockClientExamples.plain_life, a late Release LockClientExamples.late_case."},
 {"property": "C61", "status": "partial", "theorems": ["C61_valid_holds", "C61_exclusive_partial", "C61_done_open_refuted", "C61_same_client_refuted"], "note": "Refuted as stated: the lock can expire at the service while Done() is still open, and two calls of one client for the same key-values are given the same lock. Proved: exclusion for as long as the timeout counted from the sending of the last heartbeat confirmed in time."},
 {"property": "C62", "status": "partial", "theorems": ["C62_done_reason", "C62_noticed_partial", "C62_hung_heartbeat_refuted", "C62_blocked_refuted", "C62_false_alarm_refuted"], "note": "Refuted as stated: an unanswered heartbeat (no request timeout) or another ObtainLock of the same client with a common pair keeps Done() open for any time after the expiry, and Done() may be closed although the service holds the lock. Proved: the only reasons for which Done() is closed, and that it can be closed at once when nothing of this kind is under way."},
 {"property": "C63", "status": "partial", "theorems": ["C63_release_partial", "C63_waits_for_obtain", "C63_deadlock_refuted"], "note": "Refuted: Release waits for any ObtainLock of the same client with a common pair; two clients that each hold what the other waits for never return from Release while they heartbeat. Proved without such calls: Release can return at once."},
 {"property": "C64", "status": "partial", "theorems": ["C64_locker_partial", "C64_lock_client_partial", "C64_willow_partial", "C64_no_overflow", "C64_three_beats", "C64_locker_refuted", "C64_willow_refuted", "C64_client_refuted"], "note": "Refuted as stated: a negative lock timeout ends the locker service, a zero or negative item timeout the willow service once the item is dequeued, a timeout of 1 or 2 ns the client. Proved: exactly these are harmful. That nothing recovers the panic relies on goasync, which is not part of the repository."},
 {"property": "C65", "status": "proved", "theorems": ["C65_linearizable", "C65_nonvacuous"], "note": "Model BTreeSync.v: one step per stretch between lock operations; three groups of lock operations on nodes below a write-locked parent are merged (argument at the head of the file). Calls: Create, CreateOrFind, Delete, Find of one concrete key; constructors yield a value."},
 {"property": "C66", "status": "proved", "theorems": ["C66_calls_end", "C66_nonvacuous"], "note": "Same model. Says nothing about fairness when new calls keep coming."},
 {"property": "C67", "status": "partial", "theorems": ["C67_stored_partial", "C67_once", "C67_found_partial", "C67_old_partial", "C67_at_rest", "C67_not_equals_refuted"], "note": "Items stored during the whole call are visited iff they satisfy the query; no duplicates; visited items satisfy the query if it has no != or if they were stored when the call began. Refuted: with !=, an item created during the call that never satisfied the query is visited. Restricted to the queries C22 covers."},
 {"property": "C68", "status": "partial", "theorems": ["C68_offered_partial", "C68_waiting_partial", "C68_select_all_refuted"], "note": "Proved for plain queries (at every node a selection without ids or an And part; at most one != per selection); for the literal select-all query refuted: a channel announced before the dequeue waits and stored after its search is never offered."},
 {"property": "C69", "status": "partial", "theorems": ["C69_only_matching_partial", "C69_not_equals_refuted", "C69_or_only_refuted", "C69_ids_refuted"], "note": "Proved for plain queries without !=; refuted for != (creation during the search), for queries that consist of an Or part, and for queries that give ids."},
 {"property": "C70", "status": "partial", "theorems": ["C70_crash_partial", "C70_query_partial", "C70_query_refuted", "C70_delete_refuted"], "note": "The only two ways to crash are characterised, and both happen: an accepted query with an empty part, and a search that meets the deletion of its queue after the dequeue was cancelled or served."},
 {"property": "C71", "status": "partial", "theorems": ["C71_waits_partial", "C71_total_partial", "C71_let_go_partial", "C71_let_go_refuted", "C71_total_refuted", "C71_waits_refuted"], "note": "Each part holds while rules and overrides do not change during the check and, for being let go, if no governing group has an Any value; each is refuted without that."},
 {"property": "C72", "status": "partial", "theorems": ["C72_replies", "C72_stored_partial", "C72_unrefused_partial", "C72_kept_partial", "C72_stored_refuted", "C72_kept_refuted"], "note": "Holds except when another enqueue for the same channel, which would have to create it, is refused; then an accepted item may be stored nowhere, or its channel removed."},
 {"property": "C73", "status": "partial", "theorems": ["C73_rejected", "C73_lost", "C73_given_up", "C73_kept_refuted"], "note": "False as stated, and exactly characterised: the heartbeats of items carry no Content-Type, every one is answered 400, so every delivery that is not acked within its timeout is lost."},
 {"property": "C74", "status": "partial", "theorems": ["C74_reason", "C74_bounded_partial", "C74_quiet_partial", "C74_hung_refuted", "C74_callback_refuted", "C74_quiet_refuted"], "note": "Reasons proved for all executions; the bound for prompt clients with bounded requests, refuted otherwise (a request without answer, a callback that sets the callback); a heartbeat may be sent after an ACK."},
 {"property": "C75", "status": "partial", "theorems": ["C75_ack_partial", "C75_crash_partial", "C75_nil_refuted", "C75_crash_refuted"], "note": "Exact up to answers that the client does not know, for which ACK returns nil (refuted); an ACK while a heartbeat is under way whose request fails ends the process (refuted), and nothing else does."},
 {"property": "C76", "status": "proved", "theorems": ["C76_lookups_linearizable"], "note": "For lookups whose callback never stops them (stopping: C11, C13) and does not panic; lock operations of one node's visit are merged into one step."},
 {"property": "C77", "status": "partial", "theorems": ["C77_lookups_end_partial", "C77_leak_blocks", "C77_lookups_end_refuted"], "note": "Proved while every lookup made has something to look at (has_way); refuted otherwise: such a lookup leaves the tree read-locked and later Creates and Deletes never return. Callbacks neither stop the lookup nor panic; a visit of one node is one step."},
 {"property": "C78", "status": "partial", "theorems": ["C78_willow_partial", "C78_limiter_partial", "C78_locker_partial", "C78_query_partial", "C78_query_same_partial", "C78_answers_partial", "C78_refuted"], "note": "Proved for every model of every request and answer whose strings are UTF-8 and whose floats strconv reads back as it prints them (arguments of the theorems, not axioms). Missing: strings that are no UTF-8, for which it is false (C78_refuted), and the parsing of JSON text (a body is a tree). Models with all parts are in ModelsExamples.v."},
 {"property": "C79", "status": "partial", "theorems": ["C79_limiter_partial", "C79_create_rule_partial", "C79_get_rule_partial", "C79_update_rule_partial", "C79_delete_rule_partial", "C79_set_counters_partial", "C79_willow_partial", "C79_create_queue_partial", "C79_get_queue_partial", "C79_list_queues_partial", "C79_update_queue_partial", "C79_deleted_partial", "C79_dequeue_partial", "C79_name_refuted", "C79_sent", "C79_willow_sent", "C79_locker_partial", "C79_locker_sent"], "note": "The 15 functions of the limiter's client and the 9 of willow's; requests one at a time, ids and names without reserved characters, floats as printed by strconv. Refuted for queue names with reserved characters. Locker: ObtainLock, heartbeat, Release against any manager that answers as it may."},
 {"property": "C80", "status": "partial", "theorems": ["C80_limiter_partial", "C80_willow_partial", "C80_properties_refuted", "C80_crash_refuted", "C80_changed_refuted", "C80_locker", "C80_limit_type", "C80_last_member", "C80_field"], "note": "The handlers of the limiter and of willow, any request in any state. Refuted for willow's CreateQueue without Properties and for DeleteChannel with a bad body. Locker: holds for every request."},
 {"property": "C81", "status": "partial", "theorems": ["C81_returned_partial", "C81_effect_partial", "C81_willow_returned_partial", "C81_willow_effect_partial", "C81_locker_effect_partial", "C81_locker_returned_partial", "C81_release_refuted"], "note": "The functions of both clients; the transport's own retries are not modelled. Locker: refuted for Release, which never reports that nothing was released."},
 {"property": "C82", "status": "partial", "theorems": ["C82_limiter_partial", "C82_willow_partial", "C82_message", "C82_refuted", "C82_nothing_refuted", "C82_panic_refuted", "C82_heartbeat_refuted"], "note": "Limiter: holds except for the calls in `unheard`; refuted for DeleteRule of a rule that is not there. Willow: holds for every refusal (a panic or the end of the process gives another error). Locker: refuted for ObtainLock with invalid arguments and for heartbeats of missing locks."},
 {"property": "C83", "status": "partial", "theorems": ["C83_listed_partial", "C83_tree", "C83_joined", "C83_has_tree", "C83_refused", "C83_refuted"], "note": "Holds if every selected lock is held; else the answer is 500 (C83_refused), and such states are reachable (C83_refuted). Queries as in C22. The tie between the tree and the manager is C83_tree/C83_has_tree, for key-values that equal ones spell alike."},
 {"property": "C84", "status": "partial", "theorems": ["C84_willow_partial", "C84_limiter_partial", "C84_locker_partial", "C84_insecure_partial", "C84_refuted", "C84_other_partial"], "note": "Holds for all flags but the refuted ones, for which it is said what is read."},
 {"property": "C85", "status": "partial", "theorems": ["C85_willow_partial", "C85_limiter_partial", "C85_locker_partial", "C85_client_partial", "C85_start", "C85_port_refuted", "C85_certificate_refuted"], "note": "Exact characterisations; refuted for ports and for certificates without a CA file."},
 {"property": "C86", "status": "partial", "theorems": ["C86_mutual_exclusion", "C86_session_fresh", "C86_heartbeat", "C86_release", "C86_expiry", "C86_count", "C86_ended_for_good", "C86_answered", "C86_can_end_partial", "C86_refused_refuted", "C86_drain_refuted"], "note": "Safety in full; that every lock ends and everybody is answered is refuted in two ways, and proved to be possible outside of them."},
 {"property": "C87", "status": "partial", "theorems": ["C87_listed_partial", "C87_busy", "C87_missing_refuted", "C87_counts_refuted", "C87_panic_refuted"], "note": "The list is exact and complete for every query that C22 covers, and nothing changes; 409 while the queue is being deleted. Fails: the numbers are always -1, an unknown queue gives 200 with an empty list, a query with an empty And panics. Missing: queries that C22 leaves out."},
 {"property": "C88", "status": "proved", "theorems": ["C88_linear", "C88_sum", "C88_one", "C88_end"], "note": "C88_linear: the order exists for every concurrent execution (records when a call is made, has returned, and what queries read). The rules, limits and locks that come before the last step of an increment are C32-C35; exact queries are those of all the key-values of a counter."},
 {"property": "C89", "status": "partial", "theorems": ["C89_no_orphans", "C89_one", "C89_rule_stays", "C89_override_stays", "C89_governs_partial", "C89_governs_refuted", "C89_checked_partial", "C89_checked_refuted", "C89_seen", "C89_gone_from_checks", "C89_gone", "C89_told_gone", "C89_tree"], "note": "Any number of overlapping requests; the overrides of a rule are an execution of AssocSync.v. The code fails one part (two refutations): a check stops at an id that is being destroyed, so rules and overrides nobody touches are missed meanwhile. Creating a rule is one step; visits of a check do not stop at a limit of 0."},
 {"property": "C90", "status": "partial", "theorems": ["C90_found", "C90_stored_partial", "C90_stored_refuted", "C90_at_rest"], "note": "No duplicates, every visited item matches and was stored at some moment of the call: proved. An item stored during the whole call that matches is visited, provided no matching item is deleted meanwhile; without that it is refuted: a match ends at the first id that has gone since the index was read."},
 {"property": "C91", "status": "partial", "theorems": ["C91_right", "C91_returned", "C91_quiet_partial", "C91_shown_refuted"], "note": "Key-values are always right, the id is never that of another item, and it is right once the creation has returned. Refuted before that: an override that is listed while its creation runs has an empty id (if its rule has had an override before)."},
 {"property": "C92", "status": "partial", "theorems": ["C92_no_deadlock_partial", "C92_all_answered_partial", "C92_refuted"], "note": "Proved for all executions in which no single override is deleted. Refuted otherwise: the deletion of an override and the creation of another of the same rule can wait for each other for ever, and the deletion of the rule for both."},
 {"property": "C93", "status": "partial", "theorems": ["C93_in_order", "C93_not_in_order", "C93_tasks", "C93_last", "C93_goes_on_partial", "C93_ends_partial", "C93_hangs", "C93_jammed", "C93_answered_refuted", "C93_ends_refuted"], "note": "Proved: an orderly end means asked, nothing broken, every begun request over; it ends only after its component and tasks; any other end means the listener broke; once the listener is closed a bounded number of steps is left, and only a handler or a task of the component that never ends keeps the process; such a handler or task keeps it for ever. Refuted: a broken listener ends the process around its requests; a handler that never ends (C47, C48, C92) keeps it for ever, further signals do nothing. Missing: which handlers and tasks never end is left to C47, C48, C86, C92; before Shutdown is called new requests may come for ever; net/http, goasync and os/signal are assumed."}
]}
