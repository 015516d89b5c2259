# Formal model of DanLavine/willow in Coq 8.16.1

## Layout

* `rocq/theories/*Model*.v` / `Datatypes.v` ... : executable Gallina transcription of the Go code; each
  definition cites the Go file and lines.
* `rocq/theories/*Proofs.v` : lemmas.
* `rocq/theories/Spec*.v` : small specifications that do not mention model helpers.
* `rocq/theories/Properties*.v` : only the property theorems (`exact lemma`), each with `Print Assumptions`
  and a non-vacuity `Example`.

## Method per property

| id | modelled | how proved |
|----|----------|------------|
| C01, C02 | `EncapsulatedValue`, `Less`, `LessMatchType`, `lessValue` (integers as Z, floats as `SpecFloat.spec_float`, strings as byte strings) | order laws by case analysis; NaN counterexample `_refuted` |
| C03, C05 | `Validate`, `ValidateTypeAndData`, `DataType.Validate`, `TypeRestrictions` over arbitrary Z tags | decision-procedure equivalence |
| C04 | `StringEncoding`/`StringDecoding` for all integer types, strings, Any; float text conversion not modelled (partial) | round trip by induction on digits |
| C06-C08, C12 | the B-tree node operations (create, createOrFind, split, insertNode, remove, swap, rebalance, rotate, merge), arrays as lists | invariant (ordered, balanced, occupancy) + refinement to a sorted association list; C12 refuted by witness |
| C09-C11 | Find, iterate, range finds, with arbitrary stateful callbacks | generic theorem on scan/recursion, instantiated |
| C13 | lock acquire/release trace of the finds | trace balance theorem; refuted for out-of-range restrictions and early stop of iterate |
| C14, C15 | Destroy/DestroyAll as two-phase operations on top of the B-tree model | invariants over histories |
| C16, C17 | GenerateStringPermutations, Set | induction; equivalence with subsequence spec |
| C18, C19 | query model Validate / MatchKeyValues / MatchTags | equivalence with a declarative satisfaction relation; refutations |
| C20-C24 | associated tree: index (key, value, level) -> ids, id -> item | index invariant, refinement to a map from key-value sets to items; query evaluation against satisfaction |
| C25 | one-to-many tree (map from owners to associated trees), one call at a time | non-interference (erase all calls of other owners), labels invariant, lifting of C20-C24 |
| C26 | DestroySync as labelled transition system over n goroutines | invariant over all traces |
| C27-C30 | exclusive lock manager as transition system | invariant over all traces |
| C31 | heartbeater transition system | invariant |
| C32 | Limiter.v (sequential), LimiterLocks.v (concurrent increments with their locks) | invariants over histories/executions (PropLemmasLimiter, PropLemmasUnit, LocksLimit); refuted when a lock is lost |
| C33 | Limiter.v | which limits are found (LimiterLimits), the sums they are compared with (LimiterSums); refuted when a sum overflows |
| C34 | Limiter.v | exact change of the set of counters (LimiterCounts) |
| C35 | LimiterLocks.v | invariant: locks are held in key order; termination measure (LocksProofs) |
| C36 | Limiter.v | invariant over histories (LimiterCounts, PropLemmasRules) |
| C37-C44 | Channel.v: one in-memory queue channel with its forwarder, clients, timers and heartbeats as a labelled transition system | invariant `qinv`, effect relation (ChannelContents), order and counter ghost-free trace functions (ChannelOrder, ChannelCounts); refutations by executions (ChannelCases) |
| C45 | Willow.v: the queues client on its B-tree, with the limiter's overrides | `winv` (WillowInv) is an invariant of all histories (WillowSteps, WillowDir); frame lemma `step_apart` (WillowApart); refutations by executions (WillowCases) |
| C47, C50 | Channel.v with blocked requests (`AWait`) and crashes (`ACrash`) as outcomes | stability of the blocked state in all continuations (ChannelBlock); classification of the crashes |
| C48 | QueueLocks.v: read/write locks of the index of queues with Go's writer preference, any number of requests, as a transition system | lookups alone never wait; no deadlock when waits end (order of the locks, termination measure); refuted in general: once a creation is announced above a waiting dequeue, the blocked state is stable under every continuation |
| C49, C51, C53 | Willow.v: queues client, channels client and limiter composed, one request at a time | invariant relating stored items and limiter counters (WillowCounts, WillowPerform, WillowTotals, WillowRoom); C49 and C51 refuted by a channel key that renames the counter, C53 by the leak of C42 |
| C54-C58 | AssocSync.v: concurrent calls of one associated tree (locks of id nodes, creating counts, cleanup, destruction), any number of goroutines, as a transition system | invariant of the tree and of every call (AssocSyncInv, Frame, Step, Global: rely/guarantee over the ids a call owns); each answer by a trace invariant (AssocSyncAnswers, AssocSyncChanges); counterexamples as executions |
| C59 | AssocSync.v | locks are taken in the order of the keys and a well-founded measure (AssocSyncLive); with destructions refuted: blocked states stable under every continuation |
| C60 | LockClient.v: lock clients (ObtainLock, Release, heartbeat goroutine, tickers), the network and the service of Locker.v, as one transition system | invariant of every lock and call (LockClientInv), trace invariants (LockClientHist) |
| C61 | LockClient.v | refuted as stated by executions (LockClientWitness); exclusion of "valid" locks by an invariant that relates the client's last confirmed heartbeat to the timer of the service (LockClientValid) |
| C62, C63 | LockClient.v | reasons of Done() by invariant, "can end at once" by constructing the steps (LockClientDone); refuted by states blocked in every continuation (LockClientJam) |
| C64 | Timeouts.v: validation of timeouts and the tickers made with them, int64 arithmetic | exact characterisation of the harmful timeouts by arithmetic; refuted as stated |
| C65 | BTreeSync.v: the tree with the write mark and the readers of every node; every step of Create, CreateOrFind, Delete, Find between lock operations; calls and returns as events | linearizability: a call takes effect when it locks the root; the invariant says what the tree becomes when the calls inside finish (`fl`), and every step keeps that; refinement to the sequential tree of C06-C08 |
| C66 | the same | a quiet subtree, a step, or a split/rebalance that waits for the parent, by induction on the height; lexicographic measure (phases, then marks weighted by height) |
| C76 | BTreeIter.v: lookups as holders of named read locks on nodes of the tree of BTreeSync.v, several ways down, the children locked before the parent is released | the tree without the lookups' locks makes the same steps (`er_step`), so C65's invariant holds of it; every lock stands on a node whose final contents are those of the moment at which it was taken (`tk`, `lstep_tk`); what a lookup has reported and what stands below its locks is what it wants of the map when it locked btree.lock (`look_ok`) |
| C77 | BTreeIter.v with `xinevitably` (SpecBTreeIter.v) | every lock of a lookup stands on one node, the lowest first (`yinv`); the lowest locked node can always be visited or a call below it can go on (`tok_go`, `x_go`); ranks of the calls, weight of the tree without the lookups' locks, and a measure of what the lookups still have to visit go down lexicographically (`xy_step`); a lookup without a way down keeps btree.lock (`leak_blocks`), so the full claim is refuted |
| C78 | Json.v: Go's encoding/json as functions between models and trees (strings repaired to UTF-8, base64 of byte slices, fields matched by name, omitempty, null); Models.v: every request and answer model, its tags, its Validate functions, `send` and `receive` | decode after encode is the identity, field by field, on models whose strings are text (`text_fix`: the repair leaves every UTF-8 encoding alone, by cases on the length of a character); base64 by the 24 bits of a group; queries by nested induction, up to empty parts (`told`), which select the same. Refuted for two strings that are no text. Partial: floats are those that strconv reads back as printed (parameters `fmt_float`, `parse_float`), and a body is a tree, not a text |
| C79 | Http.v: addresses (net/url's Parse and unescape), requests, answers, the clients' reading of a status, lost requests and answers; ApiLimiter.v: all 15 functions of the limiter's client (validation, body, address, known statuses), the 15 routes and handlers, on top of Models.v and Limiter.v. The router library is a parameter with the routes of url_router.go as its contract (`limiter_router`) | per call: the address of an addressable id is read back as that id, the body arrives (C78), the handler runs the function (`direct` in SpecApiLimiter.v), its answer arrives; by induction over `client_history` stored key-values and ids are text and the service's invariants hold. Corollaries say it in terms of the rules, overrides and counters stored. Partial: one request at a time, names without reserved characters, floats and texts as in C78 |
| C79 (willow) | ApiWillow.v: the 9 functions of willow's client for queues, channels and items (ack included), their routes and handlers, on top of Models.v and Willow.v; answers that have to wait (DeleteQueue, DeleteChannel, Dequeue) are `late_*`. Contract of the router: `willow_router` | as for the limiter, over `wreach_text` (histories of any good steps of the service, of which client calls are some: C81_willow_effect_partial); that sound calls are sent at all is SpecApiSent.v; refuted by DeleteQueue("a?b"), which deletes the queue "a" |
| C79 (locker) | ApiLocker.v: ObtainLock, heartbeat and Release of the locker's client, the 4 routes and handlers; the manager is any function that answers as `answers` says (what Locker.v and exclusive_locker.go can answer), since its answers come when they can. `ends` in SpecApiLocker.v says how a call ends; C80 is proved in full for this service | as for the other services, per call |
| C83 | ApiLocker.v: LocksQuery on the tree of Assoc.v with the locks of Locker.v, the handler of GET /v1/locks | the query selects the stored locks (C22), the invariants of LockerProofs.v/LockerTrace.v tie session, timeout and count of a stored lock to the history; C83_refused: any selected lock that is not held makes the whole answer a 500. Partial: queries as in C22, and equal key-values are taken to be spelled alike; C83_tree proves the tie between tree and manager (`lock_tree`) for every history of the two together (LockerTree.v), and C83_has_tree that every history of the manager is one |
| C80 | the same handlers on arbitrary requests (both services) | by cases on the route and on what decoding and validation can give (`handled`); for willow the two exceptions are in the theorem, and each is shown to do damage; of members with the same name the last counts (MapsProofs.v) |
| C81 | the same exchanges with all three fates of a request | from C79, by cases on the fate; for willow a call is one step of Willow.v or none |
| C82 | the same exchange; all messages of the service are one here, C82_message covers any text | by cases on the answers of each service function against the table of known statuses; `unheard` lists where the reason is lost, refuted by DeleteRule of a missing rule |
| C84 | Config.v: the three configurations, parseEnv, validate (flags as parsed by the flag library, the environment a function); SpecConfig.v: the flags and variables of the usage texts | by cases on the documented variables; the excluded ones are refuted |
| C85 | the same, strconv.Atoi, clients.Config.Validate and NewHTTPClient (reading files is a parameter), the wait for a healthy service | exact characterisations (iff) of what is accepted; induction on the number of health checks |
| C86 | LockerStop.v: the steps of Locker.v plus those of the cancelled context, of refused tasks and of the 503 answers | simulation: every history agrees, on the keys whose lock has not ended, with a history of Locker.v (LockerStopProofs.v), so C27-C30 carry over; an invariant of its own for what follows an end; refutations by invariants of the stuck states. Partial: that a lock can end, not that it does |
| C87 | ApiWillow.v QueryChannels, Channels and the route of the handler, on Willow.v, OneToMany.v and Models.v | C22's theorem on queries and C78's on bodies, with the invariant of Willow (WillowInv.v); the numbers, the unknown queue and the empty And are refuted. Partial: the queries that C22 leaves out |
| C88 | CounterSync.v: the callbacks of the counter client on AssocSync.v's tree, with the values of the items | a ledger of the calls is kept along the execution: a call is written down when its callback runs, one that finds nothing at the moment (AssocSyncAnswers.v) when nothing was there; inserting it there changes no total. Ends: C59. Not modelled: rules, limits and locks before the last step of an increment (C32-C35), queries other than of all the key-values |
| C89 | RuleSync.v: the steps of the requests about rules and overrides; the overrides of each rule are a state of AssocSync.v, moved by the calls of the requests that have the rule read-locked | invariants over executions: who has a rule locked; the overrides of a rule are those of an execution of AssocSync.v (less some, while its deletion runs its callback), so what is proved there of one tree is used here; a created override stays unless its destruction was asked for (C56). That a check has every accepted rule and override is proved while no rule (no override of the rule) is asked to be deleted (C89_checked_partial, C89_governs_partial) and refuted otherwise (C89_checked_refuted, C89_governs_refuted): MatchAction ends at an id that is being destroyed, whatever its comment says (threadsafe_match.go:138-148). Not claimed: that all requests end (a destruction and a creation of overrides of one rule may wait for each other, C59_destroy_refuted): C92 |
| C90 | MatchSync.v: MatchAction as a relation over the tree as a function of time (QuerySync.v): every id node is read, and every id looked up, at a moment of its own inside the call, map iterations in any order; an id that is gone ends the match (its error is dropped, :138-148) | the id groups are followed through key reads, merges and permutations for one id (soundness) and for an id stored throughout (completeness); the match at rest (Assoc.v, C23) is one of the runs; without the premise that no matching item is deleted meanwhile: refuted by a two-moment history |
| C91 | LabelSync.v: the calls of one relation on AssocSync.v, with the id label that is set after the creation has returned from the owner's tree | invariants: every stored item has the creation that answers its id; the label is there iff that has returned. Refuted while the creation runs: the comment at threadsafe_create.go:93 relies on an exclusive lock, but CreateOrFind of an owner that is there runs its callback under a shared one (btree/threadsafe_create.go:189-203) |
| C92 | RuleSync.v (as C89), with SpecRuleSyncLive.v: a request goes on, waits, will never have an answer; whatever the order, all have answers in the end | progress: a call in the tree of the overrides can go on by C59's result for that tree, otherwise the deletion in its callback can, otherwise a reader, otherwise anybody; termination: a lexicographic rank of the requests, of the calls of the trees, and the number of overrides left. Both for executions in which no single override is deleted (C92_no_deadlock_partial, C92_all_answered_partial). Refuted with such a deletion (C92_refuted): it holds the tree of the overrides while it waits for the ids of a key-value, the creation of another override holds these and waits for the tree; the deletion of the rule then waits for the two, with the rule marked |
| C93 | ServerStop.v: connections, listener, the goroutine that calls Shutdown, Execute, the other task and the task manager of one process; what is seen of it; handlers are of three sorts (end, wait, never end) | invariants tie the phases to what has been seen; progress by cases of the phase; a measure of what is left to do; a stuck handler keeps the phase of draining, a stuck task the phase of the component. Partial: that a handler or task never ends is an event of the world here (C47, C48, C86 and C92 say which do), and before Shutdown begins new requests may come for ever |
| C67 | QuerySync.v: the tree as a function of time; QueryAction as a relation in which every id node is read at a moment of its own inside the call | the id sets are followed for one id at a time (exactly, or upper bound only) through keys, And, Or; the tree at rest (Assoc.v) is shown to be one of the runs; `!=` and an item created meanwhile: refuted by a two-moment history. Assumed: a creation or deletion becomes visible to readers of unlocked id nodes at one moment (the id nodes are locked until the item is stored, C54-C56) |
| C68, C69 | Dequeue.v: channels announced to waiting clients inside the creation, stored later; the search of a client is any run of QuerySync | invariant over executions: a matching channel is offered, or there since the client began to wait (then the search finds it, by C67); plain queries only, select all, `!=`, Or-only and id queries refuted |
| C70 | DequeueCrash.v: one queue, its dequeues, their searches, its deletion | every crash step is one of two kinds; both are reached (refuted); a validated query whose every node has a part never panics |
| C71 | Recheck.v: the check of memory_queue_channel.go over Limiter.v, every request of it at a moment of its own | the query of a group-by finds nothing if it has an Any, the group of the channel otherwise, so that a reached limit governs the increment; loops by induction. Refuted: rules grouped by Any (let go too early, without waiting), a rule deleted during the check (the process ends), a limit changed during the check |
| C72 | EnqueueSync.v: what EnqueueQueueItem answers, over the concurrent calls of AssocSync.v | C55, C56; an invariant about ids without item (their creation answers nil) gives the only exception; refuted as stated, by two executions |
| C73 | ItemClient.v: the goroutine, ACKs and callbacks of a dequeued item, the check of headers, Heartbeater.v at the service; time | invariant: no heartbeat call reaches the heartbeater, no answer is 200; with it the last renewal of a delivery is its start; refuted as stated by a history in which everybody is prompt |
| C74, C75 | the same | invariants over executions (reasons of Done(), of a crash, of ACK's answers; a bound in terms of ticks for prompt clients); refuted by histories and a state that is blocked in every continuation |
| C52 | Willow.v `start` (cmd/willow/main.go) | the rule created at the first start stays in every history, so that creating it again is refused |
| C46 | same model as C27-C30 | invariance of a wedged state (refutation), reachability proofs (partial) |

## Trusted base

* Coq 8.16.1's kernel (the development uses `vm_compute` in closed examples, and no `native_compute`).
* `Print Assumptions` prints "Closed under the global context" for every theorem of every `Properties*.v`: no axiom is used.
  (vcheck's list of library axioms names `Coq.ssr.ssrunder.Under_rel.*`, module parameters of the ssreflect plugin's library,
  which is loaded by the standard library files used; no theorem depends on them.)
* The correspondence between the model and the Go code, by reading: every definition of the model files cites the lines it models.
* The specifications (`Spec*.v`) and the statements in `Properties*.v`.

### Modelled

| model | code |
|-------|------|
| Datatypes.v | pkg/models/datatypes (values, order, validation, text encodings except floats) |
| Collections.v | pkg/datamanipulation, internal/datastructures/set |
| Query.v | pkg/models/api/common/v1 (queries, their validation and matching) |
| BTree.v, BTreeFind.v, BTreeCreateFind.v | internal/datastructures/btree, one call at a time (lookups with their lock operations) |
| BTreeDestroy.v | the destroy protocol of the B-tree, with concurrent callers |
| Assoc.v, OneToMany.v | internal/datastructures/btree_associated and btree_one_to_many, one call at a time, their inner trees as finite maps (justified by C06-C10) |
| DestroySync.v | pkg/async/destroy.go, any number of goroutines |
| Heartbeater.v | internal/heartbeater, with time |
| Locker.v | internal/locker/lock_manager, any number of clients and goroutines, with time |
| Limiter.v | internal/limiter (rules, overrides, counters), one request at a time |
| LimiterLocks.v | concurrent increments of counters and the locks they take |
| Channel.v | internal/willow/brokers/queue_channels/memory, all interleavings of one channel |
| Willow.v | internal/willow/brokers (queues and channels clients), cmd/willow/main.go's rule, with Limiter.v and Channel.v |
| QueueLocks.v | the locks that concurrent requests take in the B-tree of queues (fixed shape) |
| AssocSync.v | internal/datastructures/btree_associated: concurrent Create, CreateOrFind, exact queries, Delete, DeleteByAssociatedID, DestroyByAssociatedID; calls of the inner B-trees atomic, except that a Destroy holds its node of associatedIDs |
| LockClient.v | pkg/clients/locker_client (ObtainLock, Release, Done, heartbeats) and the handlers of the locker service; requests are slow, lost or handled too late |
| Timeouts.v | timeouts of locks and items: validation, defaults, tickers of services and clients |
| BTreeSync.v | concurrent Create, CreateOrFind, Delete, Find (one concrete key) of one tree: lock coupling, early release of ancestors, splits, rotations, merges, swaps; not range lookups, not DestroyAll, not nil constructors; the merged lock operations are listed at the head of the file |
| BTreeIter.v | the range lookups and iterations of threadsafe_find.go beside the calls of BTreeSync.v; not callbacks that stop or panic (BTreeFind.v has the former), not DestroyAll |
| CounterSync.v | internal/limiter/counters/counter_client_local.go: step 7 of IncrementCounters, DecrementCounters, SetCounter and the exact QueryCounters at the same time, with memory/counter.go; on AssocSync.v's tree, callbacks in one step with the call of the inner B-tree that makes them |
| QuerySync.v | btree_associated/threadsafe_query.go: queries that overlap other calls; every index node is read at a moment of its own |
| MatchSync.v | btree_associated/threadsafe_match.go: matches that overlap other calls |
| LabelSync.v | btree_one_to_many: what callbacks are shown of the items of one relation, under overlapping calls |
| Dequeue.v | queue_channels_client_local.go: waiting dequeues, their search and the announcement of new channels; the merging of channels (channelops, an external library) is assumed to keep what was merged |
| DequeueCrash.v | the search of a dequeue against the deletion of its queue; a search is one step |
| Recheck.v | memory_queue_channel.go:182-313, MatchRules and MatchOverrides of the limiter |
| EnqueueSync.v | queue_channels_client_local.go EnqueueQueueItem under concurrency: the answers only; the first channel of a queue (made under a lock of the outer tree) is not distinguished |
| ItemClient.v | pkg/clients/willow_client/item.go, internal/middleware/encoder.go ValidateReqHeaders; requests are slow, lost or answered by something in between; item tree and channel behind the handlers are left out |
| Json.v, Models.v | pkg/models/api (all models of the three services: encoding, decoding, validation), with the part of Go's encoding/json that they use; the parsing of JSON text, numbers with fractions and the text of floats are left out |
| Http.v, ApiLimiter.v | pkg/clients/limiter_client (rule.go, override.go, counter.go), internal/limiter/api/v1 (handlers and routes), QueryRules, MatchRules, QueryOverrides and MatchOverrides of internal/limiter; of net/url what Parse and unescaping do to a path; of net/http an exchange of one request and one answer, or a broken connection. Headers, TLS, redirects and the transport's retries are left out |
| ApiWillow.v | pkg/clients/willow_client (queue.go, channel.go, ACK of item.go), internal/willow/api/v1 (handlers and routes; the header of heartbeats is left out), QueryChannels and Channels behind the GET of channels (the read locks that a panic leaves behind are not modelled); one request at a time, the rest as in Http.v |
| ApiLocker.v | pkg/clients/locker_client (one request of each function), internal/locker/api/v1 (handlers and routes), LocksQuery of exclusive_locker.go |
| Config.v | internal/config, pkg/clients/client_config.go, http_client.go; the health checks of cmd/willow/main.go and cmd/limiter/main.go |
| LockerTree.v | the lock manager together with its tree of locks: exclusive_locker.go:93, :103, :211, :229 as the calls of Assoc.v |
| LockerStop.v | the stop of the lock manager: exclusive_locker.go:60-134, exclusive_lock.go:99-157. Assumed of goasync, which is not in the repository: it cancels the context of every Execute, and may refuse tasks from some moment after that on |
| ServerStop.v | from the start of the tasks to the end of a process: cmd/{willow,limiter,locker}/main.go from the task manager on, Execute of the three *_tcp.go, queue_channels_client_local.go:65-83, exclusive_locker.go:53-59. os/signal, net/http and goasync, not in the repository, are assumed to behave as the comment at the top says; requests are of three sorts and tasks are a number |

### Not modelled

TLS, the routing library, headers (except in ItemClient.v), the flag library and time.ParseDuration, logging,
float text conversion, memory exhaustion, fairness of the Go scheduler
(progress claims say "a step is possible", except where a measure is given).  Lock coupling inside the B-trees is modelled in BTreeSync.v and BTreeIter.v
only (C65, C66, C76, C77); the other models take the calls of one B-tree as atomic on the strength of C65.  Simplifications of single definitions are in their comments.
