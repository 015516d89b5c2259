{"id": "C01", "title": "Typed values are totally ordered", "statement": "The order used to store and look up typed values (type number first, then payload) is a strict total order on all valid values that are not NaN: irreflexive, asymmetric, transitive, and two values that are not ordered either way have the same type and the same payload (up to -0.0 = +0.0 for floats). Values of different types never compare equal. With a NaN payload the order breaks: NaN is 'equal' to every float of its type.", "quantifier": "all pairs and triples of values of the 13 concrete types and Any", "why_tests_cant": "transitivity and trichotomy range over every triple of typed values; tests compare a handful of literals per type", "anchors": ["pkg/models/datatypes/encapsulated_value.go:Less", "pkg/models/datatypes/encapsulated_value.go:LessMatchType", "pkg/models/datatypes/encapsulated_value.go:lessValue", "pkg/models/datatypes/datatypes.go"]}
{"id": "C02", "title": "Any-typed values never order against anything, and sort last", "statement": "In query comparisons a value of type Any is neither less than nor greater than any value (so it matches every value on equality), while in storage order Any is greater than every concrete value and not less than itself. On concrete values both comparisons coincide.", "quantifier": "all pairs of values with at least one Any, and all pairs of concrete values", "why_tests_cant": "a statement about all types and payloads on both sides", "anchors": ["pkg/models/datatypes/encapsulated_value.go:Less", "pkg/models/datatypes/encapsulated_value.go:LessMatchType"]}
{"id": "C03", "title": "Value validation accepts exactly the well typed values in range", "statement": "Validating a value against a [min,max] type range succeeds iff its type tag is one of the 14 known tags, the payload is present with exactly the Go kind the tag names (absent for Any), and the tag lies within [min,max].", "quantifier": "all type tags (any integer), all payload kinds, all ranges", "why_tests_cant": "the tag is an arbitrary integer and the payload an arbitrary interface value", "anchors": ["pkg/models/datatypes/encapsulated_value.go:Validate", "pkg/models/datatypes/encapsulated_value.go:ValidateTypeAndData", "pkg/models/datatypes/datatypes.go"]}
{"id": "C04", "title": "Typed values survive the wire encoding", "statement": "Encoding a valid integer, string or Any value to its wire text and decoding it under the same tag yields the same value; two different valid values of one type never share an encoding; decoding text outside a type's numeric range, with junk, or under an unknown tag is an error and never a silently truncated value.", "quantifier": "all valid values; all texts and tags for the rejection part", "why_tests_cant": "every 64-bit integer and every string; boundary and overflow behaviour of each width", "anchors": ["pkg/models/datatypes/encapsulated_value.go:MarshalJSON", "pkg/models/datatypes/encapsulated_value.go:UnmarshalJSON", "pkg/models/datatypes/encapsulated_value.go:StringEncoding", "pkg/models/datatypes/encapsulated_value.go:StringDecoding"]}
{"id": "C05", "title": "Type restrictions admit exactly the closed type range", "statement": "A type restriction is valid iff both ends are known types and Min <= Max; a value's type is within it iff Min <= type <= Max; the restriction [uint8, Any] admits every valid value.", "quantifier": "all restrictions and types", "why_tests_cant": "all integers as tags", "anchors": ["pkg/models/api/common/v1/type_restrictions.go"]}
{"id": "C06", "title": "Tree creation behaves like inserting into a map", "statement": "Creating a key in the ordered tree with a constructor that yields a value fails with 'already exists' and changes nothing when the key is present, and otherwise adds exactly that key with that value, leaving every other key and value as it was. CreateOrFind instead hands the existing value to the find callback.", "quantifier": "all trees reachable by any sequence of operations, any node size >= 2, all keys and values", "why_tests_cant": "splits cascade differently for every insertion order and node size; only an inductive argument covers all shapes", "anchors": ["internal/datastructures/btree/threadsafe_create.go:Create", "internal/datastructures/btree/threadsafe_create.go:CreateOrFind", "internal/datastructures/btree/threadsafe_b_tree.go"]}
{"id": "C07", "title": "Tree deletion behaves like removing from a map", "statement": "Deleting a key removes exactly that key when it exists and the veto callback agrees; if the key is absent or the callback vetoes, the tree is unchanged; every other key keeps its value. The callback sees the stored value.", "quantifier": "all reachable trees, node sizes, keys and veto decisions", "why_tests_cant": "borrow/merge cases at every level and for every occupancy", "anchors": ["internal/datastructures/btree/threadsafe_delete.go:Delete", "internal/datastructures/btree/threadsafe_delete.go:rebalance"]}
{"id": "C08", "title": "The tree stays ordered and balanced", "statement": "After any sequence of creations and deletions every leaf is at the same depth, every node but the root holds between nodeSize/2 and nodeSize keys, each inner node has one more child than keys, and in-order traversal yields strictly increasing keys. So depth is logarithmic.", "quantifier": "all operation sequences, all node sizes >= 2", "why_tests_cant": "an invariant over unboundedly many histories", "anchors": ["internal/datastructures/btree/threadsafe_create.go:splitNode", "internal/datastructures/btree/threadsafe_delete.go:rotateLeft", "internal/datastructures/btree/threadsafe_delete.go:rotateRight", "internal/datastructures/btree/threadsafe_delete.go:mergeDown"]}
{"id": "C09", "title": "Exact lookup finds a key iff it is stored", "statement": "Finding a concrete key with restrictions containing its type invokes the callback with exactly the stored value for the key (and additionally the Any-keyed value when the restriction's maximum is Any); finding with key Any invokes it for every stored value whose type is in the range; otherwise never.", "quantifier": "all reachable trees, keys and restrictions", "why_tests_cant": "search correctness depends on all tree shapes", "anchors": ["internal/datastructures/btree/threadsafe_find.go:Find"]}
{"id": "C10", "title": "Range lookups return exactly the matching entries", "statement": "FindNotEqual, FindLessThan, FindLessThanOrEqual, FindGreaterThan and FindGreaterThanOrEqual call back, once each, exactly the stored entries whose key stands in that relation to the argument, lies in the permitted type range, and (when the maximum is Any) the Any entry.", "quantifier": "all reachable trees, keys, comparisons and type restrictions", "why_tests_cant": "child-skipping logic has to be right for every tree shape", "anchors": ["internal/datastructures/btree/threadsafe_find.go:FindNotEqual", "internal/datastructures/btree/threadsafe_find.go:FindLessThan", "internal/datastructures/btree/threadsafe_find.go:FindLessThanOrEqual", "internal/datastructures/btree/threadsafe_find.go:FindGreaterThan", "internal/datastructures/btree/threadsafe_find.go:FindGreaterThanOrEqual"]}
{"id": "C11", "title": "Iteration stops as soon as the callback says so", "statement": "In every tree iteration or range lookup, once the callback returns false it is not invoked again; the entries it saw form a prefix of the ones it would have seen had it always continued.", "quantifier": "all trees and all stateful callbacks", "why_tests_cant": "callbacks are arbitrary functions", "anchors": ["internal/datastructures/btree/threadsafe_find.go"]}
{"id": "C12", "title": "A failed constructor leaves the tree unchanged", "statement": "If the constructor callback of Create/CreateOrFind yields nothing (e.g. the limiter refuses the queue limit), the set of stored entries is as before.", "quantifier": "all trees and keys", "why_tests_cant": "depends on where in a node the new key would land", "anchors": ["internal/datastructures/btree/threadsafe_create.go:createTreeItem", "internal/datastructures/btree/threadsafe_create.go:createOrFindTreeItem", "internal/willow/brokers/queues/queues_client_local.go:CreateQueue"]}
{"id": "C13", "title": "A lookup never leaves the tree locked", "statement": "Every lookup, whatever its key and type restrictions, releases every lock it took, so a later writer can proceed.", "quantifier": "all keys and restrictions", "why_tests_cant": "tests use in-range restrictions", "anchors": ["internal/datastructures/btree/threadsafe_find.go"]}
{"id": "C14", "title": "Destroying a key blocks it and removes only it", "statement": "While a key is being destroyed, Create, CreateOrFind, Find and Delete on that key fail with 'destroying' and have no effect, other keys are unaffected; when the destroy ends successfully exactly that key is gone, when vetoed everything is as before, and in both cases the key is usable again.", "quantifier": "all histories of destroys and other operations", "why_tests_cant": "every interleaving of operations with a pending destroy", "anchors": ["internal/datastructures/btree/threadsafe_destroy.go:Destroy", "internal/datastructures/btree/threadsafe_b_tree.go:checkDestroyingWithKey"]}
{"id": "C15", "title": "Destroying the whole tree", "statement": "DestroyAll, if no entry vetoes, leaves the tree empty having called back each entry exactly once; if an entry vetoes, the vetoing entry and all entries not yet visited remain and the tree is usable again.", "quantifier": "all trees and veto patterns", "why_tests_cant": "arbitrary trees", "anchors": ["internal/datastructures/btree/threadsafe_destroy.go:DestroyAll"]}
{"id": "C16", "title": "Key combinations are enumerated exactly once", "statement": "The permutation generator returns exactly the nonempty sub-combinations of the given distinct keys with size within [min,max] (max = -1: no upper bound), each once, ordered by size and then lexicographically (comparing combinations written in increasing order; keys given in increasing order give combinations in increasing order); it reports an error iff max is not -1 and min > max.", "quantifier": "all key lists and bounds", "why_tests_cant": "exponential number of combinations for arbitrary lists", "anchors": ["pkg/datamanipulation/slice_manipulation.go:GenerateStringPermutations"]}
{"id": "C17", "title": "Intersection-based id sets behave as sets", "statement": "The id set used by queries supports add, bulk add, remove, intersection, size and values with the usual mathematical meaning, for any sequence of operations.", "quantifier": "all operation sequences", "why_tests_cant": "arbitrary histories", "anchors": ["internal/datastructures/set/set.go"]}
{"id": "C18", "title": "Query validation", "statement": "A selection query that passes validation has bounds min <= max, known comparisons, every value well typed, every type restriction valid, and Any values only with = and !=; the query language evaluator never crashes on a query that passes validation.", "quantifier": "all queries (arbitrarily nested)", "why_tests_cant": "unbounded nesting of And/Or", "anchors": ["pkg/models/api/common/v1/query_associated_action/associated_action_query.go:Validate", "pkg/models/api/common/v1/query_associated_action/selection.go:Validate", "pkg/models/api/common/v1/query_associated_action/value_query.go"]}
{"id": "C19", "title": "Tag matching means what the query says", "statement": "Matching key-values against a validated query is true iff the selection holds (each named key present and standing in the stated comparison with a permitted type; != keys absent or different; number of keys within bounds) and every And holds, or some Or holds.", "quantifier": "all queries and all key-value sets", "why_tests_cant": "unbounded query trees", "anchors": ["pkg/models/api/common/v1/query_associated_action/selection.go:MatchKeyValues", "pkg/models/api/common/v1/query_associated_action/associated_action_query.go:MatchTags"]}
{"id": "C20", "title": "An item's key-values are unique in an associated tree", "statement": "At any time at most one stored item has a given set of key-values: Create on an existing set fails with 'already exists', CreateOrFind finds the existing item; distinct sets (including proper sub- and supersets) are independent.", "quantifier": "all histories of creates and deletes", "why_tests_cant": "arbitrary histories and key-value sets", "anchors": ["internal/datastructures/btree_associated/threadsafe_create.go:Create", "internal/datastructures/btree_associated/threadsafe_create.go:CreateOrFind"]}
{"id": "C21", "title": "The associated tree is a map from key-value sets to items", "statement": "After any history, looking up a key-value set or an associated id yields the item last created and not deleted, Delete removes exactly that item, and other items are unaffected; internal index entries for an id exist iff the id is stored.", "quantifier": "all histories", "why_tests_cant": "index nodes are shared between items; any missed cleanup surfaces only in particular histories", "anchors": ["internal/datastructures/btree_associated/threadsafe_delete.go:Delete", "internal/datastructures/btree_associated/threadsafe_delete.go:DeleteByAssociatedID", "internal/datastructures/btree_associated/btree_associated.go"]}
{"id": "C22", "title": "A query visits exactly the items that satisfy it", "statement": "QueryAction calls back each stored item satisfying the query exactly once and no other item.", "quantifier": "all stores and all validated queries", "why_tests_cant": "unbounded stores and nested queries", "anchors": ["internal/datastructures/btree_associated/threadsafe_query.go:QueryAction"]}
{"id": "C23", "title": "Stored-item queries and tag matching agree", "statement": "For every stored item, the tree query selects it iff the same query evaluated directly on the item's key-values matches (the willow broker uses one to find existing channels and the other to attach waiting clients to new channels).", "quantifier": "all queries and items", "why_tests_cant": "two independent implementations of one language", "anchors": ["internal/datastructures/btree_associated/threadsafe_query.go:query", "pkg/models/api/common/v1/query_associated_action/associated_action_query.go:MatchTags", "internal/willow/brokers/queue_channels/queue_channels_client_local.go"]}
{"id": "C24", "title": "Match visits exactly the items whose every key-value is matched", "statement": "MatchAction calls back, once each, exactly those stored items whose every key appears among the supplied keys with an equal value (or an Any value where permitted), subject to the bound on the number of keys.", "quantifier": "all stores and supplied key-values", "why_tests_cant": "all sub-combinations of the supplied keys", "anchors": ["internal/datastructures/btree_associated/threadsafe_match.go:MatchAction"]}
{"id": "C25", "title": "One-to-many relations are isolated", "statement": "Operations on the items of one owner id (create, query, delete, destroy) never change or reveal items of another owner, and destroying an owner removes exactly its items.", "quantifier": "all histories and owners", "why_tests_cant": "arbitrary histories", "anchors": ["internal/datastructures/btree_one_to_many/threadsafe_create.go", "internal/datastructures/btree_one_to_many/threadsafe_query.go", "internal/datastructures/btree_one_to_many/threadsafe_destroy.go"]}
{"id": "C26", "title": "Destroy and ordinary operations exclude each other", "statement": "Once a destroy has been admitted no ordinary operation is admitted until it is cleared, the destroy proceeds only when no ordinary operation is running, and of concurrent destroys exactly one is admitted.", "quantifier": "all interleavings of any number of goroutines", "why_tests_cant": "all schedules", "anchors": ["pkg/async/destroy.go"]}
{"id": "C27", "title": "Locks are mutually exclusive", "statement": "At every moment at most one session is held on a lock; a new session is granted only after the previous one was released or timed out.", "quantifier": "all interleavings of obtain, heartbeat, release, client loss and timeout over any number of clients", "why_tests_cant": "all schedules of concurrent clients", "anchors": ["internal/locker/lock_manager/exclusive_lock.go", "internal/locker/lock_manager/exclusive_locker.go:ObtainLock"]}
{"id": "C28", "title": "Only the current session can heartbeat or release", "statement": "A heartbeat or release carrying a session id other than the currently held one has no effect on the lock, and session ids are never reused, so a client whose lock timed out cannot release or extend the next holder's lock.", "quantifier": "all histories and session ids", "why_tests_cant": "stale messages can arrive at any later time", "anchors": ["internal/locker/lock_manager/exclusive_lock.go:Heartbeat", "internal/locker/lock_manager/exclusive_lock.go:Release", "internal/locker/lock_manager/exclusive_locker.go"]}
{"id": "C29", "title": "A lock exists while somebody holds or awaits it, and no longer", "statement": "The internal client count always equals the number of clients waiting plus the holder (if any); the lock is removed exactly when it drops to zero, and the 'lost client' panic is unreachable.", "quantifier": "all interleavings", "why_tests_cant": "all schedules", "anchors": ["internal/locker/lock_manager/exclusive_lock.go:Execute", "internal/locker/lock_manager/exclusive_lock.go:LostClient"]}
{"id": "C30", "title": "A lock that is not heartbeated is handed on", "statement": "If the holder sends no successful heartbeat for the lock timeout, the session ends, and if clients are waiting one of them can obtain the lock; a heartbeat in time always restarts the full timeout.", "quantifier": "all schedules", "why_tests_cant": "liveness/safety over timers", "anchors": ["internal/locker/lock_manager/exclusive_lock.go:Execute"]}
{"id": "C31", "title": "A heartbeater ends exactly once", "statement": "For each processing item at most one of: stop succeeded, timeout callback, shutdown callback ever happens; heartbeats after the end are refused; start has effect once.", "quantifier": "all interleavings of start, stop, heartbeat, timer and shutdown", "why_tests_cant": "all schedules", "anchors": ["internal/heartbeater/heartbeater.go"]}
{"id": "C32", "title": "Counters never exceed a limit under unit increments", "statement": "Whatever rules and overrides exist, if counters are only changed through increments by one and decrements, then for every rule or override that governed the increments, the sum of the counters in any group never exceeds its limit.", "quantifier": "all histories of increments/decrements, all key-value groups", "why_tests_cant": "arbitrary histories and overlapping groups", "anchors": ["internal/limiter/counters/counter_client_local.go:IncrementCounters"]}
{"id": "C33", "title": "Which limit applies to an increment", "statement": "An increment is refused iff some matching rule that has no matching overrides, or some matching override, has a limit in {0} or a group sum at or above its limit; it is accepted without counting checks iff no rule matches or all matching limits are unlimited; overrides of a rule replace the rule's own limit.", "quantifier": "all rule sets, override sets and counters", "why_tests_cant": "combinatorial in rules and overrides", "anchors": ["internal/limiter/rules/rules_client_local.go:FindLimits", "internal/limiter/counters/counter_client_local.go:IncrementCounters"]}
{"id": "C34", "title": "Decrement and set change exactly one counter", "statement": "Decrementing removes the counter when it reaches zero or below and otherwise lowers it by the amount; an unknown counter is left unknown; Set stores the given value or removes the counter when it is not positive; all other counters are unchanged.", "quantifier": "all counter states", "why_tests_cant": "all histories", "anchors": ["internal/limiter/counters/counter_client_local.go:DecrementCounters", "internal/limiter/counters/counter_client_local.go:SetCounter"]}
{"id": "C35", "title": "Increments cannot deadlock each other", "statement": "Concurrent increments acquire their per key-value locks in one global order, so no set of increments waits for each other in a cycle.", "quantifier": "all sets of concurrent increments and schedules", "why_tests_cant": "all schedules", "anchors": ["internal/limiter/counters/counter_client_local.go:IncrementCounters"]}
{"id": "C36", "title": "Rules and overrides are unique and consistent", "statement": "No two rules share the same group-by key-values; no two overrides of a rule share the same key-values; every override contains its rule's group-by keys; deleting a rule deletes its overrides and no others.", "quantifier": "all histories of rule and override operations", "why_tests_cant": "arbitrary histories", "anchors": ["internal/limiter/rules/rules_client_local.go", "internal/limiter/overrides/overrides_client_local.go"]}
{"id": "C37", "title": "No queue item is lost or duplicated", "statement": "At all times each stored item is either waiting or being processed by exactly one client, never both nor twice; an item disappears only by a successful ack, by exhausting its retries, by being superseded through the updateable rule, or by deletion of the channel.", "quantifier": "all histories of enqueue, dequeue, failed delivery, ack, failure, heartbeat timeout and shutdown", "why_tests_cant": "arbitrary histories", "anchors": ["internal/willow/brokers/queue_channels/memory/memory_queue_channel.go"]}
{"id": "C38", "title": "Items are delivered in FIFO order", "statement": "Items that are not retried are dequeued in the order in which they were enqueued; an item retried at the front is the next delivered, one retried at the back is delivered after those waiting.", "quantifier": "all histories", "why_tests_cant": "arbitrary histories", "anchors": ["internal/willow/brokers/queue_channels/memory/memory_queue_channel.go:Enqueue", "internal/willow/brokers/queue_channels/memory/memory_queue_channel.go:dequeue", "internal/willow/brokers/queue_channels/memory/memory_queue_channel.go:failItem"]}
{"id": "C39", "title": "Updateable items are overwritten in place", "statement": "Enqueuing when the last waiting item is updateable replaces its payload, update flag and retry settings without adding an item or consuming queue capacity; otherwise exactly one item is appended; an item already handed out is never overwritten.", "quantifier": "all channel states and items", "why_tests_cant": "arbitrary histories", "anchors": ["internal/willow/brokers/queue_channels/memory/memory_queue_channel.go:Enqueue"]}
{"id": "C40", "title": "Retries are bounded", "statement": "An item is handed out at most maxRetryAttempts+1 times through failures or timeouts since its last overwrite, and is dropped after that.", "quantifier": "all histories", "why_tests_cant": "arbitrary histories", "anchors": ["internal/willow/brokers/queue_channels/memory/memory_queue_channel.go:failItem"]}
{"id": "C41", "title": "An ack settles exactly the item in question", "statement": "A successful ack removes exactly the item with that id and only if it is being processed; acking an unknown, waiting, or already settled item reports failure and changes nothing; of an ack, a failure and a timeout for one delivery exactly one takes effect.", "quantifier": "all histories and item ids", "why_tests_cant": "races between ack and timeout", "anchors": ["internal/willow/brokers/queue_channels/memory/memory_queue_channel.go:ACK"]}
{"id": "C42", "title": "Queue usage counters match the queue contents", "statement": "The limiter's 'enqueued' count of a channel equals the number of its stored items and its 'running' count the number of items being processed.", "quantifier": "all histories", "why_tests_cant": "counter leaks show only in particular histories", "anchors": ["internal/willow/brokers/queue_channels/memory/memory_queue_channel.go"]}
{"id": "C43", "title": "Undelivered items return to the queue", "statement": "If delivery of a dequeued item to the client fails, the item is again waiting at the front (or superseded by a newer one if updateable), unless it was settled meanwhile, and its running slot is given back.", "quantifier": "all histories", "why_tests_cant": "failure at any point", "anchors": ["internal/willow/brokers/queue_channels/memory/memory_queue_channel.go:dequeue"]}
{"id": "C44", "title": "A channel is only removed when it is empty", "statement": "A channel disappears through acks only when it stores no items, so an enqueue racing with the last ack never loses its item; deleting a queue removes all its channels and resets their counters to zero.", "quantifier": "all histories", "why_tests_cant": "races", "anchors": ["internal/willow/brokers/queue_channels/queue_channels_client_local.go:ACK", "internal/willow/brokers/queue_channels/memory/memory_queue_channel.go:Delete", "internal/willow/brokers/queue_channels/memory/memory_queue_channel.go:ForceDelete"]}
{"id": "C45", "title": "Queue names are unique and queue operations address one queue", "statement": "Creating a queue with an existing name is refused and changes nothing; get/update/delete/enqueue/dequeue/ack on an unknown name are 'not found'; operations on one queue never affect another.", "quantifier": "all histories of queue operations", "why_tests_cant": "arbitrary histories", "anchors": ["internal/willow/brokers/queues/queues_client_local.go"]}
{"id": "C46", "title": "No request can make a lock unusable for ever", "statement": "Whatever was requested before, a client waiting for a lock can still be granted it, and a new client can still ask for it.", "quantifier": "all interleavings of obtain, heartbeat, release, client loss and timeout", "why_tests_cant": "needs every reachable state, including ones left by stale requests", "anchors": ["internal/locker/lock_manager/exclusive_lock.go:Execute", "internal/locker/lock_manager/exclusive_locker.go:Release", "internal/locker/lock_manager/exclusive_locker.go:ObtainLock"]}
{"id": "C47", "title": "Requests about one item cannot block each other for ever", "statement": "An enqueue, ack, failed ack or heartbeat of a queue item always comes to an answer: no combination of simultaneous acks, heartbeats, timeouts and undelivered items leaves a request, or the whole channel, waiting for ever.", "quantifier": "all interleavings of enqueue, ack, heartbeat, timeout, delivery and failed delivery on one channel", "why_tests_cant": "needs every schedule, in particular the ones where a timeout and an ack of the same item meet", "anchors": ["internal/willow/brokers/queue_channels/memory/item.go", "internal/willow/brokers/queue_channels/memory/memory_queue_channel.go:ACK", "internal/willow/brokers/queue_channels/memory/memory_queue_channel.go:Heartbeat"]}
{"id": "C48", "title": "A waiting dequeue does not hold up other requests", "statement": "While a client waits for an item of one queue, requests about other queues (and the same queue) still come to an answer.", "quantifier": "all interleavings of queue requests", "why_tests_cant": "needs the lock order over every schedule", "anchors": ["internal/willow/brokers/queues/queues_client_local.go:Dequeue", "internal/datastructures/btree/btree_find.go:Find"]}
{"id": "C49", "title": "Items count against the limit of their own queue only", "statement": "Storing an item in a channel of a queue raises the enqueued counter of that queue and of no other queue, whatever key values name the channel.", "quantifier": "all queue names and channel key values", "why_tests_cant": "all inputs: only unusual channel keys collide", "anchors": ["internal/willow/brokers/queue_channels/queue_channels_client_local.go:EnqueueQueueItem", "internal/willow/brokers/queue_channels/memory/memory_queue_channel.go:New"]}
{"id": "C50", "title": "No accepted request or race of requests crashes the service", "statement": "Whatever requests were accepted and however they interleave with timeouts, no goroutine of the service panics outside a request.", "quantifier": "all interleavings of requests, timeouts and deletions", "why_tests_cant": "needs every schedule and every accepted input", "anchors": ["internal/willow/brokers/queue_channels/memory/item.go", "pkg/models/api/willow/v1/item.go:Validate"]}
{"id": "C51", "title": "A queue never stores more items than its maximum", "statement": "With the limiter in charge, the number of items stored in all channels of a queue never exceeds the queue's configured maximum.", "quantifier": "all histories of enqueue, ack, update and delete over any number of channels", "why_tests_cant": "unbounded histories over two services", "anchors": ["cmd/willow/main.go", "internal/willow/brokers/queues/memory/memory_queue.go", "internal/willow/brokers/queue_channels/memory/memory_queue_channel.go:Enqueue"]}
{"id": "C52", "title": "Willow can be restarted while its limiter keeps running", "statement": "Whatever was done before, a new willow process can start with the limiter that an earlier one used.", "quantifier": "all histories of willow and limiter requests before the restart", "why_tests_cant": "needs every state the limiter can be left in", "anchors": ["cmd/willow/main.go:70-89", "internal/limiter/rules/rules_client_local.go:CreateRule"]}
{"id": "C53", "title": "A queue that is not full takes items", "statement": "An item is refused for lack of room only if the number of items stored in its queue has reached the queue's limit.", "quantifier": "all histories of requests and background work", "why_tests_cant": "unbounded histories over two services", "anchors": ["internal/willow/brokers/queue_channels/memory/memory_queue_channel.go:Enqueue", "internal/limiter/counters/counter_client_local.go:IncrementCounters"]}
{"id": "C54", "title": "Concurrent creations never store two items with the same key-values", "statement": "At every time at most one item of an associated tree has given key-values, not counting items whose DestroyByAssociatedID is running, and no two calls are answered the creation, or the deletion, of the same id.", "quantifier": "all schedules of any number of concurrent Create, CreateOrFind, query, Delete, DeleteByAssociatedID and DestroyByAssociatedID calls, all key-values, callbacks that may return nil", "why_tests_cant": "every interleaving of unboundedly many calls", "anchors": ["internal/datastructures/btree_associated/threadsafe_create.go:Create,CreateOrFind", "internal/datastructures/btree_associated/threadsafe_delete.go:Delete,DeleteByAssociatedID", "internal/datastructures/btree_associated/threadsafe_destroy.go:DestroyByAssociatedID", "internal/datastructures/btree_associated/threadsafe_query.go:QueryAction"]}
{"id": "C55", "title": "Every answer of a concurrent call on an associated tree is right at a moment of the call", "statement": "When no onCreate returns nil: a call that reports an item created stored it at a moment of the call when nothing else had its key-values; one that reports an item found, refused or existing did so while it was stored; one that reports a deletion removed it; one that reports nothing found had a moment when no item had the key-values (or all were being destroyed).", "quantifier": "all schedules of any number of concurrent calls, all key-values and callbacks", "why_tests_cant": "every interleaving; the absence of an item must be shown for a moment that no test can name", "anchors": ["internal/datastructures/btree_associated/threadsafe_create.go:Create,CreateOrFind", "internal/datastructures/btree_associated/threadsafe_delete.go:Delete,DeleteByAssociatedID", "internal/datastructures/btree_associated/threadsafe_destroy.go:DestroyByAssociatedID", "internal/datastructures/btree_associated/threadsafe_query.go:QueryAction"]}
{"id": "C56", "title": "Items of an associated tree come and go only with the calls that answer so", "statement": "When no onCreate returns nil: an item appears only by a step of a creation with its key-values, which can then only answer its id; it goes only by a step of a deletion of its key-values or a destruction of its id, which can then only answer that; it keeps its key-values and never comes back.", "quantifier": "all schedules of any number of concurrent calls", "why_tests_cant": "every interleaving and every step of each", "anchors": ["internal/datastructures/btree_associated/threadsafe_create.go:Create,CreateOrFind", "internal/datastructures/btree_associated/threadsafe_delete.go:Delete,DeleteByAssociatedID", "internal/datastructures/btree_associated/threadsafe_destroy.go:DestroyByAssociatedID", "internal/datastructures/btree_associated/threadsafe_query.go:QueryAction"]}
{"id": "C57", "title": "A creation whose callback returns nil leaves the rest of the tree alone", "statement": "A Create or CreateOrFind whose onCreate returns nil has no effect on other calls: nobody is told that an item exists which never did, and no other item is removed.", "quantifier": "all schedules of concurrent calls some of whose onCreate return nil", "why_tests_cant": "the effects need particular interleavings with the cleanup of the failed creation", "anchors": ["internal/datastructures/btree_associated/threadsafe_create.go:Create,CreateOrFind", "internal/datastructures/btree_associated/threadsafe_delete.go:Delete,DeleteByAssociatedID", "internal/datastructures/btree_associated/threadsafe_destroy.go:DestroyByAssociatedID", "internal/datastructures/btree_associated/threadsafe_query.go:QueryAction"]}
{"id": "C58", "title": "A deletion by id deletes the item with that id", "statement": "DeleteByAssociatedID removes the item with the given id, or nothing.", "quantifier": "all schedules of concurrent calls", "why_tests_cant": "needs another deletion and creation between its two halves", "anchors": ["internal/datastructures/btree_associated/threadsafe_delete.go:Delete,DeleteByAssociatedID"]}
{"id": "C59", "title": "Concurrent calls on an associated tree come to an end", "statement": "From every state reached by concurrent calls, whatever the schedule, every call answers after finitely many steps.", "quantifier": "all reachable states and all schedules", "why_tests_cant": "deadlocks need particular interleavings; termination ranges over all schedules", "anchors": ["internal/datastructures/btree_associated/threadsafe_create.go:Create,CreateOrFind", "internal/datastructures/btree_associated/threadsafe_delete.go:Delete,DeleteByAssociatedID", "internal/datastructures/btree_associated/threadsafe_destroy.go:DestroyByAssociatedID", "internal/datastructures/btree_associated/threadsafe_query.go:QueryAction"]}
{"id": "C60", "title": "A client's lock ends once and in order", "statement": "ObtainLock returns a lock for the key-values it was called with; it never returns a lock whose Done() was closed before the call. Done() is closed at most once, at most one DELETE is sent for a lock, after Done() was closed and the last heartbeat was sent. At most one Release of a lock returns nil, and from then on the service does not hold the lock for that session. A Release called after the heartbeats have ended does not return nil, and if none was called before, no DELETE is sent.", "quantifier": "all histories of any number of lock clients, ObtainLock and Release calls and the locker service, with requests that are slow, lost or answered too late", "why_tests_cant": "concurrent goroutines, timers and a network that may delay or lose any message at any point", "anchors": ["pkg/clients/locker_client/locker_client.go:ObtainLock,releaseLockCallback", "pkg/clients/locker_client/lock.go:newLock,heartbeat loop,Release,Done,stop", "internal/locker/lock_manager/exclusive_locker.go:ObtainLock,Heartbeat,Release", "internal/locker/api/v1/handlers/locker_handler.go:Create,Heartbeat,Delete"]}
{"id": "C61", "title": "Two clients never both rely on the same lock", "statement": "While a client that obtained a lock has not released it and its Done() is open, no other call has obtained the same key-values.", "quantifier": "all histories of lock clients, the service and the network", "why_tests_cant": "every schedule, delay and loss of messages over unbounded time", "anchors": ["pkg/clients/locker_client/locker_client.go:ObtainLock,releaseLockCallback", "pkg/clients/locker_client/lock.go:newLock,heartbeat loop,Release,Done,stop", "internal/locker/lock_manager/exclusive_locker.go:ObtainLock,Heartbeat,Release", "internal/locker/api/v1/handlers/locker_handler.go:Create,Heartbeat,Delete"]}
{"id": "C62", "title": "Done() tells of the loss of a lock", "statement": "Done() of a lock is closed only if it was released or lost, and if the service has taken the lock away Done() is closed within a bounded time.", "quantifier": "all histories of lock clients, the service and the network", "why_tests_cant": "a bounded delay must hold in every schedule; the failing ones need particular delays", "anchors": ["pkg/clients/locker_client/locker_client.go:ObtainLock,releaseLockCallback", "pkg/clients/locker_client/lock.go:newLock,heartbeat loop,Release,Done,stop", "internal/locker/lock_manager/exclusive_locker.go:ObtainLock,Heartbeat,Release", "internal/locker/api/v1/handlers/locker_handler.go:Create,Heartbeat,Delete"]}
{"id": "C63", "title": "Release of a lock comes to an end", "statement": "Every Release that was called returns.", "quantifier": "all histories of lock clients, the service and the network, all continuations", "why_tests_cant": "deadlocks need particular interleavings and last for ever", "anchors": ["pkg/clients/locker_client/locker_client.go:ObtainLock,releaseLockCallback", "pkg/clients/locker_client/lock.go:newLock,heartbeat loop,Release,Done,stop", "internal/locker/lock_manager/exclusive_locker.go:ObtainLock,Heartbeat,Release", "internal/locker/api/v1/handlers/locker_handler.go:Create,Heartbeat,Delete"]}
{"id": "C64", "title": "A timeout that is accepted does not end a service or a client", "statement": "No timeout that the locker or willow service accepts in a request makes the service, or a client that was given the lock or the item, panic.", "quantifier": "all int64 timeouts, absent ones and default configurations", "why_tests_cant": "2^64 durations, of which the failing ones are at the boundaries", "anchors": ["pkg/models/api/locker/v1/lock.go:LockProperties.Validate,SetDefaultProperties", "internal/locker/lock_manager/exclusive_lock.go:Execute", "pkg/models/api/willow/v1/item.go:ItemProperties.Validate", "internal/heartbeater/heartbeater.go:Execute", "pkg/clients/locker_client/lock.go:newLock", "pkg/clients/willow_client/item.go:newItem"]}
{"id": "C65", "title": "Concurrent calls of one tree are linearizable", "statement": "However Create, CreateOrFind, Delete and lookups of one key overlap on one B-tree, the answers are those of some order of the calls on a plain map, an order in which a call that returned before another was made comes first; when all calls have returned the tree is well shaped and contains what that order leaves.", "quantifier": "all node sizes from 2, all families of calls (keys, values, canDelete callbacks), all interleavings of their lock operations, all moments", "why_tests_cant": "the number of interleavings of hand-over-hand locking with splits, rotations, merges and swaps is unbounded", "anchors": ["internal/datastructures/btree/threadsafe_create.go:Create,CreateOrFind", "internal/datastructures/btree/threadsafe_delete.go:Delete", "internal/datastructures/btree/threadsafe_find.go:Find"]}
{"id": "C66", "title": "Concurrent calls of one tree do not deadlock", "statement": "From every moment of every execution of Create, CreateOrFind, Delete and lookups of one key on one B-tree, if no further call is made, then whatever the schedule every call returns after finitely many steps.", "quantifier": "all node sizes from 2, all families of calls, all interleavings, all moments", "why_tests_cant": "a deadlock may need one particular interleaving of several splits and merges", "anchors": ["internal/datastructures/btree/threadsafe_create.go:Create,CreateOrFind", "internal/datastructures/btree/threadsafe_delete.go:Delete", "internal/datastructures/btree/threadsafe_find.go:Find"]}
{"id": "C67", "title": "Queries are right about what does not change meanwhile", "statement": "A query that overlaps creations and deletions of other callers visits every item that is stored during the whole query and satisfies it, visits no item twice, and visits no item that does not satisfy it.", "quantifier": "all queries, all histories of calls before, during and after the query, all moments at which the parts of the index are read", "why_tests_cant": "a wrong answer needs a creation or deletion between the reads of two particular index nodes of one query", "anchors": ["internal/datastructures/btree_associated/threadsafe_query.go:QueryAction,query,findIDs", "internal/datastructures/btree_associated/threadsafe_create.go:Create,CreateOrFind", "internal/datastructures/btree_associated/threadsafe_delete.go:Delete"]}
{"id": "C68", "title": "A waiting dequeue is offered every matching channel", "statement": "A dequeue that waits for an item is, once its search through the existing channels has ended, offered the items of every channel of its queue that satisfies its query, whether the channel existed before, is created later, or is created while the dequeue starts to wait.", "quantifier": "all interleavings of dequeues, creations and deletions of channels; all queries and key-values", "why_tests_cant": "a channel is missed only if its creation falls between two particular steps of the dequeue", "anchors": ["internal/willow/brokers/queue_channels/queue_channels_client_local.go:DequeueQueueItem,EnqueueQueueItem,updateClientsWaiting,addClientWaiting", "internal/datastructures/btree_associated/threadsafe_create.go:CreateOrFind"]}
{"id": "C69", "title": "A dequeue is offered matching channels only", "statement": "Every channel whose items are offered to a waiting dequeue existed in the named queue with key-values that satisfy the query of the dequeue.", "quantifier": "all interleavings of dequeues, creations and deletions of channels; all queries and key-values", "why_tests_cant": "needs every query and every moment of creation relative to the search", "anchors": ["internal/willow/brokers/queue_channels/queue_channels_client_local.go:DequeueQueueItem,updateClientsWaiting", "pkg/models/api/common/v1/query_associated_action/associated_action_query.go:MatchTags"]}
{"id": "C70", "title": "The search of a dequeue does not end the service", "statement": "Whatever query a dequeue was accepted with and whatever happens to its queue meanwhile, the search it starts in the background does not panic (which would end the process).", "quantifier": "all accepted queries, all interleavings of dequeues, cancellations, changes of channels and deletions of the queue", "why_tests_cant": "needs a search that starts late, during the deletion of its queue, or an accepted query of an unusual shape", "anchors": ["internal/willow/brokers/queue_channels/queue_channels_client_local.go:DequeueQueueItem", "internal/datastructures/btree_one_to_many/threadsafe_query.go:QueryAction", "internal/willow/brokers/queues/queues_client_local.go:DeleteQueue"]}
{"id": "C71", "title": "A channel is held back by a limit only while the limit is reached", "statement": "When a dequeue is refused by the limiter, its channel offers nothing until a check of the limits finds room. A check that finds no room was right at some moment of the check; a check that finds room is right; and a check never ends the process.", "quantifier": "all rules, overrides, counters and channels, all histories of the limiter, and all changes of the limiter between the requests of one check", "why_tests_cant": "the check is made of many requests and uses its own way to sum up counters; whether it agrees with the limiter has to be seen for all rules and overrides", "anchors": ["internal/willow/brokers/queue_channels/memory/memory_queue_channel.go:Execute", "internal/limiter/rules/rules_client_local.go:MatchRules", "internal/limiter/rules/rules_client_local.go:MatchOverrides", "internal/limiter/counters/counter_client_local.go:QueryCounters"]}
{"id": "C72", "title": "An accepted enqueue has stored its item", "statement": "An enqueue that is answered with 201 has put its item in a channel of the queue with the key-values of the item, and this channel stays one of the queue's until it is deleted, whatever other enqueues (accepted or refused) and deletions run at the same time.", "quantifier": "all schedules of any number of concurrent enqueues, channel deletions and searches of one queue", "why_tests_cant": "needs an enqueue that is refused by a limit while another one for the same new channel is running", "anchors": ["internal/willow/brokers/queue_channels/queue_channels_client_local.go:EnqueueQueueItem", "internal/datastructures/btree_one_to_many/threadsafe_create.go:CreateOrFind", "internal/datastructures/btree_associated/threadsafe_create.go:CreateOrFind"]}
{"id": "C73", "title": "A dequeued item stays with its client while the client runs", "statement": "After a client dequeued an item, the service does not count it as lost (and hand it to another client, or drop it) as long as the client's process runs, requests are handled and answered at once and none fails, until the client calls ACK.", "quantifier": "all timeouts, all schedules of the client's goroutine, the service's heartbeater and the requests of others, and all lengths of the processing", "why_tests_cant": "the processing has to outlast the item's timeout; needs a real client against the real service, with all middleware, for any number of heartbeats", "anchors": ["pkg/clients/willow_client/item.go:newItem", "internal/middleware/encoder.go:ValidateReqHeaders", "internal/willow/api/v1/router/willow_url_router.go:AddV1WillowRoutes", "internal/heartbeater/heartbeater.go:Execute"]}
{"id": "C74", "title": "Done() of an item tells of its loss", "statement": "The channel Done() of a dequeued item is closed when ACK is called or when no heartbeat was accepted for nine tenths of the timeout, not before, and within a known time after that. No heartbeat is sent afterwards.", "quantifier": "all timeouts, all schedules, all answers and failures of requests, all error callbacks", "why_tests_cant": "races between ticker, answers, ACK and callback; requests without answer", "anchors": ["pkg/clients/willow_client/item.go:newItem", "pkg/clients/willow_client/item.go:Done", "pkg/clients/willow_client/item.go:SetHeartbeatErrorCallback", "pkg/clients/willow_client/item.go:forwardError"]}
{"id": "C75", "title": "ACK of an item reports what the service did, and does not end the client", "statement": "If ACK returns nil, the service has handled it and the delivery has ended; if it returns an error, the service did not answer with success. ACK may be called at any time, any number of times, without ending the process of the client.", "quantifier": "all timeouts, all schedules of concurrent ACKs, heartbeats and their answers and failures", "why_tests_cant": "needs a heartbeat whose request fails in the moment in which ACK is called, and answers from a proxy", "anchors": ["pkg/clients/willow_client/item.go:ACK", "pkg/clients/willow_client/item.go:newItem"]}
{"id": "C76", "title": "A range lookup or iteration of a tree that runs beside other calls sees the map as it was at one moment", "statement": "Let Find (any key, also Any), FindNotEqual, FindLessThan, FindLessThanOrEqual, FindGreaterThan and FindGreaterThanOrEqual run beside each other and beside Create, CreateOrFind and Delete of the same tree. Then there is one order of all these calls, compatible with who returned before whom was called, such that every lookup was handed exactly the entries (each once) that it should visit of the map at its place in this order, every other call got the answer of a plain map, and when the other calls have returned the tree is well shaped and holds exactly what the order leaves.", "quantifier": "all trees (node sizes from 2), all keys, values, type restrictions, all numbers of concurrent calls and lookups, all interleavings of their lock operations", "why_tests_cant": "a lookup that holds read locks on several subtrees while writers split, merge and rotate the nodes beside them shows a wrong result only in particular interleavings", "anchors": ["internal/datastructures/btree/threadsafe_find.go:Find", "internal/datastructures/btree/threadsafe_find.go:FindNotEqual", "internal/datastructures/btree/threadsafe_find.go:FindLessThan", "internal/datastructures/btree/threadsafe_find.go:FindGreaterThanOrEqual", "internal/datastructures/btree/threadsafe_find.go:iterate"]}
{"id": "C77", "title": "Calls and lookups of one tree that overlap all come to an end", "statement": "Let lookups (Find, FindNotEqual, FindLessThan, FindLessThanOrEqual, FindGreaterThan, FindGreaterThanOrEqual) run beside each other and beside Create, CreateOrFind, Delete and Find of the same tree. Whatever the schedule, somebody can always go on, and every call and lookup that was made returns. (It fails for a lookup whose type restrictions leave nothing to look at: on a tree that is not empty it returns with the tree still read-locked, and no Create or Delete called later ever returns.)", "quantifier": "all trees, calls, lookups with legal arguments, schedules and points of the schedule", "why_tests_cant": "deadlocks between writers that wait for readers and readers that wait for writers need particular interleavings", "anchors": ["internal/datastructures/btree/threadsafe_find.go", "internal/datastructures/btree/threadsafe_create.go:Create,CreateOrFind", "internal/datastructures/btree/threadsafe_delete.go:Delete"]}
{"id": "C78", "title": "What a client sends is what the service gets, and what the service answers is what the client gets", "statement": "Whatever value of a request's model the Go clients agree to send (CreateQueue, UpdateQueue, Enqueue, ACK, heartbeats, DeleteQueueChannel, rules, overrides, counters, match queries, locks, and their claims), the handler accepts it and works on exactly that value: no field is lost, renamed, defaulted or changed by the JSON encoding, for every type of key-value. A query that arrives selects exactly what the query that was sent selects. Whatever value a handler answers with, the client decodes exactly that value. (It fails for strings that are no UTF-8: two different channels become one and the same third channel on the way.)", "quantifier": "all values of all request and answer models of the three services (all key-values of all types, all data bytes, all queries)", "why_tests_cant": "models are nested, have optional parts, tagged values with text encodings and arbitrary bytes; a test tries a few", "anchors": ["pkg/models/api/model.go", "pkg/models/api/client.go", "pkg/models/api/server.go", "pkg/models/api/willow/v1", "pkg/models/api/limiter/v1", "pkg/models/api/locker/v1", "pkg/models/api/common/v1", "pkg/models/datatypes/encapsulated_value.go", "pkg/models/datatypes/key_values.go"]}
{"id": "C79", "title": "A client call is carried out on the thing it names, with the values it was given", "statement": "A call of a Go client (limiter: rules, overrides, counters; willow: queues, items, channels; locker: ObtainLock, heartbeats, Release) that the client sends and that is answered has on the service exactly the effect, and returns exactly the answer, of the service's function of that name with the same arguments: the id or name in the call is the one the handler works on, no other rule, override, counter, queue or channel is touched, and the returned models are the stored ones; a lock is asked for with the key-values and timeout given, or the service's timeout. (It fails for queue names with characters that have a meaning in an address: they are put into the address unescaped.)", "quantifier": "all histories of client calls with all arguments, lost requests and lost answers included, all service-drawn ids, and for each all next calls", "why_tests_cant": "the path from arguments to effect goes through validation, encoding, an address built from a name, routing, decoding and the state left by any history; tests mock the service or the client and try a few names", "anchors": ["pkg/clients/limiter_client/rule.go", "pkg/clients/limiter_client/override.go", "pkg/clients/limiter_client/counter.go", "internal/limiter/api/v1/router/url_router.go", "internal/limiter/api/v1/handlers", "pkg/clients/willow_client/queue.go", "internal/willow/api/v1", "pkg/clients/locker_client", "internal/locker/api/v1"]}
{"id": "C80", "title": "A request with a malformed or invalid body is refused and changes nothing", "statement": "Whatever request is sent to a service, in whatever state it is: if its body does not decode or does not validate, the answer is 400 and no state changes; otherwise the service's function is called with arguments that satisfy its requirements; no body makes a handler panic. (It fails for willow: a queue without Properties makes CreateQueue's handler panic, and DeleteChannel goes on after its 400.)", "quantifier": "all requests (methods, paths, bodies), whether sent by the Go clients or not, in all states", "why_tests_cant": "bodies are arbitrary trees with missing, null and wrongly typed parts at every depth; tests send a handful", "anchors": ["internal/limiter/api/v1/handlers/rules_handler.go", "internal/limiter/api/v1/handlers/overrides_handler.go", "internal/limiter/api/v1/handlers/counters_handler.go", "internal/willow/api/v1/handlers", "pkg/models/api/server.go", "internal/locker/api/v1/handlers/locker_handler.go"]}
{"id": "C81", "title": "A call that returns success was carried out; every call is carried out at most once", "statement": "Whatever the network does (works, loses the request, loses the answer), a client call that returns without an error was carried out by the service with exactly the returned answer; one that returns an error was carried out once or not at all, and not at all only if it was not sent or the request was lost, or because the service refused it. (It fails for the locker's Release: the handler ignores the manager's answer, so that Release of a lock that another session holds returns without an error.)", "quantifier": "all histories of client calls and all fates of their requests and answers", "why_tests_cant": "the loss of an answer after the effect is not simulated in tests, and the claim is about every call in every state", "anchors": ["pkg/clients/limiter_client/rule.go", "pkg/clients/limiter_client/override.go", "pkg/clients/limiter_client/counter.go", "pkg/clients/willow_client/queue.go", "pkg/clients/http_request.go", "pkg/clients/locker_client", "internal/locker/api/v1/handlers/locker_handler.go:Release"]}
{"id": "C82", "title": "The service's reason for refusing a call reaches the caller", "statement": "If the service refuses a call with a status and a message, the error that the client returns is that message. (It fails for DeleteRule, QueryOverrides and MatchOverrides when the rule is not there: the client does not know status 404 and returns 'unexpected response code'. It fails for the locker: ObtainLock with invalid key-values returns neither a lock nor an error, without a Spec it panics, and a heartbeat's 404 is not understood.)", "quantifier": "all calls, all histories, all refusals and all messages", "why_tests_cant": "each client function has its own table of statuses and each handler its own set of refusals; a test would need every pair in every state", "anchors": ["pkg/clients/limiter_client/rule.go:DeleteRule", "pkg/clients/limiter_client/override.go", "internal/limiter/rules/rules_client_local.go", "common/errors/server_error.go", "pkg/clients/locker_client/locker_client.go:ObtainLock"]}
{"id": "C83", "title": "The list of locks tells who holds which lock", "statement": "GET /v1/locks with a query answers with exactly the locks that are stored and that the query selects, each once, and for each with its key-values and timeout, its id, the session that holds it and the number of clients that hold it or wait for it. (It fails while any selected lock is stored but not held, that is between its creation or release and the next claim: then the answer is 500 and no lock is listed at all.)", "quantifier": "all histories of the locker (clients, grants, heartbeats, releases, timeouts in any order and at any times) and all queries", "why_tests_cant": "the states in which the list fails last for moments between the steps of other goroutines; the counts and sessions must be right after every history", "anchors": ["internal/locker/lock_manager/exclusive_locker.go:LocksQuery", "internal/locker/api/v1/handlers/locker_handler.go:List", "pkg/models/api/locker/v1/lock.go"]}
{"id": "C84", "title": "Environment variables replace command line flags, as the usage texts say", "statement": "For each service and each of its flags: if the environment variable that the usage text names for the flag is set, the service runs with the variable's value, else with the flag's. (It fails for limiter-client-ca of willow, log-level, server-ca and locker-client-ca of the limiter, whose variables have other names in the code, and for insecure-http of all three, which a variable can only switch on.)", "quantifier": "all flags, all environments, all three services", "why_tests_cant": "tests set one variable at a time to the name that the code reads, not to the one that is documented, and cannot try all values", "anchors": ["internal/config/willow_config.go", "internal/config/limiter_config.go", "internal/config/locker_config.go"]}
{"id": "C85", "title": "A service starts only with a configuration it can serve, and a client uses the certificates it is given", "statement": "Exactly the configurations are accepted that have a known log level, a port number, and either insecure-http and no files or a key and a certificate (willow: the storage type memory; locker: a positive default timeout). A client's key and certificate are used if they are given. Willow and the limiter start exactly if one of the first ten health checks of the service they need succeeds. (It fails: willow accepts any text as a port, the others negative numbers; a key and a certificate without a CA file are checked, but not used.)", "quantifier": "all flags, environments and client configurations, all sequences of health checks", "why_tests_cant": "ports and paths are arbitrary texts; acceptance has to be exact for every combination", "anchors": ["internal/config", "pkg/clients/client_config.go", "pkg/clients/http_client.go", "cmd/limiter/main.go", "cmd/willow/main.go"]}
{"id": "C86", "title": "A locker that is told to stop keeps its promises and answers everybody", "statement": "Whenever the locker is told to stop: a lock is still granted only while nobody holds it, heartbeats and releases are accepted from the holder only, a session expires only after its timeout of silence, the counts of the locks that go on are right; once the lock of some key-values has ended it is never granted, kept or released again, and everybody who waits for it is answered (503: try again). Every lock ends and every request is answered. (The last sentence fails: a lock whose task is refused stays in the tree, and the next client for it waits for ever; a stop between an expiry and its handing on deadlocks the lock with a heartbeat or a release that came in between.)", "quantifier": "all histories of requests, lost clients, timeouts and time, all moments of the stop and of the refusal of tasks", "why_tests_cant": "the stop can come at any point of any interleaving; that nobody is ever answered is about all continuations", "anchors": ["internal/locker/lock_manager/exclusive_locker.go:60-134", "internal/locker/lock_manager/exclusive_lock.go:99-263"]}
{"id": "C87", "title": "The list of a queue's channels is right", "statement": "GET /v1/queues/{name}/channels with a query: if the queue exists the answer is 200 and the body lists exactly the channels of the queue whose key-values (and id) satisfy the query, each once, with the number of their items, and nothing changes; if the queue is being deleted it is 409, if it does not exist it is 404; a query that passes the validation is answered. (Numbers, 404 and the last part fail: the numbers are always -1, an unknown queue has the empty list with 200, and a query with an empty And panics.)", "quantifier": "all histories of willow, all queries, all key-values of channels", "why_tests_cant": "about every query on every set of channels that any history can leave", "anchors": ["internal/willow/api/v1/handlers/channel_handler.go:20-40", "internal/willow/brokers/queues/queues_client_local.go:211-233", "internal/willow/brokers/queue_channels/queue_channels_client_local.go:378-410", "pkg/models/api/willow/v1/channel.go"]}
{"id": "C88", "title": "Concurrent changes of counters are as if one at a time", "statement": "Whatever increments (that no limit stops), decrements, sets and exact queries of counters are made at the same time, with whatever key-values: there is one order of the calls, in which a call that had returned before another was made comes before it, such that the counters are at every moment what the calls in this order leave behind one after the other (an increment adds or creates, a decrement adds its negative number and removes the counter at 0 or below, a set replaces it or removes it at 0 or below) and each query has returned what the calls before it leave behind. Key-values never have two counters, increments by positive numbers add up exactly (below 2^63), and every call returns.", "quantifier": "all numbers of goroutines and calls, all key-values and amounts, all interleavings of the steps inside the associated tree", "why_tests_cant": "about every interleaving of any number of goroutines; a lost update shows in few of them", "anchors": ["internal/limiter/counters/counter_client_local.go:45-76", "internal/limiter/counters/counter_client_local.go:220-232", "internal/limiter/counters/counter_client_local.go:283-330", "internal/limiter/counters/memory/counter.go", "internal/datastructures/btree_associated/threadsafe_create.go", "internal/datastructures/btree_associated/threadsafe_delete.go"]}
{"id": "C89", "title": "Requests about a rule and its overrides that overlap", "statement": "Whatever creations and deletions of rules and overrides and checks of limits are made at the same time: an override never exists without its rule and always has all the keys of its rule; one rule never has two overrides with the same key-values (while none of them is asked to be deleted); an accepted rule or override stays until somebody asks to delete it (or, for an override, its rule); a check made after a rule or an override was accepted applies it if it matches, while nobody asks to delete it; no check ever sees a rule with some of its overrides removed by the deletion of the rule; what a check has was there during the check and matched; once the deletion of a rule has answered, no later request or check finds the rule, and no request is told that a rule is gone unless its deletion was asked for. (The code fails one part: a check stops at the first rule, or override of a rule, that is being deleted and skips those after it; the limits of rules nobody touches are not enforced in that window.)", "quantifier": "all numbers of goroutines, rules, overrides and requests, all key-values, all interleavings of the steps, also those inside the trees of overrides", "why_tests_cant": "about every interleaving of requests with the steps of a deletion; the windows are a few instructions long", "anchors": ["internal/limiter/rules/rules_client_local.go:52-79", "internal/limiter/rules/rules_client_local.go:236-311", "internal/limiter/rules/rules_client_local.go:442-529", "internal/limiter/overrides/overrides_client_local.go:45-75", "internal/limiter/overrides/overrides_client_local.go:220-320", "internal/datastructures/btree_one_to_many/threadsafe_destroy.go", "internal/datastructures/btree/threadsafe_destroy.go", "internal/datastructures/btree_associated/threadsafe_match.go:138-148"]}
{"id": "C90", "title": "Matches are right about what does not change meanwhile", "statement": "A match over an associated tree that overlaps creations and deletions of other callers visits every item that is stored during the whole match and matches, visits no item twice, and visits no item that does not match.", "quantifier": "all trees and histories of calls before, during and after the match, all validated match queries, all moments at which the parts of the index are read and the items are looked up, all orders in which Go iterates over its maps", "why_tests_cant": "a wrong answer needs a deletion between the read of the index and the lookup of one particular id, and depends on the order of map iteration", "anchors": ["internal/datastructures/btree_associated/threadsafe_match.go:MatchAction", "internal/datastructures/btree_associated/threadsafe_delete.go:Delete,DestroyByAssociatedID", "internal/datastructures/btree_associated/threadsafe_create.go:Create,CreateOrFind"]}
{"id": "C91", "title": "An item of a relation is shown with its own labels", "statement": "Whenever a query, match or deletion of a one-to-many tree shows an item to its callback (so: whenever the overrides of a rule are listed), the item carries its own id and the key-values it is stored with, whatever calls overlap.", "quantifier": "all executions of overlapping calls about one relation, all items, all moments at which an item is shown", "why_tests_cant": "the id is set after the item can be seen: a wrong answer needs a query between two statements of a creation", "anchors": ["internal/datastructures/btree_one_to_many/threadsafe_create.go:CreateOrFind", "internal/datastructures/btree_one_to_many/one_to_many_item.go:ManyID", "internal/datastructures/btree/threadsafe_create.go:CreateOrFind", "internal/limiter/overrides/overrides_client_local.go:GetOverride,QueryOverrides,MatchOverrides"]}
{"id": "C92", "title": "Overlapping requests about rules and their overrides all get an answer", "statement": "Whatever creations and deletions of rules and of overrides, and whatever checks, overlap: as long as a request has no answer, some request can go on, and in whichever order they go on, after finitely many steps every request has its answer.", "quantifier": "all executions of overlapping requests (any number of goroutines, rules, overrides), all orders in which they go on", "why_tests_cant": "a deadlock needs particular interleavings of locks in three trees; termination ranges over all schedules", "anchors": ["internal/limiter/rules/rules_client_local.go:CreateOverride,DeleteOverride,DeleteRule,FindLimits", "internal/limiter/overrides/overrides_client_local.go:CreateOverride,DestroyOverride,DestroyOverrides", "internal/datastructures/btree_associated/threadsafe_destroy.go:DestroyByAssociatedID", "internal/datastructures/btree_associated/threadsafe_create.go:CreateOrFind"]}
{"id": "C93", "title": "A server that is told to stop answers what it has begun, and ends", "statement": "A willow, limiter or locker process that gets SIGINT stops accepting connections, answers every request that has begun (those that wait for an item or a lock are told to go) and then ends; it ends in no other way.", "quantifier": "all three programs, all numbers of connections and requests, all orders in which requests, signals, failures of the listener and the steps of the shutdown happen", "why_tests_cant": "a request left unanswered needs a signal or failure between two steps of the shutdown; that the process ends ranges over all schedules", "anchors": ["cmd/willow/main.go:main", "cmd/limiter/main.go:main", "cmd/locker/main.go:main", "internal/willow/api/willow_tcp.go:Execute", "internal/limiter/api/limiter_tcp.go:Execute", "internal/locker/api/locker_server_tcp.go:Execute", "internal/willow/brokers/queue_channels/queue_channels_client_local.go:Execute,DequeueQueueItem", "internal/locker/lock_manager/exclusive_locker.go:Execute"]}
