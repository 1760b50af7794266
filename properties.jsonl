{"id": "C01", "title": "Full-order traversal of a forest visits every node exactly twice, in tree order", "statement": "Starting from begin() and applying ++ repeatedly on any forest produces end() after exactly 2*size steps; the iterators visited are, in order, the leading edge of a node, then everything visited for its children in sibling order, then its trailing edge; one more ++ reaches root(). No step reads freed or foreign memory.", "quantifier": "all forests (any number of nodes, any shape, any node addresses) reachable by any history of the modifying operations", "why_tests_cant": "Tests traverse a handful of fixed shapes; the edge of an iterator is not stored but inferred from pointer comparisons at every step, so correctness depends on every local link pattern of every shape.", "anchors": ["include/stlab/forest.hpp: forest_iterator::increment", "include/stlab/forest.hpp: forest::begin/end/root"]}
{"id": "C02", "title": "++ and -- on forest iterators are mutually inverse", "statement": "For every position of a forest including root() and end(), --(++i) == i and ++(--i) == i.", "quantifier": "all forests and every iterator position in them", "why_tests_cant": "The two directions infer the edge with two different pointer comparisons; a test would have to try every position of every shape.", "anchors": ["include/stlab/forest.hpp: forest_iterator::increment", "include/stlab/forest.hpp: forest_iterator::decrement"]}
{"id": "C03", "title": "insert adds exactly one childless node at the given position", "statement": "insert(position, x) in any forest yields the forest in which one new childless node holding x appears immediately before position (before a leading edge: as the previous sibling; before a trailing edge: as the last child) and every other node, value and order is unchanged; the returned iterator is the leading edge of the new node. push_front/push_back are the corresponding first/last-root insertions.", "quantifier": "all forests, all positions in [begin(), end()], all values, any address the allocator may return", "why_tests_cant": "Pointer surgery correct for sampled shapes can corrupt others (empty forest, only child, position at a trailing edge, ...).", "anchors": ["include/stlab/forest.hpp: forest::insert(const iterator&, T)", "include/stlab/forest.hpp: push_front", "include/stlab/forest.hpp: push_back", "include/stlab/forest.hpp: unsafe::set_next_fn"]}
{"id": "C04", "title": "erase(position) removes one node and promotes its children in place", "statement": "erase(i) removes exactly the node of i; its children, in order, take its place among its siblings; nothing else changes; the returned iterator is the position that followed i; the node's memory is released exactly once and never read afterwards.", "quantifier": "all forests, all nodes, both edges", "why_tests_cant": "The four relinking cases depend on the neighbourhood of the node (children or not, first/last sibling, root level); use-after-free does not show up as a failed assertion.", "anchors": ["include/stlab/forest.hpp: forest::erase(const iterator&)", "include/stlab/forest.hpp: has_children"]}
{"id": "C05", "title": "erase(first, last) removes exactly the nodes whose both edges lie in the range", "statement": "erase(first, last) removes every node whose leading and trailing edge are both in [first, last), keeps every other node in order and returns last; clear() therefore empties the forest and releases all its nodes.", "quantifier": "all forests, all ranges [first,last) of the full order, balanced or not", "why_tests_cant": "The range may cut across subtree boundaries in arbitrarily many ways; the loop relies on a depth counter that saturates at zero.", "anchors": ["include/stlab/forest.hpp: forest::erase(const iterator&, const iterator&)", "include/stlab/forest.hpp: forest::clear"]}
{"id": "C06", "title": "splice moves a sibling range intact", "statement": "splice(pos, x, first, last[, count]) removes the sibling range [first,last) with all its descendants from x and puts it, in the same order and with the same nodes (no copies), immediately before pos in *this; everything else in both forests is unchanged. It also holds when x is *this and pos is outside the moved range. splice of a whole forest leaves x empty; splice of one node moves its subtree.", "quantifier": "all pairs of forests (or one forest with itself), all sibling ranges, all positions not inside the moved range", "why_tests_cant": "Three dependent pointer updates through intermediate states; aliasing cases (same forest, pos adjacent to the range, range is whole child list) multiply.", "anchors": ["include/stlab/forest.hpp: forest::splice (4 overloads)"]}
{"id": "C07", "title": "insert_parent wraps a sibling range in a new node", "statement": "insert_parent(first, last, x) replaces the sibling range [first,last) by one new node holding x whose children are exactly that range in order; returns the new node's leading edge.", "quantifier": "all forests and all sibling ranges including the empty one", "why_tests_cant": "Composition of insert and an overlapping self-splice; correctness for all ranges including empty/whole child list cannot be enumerated.", "anchors": ["include/stlab/forest.hpp: forest::insert_parent"]}
{"id": "C08", "title": "size() is the number of nodes after any history", "statement": "After any history of insert, erase, range erase, splice in all forms (count supplied correctly, or omitted), insert_parent, copy, move, assignment, swap and clear, size() returns the number of nodes, and size_valid() never claims that a wrong cached size is right.", "quantifier": "all histories of operations over any number of forests", "why_tests_cant": "The cached size is lazily invalidated with the sentinel 0, which is also a legal size; the interplay over long histories is not covered by any finite test.", "anchors": ["include/stlab/forest.hpp: forest::size", "include/stlab/forest.hpp: forest::size_valid", "include/stlab/forest.hpp: forest::splice", "include/stlab/forest.hpp: forest::erase", "include/stlab/forest.hpp: forest::insert"]}
{"id": "C09", "title": "copy, move and assignment of forests", "statement": "Copy construction yields an equal forest made of fresh nodes and leaves the source untouched; move construction and move assignment transfer exactly the source's nodes and leave the source empty; assignment releases the target's old nodes; swap exchanges contents.", "quantifier": "all forests", "why_tests_cant": "Independence of the copy and release of all old nodes are statements about the whole heap, for every shape.", "anchors": ["include/stlab/forest.hpp: forest::forest(const forest&)", "include/stlab/forest.hpp: forest::forest(forest&&)", "include/stlab/forest.hpp: forest::operator=", "include/stlab/forest.hpp: forest::swap", "include/stlab/forest.hpp: forest::insert(iterator, const_child_iterator, const_child_iterator)"]}
{"id": "C10", "title": "operator== decides equality of shape and values", "statement": "x == y returns true if and only if the two forests have the same tree structure and equal values at corresponding nodes.", "quantifier": "all pairs of forests over any value type with decidable equality", "why_tests_cant": "Both directions quantify over all pairs of shapes; the loop dereferences a second iterator without an end check.", "anchors": ["include/stlab/forest.hpp: operator=="]}
{"id": "C11", "title": "Forest operations never leak, double-free or touch freed nodes", "statement": "In every history of valid operations on any number of forests, the set of live heap nodes is always exactly the disjoint union of the nodes reachable from the forests; no operation reads, writes or deletes a node that is not live.", "quantifier": "all histories of valid operations, any allocator behaviour (addresses may be reused)", "why_tests_cant": "Memory safety over all histories; tests only exercise short ones, and leaks are silent.", "anchors": ["include/stlab/forest.hpp: forest (all modifiers)", "include/stlab/forest.hpp: node_base"]}
{"id": "C12", "title": "reverse(first, last) reverses a sibling range", "statement": "forest::reverse(first, last) (and unsafe::reverse_nodes on child iterators) leaves the forest with the sibling range [first,last) in reverse order, each with its subtree intact, and nothing else changed.", "quantifier": "all forests, all sibling ranges", "why_tests_cant": "No unit test calls it; only a statement over every range would expose that it is wrong for every non-empty range.", "anchors": ["include/stlab/forest.hpp: forest::reverse", "include/stlab/algorithm/reverse.hpp: unsafe::reverse_append", "include/stlab/algorithm/reverse.hpp: unsafe::reverse_nodes"]}
{"id": "C13", "title": "Parent, has_children and child ranges", "statement": "For every node: has_children is true iff it has a child; find_parent returns its parent (or the root position for a top-level node); iterating child_begin..child_end yields exactly its children in order, in both directions; child_adaptor front/back/push/pop act on the first/last child.", "quantifier": "all forests, all nodes", "why_tests_cant": "Ranges over every node of every shape; the parent search walks an unbounded number of siblings.", "anchors": ["include/stlab/forest.hpp: find_parent", "include/stlab/forest.hpp: has_children", "include/stlab/forest.hpp: child_iterator", "include/stlab/forest.hpp: child_begin", "include/stlab/forest.hpp: child_end", "include/stlab/forest.hpp: child_adaptor"]}
{"id": "C14", "title": "Preorder and postorder iteration visit every node exactly once", "statement": "preorder_range lists all nodes with parents before children, postorder_range with children before parents, siblings in order, each node exactly once, also when traversed backwards.", "quantifier": "all forests", "why_tests_cant": "Skipping the other edge is a search loop; only a proof covers every shape.", "anchors": ["include/stlab/forest.hpp: edge_iterator", "include/stlab/forest.hpp: find_edge", "include/stlab/forest.hpp: find_edge_reverse", "include/stlab/forest.hpp: preorder_range", "include/stlab/forest.hpp: postorder_range"]}
{"id": "C15", "title": "Reverse full-order iteration is the exact mirror", "statement": "reverse_fullorder_range yields the full order backwards with leading and trailing exchanged; base() converts back to the corresponding forward position.", "quantifier": "all forests, all positions", "why_tests_cant": "Edge flip and stored-predecessor representation must agree at every position of every shape.", "anchors": ["include/stlab/forest.hpp: reverse_fullorder_iterator"]}
{"id": "C16", "title": "depth_fullorder_iterator reports the nesting depth", "statement": "Iterating depth_range, forwards or backwards in any mixture of ++ and --, depth() at a position equals the number of ancestors of its node (same value on both edges).", "quantifier": "all forests, all walks of ++/-- staying in [begin,end]", "why_tests_cant": "A counter maintained incrementally over arbitrary walks.", "anchors": ["include/stlab/forest.hpp: depth_fullorder_iterator", "include/stlab/forest.hpp: depth_range"]}
{"id": "C17", "title": "filter_fullorder_iterator prunes exactly the rejected subtrees", "statement": "Iterating filter_fullorder_range(f, p) forwards yields the full order of the forest from which every subtree whose root fails p has been removed; going backwards visits the same positions in reverse.", "quantifier": "all forests, all predicates", "why_tests_cant": "Nested and adjacent rejected subtrees, rejection at first/last position; unbounded combinations.", "anchors": ["include/stlab/forest.hpp: filter_fullorder_iterator"]}
{"id": "C18", "title": "flatten/unflatten round trip and transcribe", "statement": "unflatten applied to the output of flatten on any forest rebuilds an equal forest; transcribe with a projection builds a forest of the same shape with projected values (predicate version: the filtered shape).", "quantifier": "all forests, all projections and predicates", "why_tests_cant": "A round trip over every shape; sampled round trips do not establish it.", "anchors": ["include/stlab/forest_algorithms.hpp: forests::flatten", "include/stlab/forest_algorithms.hpp: forests::unflatten", "include/stlab/forest_algorithms.hpp: forests::transcribe", "include/stlab/forest_algorithms.hpp: transcribe_iterator"]}
{"id": "C19", "title": "equal_shape decides equality of shape", "statement": "forests::equal_shape(x, y) is true iff x and y have the same tree structure, values ignored.", "quantifier": "all pairs of forests, whatever history produced them", "why_tests_cant": "Depends on the size cache of both arguments; a test that never splices a range cannot see the difference.", "anchors": ["include/stlab/forest_algorithms.hpp: forests::equal_shape"]}
{"id": "C20", "title": "reverse_until reverses from both ends until the mid point is met", "statement": "reverse_until(f, m, l) returns (a,b) with a == m or b == m; elements of [f,a) and [b,l) are each other's mirror images of the original, [a,b) is untouched; completing the reversal of [a,b) gives the reversal of [f,l). It terminates and stays inside [f,l).", "quantifier": "all sequences and all f <= m <= l", "why_tests_cant": "Universally quantified over lengths and mid points.", "anchors": ["include/stlab/algorithm/reverse.hpp: reverse_until"]}
{"id": "C21", "title": "task<> constructs and destroys each stored callable exactly once", "statement": "For any history of constructing, moving, move-assigning, swapping, nulling and destroying tasks (callables stored inline or on the heap), every callable object ever constructed inside a task is destroyed exactly once by the time all tasks are gone, none is used after destruction, and a task obtained by a move invokes the very callable that was moved. An empty task throws bad_function_call when invoked. The excluded histories are self-move-assignment (it destroys the callable and then moves from it), swapping a task with itself (std::swap does the same) and invoking a moved-from task; the first two are shown to be undefined behaviour.", "quantifier": "all histories over any number of task objects, both storage classes", "why_tests_cant": "Lifetime correctness is a property of all histories; leaks and double destructions are invisible to value-based tests.", "anchors": ["include/stlab/concurrency/task.hpp: task_", "include/stlab/concurrency/task.hpp: task_::model", "include/stlab/concurrency/task.hpp: task_::operator=", "include/stlab/concurrency/task.hpp: task_::swap"]}
{"id": "C22", "title": "pre_exit runs handlers in reverse registration order, each exactly once", "statement": "pre_exit() invokes every handler registered so far, most recent first, each exactly once; handlers registered by a running handler are invoked before any older one; registering after pre_exit has drained, or calling it twice, is rejected.", "quantifier": "all sequences of registrations, including registrations made by handlers while draining", "why_tests_cant": "Re-entrant registration patterns are unbounded trees of handlers.", "anchors": ["src/pre_exit.cpp: stlab_at_pre_exit", "src/pre_exit.cpp: stlab_pre_exit", "include/stlab/pre_exit.hpp"]}
{"id": "C23", "title": "The portable executor's queue serves highest priority first and FIFO within a priority", "statement": "For any interleaving of pushes and pops on one task queue of the portable pool, every pop returns the earliest-submitted task among those of the highest priority currently queued, each submitted task is returned at most once, and none vanishes (as long as at most 2^62 tasks were ever pushed; with one more the order can be violated).", "quantifier": "all sequences of push/pop with any priorities; any std heap implementation satisfying the standard's contract", "why_tests_cant": "The order is encoded in one 64-bit word (priority<<62 | counter) over a binary heap, which is not stable; only a proof covers all sequences and the overflow bound.", "anchors": ["include/stlab/concurrency/default_executor.hpp: notification_queue::merge_priority_count", "include/stlab/concurrency/default_executor.hpp: notification_queue::try_push", "include/stlab/concurrency/default_executor.hpp: notification_queue::push", "include/stlab/concurrency/default_executor.hpp: notification_queue::try_pop", "include/stlab/concurrency/default_executor.hpp: notification_queue::pop_not_empty"]}
{"id": "C24", "title": "The portable pool runs each submitted task exactly once and join drains the queues", "statement": "Under every schedule of worker threads, submitters, added threads, spurious wake-ups and spurious failures of try_lock, no task is executed twice; when join() returns, every task submitted before join() was called has been executed to its end, and nothing is running. join() always returns once no new work is submitted. (A task submitted during the drain may be destroyed unexecuted.)", "quantifier": "all schedules, any number of workers, submitters and tasks", "why_tests_cant": "Thread schedules cannot be enumerated by tests.", "anchors": ["include/stlab/concurrency/default_executor.hpp: priority_task_system::run", "include/stlab/concurrency/default_executor.hpp: priority_task_system::execute", "include/stlab/concurrency/default_executor.hpp: priority_task_system::join", "include/stlab/concurrency/default_executor.hpp: notification_queue::pop"]}
{"id": "C25", "title": "The portable pool does not lose wake-ups", "statement": "A pool thread is parked on its queue only while that queue is empty, unless the notification that wakes it is in progress; consequently, whenever no pool thread and no call can make progress, every task ever submitted has been executed.", "quantifier": "all schedules, including spurious wake-ups", "why_tests_cant": "A lost wake-up is a schedule-dependent hang.", "anchors": ["include/stlab/concurrency/default_executor.hpp: notification_queue::pop", "include/stlab/concurrency/default_executor.hpp: notification_queue::push", "include/stlab/concurrency/default_executor.hpp: notification_queue::try_push", "include/stlab/concurrency/default_executor.hpp: notification_queue::wake", "include/stlab/concurrency/default_executor.hpp: waiter"]}
{"id": "C26", "title": "Serial queue: tasks never overlap", "statement": "At any time at most one task submitted to a given serial queue is running, whatever executor it is built on and in both scheduling modes.", "quantifier": "all schedules of any number of submitting threads and executor threads; any executor that runs each given job at most once", "why_tests_cant": "Mutual exclusion quantifies over schedules.", "anchors": ["include/stlab/concurrency/serial_queue.hpp: serial_instance_t::enqueue", "include/stlab/concurrency/serial_queue.hpp: serial_instance_t::single", "include/stlab/concurrency/serial_queue.hpp: serial_instance_t::all", "include/stlab/concurrency/serial_queue.hpp: serial_instance_t::empty"]}
{"id": "C27", "title": "Serial queue: FIFO, exactly once, no task stranded", "statement": "Tasks of a serial queue start in the order they were enqueued, each at most once; whenever the queue's executor has no outstanding job and no enqueue call is in flight, every enqueued task has been run; from every state with an unfinished task the library has an enabled step and the number of remaining library steps is bounded.", "quantifier": "all schedules, both modes, tasks that enqueue further tasks included", "why_tests_cant": "A stranded task is a race between the running flag and the queue test, visible in few schedules.", "anchors": ["include/stlab/concurrency/serial_queue.hpp: serial_instance_t", "include/stlab/concurrency/serial_queue.hpp: schedule_mode"]}
{"id": "C28", "title": "Timer executor: never early, in due order", "statement": "With the portable system timer, no task is executed before its due time; tasks whose due times differ and that are both queued are started in due-time order; a task queued on a running timer is executed once its time has come; tasks still pending when the timer is stopped are dropped.", "quantifier": "all sequences of submissions with arbitrary due times, all schedules and clock advances", "why_tests_cant": "Depends on clock/condvar races.", "anchors": ["include/stlab/concurrency/system_timer.hpp: system_timer_type::timed_queue_run", "include/stlab/concurrency/system_timer.hpp: system_timer_type::operator()"]}
{"id": "C29", "title": "An executor made by execute_at/execute_delayed can be used for every task submitted to it", "statement": "Every task submitted to an executor returned by execute_at(d, e) or execute_delayed(d, e) is eventually handed to e exactly once, at once if d is zero, otherwise after d has elapsed.", "quantifier": "all sequences of submissions to one such executor, all durations", "why_tests_cant": "Tests use a fresh delayed executor per task; the failure needs two submissions through the same object.", "anchors": ["include/stlab/concurrency/executor_base.hpp: execute_at", "include/stlab/concurrency/executor_base.hpp: execute_delayed"]}
{"id": "C30", "title": "A future is resolved at most once and its result never changes", "statement": "Once a future is ready, its value or exception is the same for every observer for ever; a second invocation, set_exception or destruction of its packaged_task/promise has no effect.", "quantifier": "all histories and schedules of task invocation, set_exception, destruction, copies and observers", "why_tests_cant": "Races between completion, attachment and abandonment.", "anchors": ["include/stlab/concurrency/future.hpp: shared_base", "include/stlab/concurrency/future.hpp: packaged_task", "include/stlab/concurrency/future.hpp: promise", "include/stlab/concurrency/future.hpp: value_::set"]}
{"id": "C31", "title": "Every continuation is started exactly once, and only after its antecedent is ready", "statement": "Each continuation attached with then/recover to a future is handed to its executor exactly once, after the future is ready, whether it was attached before, during or after completion; continuations attached before completion are handed over in attachment order.", "quantifier": "all schedules of completing and attaching threads, any number of continuations", "why_tests_cant": "The attach/complete race has a window per interleaving.", "anchors": ["include/stlab/concurrency/future.hpp: shared_base::recover", "include/stlab/concurrency/future.hpp: shared_base::_set_exception", "include/stlab/concurrency/future.hpp: shared_base::proceed", "include/stlab/concurrency/future.hpp: value_::proceed"]}
{"id": "C32", "title": "Exceptions propagate along then-chains and stop at recover", "statement": "If a task throws, every future depending on it through then resolves with the same exception without running the then-function; a recover continuation is run with the failed future; otherwise a then-function receives exactly the antecedent's value.", "quantifier": "all chains/trees of then and recover of any length and all outcomes", "why_tests_cant": "Unbounded chain shapes.", "anchors": ["include/stlab/concurrency/future.hpp: future::then", "include/stlab/concurrency/future.hpp: future::recover", "include/stlab/concurrency/future.hpp: shared::operator()", "include/stlab/concurrency/future.hpp: value_::set"]}
{"id": "C33", "title": "Abandoning a promise breaks it", "statement": "If the packaged_task or promise of a future is destroyed without having been invoked, the future becomes ready with broken_promise (so its continuations and waiters are released).", "quantifier": "all histories and schedules", "why_tests_cant": "Requires considering every way the last handle can disappear, including move-assignment over it.", "anchors": ["include/stlab/concurrency/future.hpp: packaged_task::~packaged_task", "include/stlab/concurrency/future.hpp: promise::~promise", "include/stlab/concurrency/future.hpp: future_with_broken_promise"]}
{"id": "C34", "title": "Dropping the last future cancels the task", "statement": "If all futures for a task are destroyed before the task starts, its function is never called and is destroyed; the futures it captured are released in turn; a detached future is not cancelled.", "quantifier": "all dependency trees, all schedules of drop versus start", "why_tests_cant": "Race between start and drop; cascades of arbitrary depth.", "anchors": ["include/stlab/concurrency/future.hpp: packaged_task::operator()", "include/stlab/concurrency/future.hpp: shared_base::_detach", "include/stlab/concurrency/future.hpp: future::reset", "include/stlab/concurrency/future.hpp: future::detach"]}
{"id": "C35", "title": "A task that returns a future yields a flat future", "statement": "When a task's function returns a future, the task's own future resolves exactly when the inner one does and with the inner result or exception; an already-ready, pending, failing or invalid inner future are all covered.", "quantifier": "all outcomes and completion orders of outer and inner futures", "why_tests_cant": "Order of inner/outer completion and attachment is schedule-dependent.", "anchors": ["include/stlab/concurrency/future.hpp: package (reduction)", "include/stlab/concurrency/future.hpp: value_::proceed", "include/stlab/concurrency/future.hpp: future_with_broken_promise"]}
{"id": "C36", "title": "Future shared states are freed exactly when unreachable", "statement": "A shared state lives exactly as long as some future, running task, or pending detached continuation refers to it; when everything has completed and the client holds no futures, no shared state remains.", "quantifier": "all histories and schedules", "why_tests_cant": "Leaks through reference cycles (detach stores a self reference) are invisible to result-checking tests.", "anchors": ["include/stlab/concurrency/future.hpp: shared_base::_detach", "include/stlab/concurrency/future.hpp: shared_base", "include/stlab/concurrency/future.hpp: recover"]}
{"id": "C37", "title": "when_all (argument pack) delivers all values or the first failure", "statement": "The continuation of when_all(ex, f, futures...) is called exactly once, with every argument in its position (void arguments omitted), if and only if all arguments succeed; if any fails, the result resolves with the exception of the first failure to arrive, f is not called, and remaining arguments are released.", "quantifier": "all numbers of futures, all arrival orders and outcome combinations, including arguments already ready at the call", "why_tests_cant": "n! * 2^n arrival patterns and races with the attachment loop.", "anchors": ["include/stlab/concurrency/future.hpp: when_all", "include/stlab/concurrency/future.hpp: when_all_shared", "include/stlab/concurrency/future.hpp: attach_when_args", "include/stlab/concurrency/future.hpp: apply_when_all_args"]}
{"id": "C38", "title": "when_any (argument pack) delivers the first success, or the last failure", "statement": "The continuation of when_any(ex, f, futures...) is called exactly once with the value and index of the first future to succeed; only if all fail does the result resolve with an exception, namely that of the last to fail.", "quantifier": "all numbers of futures, all arrival orders and outcome combinations", "why_tests_cant": "n! * 2^n arrival patterns.", "anchors": ["include/stlab/concurrency/future.hpp: when_any", "include/stlab/concurrency/future.hpp: when_any_shared"]}
{"id": "C39", "title": "when_all over a range", "statement": "when_all(ex, f, range) calls f once with the vector of all results in range order iff all succeed, otherwise resolves with the first failure; for an empty range f is called with an empty vector.", "quantifier": "all range lengths, arrival orders and outcomes", "why_tests_cant": "Unbounded length and order.", "anchors": ["include/stlab/concurrency/future.hpp: when_all(const E&, F, std::pair<I,I>)", "include/stlab/concurrency/future.hpp: all_trigger", "include/stlab/concurrency/future.hpp: single_trigger", "include/stlab/concurrency/future.hpp: common_context"]}
{"id": "C40", "title": "when_any over a range", "statement": "when_any(ex, f, range) calls f once with the first success and its index; if all fail it resolves with the last failure; an empty range resolves with broken_promise.", "quantifier": "all range lengths, arrival orders and outcomes", "why_tests_cant": "Unbounded length and order.", "anchors": ["include/stlab/concurrency/future.hpp: when_any(const E&, F, std::pair<I,I>)", "include/stlab/concurrency/future.hpp: single_trigger", "include/stlab/concurrency/future.hpp: all_trigger", "include/stlab/concurrency/future.hpp: common_context"]}
{"id": "C41", "title": "await returns the future's result and never misses the completion", "statement": "await(f) returns the value or rethrows the exception f resolved with, under every interleaving of completion and waiting; it returns whenever f becomes ready.", "quantifier": "all schedules", "why_tests_cant": "A missed notification needs a specific interleaving.", "anchors": ["include/stlab/concurrency/await.hpp: await", "include/stlab/concurrency/await.hpp: invoke_waiting"]}
{"id": "C42", "title": "await_for never loses the value", "statement": "await_for(f, t) returns either a ready future holding f's result, or after the timeout a pending future which later resolves with exactly f's result; a completion racing with the timeout is never dropped.", "quantifier": "all schedules of completion versus timeout", "why_tests_cant": "The race window is a few instructions wide.", "anchors": ["include/stlab/concurrency/await.hpp: await_for", "include/stlab/concurrency/await.hpp: blocking_get_for"]}
{"id": "C43", "title": "A channel process receives messages in order, exactly once", "statement": "In a channel sender -> process, the messages passed to the process are exactly those sent, in the order in which the sends were serialised, without loss or duplication, under every schedule.", "quantifier": "all message sequences and schedules", "why_tests_cant": "Schedules of sender/executor threads.", "anchors": ["include/stlab/concurrency/channel.hpp: shared_process", "include/stlab/concurrency/channel.hpp: default_queue_strategy", "include/stlab/concurrency/channel.hpp: sender", "include/stlab/concurrency/channel.hpp: receiver"]}
{"id": "C44", "title": "A channel process never runs concurrently with itself", "statement": "With the default buffer size the body of a process is never executed by two threads at once and each executor job corresponds to one activation, under every schedule.", "quantifier": "all schedules of senders, clear-to-send signals and executor threads", "why_tests_cant": "Data races are schedule-dependent.", "anchors": ["include/stlab/concurrency/channel.hpp: shared_process::enqueue", "include/stlab/concurrency/channel.hpp: shared_process::clear_to_send", "include/stlab/concurrency/channel.hpp: shared_process::task_done", "include/stlab/concurrency/channel.hpp: shared_process::run"]}
{"id": "C45", "title": "Channels do not stall: no message is left unprocessed while its process is idle", "statement": "With the default buffer size, whenever no executor job is pending or running, a channel's queues are empty (merges: no complete set of messages is left), unless an error message reached a function process.", "quantifier": "all schedules and message sequences", "why_tests_cant": "A lost wake-up is schedule-dependent.", "anchors": ["include/stlab/concurrency/channel.hpp: shared_process::task_done", "include/stlab/concurrency/channel.hpp: shared_process::enqueue", "include/stlab/concurrency/channel.hpp: shared_process::clear_to_send", "include/stlab/concurrency/channel.hpp: shared_process::step"]}
{"id": "C46", "title": "Closing a channel is delivered once, after all messages", "statement": "When all senders of a channel are gone, every already-sent message is still processed, and then the downstream is told exactly once that the channel is closed.", "quantifier": "all schedules of sends and closes, any number of sender copies", "why_tests_cant": "Race between close and pending messages.", "anchors": ["include/stlab/concurrency/channel.hpp: shared_process::remove_sender", "include/stlab/concurrency/channel.hpp: shared_process::dequeue", "include/stlab/concurrency/channel.hpp: sender_indexed::remove_sender"]}
{"id": "C47", "title": "zip and zip_with deliver aligned tuples", "statement": "The k-th value delivered by zip_with/zip over n upstreams is made of the k-th message of every upstream, and is delivered as soon as all n have arrived.", "quantifier": "all arrival interleavings of any number of upstreams", "why_tests_cant": "Interleavings of n streams.", "anchors": ["include/stlab/concurrency/channel.hpp: zip_with_queue_strategy", "include/stlab/concurrency/channel.hpp: zip", "include/stlab/concurrency/channel.hpp: zip_with"]}
{"id": "C48", "title": "round_robin delivers in strict rotation", "statement": "merge_channel<round_robin_t> over n upstreams delivers message number k*n+i as the k-th message of upstream i, and never delivers out of that order.", "quantifier": "all arrival interleavings of any number of upstreams", "why_tests_cant": "Interleavings of n streams.", "anchors": ["include/stlab/concurrency/channel.hpp: round_robin_queue_strategy"]}
{"id": "C49", "title": "unordered merge preserves each upstream's order and loses nothing", "statement": "merge_channel<unordered_t> delivers an interleaving of the upstream sequences: every message exactly once and per-upstream order preserved.", "quantifier": "all arrival interleavings of any number of upstreams", "why_tests_cant": "Interleavings of n streams.", "anchors": ["include/stlab/concurrency/channel.hpp: unordered_queue_strategy"]}
{"id": "C50", "title": "Exceptions in a channel reach downstream and do not block it", "statement": "If a process throws, the exception is passed downstream in place of the value; a downstream function process without error handler passes it on or closes, and messages sent later are still handled.", "quantifier": "all positions of the failure in a message sequence", "why_tests_cant": "Needs failure followed by further traffic at every position.", "anchors": ["include/stlab/concurrency/channel.hpp: shared_process::step", "include/stlab/concurrency/channel.hpp: find_argument_error", "include/stlab/concurrency/channel.hpp: broadcast"]}
{"id": "C51", "title": "free_buffer reports the remaining buffer space", "statement": "sender::free_buffer() returns a number between 0 and the configured buffer size (or nothing for unlimited buffers), whatever number of messages is queued.", "quantifier": "all buffer sizes and numbers of queued messages", "why_tests_cant": "Needs more queued messages than the buffer size, which explicit sends permit.", "anchors": ["include/stlab/concurrency/channel.hpp: sender_indexed::free_buffer", "include/stlab/concurrency/channel.hpp: sender::free_buffer"]}
{"id": "C52", "title": "Process annotations combine in any order", "statement": "Combining a process with an executor and a buffer_size by operator& yields a process carrying both annotations, whatever the order of the operands.", "quantifier": "all orders and values of annotations", "why_tests_cant": "Tests check compilation of some orders, not that the annotation is effective in each.", "anchors": ["include/stlab/concurrency/channel.hpp: operator&(annotated_process<F>&&, const executor&)", "include/stlab/concurrency/channel.hpp: operator&(annotated_process<F>&&, buffer_size)"]}
{"id": "C53", "title": "progress_tracker counts live and completed tasks", "statement": "While the tracker exists, steps() equals the number of live tracked functions and completed() the number of their invocations that returned, after any history of wrapping, copying, moving, assigning, invoking and destroying tracked functions; completed() never exceeds steps().", "quantifier": "all histories", "why_tests_cant": "Assignment over a tracked function is a history tests do not contain.", "anchors": ["include/stlab/concurrency/progress.hpp: progress_tracker", "include/stlab/concurrency/progress.hpp: tracker_client", "include/stlab/concurrency/progress.hpp: tracker_server"]}
{"id": "C54", "title": "Tuple and index-sequence algorithms", "statement": "tuple_find returns the index of the first element satisfying the predicate (or a value >= the size); get_i/void_i act on exactly the i-th element; apply_ignore_placeholders/remove_placeholder drop exactly the placeholders and keep the order; index_sequence_transform yields the concatenation of the per-index results in index order; all_true is true if and only if all of its arguments are.", "quantifier": "all tuple lengths, contents and index sequences", "why_tests_cant": "Template recursion over arbitrary lengths; tests instantiate a few.", "anchors": ["include/stlab/concurrency/tuple_algorithm.hpp: tuple_find", "include/stlab/concurrency/tuple_algorithm.hpp: get_i", "include/stlab/concurrency/tuple_algorithm.hpp: void_i", "include/stlab/concurrency/tuple_algorithm.hpp: tuple_for_each", "include/stlab/utility.hpp: index_sequence_transform", "include/stlab/concurrency/traits.hpp: all_true"]}
{"id": "C55", "title": "The portable pool never lets a thread sleep while a task is queued", "statement": "Whenever a task is queued and no submission is in progress, no thread of the pool is parked; so a queued task never has to wait for a particular running task to end while another thread is idle.", "quantifier": "all schedules, any number of threads and tasks", "why_tests_cant": "It is about every reachable interleaving; a test only sees the schedules the machine happens to produce.", "anchors": ["include/stlab/concurrency/default_executor.hpp: priority_task_system::execute", "include/stlab/concurrency/default_executor.hpp: notification_queue::try_push", "include/stlab/concurrency/default_executor.hpp: priority_task_system::run"]}
{"id": "C56", "title": "Channel networks come to rest", "statement": "Left alone by its clients, a network of channels with the default buffer size comes to rest after a bounded number of steps, whatever the schedule and whatever the processes' functions return or throw (if they return or throw); no job waits for another one on the way. So do networks with other buffer sizes, unless they reach undefined behaviour.", "quantifier": "all networks, schedules and message sequences", "why_tests_cant": "Termination under every schedule; a test that ends shows one schedule that ends.", "anchors": ["include/stlab/concurrency/channel.hpp: shared_process::step", "include/stlab/concurrency/channel.hpp: shared_process::clear_to_send", "include/stlab/concurrency/channel.hpp: shared_process::broadcast", "include/stlab/concurrency/channel.hpp: shared_process::task_done"]}
{"id": "C57", "title": "Processes with await() and yield(): messages once, in order, calls exclusive", "statement": "The messages sent to a process with await() and yield() are handed to await() (values) and set_error() (errors), once each, in the order of sending; when everything has come to rest none is left. No two of the process's functions are ever executed at the same time.", "quantifier": "all processes (any states reported, any results and exceptions), message sequences and schedules", "why_tests_cant": "Loss, duplication and overlap depend on interleavings of the executor's threads, the senders and the timer.", "anchors": ["include/stlab/concurrency/channel.hpp: shared_process::step (yield and await)", "include/stlab/concurrency/channel.hpp: shared_process::dequeue", "include/stlab/concurrency/channel.hpp: shared_process::try_broadcast", "include/stlab/concurrency/channel.hpp: sender::operator()"]}
{"id": "C58", "title": "Processes with yield() are called as their state asks", "statement": "await(), set_error() and close() are only called while state() reports await; yield() is only called while it reports yield, or await with a time that is up.", "quantifier": "all processes, message sequences and schedules", "why_tests_cant": "The state is reported by user code and read at many points of the library; only a proof covers all interleavings of messages, timeouts and completions.", "anchors": ["include/stlab/concurrency/channel.hpp: shared_process::step (yield and await)", "include/stlab/concurrency/channel.hpp: get_process_state", "include/stlab/concurrency/channel.hpp: shared_process::try_broadcast"]}
{"id": "C59", "title": "Results of yield(): every process downstream, in order, at its pace", "statement": "Every process attached downstream receives each result of yield(), and each exception thrown by the process, in order; it misses at most the last one, and none at rest. No function of the process is called while a process downstream has not yet taken a previous result.", "quantifier": "all processes, any number of downstream processes, all schedules", "why_tests_cant": "Back pressure is a relation between counters updated from different threads.", "anchors": ["include/stlab/concurrency/channel.hpp: shared_process::broadcast", "include/stlab/concurrency/channel.hpp: shared_process::clear_to_send", "include/stlab/concurrency/channel.hpp: downstream::send"]}
{"id": "C60", "title": "Closing of processes with yield()", "statement": "When all senders of a process are gone and its messages are dealt with, close() is called and then the processes downstream are closed, once; not before.", "quantifier": "all processes and schedules", "why_tests_cant": "Whether the close is lost depends on when the last sender goes away relative to every step of the process.", "anchors": ["include/stlab/concurrency/channel.hpp: shared_process::remove_sender", "include/stlab/concurrency/channel.hpp: shared_process::pop_from_queue", "include/stlab/concurrency/channel.hpp: shared_process::dequeue", "include/stlab/concurrency/channel.hpp: shared_process::task_done", "include/stlab/concurrency/channel.hpp: shared_process::clear_to_send"]}
{"id": "C61", "title": "A process with yield() is never used after it is gone", "statement": "The library never calls a function of a process that task_done() has destroyed, nor a process downstream that is gone.", "quantifier": "all processes and schedules, including timeouts that fire late", "why_tests_cant": "The timer may fire at any time after the process has closed.", "anchors": ["include/stlab/concurrency/channel.hpp: shared_process::task_done", "include/stlab/concurrency/channel.hpp: get_process_state", "include/stlab/concurrency/channel.hpp: shared_process::step (yield and await): the timeout"]}
{"id": "C62", "title": "A process with yield() left alone comes to rest and can be started again", "statement": "Left alone, a process makes boundedly many steps until it is at rest or in one of the user's functions; at rest it is either closed or will react to the next message.", "quantifier": "all processes and schedules", "why_tests_cant": "Termination and the absence of lost wake-ups are about all schedules.", "anchors": ["include/stlab/concurrency/channel.hpp: shared_process::run", "include/stlab/concurrency/channel.hpp: shared_process::step", "include/stlab/concurrency/channel.hpp: shared_process::clear_to_send", "include/stlab/concurrency/channel.hpp: shared_process::task_done"]}
{"id": "C63", "title": "A continuation of a future of a move-only value is called exactly once, whichever comes first", "statement": "A continuation attached with then, recover or detach(f) to a future whose value cannot be copied is called at most once, and only after the promise has been fulfilled or broken, whether it was attached before, during or after that. When the promise is gone and nothing is under way, every continuation has been called, unless the future it returned, or the executor, has destroyed it.", "quantifier": "all sequences of then, recover, detach, get_try and destruction, all times at which the promise is fulfilled or broken, all executors and interleavings", "why_tests_cant": "Attaching and resolving race for one slot; a test runs few of the interleavings.", "anchors": ["include/stlab/concurrency/future.hpp: shared_base (not copyable)::recover", "include/stlab/concurrency/future.hpp: shared_base (not copyable)::_detach", "include/stlab/concurrency/future.hpp: shared_base (not copyable)::_set_exception", "include/stlab/concurrency/future.hpp: value_ (not copyable)::proceed"]}
{"id": "C64", "title": "The value of a future that cannot be copied is handed over once, whole", "statement": "A future is resolved at most once. Of all those who read the value of a move-only future (get_try, then, in any order) exactly the first one gets the value; a continuation attached with then is that one. An exception is reported to all.", "quantifier": "all sequences of reads and continuations, values and exceptions, and interleavings", "why_tests_cant": "Who is first depends on the schedule and on what was called before on the same future.", "anchors": ["include/stlab/concurrency/future.hpp: shared_base (not copyable)::get_try_r", "include/stlab/concurrency/future.hpp: future (not copyable)::then", "include/stlab/concurrency/future.hpp: future (not copyable)::get_try"]}
{"id": "C65", "title": "Lifetime of the shared state of a move-only future; detach()", "statement": "The shared state is not used after its destruction, is destroyed at most once, not while there is a handle or a continuation that owns one, and is destroyed when the handle, the promise and the continuation are gone. After detach() it stays until the promise has been resolved, whatever else is done with the future.", "quantifier": "all sequences of operations and interleavings, including move assignment of promises", "why_tests_cant": "The function of detach lives in the state that it owns; cycles and races of the last owners do not show in tests of results.", "anchors": ["include/stlab/concurrency/future.hpp: shared_base (not copyable)::_detach", "include/stlab/concurrency/future.hpp: promise::~promise", "include/stlab/concurrency/future.hpp: packaged_task::operator=", "include/stlab/concurrency/future.hpp: future (not copyable)::detach"]}
{"id": "C66", "title": "A coroutine's future gets the result that the coroutine's text defines, in every schedule", "statement": "A coroutine that returns stlab::future and awaits futures - of other coroutines or fulfilled elsewhere - resolves its own future with what a sequential evaluation of it yields, exceptions included; two schedules in which the outside futures get the same outcomes give the same results; and when the library has come to rest every coroutine whose evaluation needs only futures that are ready has its result.", "quantifier": "all coroutines (any tree of awaits, returns and throws), any number of them awaiting one another, all orders of starting and fulfilling, all interleavings", "why_tests_cant": "Whether the awaited future becomes ready before await_ready, between await_ready and detach, or after, differs from run to run; programs are unbounded.", "anchors": ["include/stlab/concurrency/future.hpp: coroutine_traits::promise_type", "include/stlab/concurrency/future.hpp: operator co_await"]}
{"id": "C67", "title": "A suspended coroutine is resumed once, and its frame is used only while it exists", "statement": "For each co_await the coroutine is resumed exactly once, not before the awaited future is ready, with that future's outcome, and in program order. It is not resumed while it runs or after it has ended; it resolves its future at most once, and its frame is destroyed exactly once, after that. At rest a coroutine that has begun and not ended waits for a future that is not ready. No schedule goes on for ever.", "quantifier": "all coroutines, all orders of starting and fulfilling, all interleavings", "why_tests_cant": "A double resumption or a use of a destroyed frame is undefined behaviour in a window between await_suspend and the thread that fulfils the future.", "anchors": ["include/stlab/concurrency/future.hpp: operator co_await", "include/stlab/concurrency/future.hpp: coroutine_traits::promise_type", "include/stlab/concurrency/future.hpp: shared_base::_detach"]}
{"id": "C68", "title": "A process whose results cannot be copied delivers every result once, in order, to the process attached", "statement": "A function process whose result type is move-only deals with its messages in the order in which they were sent, one at a time. Each result, or exception, is sent once, in order, to the process attached to its receiver; when the last sender is gone and every message has been dealt with, that process is told so, and not before. Nothing is left behind whatever is attached: with no process attached the messages are still dealt with, and each of several processes attached is served or the attaching is refused.", "quantifier": "all sequences of sends, drops and attachments; all interleavings of senders, jobs and answers from downstream; all outcomes of the user's function", "why_tests_cant": "The number of answers to wait for is counted separately from the process that gives them; whether it matches depends on what is attached and on the order of sends and answers, and a mismatch shows only as a message that is never dealt with.", "anchors": ["include/stlab/concurrency/channel.hpp: downstream (move-only)", "include/stlab/concurrency/channel.hpp: shared_process::broadcast", "include/stlab/concurrency/channel.hpp: shared_process::clear_to_send", "include/stlab/concurrency/channel.hpp: shared_process::map"]}
{"id": "C69", "title": "A serial queue exists as long as it has anything to do, and leaves nothing behind", "statement": "Whoever holds a serial_queue_t or an executor of it may drop it at any time: tasks submitted before are still executed, in order, each destroyed exactly once and not before it has ended, and the queue itself is destroyed once, with the last reference, after which nothing happens; it is never used after that. This holds as well if the underlying executor discards a job: tasks submitted afterwards are executed, and nothing leaks.", "quantifier": "all interleavings of submitting, copying and dropping handles and executing; both schedule modes; tasks that hold an executor of the queue themselves; executors that discard jobs", "why_tests_cant": "The last reference can disappear at any moment on any thread, while a task is executing, being submitted or being destroyed; a use after that is undefined behaviour.", "anchors": ["include/stlab/concurrency/serial_queue.hpp: serial_instance_t::enqueue", "include/stlab/concurrency/serial_queue.hpp: serial_instance_t::all", "include/stlab/concurrency/serial_queue.hpp: serial_instance_t::single", "include/stlab/concurrency/serial_queue.hpp: serial_queue_t::executor"]}
{"id": "C70", "title": "What a task of a serial queue holds is destroyed before the next task starts", "statement": "When a task of a serial queue starts, every task started before it has not only ended but has been destroyed, with everything it captured, so that destructors of captured objects do not run concurrently with a later task.", "quantifier": "all interleavings, both schedule modes", "why_tests_cant": "The overlap exists only between the resubmission of the queue and the end of the function that resubmits it, on another thread.", "anchors": ["include/stlab/concurrency/serial_queue.hpp: serial_instance_t::all", "include/stlab/concurrency/serial_queue.hpp: serial_instance_t::single"]}
{"id": "C71", "title": "When pre_exit returns, all tasks are done and none begins later", "statement": "When pre_exit() returns, every task given to the default executor before it was called (and, where the pool accepts them, those submitted by tasks meanwhile) has been executed, no task is executing, and none, timed tasks included, begins afterwards. No task finds an executor or timer gone, and pre_exit does return when tasks stop submitting.", "quantifier": "all interleavings of tasks, timers and pre_exit; libdispatch, portable and Windows variants; any order of first use of executors and timer", "why_tests_cant": "What is left at exit depends on which of the lazily constructed executors and timers was used first and on which task fires between two handlers; tests call pre_exit when idle, and run one variant.", "anchors": ["src/pre_exit.cpp: stlab_pre_exit", "src/concurrency/default_executor.cpp: group, pts, single_task_system", "include/stlab/concurrency/system_timer.hpp: system_timer"]}
{"id": "C72", "title": "Awaiting inside the pool does not starve the pool", "statement": "A task on the default executor may call await: the thread it occupies is made up for. When the pool comes to rest, every task that was queued when somebody called await has been started; if tasks await only tasks they have submitted (fork and join), then every submitted task has ended, on any number of cores. Left alone, the pool comes to rest.", "quantifier": "all interleavings of any number of pool threads, expansion threads, tasks that submit and await, and clients; all outcomes of try_lock; spurious wake-ups", "why_tests_cant": "Whether somebody looks at the queue of a thread that waits depends on which threads sleep, scan or wake at that instant; a missed wake-up is a hang in one interleaving in very many, and tests run on machines with many cores.", "anchors": ["include/stlab/concurrency/await.hpp: invoke_waiting, await", "include/stlab/concurrency/default_executor.hpp: priority_task_system::wake, add_thread, execute, run"]}
{"id": "C73", "title": "pre_exit joins the pool: nothing runs afterwards, nothing submitted before is lost", "statement": "When pre_exit has joined the default executor's threads, every task submitted before the call has been run, no thread of the pool is left, nothing executes afterwards and nothing touches the pool's queues any more, though tasks that are still running submit and await further tasks. What tasks submit meanwhile is run, too. Unless a task awaits something that does not come, join returns.", "quantifier": "all interleavings of join with any number of pool threads, expansion threads, and tasks that submit and await; all outcomes of try_lock; spurious wake-ups", "why_tests_cant": "The windows are between join's marking of the queues, its reading of the list of threads, and a wake-up or a new thread caused by a running task; a test that exits normally never meets them.", "anchors": ["include/stlab/concurrency/default_executor.hpp: priority_task_system::join, run, add_thread, wake, execute, waiter::wait, notification_queue::pop", "src/concurrency/default_executor.cpp: pre_exit registration", "include/stlab/concurrency/await.hpp: invoke_waiting"]}
{"id": "C74", "title": "A progress_tracker's callback reports every completion, truthfully, and in order", "statement": "For each invocation of a tracked function that returns, the callback given to progress_tracker is called exactly once; the numbers of steps and completions it is given were current at a moment after that invocation returned; once all have returned and reported, the total has been reported. The callback is called by one thread at a time and the numbers of completions it sees go 1, 2, 3, ...", "quantifier": "all interleavings of any number of threads invoking tracked functions, and of making and destroying tracked functions; either order of evaluating the arguments of the callback", "why_tests_cant": "Whether the last report is the total depends on what happens between reading the counter and calling the callback; a test sees one interleaving.", "anchors": ["include/stlab/concurrency/progress.hpp: tracker_server::task_done", "include/stlab/concurrency/progress.hpp: tracker_client::operator()"]}
{"id": "C75", "title": "The portable pool starts tasks of higher priority first", "statement": "Whenever a thread of the portable default executor starts a task, no task of higher priority is waiting that was submitted through high_executor, default_executor or low_executor, and none of the same priority that was submitted earlier.", "quantifier": "all interleavings of submissions of any priorities with any number of pool threads and added threads, all outcomes of try_lock, any std heap implementation", "why_tests_cant": "Which queue a task gets and which thread takes it depend on the schedule; a test with an idle pool sees each task started at once.", "anchors": ["include/stlab/concurrency/default_executor.hpp: priority_task_system::execute, run, add_thread", "include/stlab/concurrency/default_executor.hpp: notification_queue::merge_priority_count, try_pop, pop"]}
{"id": "C76", "title": "Copies of a future can be used in different threads without a data race on the value", "statement": "Threads that each have their own future of one shared state may read it, consume it (get_ready() of an rvalue, which moves the value out if it is the last owner), copy it, hand it over and destroy it, without a data race on the value: any two accesses one of which moves the value out are ordered by happens-before.", "quantifier": "all executions with any number of threads, futures and hand-overs", "why_tests_cant": "The missing ordering is invisible on hardware that orders more than the language does; sanitizers see it only if the schedule and the model of use_count() coincide.", "anchors": ["include/stlab/concurrency/future.hpp: unique_usage", "include/stlab/concurrency/future.hpp: shared_base::get_ready_r", "include/stlab/concurrency/future.hpp: future::get_ready"]}
{"id": "C77", "title": "annotate_counters::wait returns when the given number of objects is left", "statement": "annotate_counters::wait(n) returns only when n annotate objects that refer to the counters are left (those constructed less those destroyed); if after a destruction n objects are left and no more are made or destroyed, a pending wait(n) returns; and when it has returned the counters can be destroyed if n is 0.", "quantifier": "all numbers of objects, all n, all interleavings of copies, destructions and the steps of the waiting thread, with any spurious wake-ups", "why_tests_cant": "The lost notification needs the last destruction to fall between the evaluation of the predicate and the beginning of waiting: a window of a few instructions.", "anchors": ["include/stlab/test/model.hpp: annotate_counters::wait", "include/stlab/test/model.hpp: annotate_counters::remaining", "include/stlab/test/model.hpp: annotate::~annotate"]}
{"id": "C78", "title": "make_ready_future and make_exceptional_future return futures that are ready", "statement": "make_ready_future(v, e) returns a future that is ready with v, and make_exceptional_future<T>(x, e) one that is ready with the exception x: reading it gives v or x; no task is given to the executor and no user function is called; it is the only owner of a new shared state, and no other future changes; a continuation attached to it is handed to its executor by the thread that attaches it.", "quantifier": "all values, exceptions and states of the program's other futures; the call not interleaved with other threads", "why_tests_cant": "Tests call it with a few values in an otherwise idle program.", "anchors": ["include/stlab/concurrency/ready_future.hpp: make_ready_future", "include/stlab/concurrency/ready_future.hpp: make_exceptional_future", "include/stlab/concurrency/future.hpp: packaged_task"]}
{"id": "C79", "title": "The portable pool has the sizes that it is configured to have", "statement": "For every value of std::thread::hardware_concurrency() and of STLAB_TASK_POOL_MAXIMUM the portable pool has at least one thread and one queue for each, there is room for at least one expansion thread, the limit of threads is odd, and (README) the number of threads is at most the maximum if there is one, and hardware_concurrency() otherwise.", "quantifier": "all configurations and all numbers of cores", "why_tests_cant": "Tests run on one machine in one configuration.", "anchors": ["include/stlab/concurrency/default_executor.hpp: priority_task_system::hardware_concurrency", "include/stlab/concurrency/default_executor.hpp: priority_task_system::_count", "include/stlab/concurrency/default_executor.hpp: priority_task_system::_thread_limit"]}
{"id": "C80", "title": "A throwing element leaves forests intact and leaks nothing", "statement": "If the construction of an element throws, (a) insert(position, first, last) leaves a well-formed forest which has, at the position, copies of exactly the elements of the range that were constructed before, in their places relative to each other, and the source is unchanged; (b) copy construction and copy assignment leave every forest, the source and the target among them, as it was, and no node remains allocated that was not allocated before.", "quantifier": "all forests, all ranges and positions, every element whose construction may be the one that throws", "why_tests_cant": "A test throws from one element of one forest, and the leak is not visible through the API; the claim is for every element of every forest.", "anchors": ["include/stlab/forest.hpp: forest::forest(const forest&)", "include/stlab/forest.hpp: forest::operator=(const forest&)", "include/stlab/forest.hpp: forest::insert(iterator, const_child_iterator, const_child_iterator)"]}
{"id": "C81", "title": "A forest may be given a copy of one of its own ranges", "statement": "insert(position, first, last) where [first, last) is a range of siblings of the forest inserted into ends, returns the position, and leaves the forest as it was but for copies of the trees of the range, with equal elements in the same shape, just before the position; the original range is unchanged.", "quantifier": "all forests, all sibling ranges of them, all positions in them", "why_tests_cant": "Whether the loop ends depends on where the position is with respect to the range; a test tries one position of one forest, and a loop that does not end gives no result to compare.", "anchors": ["include/stlab/forest.hpp: forest::insert(iterator, const_child_iterator, const_child_iterator)"]}
{"id": "C82", "title": "With any buffer sizes a network loses and invents nothing", "statement": "Whatever the buffer sizes of its processes, (a) the messages that a process has dealt with, together with those that its jobs have taken and not yet dealt with, are those that its kind (single, zip_with, round_robin, merge_channel unordered) makes of the sequences sent to its ports, up to their order: none is lost, repeated or made up; (b) every call has at most one result, and exactly one when nothing is going on; (c) what is sent to a process attached to another is, up to its order, part of the results of that one since it was attached, and all of them if that one has not closed, the receiving process has not been destroyed, and nothing is going on.", "quantifier": "all networks, all buffer sizes, all clients and schedules", "why_tests_cant": "With a buffer size other than one several jobs of one process run at once; which messages could go missing depends on the schedule.", "anchors": ["include/stlab/concurrency/channel.hpp: shared_process::pop_from_queue", "include/stlab/concurrency/channel.hpp: shared_process::step", "include/stlab/concurrency/channel.hpp: shared_process::broadcast", "include/stlab/concurrency/channel.hpp: shared_process::clear_to_send"]}
{"id": "C83", "title": "Node chains: splice and skip", "statement": "For any type of nodes with a set_next: splice_node_range puts the range of nodes from first to last behind location, keeping the order of both; skip_next_node and skip_node take out exactly one node. Valid ranges stay valid and no link of another node changes, for nodes linked in one and in both directions.", "quantifier": "all chains, positions and node types", "why_tests_cant": "The operations are templates over any node type and positions at either end of a chain; the repository's tests only use them through forest.", "anchors": ["include/stlab/iterator/set_next.hpp: unsafe::splice_node_range", "include/stlab/iterator/set_next.hpp: unsafe::skip_next_node", "include/stlab/iterator/set_next.hpp: unsafe::skip_node"]}
{"id": "C84", "title": "Node chains: reversal", "statement": "reverse_append(first, last, end) relinks the nodes of [first, last) in reverse order in front of end and returns the first of them; reverse_nodes(first, last) does so in front of last. For any type of nodes.", "quantifier": "all chains and node types", "why_tests_cant": "One wrong identifier makes every non-empty range come out empty; the tests do not look at node types other than forest's.", "anchors": ["include/stlab/algorithm/reverse.hpp: unsafe::reverse_append", "include/stlab/algorithm/reverse.hpp: unsafe::reverse_nodes"]}
{"id": "C85", "title": "when_all, when_any: cancelling the other arguments completes", "statement": "When an argument decides the result (the first exception for when_all, the first value for when_any over a range), all the other arguments attached are cancelled, the result's task is called, and the context's mutex is free again, whatever the cancelled arguments' tasks own, for any executor. In particular no thread locks the context's mutex while it holds it.", "quantifier": "all numbers of arguments, all ownership of arguments' promises by arguments' tasks, all orders of attaching, starting, completing and executing, immediate and other executors", "why_tests_cant": "It takes an argument whose task owns the promise of a later argument and has not been started when another argument decides; the tests use independent arguments.", "anchors": ["include/stlab/concurrency/future.hpp: when_all_shared::failure", "include/stlab/concurrency/future.hpp: single_trigger::go", "include/stlab/concurrency/future.hpp: attach_when_arg_", "include/stlab/concurrency/future.hpp: attach_tasks", "include/stlab/concurrency/future.hpp: promise::~promise", "include/stlab/concurrency/future.hpp: packaged_task::~packaged_task"]}
{"id": "C86", "title": "Windows timer: not before the time", "statement": "A function given to the Windows system_timer with a duration is not executed before the duration is over; it may be executed as soon as it is over; and functions become due in the order of their times. For all durations and points in time.", "quantifier": "all durations (in ns), all values of the system clock", "why_tests_cant": "The deadline goes through time_t, calendar fields and milliseconds; a test that sleeps cannot tell a rounding of less than a millisecond, nor wait for a date that gmtime_s refuses.", "anchors": ["include/stlab/concurrency/system_timer.hpp: duration_to_FILETIME", "include/stlab/concurrency/system_timer.hpp: system_timer::operator() (Windows)"]}
{"id": "C87", "title": "System executors and timers: functions are executed and deleted once", "statement": "A function handed to a system executor or timer (libdispatch, Windows, Qt, Emscripten) is executed at most once; it and the system's object made for it are released exactly once, the function not before its execution has ended; also if the system refuses it (the call throws), and if the timer is closed or destroyed before it is due.", "quantifier": "all variants, all sequences of calls, refusals, callbacks and shutdowns", "why_tests_cant": "Leaks of single heap objects and system handles are not observed by tests, and refusals by the system cannot be provoked.", "anchors": ["include/stlab/concurrency/default_executor.hpp: executor_type (libdispatch)", "include/stlab/concurrency/default_executor.hpp: task_system (Windows)", "include/stlab/concurrency/system_timer.hpp: system_timer (libdispatch, Windows)", "include/stlab/concurrency/main_executor.hpp: main_executor_type"]}
{"id": "C88", "title": "Attaching a process to one that is sending", "statement": "Whatever processes are attached while a process broadcasts its results, each broadcast reaches exactly the processes that were attached when it began, once each and in the order in which they were attached, and uses no iterator that is not valid.", "quantifier": "all interleavings of any number of broadcasts and attachments", "why_tests_cant": "The attachment has to fall between two steps of a loop in another thread, and an invalidated deque iterator usually still works.", "anchors": ["include/stlab/concurrency/channel.hpp: for_each_n", "include/stlab/concurrency/channel.hpp: downstream::send", "include/stlab/concurrency/channel.hpp: shared_process::broadcast", "include/stlab/concurrency/channel.hpp: shared_process::map"]}
{"id": "C89", "title": "The number of senders and of receivers is counted right", "statement": "Whatever is done with senders and receivers (construction, copying, moving, assignment, swapping, close, set_ready, destruction): a process is told that nobody sends any more exactly when the last sender that refers to it goes, and starts exactly when the last receiver that refers to it is ready or gone; once, and no counter falls below zero.", "quantifier": "all histories of operations on any number of senders or receivers and processes", "why_tests_cant": "Histories are unbounded; a counter that is too high shows only in a channel that never closes, which a test cannot tell from one that is slow.", "anchors": ["include/stlab/concurrency/channel.hpp: sender", "include/stlab/concurrency/channel.hpp: receiver", "include/stlab/concurrency/channel.hpp: shared_process::add_receiver, remove_receiver", "include/stlab/concurrency/channel.hpp: shared_process_sender_indexed::add_sender, remove_sender"]}
{"id": "C90", "title": "Senders and receivers are values", "statement": "Copies of a sender or receiver and what it is moved to are equal to it, what is moved from refers to nothing, and no other object changes; swapping two, also one with itself, exchanges what they refer to and changes no counter; equality is an equivalence, and two are equal if and only if they refer to the same process.", "quantifier": "all states, all operations, all objects", "why_tests_cant": "The counters cannot be observed, and whether a process still exists depends on other threads.", "anchors": ["include/stlab/concurrency/channel.hpp: sender", "include/stlab/concurrency/channel.hpp: receiver"]}
{"id": "C91", "title": "function_process yields the function's results", "statement": "A function_process, used as channels use processes, yields for each message, in order, the result of calling the function with it, the same as if the function were called with one message after the other; after each result, also an exception, it awaits the next message.", "quantifier": "all function objects, with or without state, all sequences of messages", "why_tests_cant": "Functions and message sequences are arbitrary; tests use functions without state.", "anchors": ["include/stlab/concurrency/channel.hpp: function_process"]}
{"id": "C92", "title": "Nobody uses a process while it is being changed", "statement": "While a channel calls await, yield, close or set_error of the user's process, or destroys the process, no other thread calls a function of it, state() included, or destroys it: the user's process needs no synchronisation of its own.", "quantifier": "all processes with yield, all message sequences and downstream processes, all interleavings of senders, executor and timers", "why_tests_cant": "clear_to_send calls state() without a lock; whether that can coincide with a call depends on the interleaving of several threads.", "anchors": ["include/stlab/concurrency/channel.hpp: shared_process::clear_to_send, step, try_broadcast, task_done"]}
{"id": "C93", "title": "scope calls the function under the lock", "statement": "scope<lock>(m, f) executes f while the mutex is locked and hands on f's result or exception; the mutex is released in either case, after the result was made; if the lock cannot be made f is not called and nothing is released. Functions called by scope with the same mutex never overlap. If calls are nested in an order of the mutexes no execution gets stuck.", "quantifier": "all programs of any number of threads with nested calls, results and exceptions, all interleavings", "why_tests_cant": "Overlap and deadlock depend on the interleaving of the threads; nesting is arbitrary.", "anchors": ["include/stlab/scope.hpp: scope, detail::scope_call"]}
