# A machine-checked model of stlab/libraries

Prover: Coq/Rocq 8.16.1, with the standard library and std++. Sources modelled:
`/repo/include/stlab` and `/repo/src`, read as text. Property texts: `properties.jsonl`.
Status and theorem names: `MANIFEST.json`. Mutation log: `seeded/LOG.jsonl`.

## Conventions

* `rocq/theories/<Area>/Model*.v` (and `Queue.v`, `Pool.v`, `ExecuteAt.v`, `ForModel.v`, `World.v`)
  hold executable definitions only, each citing file and lines in `/repo`. `*Spec.v` hold
  specifications that do not use the model's helpers. `Props*.v` hold the property theorems
  (`Theorem ... exact lemma. Qed.`), an `Example` beside each group of theorems that meets the
  hypotheses, and `Print Assumptions`. Everything else is proof.
* Undefined behaviour (reading or freeing a dead node, dereferencing null, popping an empty
  container, a failed `assert`) is an explicit outcome or event, never a default value. Loops that
  are not structurally recursive take fuel and return an explicit `OOF` outcome; the theorems
  exhibit enough fuel.
* Concurrency is a labelled transition system whose steps are the critical sections of the code
  (mutex-protected blocks, single atomic operations, hand-overs to an executor). A schedule is an
  arbitrary list of labels. User code is a label too: the schedule chooses what it returns or
  throws. Steps log events; properties are stated over the event trace of an arbitrary run from the
  initial state. Safety is an invariant of all reachable states. Liveness is a characterisation of
  the states at rest, plus progress (some library step is enabled) and a decreasing measure.
* If the faithful model violates a property there is a theorem `..._refuted` with a witness computed
  by `vm_compute`, and a finding below. Where only part is proved the theorem is called `..._partial`.

## Areas

| area | source | model | properties |
|---|---|---|---|
| Forest | `forest.hpp`, `forest_algorithms.hpp`, `algorithm/reverse.hpp` (node lists) | heap of nodes with four links; every member function as a heap program; histories over any number of forests (`World.v`); copies that throw (`Throw.v`) | C01-C19, C80, C81 |
| Nodes | `iterator/set_next.hpp`, `algorithm/reverse.hpp: reverse_append, reverse_nodes`, any node type | maps of links | C83, C84 |
| Platform | `system_timer.hpp`, `default_executor.hpp`, `main_executor.hpp`: the variants for libdispatch, Windows, Qt and Emscripten | arithmetic of the due time; ownership as an LTS, the systems by contract | C86, C87 |
| Attach | `channel.hpp`: `for_each_n`, `downstream::send`, `broadcast`, `map` | LTS of one sending thread and others that attach; `std::deque` by contract (iterators invalid after an insertion) | C88 |
| Handles | `channel.hpp`: `sender`, `receiver` (copy, move, assignment, swap, equality, close, set_ready, destruction) and the two counters | any history of operations on any number of objects | C89, C90 |
| Scope | `scope.hpp`: `scope` with a lock guard of one mutex | threads with nested calls; programs as trees of what they do | C93 |
| FunProc | `channel.hpp`: `function_process` | any function object with a state; sequences of calls | C91 |
| Reenter | `future.hpp`: what resetting the holds of `when_all`/`when_any` under their mutex sets off | sequential, the mutex explicit; contexts of When | C85 |
| Algorithm | `algorithm/reverse.hpp: reverse_until` | list and indices | C20 |
| Task | `concurrency/task.hpp` | task objects, callable objects with identity, vtables, buffers | C21 |
| PreExit | `pre_exit.hpp`, `src/pre_exit.cpp` | stack, handler trees; any threads | C22 |
| Executor | `concurrency/default_executor.hpp` (portable pool), `src/concurrency/default_executor.cpp` | queue of keyed tasks; LTS of pool and expansion threads, submitters, `join`; the sizes | C23-C25, C55, C75, C79 |
| Serial | `concurrency/serial_queue.hpp` | LTS | C26, C27 |
| SerialLife | `concurrency/serial_queue.hpp`: references, destruction of tasks, discarded jobs | LTS | C69, C70 |
| PoolWait | `concurrency/await.hpp: invoke_waiting, await` in tasks of the portable pool (`wake`, `add_thread`, `execute`, `run`) | LTS of threads whose tasks submit and await | C72 |
| PoolJoin | the same with `priority_task_system::join` | LTS: PoolWait's, with join and threads that leave | C73 |
| Exit | `pre_exit.cpp` with `default_executor.*` and `system_timer.hpp`, all three variants | LTS, pools by contract | C71 |
| Timer | `concurrency/system_timer.hpp` (portable), `concurrency/executor_base.hpp: execute_at` | LTS with clock | C28, C29 |
| Future | `concurrency/ready_future.hpp`, `concurrency/future.hpp`: copyable futures, promise, packaged task, then, recover, detach, reduction | LTS of shared states and everything that refers to them | C30-C36, C78 |
| Race | `concurrency/future.hpp`: `unique_usage`, `get_ready` of futures that share a state, in several threads | LTS; happens-before over its traces | C76 |
| Counters | `test/model.hpp`: `annotate`, `annotate_counters::remaining`, `wait` | LTS: threads that copy and destroy, one that waits | C77 |
| Unique | `concurrency/future.hpp`: futures of move-only values (454-560, 863-974, 1655-1667) | LTS of one shared state, its handle, promise and continuations | C63-C65 |
| Coro | `concurrency/future.hpp`: coroutines (1701-1772) | LTS of any coroutines awaiting each other's futures | C66, C67 |
| When | `concurrency/future.hpp`: `when_all`, `when_any`, packs and ranges | LTS of one call | C37-C40 |
| Await | `concurrency/await.hpp` | LTS of one call of `await`, `await_for` | C41, C42 |
| Channel | `concurrency/channel.hpp` | LTS of a network of processes of any shape, clients that build, use and destroy it | C43-C51, C56, C82 |
| Process | `concurrency/channel.hpp`: processes with `yield` (910-1083), `close`, `set_error`, timeouts | LTS of one process, its senders, timer and downstream | C57-C62, C92 |
| Lone | `concurrency/channel.hpp`: a process whose results cannot be copied (686-709, 804-869, 1085-1176) | LTS of one process | C68 |
| Annotate | `channel.hpp: operator&`, `executor_base.hpp` | values of the annotation expressions | C52 |
| Progress | `concurrency/progress.hpp` | counters and clients | C53 |
| Signal | `concurrency/progress.hpp`: the callback of `progress_tracker` | LTS: threads in `task_done` | C74 |
| Tuple | `concurrency/tuple_algorithm.hpp`, `utility.hpp: index_sequence_transform`, `traits.hpp: all_true` | lists | C54 |

How each is proved:

* **Forest.** The links of a heap spell the bracket word of a rose forest (`Rep.v`); each operation
  is shown to turn the word into that of the edited forest, and to leave everything else alone.
  `World.v` runs arbitrary histories of commands on any number of forests; the invariant is that the
  heap is the disjoint union of the forests' nodes and that the cached size is 0 or right.
* **Task, Progress, PreExit.** Representation invariants over all histories.
* **Counters.** The waiting thread, when it sleeps, has last found a wrong number; every destruction since is
  followed by a notification, and one that comes after the thread sleeps wakes it (C77_wakes_partial).
* **Race.** Every access to the value happens before a destruction of a future or before whatever is done
  next with some future that is left; when only one is left, and the destructions have been seen, all
  accesses happen before.
* **Attach.** What is left of the broadcast is the rest of the first n elements; an iterator made in a loop that nobody disturbs
  stays valid.
* **Handles.** The counter is the number of those that count plus the number of miscounts, which never falls.
* **FunProc.** Induction over the calls: the function object kept is never called, only copies of it.
* **Signal.** An invariant relating the state to the events so far: the invocations that have reported
  and those that have not are all; each value read is a count of events of a prefix that contains the
  completion.
* **Executor, Serial, Timer, Await, When.** Invariants of the LTS, quiescence, progress, measure.
* **Future.** Reference counts are exact and equal to the number of referring resources; the history
  determines every shared state; linear resources (promise, packaged task) exist once.
* **Unique.** All reachable shapes of the state, up to the numbers of continuations, are finitely many;
  the invariant lists them, and the trace is related to it step by step.
* **Coro.** Each coroutine is in one place at a time (running, suspended, in a list of continuations);
  results agree with a big-step evaluation; a multiset order on what is left to do shows that it ends.
* **Channel.** An invariant with "credits" for the counter of suspended sends: every outstanding
  message pays for one `clear_to_send`. It gives mutual exclusion of a process, at most one message
  per upstream port, and the absence of lost wake-ups. A second invariant relates the queues to the
  event trace. A measure bounds the steps a network takes when left alone (C56). For any buffer sizes (C82) there is a
  separate, weaker invariant (AnyInv): the queues replay the trace, taken is handled plus in flight, sent plus in flight is produced.
  That such networks come to rest (C56_any) takes a lexicographic pair of measures (AnyTerm): a job that finds nothing to do may submit itself again.
* **Scope.** What a thread has done and what its frames have yet to do is what it does alone; who has entered and not left has the mutex in
  its frames; if mutexes rise along the frames, whoever waits for the greatest one waits for nobody.
* **Process.** Counts of jobs by what they may do (run, send, hold the timeout mutex, ...) related to
  the flags; the trace determines the process's state, the results and the debt of `clear_to_send`s.
  That nobody looks at the process during a call (C92) follows from the same counts: a job that looks keeps the suspend count above zero.
* **SerialLife.** The use count is the number of those who hold a reference; what is destroyed, held and
  queued is a permutation of what was enqueued.
* **PoolWait.** For every task queued when somebody awaited there is a thread that runs user code, is about to
  wake or add one, has been woken, or has yet to scan the task's queue.
* **PoolJoin.** A thread that should leave or has work is notified or about to be; no queue is left non-empty by its
  thread, and whoever submits to it later scans it; threads below join's index have left.
* **Exit.** The stack of handlers, the flags and the phase have few shapes; when the last handler has been
  popped there is no task.
* **Lone.** The same credits, for one process: which job is in progress and how many answers are due
  are read off the counter; the trace is related to the state step by step; a weight bounds the rest.

## Trusted base

* Coq's kernel. `coqchk` accepts the development.
* Axioms: none. `Print Assumptions` answers "Closed under the global context" for each of the
  theorems listed in `MANIFEST.json`. (The seven library axioms that the checker sees belong to
  `Coq.ssr.ssrunder`, which std++ loads; no theorem depends on them.)
* The reading of the C++ text that the models embody. What follows is where they simplify.

### Simplifications common to all areas

* Sequential consistency at the granularity of the steps. Weak memory orders are not modelled, except that
  of the `use_count() == 1` test (Race).
* C++ types, overload resolution, object layout, alignment and exceptions from memory exhaustion
  are not modelled. Values and exceptions are numbers or a type parameter.
* `size_t` is unbounded except where a property is about wrapping: the task queue's keys and count
  (64 bits, C23), the progress counters (C53), `_remaining` of `when_all` (C37), `free_buffer` (C51).
* Standard library components enter by contract: heaps (any element with least key may be in
  front), mutexes, condition variables (with spurious wake-ups), `try_lock` (may fail at any time),
  `shared_ptr`, `std::function`, `optional`.

### Not modelled, by file

* `forest.hpp`: `const_iterator` and `iterator` are one; the deprecated free functions. Comparison
  of iterators of different forests.
* `reverse.hpp`: `reverse` and `reverse_copy` of ranges, which are calls of the standard library. `set_next_fn` of a node type is a contract (Nodes).
* `task.hpp`: `target`, `target_type`; callables whose own move constructor throws; re-entrant use
  of a task by its own callable.
* `default_executor.hpp`: libdispatch and Windows variants except their shutdown (Exit) and ownership (Platform); in Executor, the starting queue of
  `execute` is arbitrary (`_index` is kept in PoolWait); a second `join`; what happens to a
  thread that `join` has not joined when the pool is destroyed (`std::terminate`), the data race on `_threads`.
* `serial_queue.hpp`: in Serial, the lifetime of the instance and of tasks; it is in SerialLife.
* `system_timer.hpp`: libdispatch and Windows variants except their shutdown (Exit), ownership and due times (Platform); overflow of the clock.
* `progress.hpp`: a callback that throws; in Signal, wrapping of `_done_tasks`.
* `main_executor.hpp` except ownership (Platform), `immediate_executor.hpp` (except as a special case of an
  arbitrary executor), `set_current_thread_name.hpp`, `functional.hpp`, `memory.hpp`, `scope.hpp` except with a lock
  guard of one mutex (Scope),
  `traits.hpp` except `all_true` (Tuple), `version.hpp`; of `test/model.hpp`, `regular`, `move_only` and the counters that `wait` does not read.
* `future.hpp`: memory orders are considered in Race only. In Coro, the destruction of futures (dropping the future of a coroutine does not cancel
  it: it goes on, and its result is dropped) and broken promises, which are errors (C33). In Future, moving a handle is copying and destroying the
  source. In Unique, `get_ready()` of an lvalue (finding 39).
* `await.hpp`: `blocking_get*` wrappers; coroutine awaiters.
* `channel.hpp`: in Channel, results that cannot be copied (686-709; they are in Lone, one process with
  one port and an environment downstream), `void` arguments, assignment, swap and
  comparison of senders and receivers (they are in Handles); `minimum_free_buffer` reads all downstream buffers in one
  step. Processes with `yield` are in Process, with one port, buffer size 1, and an environment in
  place of the network (whose behaviour is that of Channel's processes with the default buffer size).

## Findings

Behaviour of the code that contradicts a property, its documentation, or plain expectation. "Proved"
names the theorem.

### Forest

1. `algorithm/reverse.hpp:35` copies `end` where it must copy `first`: `forest::reverse` loses every
   node of a non-empty range (C12_reverse_refuted, C12_reverse_drops_single_node_refuted). No
   non-empty range of any forest is reversed (C12_reverse_nonempty_refuted), nor of nodes of any other type: the result
   is an empty range and `end` is linked to itself (C84_append_refuted, C84_nodes_refuted).
2. `equal_shape` answers true for a proper prefix if a size is not cached (C19_equal_shape_refuted).
3. `depth_range(f).end()` has depth 0 whatever the range; going back from it counts wrong
   (C16_depth_from_end_refuted).
4. `--` on the end iterator of `filter_fullorder_range` does not filter: its `_first` is the end
   (C17_filter_from_end_refuted).
5. `child_adaptor::pop_back`/`pop_front` on a node without children erase the node itself
   (ProofMisc.ca_pop_back_childless).
55. The copy constructor (forest.hpp:798-800) does not delegate to the default constructor, as the move constructor
    does: if the copy of an element throws, `~forest()` is not called, and the nodes copied so far are leaked
    (C80_leak_refuted; C80_copy_partial: exactly those). Copy assignment inherits this (C80_assign_partial).
56. `insert(position, first, last)` (forest.hpp:1036-1043) compares with `last` anew after each insertion. If the range is of
    the forest itself and the position is inside the range or is its end, each copy is put in front of the reader, and the
    loop allocates without end (C81_inside_refuted, for every such forest, range and position; the model runs out of any
    fuel). At every other position the range is copied as expected (C81_outside_partial: exactly the complement). Appending
    to a node copies of all its own children is of the first kind.

### Task, executors, timer

6. `task_`: self-move-assignment and self-swap are undefined behaviour (C21_self_*). A moved-from task
   tests true if its function was stored inline and false if it was on the heap; invoking the latter
   is undefined, it does not throw (C21_behaviour).
7. The pool's queue is first in first out per priority only for 2^62 tasks (C23_bound_tight).
8. A task submitted while `join` drains may be destroyed unexecuted (C24_late_dropped). Submitting
   after `join` indexes an empty vector (event `Ub`).
9. The pool is not work-conserving: a task can sit in the queue of a busy thread while another
   thread sleeps (C55_work_conserving_refuted); if the running task waits for it the program hangs.
10. `execute_at`'s lambda moves its executor out on the first call: a second task calls an empty
    `std::function` inside a `noexcept` closure (C29_second_task_refuted).
11. The portable timer drops pending tasks when destroyed (C28_none_after_stop).
40. `serial_instance_t::single` holds the task it has executed until it returns, after it has resubmitted
    the queue: the destructors of what the task captured may run while the next task executes
    (C70_single_refuted; not so in mode `all`).
41. If the executor destroys a job of a serial queue unexecuted, `_running` stays set: nothing is ever
    executed again (C69_drop, C69_drop_refuted), and if a task left behind holds an executor of the
    queue, both leak (C69_cycle_refuted).
42. The portable and the Windows timer are not closed by `pre_exit()`: timed tasks begin after it has
    returned (C71_timer_refuted), and one that uses the default executor uses a pool that is gone
    (C71_timer_executor_refuted), as the tasks of `execute_at(d, default_executor)` do.
43. On Windows the pools of the three priorities are joined one after the other. A task of one of them that
    uses another, already joined, priority is undefined behaviour (C71_priorities_refuted).
44. With libdispatch, if the timer is first used by a task that `pre_exit()` waits for, its handler is pushed
    when the group's has been popped: `pre_exit()` may return while a timed task executes
    (C71_late_timer_refuted). If it was used before, the same task fails an assertion (C71_assert_refuted).
45. Windows timer, read only: system_timer.hpp:133 tests `_pool` where it should test `_cleanupgroup`; the
    function allocated at 156 leaks if the timer cannot be created; timers are never closed.
46. A pool thread that waits in `await` leaves its queue to others, who look at it only before they go to
    sleep. A task put there later (`execute` chooses the queue by `_index`) notifies nobody: it waits, and so
    does everything that needs it, while other pool threads sleep (C72_late_refuted). A program in which a task
    awaits the future of a task that somebody else submits afterwards can hang for ever on an idle pool.
47. A thread that was woken or added to make up for one that waits uses `try_pop`; if the mutex of the queue
    is held at that moment it goes to sleep without having looked (C72_missed_refuted). With nine nested
    awaits on a machine with one or two cores the limit is reached and the tenth task is never started
    (C72_limit_refuted).
48. `join` iterates over `_threads` without `_mutex`; the end is read once. A task that calls `await` when join
    waits for the workers adds a thread that is not joined: after `_q.clear()` it indexes `_q`
    (C73_late_refuted), and its `std::thread` is destroyed joinable (read only). The vector is modified while
    it is iterated over: a data race (read only).
49. When join has set `_done` of a waiter whose thread has not yet noticed, `wake()` still counts it as woken:
    `await` adds no thread, the thread leaves, and a task that waits for a task in its own queue waits for ever;
    `pre_exit()` hangs (C73_hang_refuted).
50. A task submitted during `pre_exit()` to the queue of a worker that has left is run only if somebody's
    `try_pop` does not fail just then; otherwise it is dropped, its future never becomes ready
    (C73_missed_refuted).
52. Priorities order the tasks of one queue of the pool only. A task of high priority in the queue of a busy
    thread waits while another thread starts any number of tasks of low priority, submitted later, from its
    own queue (C75_refuted). On a machine with one or two cores there is one queue, and the order is that of
    priority and submission (C75_one_partial).
54. `hardware_concurrency()` (default_executor.hpp:324) calls `std::clamp` with the upper bound 0 if there is a maximum and
    the number of cores is not known (C79_unknown_refuted). The maximum does not limit the number of threads:
    with STLAB_TASK_POOL_MAXIMUM=1 there can be nine, if tasks await (C79_maximum_refuted); without a maximum the pool
    has one thread less than the README says (C79_default_refuted).

### Futures

12. Move assignment of `packaged_task` (and `promise`) drops the old promise without breaking it: the
    future never becomes ready (C33_overwrite_refuted).
13. A function that returns an invalid future: its state is dereferenced (C35_invalid_refuted).
14. A task that returns a continuation of its own future leaks both (C36_cycle_refuted).
15. `when_all`/`when_any`: a continuation that an executor destroys unexecuted is not counted: the
    result stays pending (C37_ex_lost). `when_all` with no futures never resolves. `when_any` over a
    pack keeps the other futures alive after it has succeeded.
    `when_any_shared<S, void>::failure` calls the packaged function with its mutex held (harmless).
58. `when_all_shared::failure` (1087-1099) and `single_trigger::go` (1426-1440) reset the holds with the context's mutex
    held. If the task of an argument that is cancelled has not been started and owns the promise of a later argument, and
    the executor of the call is `immediate_executor`, breaking that promise executes the later argument's
    continuation in the same thread, which locks the mutex that it holds: undefined, a deadlock in practice
    (C85_refuted). It happens exactly then (C85_stuck); with those two arguments in the other order, or another executor, all
    is well (C85_cancel, C85_ordered, C85_deferred). Resetting the holds after the mutex has been released would do.
16. `await.hpp:152-156`: `blocking_get_for` has no `return` (undefined behaviour if called).

### Channels

17. A function process that receives an error message (`step`, 1106-1110) only sets an unused local:
    it stays running for ever, deals with no further message and never closes (C50_refuted,
    C50_silent).
18. `clear_to_send` does not look at `_process_running`: with a buffer size of 0 or at least 2 a
    process can be executed twice at once and out of order (C43_buffer_refuted, C44_buffer_refuted);
    merges upstream of such a process misorder too (C47_buffer_refuted, C48_buffer_refuted, C49_buffer_refuted).
57. For the same reason closing goes wrong: one job may find the queue empty and close (destroying `_process` and clearing
    `_downstream`) while another of the same process still executes the function, whose result is then sent to nobody
    (C44_destroyed_refuted, C46_buffer_refuted), or has yet to call it, through an empty optional (C43_buffer_ub_refuted); or
    the second of two jobs that find the queue empty overwrites `_process_final` (pop_from_queue, 854-871) before
    the first has looked at it, and the channel never closes (C46_buffer_open_refuted). Without closing nothing is lost
    (C82). In the model a call that is being executed when its function object is destroyed goes on, and a job that is
    sending goes on with the senders it had; in C++ both are undefined behaviour. With buffers of size one neither happens
    (C44_destroyed).
19. `free_buffer` subtracts without a check: a client that has sent more messages than the buffer
    holds is told of nearly 2^64 free places; an unlimited buffer reports 2^64-1 (C51_wrap,
    C51_refuted).
20. Copying a receiver that is ready increments a counter that nobody decrements; the defaulted move
    assignments of sender and receiver forget `remove_sender`/`remove_receiver`. Either stalls the
    channel (C45_receiver_refuted).
21. Destroying one of several downstream processes stalls the upstream process for ever
    (C45_destroy_refuted).
22. Zip and round robin over streams of unequal length: the longer one is suspended for ever and
    never closes (C46_zip_refuted); messages already queued are dropped when the merge closes.
23. A process attached to a closed channel is never told that it is closed (C46_late_refuted).
24. Results that cannot be copied: `downstream::size()` is 1 even if nothing is attached, so the process
    waits for ever after the first message for an answer that nobody gives (C68_alone,
    C68_alone_refuted); attaching a second process overwrites the sender to the first, which is told
    that the channel is closed and gets nothing (C68_second_refuted). `append_receiver` (locked by
    `_downstream_mutex`) and `clear` are the only writers; `send` reads without the lock (read).

61. `broadcast` sends without holding `_downstream_mutex`, with the comment "We only ever append to this deque so the first n
    elements are good" (1156-1157). The elements are, but `for_each_n` (126) goes over them with an iterator, and `emplace_back` in `map`
    invalidates the iterators of a `std::deque`: attaching a process (with `merge_channel` or `zip_with`, which take receivers that
    are ready) during the loop makes its next step undefined (C88_attach_refuted, C88_ub_refuted).

62. Assigning to a sender, or to a receiver that is not ready, by moving or by copying, leaves the counter of the process it referred to one
    too high: that process never closes, or never starts, whatever is done afterwards (C89_forever_refuted, C89_sender_refuted); so does copying a
    receiver that is ready (C89_receiver_refuted). This is finding 20, for all histories. Otherwise the counters are exact
    (C89_zero_partial), and swapping is harmless (C90_swap).
63. Senders of different processes compare equal once both have been destroyed (C90_same_refuted).

### Processes with yield

25. Two messages that arrive while a timeout is pending start two steps; two delayed yields then run
    at once, and their results can overtake each other (C57_refuted, C59_order_refuted).
26. A timeout does not know that it was cancelled: it yields unless the state is `yield`, so a process
    that has been given a message and now awaits for ever yields without reason, and without regard
    to processes downstream that are not ready (C58_refuted, C59_pace_refuted).
27. `close()` is called each time the queue runs empty while awaiting, and for each error message if
    there is no `set_error` (C60_often_refuted).
28. If the last `close()` leaves the process with something to yield, or throws, the result is sent
    but the processes downstream are never told of the end: `clear_to_send` returns early
    (C60_refuted).
29. A process with `yield` but without `await` never closes (C60_generator_never); messages to it are
    never taken from the queue. If it reports `await` when it is started, `step` returns with
    `_process_running` set: it never runs again (C62_refuted).
30. A timeout that fires after the process has closed calls `state()` on an empty `optional`
    (C61_refuted).
31. A message that arrives after the queue was found empty and before the timeout is set
    (`_timeout_function_active`) starts nothing: it is dealt with only when the time is up, and
    `yield` is called first (C57_waits_refuted).
32. `dequeue` assigns `_process_final = do_close` whenever the queue is empty; a second step after
    the last one (finding 25) resets it, and the close is lost (read).

65. `clear_to_send` calls `state()` of the user's process without a lock (837). Once a process has awaited with a timeout this can
    happen during `yield()`: a stale timeout (finding 26) yields while a process downstream is still busy, and that one becomes ready
    (C92_refuted).
64. `function_process::await` binds a copy of the function object, and `yield` calls the copy: what a call changes in the function object is lost
    with the next message (C91_state_refuted), unlike with the same function attached directly. Also, its constructor takes anything, so
    that a variable of this type that is not const cannot be copied (1691; read, not modelled).

### Others

33. `operator&(annotated_process&&, ...)` assigns the annotation to a moved-from object and returns the
    other one (C52_*_lost_refuted); `executor & function & buffer_size` does not compile.
34. `tracker_client`'s assignments count wrong; `completed() <= steps()` does not hold (C53_*_refuted).
    `steps()` is ahead by exactly the number of assignments over a linked function (C53_steps_exact).
51. The callback of a `progress_tracker` is called concurrently with itself (C74_overlap_refuted); its
    reports can go back, so that the last one says that less is completed than an earlier one
    (C74_back_refuted), and counts can be passed over (C74_missed_refuted). If the callback throws, the
    result of the tracked function is lost, and a function returning `void` cannot be tracked
    (progress.hpp:76-79; read, not modelled).
35. `future`: `use_count() == 1` is a relaxed load, used to decide to move a value out. Of two futures in two
    threads, both consumed, the copying of the value for one and the moving of it by the other are a data
    race in the sense of the standard (C76_refuted). An acquire fence would be enough (C76_with_fence).
53. `~annotate` notifies without having held the mutex that `annotate_counters::wait` holds when it evaluates its
    predicate: the notification of the last destruction can come between the evaluation and the wait, which then
    never ends (C77_lost_refuted). A thread that returns from `wait` and destroys the counters does so before the
    destructor that made the count right has notified (C77_ub_refuted). Constructors do not notify
    (C77_made_refuted), and a number of objects that is passed over is not seen (C77_passed_refuted).
36. `apply_ignore_placeholders` ignores nothing (C54_apply_ignore_placeholders_refuted).

### Futures of move-only values

37. `get_try()` of an lvalue moves the value out of the shared state and leaves the `optional` engaged: a
    second `get_try()`, or a continuation attached afterwards, gets a moved-from value and no error
    (C64_refuted).
38. There is one slot for a continuation. `then` after `detach()` overwrites what `detach()` left there:
    destroying the result of `then` cancels the task although it was detached; with copyable values it is
    not canceled (C65_detached_refuted). Overwriting the promise (finding 12) leaks a shared state that
    `detach(f)` has made own itself (C65_leak_refuted).
39. `get_ready()` of an lvalue returns a reference to a temporary (future.hpp:535; read, not modelled).

### System executors and timers

59. The Windows timer (`system_timer.hpp:181-202`) truncates the due time to milliseconds: a function may be executed before
    its time, by less than 1 ms; one with a duration below 1 ms perhaps at once (C86_early_refuted, C86_bound). If `gmtime_s`
    refuses the date (after the year 3000, for instance with `duration::max()` or "never"), the file time stays 0 and the function is
    executed immediately (C86_far_refuted).
60. The Windows timer never closes its timer objects: there is one for each call ever made until the timer is destroyed
    (C87_timers_refuted). Functions that are not due by then are neither executed nor deleted (C87_end_refuted). If
    `CreateThreadpoolTimer` fails, the function is leaked (C87_throw_refuted; the pool's `operator()` gets it right). The
    constructor tests `_pool` twice, where the second time `_cleanupgroup` is meant (132-133; read, not modelled).

## Mutation testing

`seeded/LOG.jsonl` lists edits of the model, one at a time, in a scratch copy: which property theorems
no longer have a proof after the edit (`theorems_failed`; found by replacing each failing proof by
`Admitted` in the copy and asking `Print Assumptions` which property theorems depend on one), and
what was tightened where none did.
