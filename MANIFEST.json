{
 "claims": [
  {
   "property": "C01",
   "status": "proved",
   "theorems": [
    "C01_fullorder_traversal",
    "C01_reachable_represents"
   ],
   "note": "For every heap and object representing a forest, and every object of every reachable world represents one."
  },
  {
   "property": "C02",
   "status": "proved",
   "theorems": [
    "C02_increment_decrement_inverse"
   ],
   "note": "All positions including root() and end()."
  },
  {
   "property": "C03",
   "status": "proved",
   "theorems": [
    "C03_insert",
    "C03_every_position",
    "C03_push_front",
    "C03_push_back"
   ],
   "note": "Any position (C03_every_position covers begin()..end()); other forests unchanged."
  },
  {
   "property": "C04",
   "status": "proved",
   "theorems": [
    "C04_erase",
    "C04_every_node",
    "C04_pop_front",
    "C04_pop_back"
   ],
   "note": "Both edges of any node; memory of exactly that node released."
  },
  {
   "property": "C05",
   "status": "proved",
   "theorems": [
    "C05_erase_range",
    "C05_clear"
   ],
   "note": "Any contiguous full-order range; result characterised by filtering the full order and the preorder listing."
  },
  {
   "property": "C06",
   "status": "proved",
   "theorems": [
    "C06_splice",
    "C06_splice_within",
    "C06_splice_nothing",
    "C06_splice_all",
    "C06_splice_one",
    "C06_splice_one_within"
   ],
   "note": "Between forests, within one forest, empty range, whole forest, one node."
  },
  {
   "property": "C07",
   "status": "proved",
   "theorems": [
    "C07_insert_parent"
   ],
   "note": "Any sibling range."
  },
  {
   "property": "C08",
   "status": "proved",
   "theorems": [
    "C08_size_after_any_history",
    "C08_size_preserves"
   ],
   "note": "All histories of World.v commands with any number of forests."
  },
  {
   "property": "C09",
   "status": "proved",
   "theorems": [
    "C09_copy",
    "C09_move",
    "C09_copy_assign",
    "C09_move_assign",
    "C09_move_assign_self",
    "C09_swap"
   ],
   "note": "Copy, move, copy-/move-assignment (self-move included), swap of distinct forests."
  },
  {
   "property": "C10",
   "status": "proved",
   "theorems": [
    "C10_equality",
    "C10_equality_any"
   ],
   "note": "Also for arbitrary (not lawful) element comparison."
  },
  {
   "property": "C11",
   "status": "proved",
   "theorems": [
    "C11_commands_succeed",
    "C11_no_leak",
    "C11_view_unique"
   ],
   "note": "exec_step: every allowed command succeeds (no UB outcome, enough fuel), refines the abstract step, and keeps the heap equal to the union of footprints."
  },
  {
   "property": "C12",
   "status": "partial",
   "theorems": [
    "C12_reverse_refuted",
    "C12_reverse_drops_single_node_refuted",
    "C12_reverse_empty_partial",
    "C12_reverse_nonempty_refuted"
   ],
   "note": "Refuted: reverse.hpp starts from prior(end) instead of prior(first); every non-empty range comes out wrong. Only the empty range is correct (partial)."
  },
  {
   "property": "C13",
   "status": "proved",
   "theorems": [
    "C13_parent",
    "C13_parent_of_root",
    "C13_has_children",
    "C13_child_range",
    "C13_root_range",
    "C13_child_adaptor_front",
    "C13_child_adaptor_back",
    "C13_child_adaptor_push_back",
    "C13_child_adaptor_push_front",
    "C13_child_adaptor_pop_back",
    "C13_child_adaptor_pop_front"
   ],
   "note": "Includes child_adaptor; pop on a childless node is a precondition violation (the code then erases the node itself, ProofMisc.ca_pop_back_childless)."
  },
  {
   "property": "C14",
   "status": "proved",
   "theorems": [
    "C14_preorder",
    "C14_postorder",
    "C14_values"
   ],
   "note": "Both directions, exact sequences."
  },
  {
   "property": "C15",
   "status": "proved",
   "theorems": [
    "C15_reverse_fullorder",
    "C15_base",
    "C15_is_mirror_image"
   ],
   "note": "Both directions and base()."
  },
  {
   "property": "C16",
   "status": "partial",
   "theorems": [
    "C16_depth",
    "C16_depth_is_ancestors",
    "C16_depth_from_end_refuted"
   ],
   "note": "Proved for any mixture of ++/-- from an iterator with right depth (e.g. begin); refuted for iterators obtained from depth_range(f).end(), which is built with depth 0."
  },
  {
   "property": "C17",
   "status": "partial",
   "theorems": [
    "C17_filter",
    "C17_filter_from_end_refuted"
   ],
   "note": "Forward over the whole range and backwards with iterators made from the forward range; refuted for -- on the end iterator built by filter_fullorder_range, whose _first is end()."
  },
  {
   "property": "C18",
   "status": "proved",
   "theorems": [
    "C18_flatten",
    "C18_unflatten",
    "C18_round_trip",
    "C18_transcribe",
    "C18_transcribe_filtered"
   ],
   "note": "Any forest, any projection, any predicate."
  },
  {
   "property": "C19",
   "status": "partial",
   "theorems": [
    "C19_equal_shape_partial",
    "C19_equal_shape_invalid_size",
    "C19_equal_shape_refuted"
   ],
   "note": "Proved when both cached sizes are valid; refuted otherwise (true for a proper prefix), with a characterisation of the invalid case."
  },
  {
   "property": "C20",
   "status": "proved",
   "theorems": [
    "C20_reverse_until"
   ],
   "note": "Any bidirectional range, any predicate."
  },
  {
   "property": "C21",
   "status": "proved",
   "theorems": [
    "C21_behaviour",
    "C21_lifetime",
    "C21_self_move_assign_is_ub",
    "C21_self_swap_is_ub"
   ],
   "note": "All histories over any number of tasks, inline and heap storage; self-move-assignment and self-swap proved to be UB."
  },
  {
   "property": "C22",
   "status": "proved",
   "theorems": [
    "C22_order",
    "C22_exactly_once",
    "C22_twice_rejected",
    "C22_late_registration_rejected",
    "C22_nested_rejected",
    "C22_any_threads"
   ],
   "note": "Handlers may register further handlers (finite trees of registrations); failed assert = Abort."
  },
  {
   "property": "C23",
   "status": "proved",
   "theorems": [
    "C23_priority_fifo",
    "C23_conservation",
    "C23_pop_enabled",
    "C23_bound_tight"
   ],
   "note": "Any choice of heap front allowed by the standard; the 2^62 bound is shown to be exact."
  },
  {
   "property": "C24",
   "status": "proved",
   "theorems": [
    "C24_at_most_once",
    "C24_join_drains",
    "C24_join_quiet",
    "C24_join_progress",
    "C24_bounded",
    "C24_no_ub",
    "C24_late_dropped"
   ],
   "note": "Any numbers of threads, added threads, submitters and tasks; includes termination of join(). C24_late_dropped exhibits a task submitted during the drain that is destroyed unexecuted."
  },
  {
   "property": "C25",
   "status": "proved",
   "theorems": [
    "C25_no_lost_wakeup",
    "C25_quiescent"
   ],
   "note": "Per thread, and as quiescence implies completion."
  },
  {
   "property": "C26",
   "status": "proved",
   "theorems": [
    "C26_no_overlap",
    "C26_one_job"
   ],
   "note": "LTS over all schedules, both modes, any executor that starts each job at most once."
  },
  {
   "property": "C27",
   "status": "proved",
   "theorems": [
    "C27_fifo",
    "C27_none_stranded",
    "C27_progress",
    "C27_bounded",
    "C27_no_ub"
   ],
   "note": "FIFO/at most once, quiescent => all run, progress and an explicit bound on library steps."
  },
  {
   "property": "C28",
   "status": "proved",
   "theorems": [
    "C28_never_early",
    "C28_due_order",
    "C28_at_most_once",
    "C28_none_lost",
    "C28_prompt",
    "C28_overtaken",
    "C28_none_after_stop",
    "C28_stop_exits",
    "C28_no_ub"
   ],
   "note": "LTS of the portable timer with condition variable (spurious wake-ups, timeouts), heap by the standard's contract."
  },
  {
   "property": "C29",
   "status": "partial",
   "theorems": [
    "C29_zero",
    "C29_first_task_partial",
    "C29_second_task_refuted",
    "C29_at_most_one_ever"
   ],
   "note": "Proved for d = 0 and for the first task; refuted for a second task (the wrapped executor was moved out; std::terminate)."
  },
  {
   "property": "C30",
   "status": "proved",
   "theorems": [
    "C30_once",
    "C30_observe",
    "C30_stable",
    "C30_not_moved",
    "C30_no_ub"
   ],
   "note": "LTS of the copyable future (future.hpp 323-841, 977-1031): shared states, handles, packaged tasks, jobs, calls, hand-overs and destructors; steps are critical sections and reference-count operations. Undefined behaviour is an event; C30_no_ub excludes it except for functions returning an invalid future."
  },
  {
   "property": "C31",
   "status": "proved",
   "theorems": [
    "C31_once",
    "C31_called_once",
    "C31_after",
    "C31_none_lost",
    "C31_order",
    "C31_order_all"
   ],
   "note": "LTS of the copyable future (future.hpp 323-841, 977-1031): shared states, handles, packaged tasks, jobs, calls, hand-overs and destructors; steps are critical sections and reference-count operations. 'Exactly once' is at most once (C31_once) plus never lost (C31_none_lost); a continuation nobody holds is cancelled instead (C34)."
  },
  {
   "property": "C32",
   "status": "proved",
   "theorems": [
    "C32_called",
    "C32_propagate",
    "C32_chain",
    "C32_result",
    "C32_origin"
   ],
   "note": "LTS of the copyable future (future.hpp 323-841, 977-1031): shared states, handles, packaged tasks, jobs, calls, hand-overs and destructors; steps are critical sections and reference-count operations. C32_chain by induction on the chain."
  },
  {
   "property": "C33",
   "status": "partial",
   "theorems": [
    "C33_drop",
    "C33_all_ready_partial",
    "C33_overwrite_refuted"
   ],
   "note": "LTS of the copyable future (future.hpp 323-841, 977-1031): shared states, handles, packaged tasks, jobs, calls, hand-overs and destructors; steps are critical sections and reference-count operations. Holds for destruction by client or executor (C33_drop). Refuted for defaulted move assignment of packaged_task, which drops the old promise silently; the quiescence theorem needs that excluded, and cycles of futures waiting for each other."
  },
  {
   "property": "C34",
   "status": "proved",
   "theorems": [
    "C34_cancel",
    "C34_end",
    "C34_cancelled",
    "C34_detached",
    "C34_detached_called",
    "C34_detached_all"
   ],
   "note": "LTS of the copyable future (future.hpp 323-841, 977-1031): shared states, handles, packaged tasks, jobs, calls, hand-overs and destructors; steps are critical sections and reference-count operations. "
  },
  {
   "property": "C35",
   "status": "partial",
   "theorems": [
    "C35_flat",
    "C35_ready",
    "C35_invalid_refuted"
   ],
   "note": "LTS of the copyable future (future.hpp 323-841, 977-1031): shared states, handles, packaged tasks, jobs, calls, hand-overs and destructors; steps are critical sections and reference-count operations. Pending, ready, failing inner futures are covered; an invalid inner future is dereferenced (refuted)."
  },
  {
   "property": "C36",
   "status": "partial",
   "theorems": [
    "C36_refcount",
    "C36_freed",
    "C36_empty_partial",
    "C36_cycle_refuted"
   ],
   "note": "LTS of the copyable future (future.hpp 323-841, 977-1031): shared states, handles, packaged tasks, jobs, calls, hand-overs and destructors; steps are critical sections and reference-count operations. Reference counts are exact; the leak-freedom at the end needs acyclic waiting, refuted otherwise (a task that returns a continuation of its own future)."
  },
  {
   "property": "C37",
   "status": "proved",
   "theorems": [
    "C37_result",
    "C37_once",
    "C37_arrivals",
    "C37_delivered",
    "C37_waiting",
    "C37_released",
    "C37_progress",
    "C37_no_ub",
    "C37_release_now"
   ],
   "note": "LTS of one call: attaching thread, continuations in any thread, critical sections, call of the packaged function, holds and context lifetime; the futures themselves enter through C31, C32, C34, C36. Results proved equal to a specification on the order of arrivals, for every number of arguments. A continuation destroyed by the executor (never started) is not a failure of the argument and leaves the result pending (C37_ex_lost)."
  },
  {
   "property": "C38",
   "status": "proved",
   "theorems": [
    "C38_result",
    "C38_once",
    "C38_arrivals",
    "C38_delivered",
    "C38_waiting",
    "C38_released",
    "C38_progress",
    "C38_no_ub",
    "C38_void_result",
    "C38_void_once",
    "C38_void_arrivals",
    "C38_void_delivered",
    "C38_void_waiting",
    "C38_void_released",
    "C38_void_progress",
    "C38_void_no_ub"
   ],
   "note": "LTS of one call: attaching thread, continuations in any thread, critical sections, call of the packaged function, holds and context lifetime; the futures themselves enter through C31, C32, C34, C36. Results proved equal to a specification on the order of arrivals, for every number of arguments. C38_void_*: the specialisation for void."
  },
  {
   "property": "C39",
   "status": "proved",
   "theorems": [
    "C39_result",
    "C39_once",
    "C39_arrivals",
    "C39_delivered",
    "C39_waiting",
    "C39_released",
    "C39_progress",
    "C39_no_ub",
    "C39_release_now"
   ],
   "note": "LTS of one call: attaching thread, continuations in any thread, critical sections, call of the packaged function, holds and context lifetime; the futures themselves enter through C31, C32, C34, C36. Results proved equal to a specification on the order of arrivals, for every number of arguments. "
  },
  {
   "property": "C40",
   "status": "proved",
   "theorems": [
    "C40_result",
    "C40_once",
    "C40_arrivals",
    "C40_delivered",
    "C40_waiting",
    "C40_released",
    "C40_progress",
    "C40_no_ub",
    "C40_release_now"
   ],
   "note": "LTS of one call: attaching thread, continuations in any thread, critical sections, call of the packaged function, holds and context lifetime; the futures themselves enter through C31, C32, C34, C36. Results proved equal to a specification on the order of arrivals, for every number of arguments. "
  },
  {
   "property": "C41",
   "status": "proved",
   "theorems": [
    "C41_result",
    "C41_once",
    "C41_progress",
    "C41_finite",
    "C41_no_ub"
   ],
   "note": "await.hpp 56-73 as a transition system of caller, continuation (own or resolving thread), mutex, condition variable and spurious wake-ups, for one call. What the future does with its continuation is C31. Not modelled: the thread pool's reaction to invoke_waiting (C55), reduction of a coroutine."
  },
  {
   "property": "C42",
   "status": "proved",
   "theorems": [
    "C42_ready",
    "C42_timeout",
    "C42_pending",
    "C42_no_loss",
    "C42_progress",
    "C42_finite",
    "C42_once",
    "C42_no_ub"
   ],
   "note": "await.hpp 85-133 as a transition system, with the life of the guarded state. blocking_get_for (152-156) has no return statement: undefined behaviour if called; not modelled, recorded in DESIGN.md."
  },
  {
   "property": "C43",
   "status": "partial",
   "theorems": [
    "C43_order",
    "C43_flow",
    "C43_send",
    "C43_all",
    "C43_no_ub",
    "C43_buffer_refuted",
    "C43_buffer_ub_refuted"
   ],
   "note": "Order, exactly once, completeness at rest, for every reachable state. C43_buffer_refuted: with another buffer size a process may be called with messages out of order. Scope: networks of any shape of function processes (no await/yield processes, copyable results), any clients and schedules, every buffer size 1 (the default). C43_buffer_ub_refuted: with a buffer of two, a process may be called after its function object was destroyed."
  },
  {
   "property": "C44",
   "status": "partial",
   "theorems": [
    "C44_one",
    "C44_alternate",
    "C44_buffer_refuted",
    "C44_destroyed",
    "C44_destroyed_refuted"
   ],
   "note": "At most one call of a process is being executed; calls and results alternate. C44_buffer_refuted: not so for buffer sizes 0 and 2. Scope: networks of any shape of function processes (no await/yield processes, copyable results), any clients and schedules, every buffer size 1 (the default). C44_destroyed: the function object is destroyed when no job executes it or has yet to; C44_destroyed_refuted: not so with a buffer of two."
  },
  {
   "property": "C45",
   "status": "partial",
   "theorems": [
    "C45_rest",
    "C45_all",
    "C45_destroy_refuted",
    "C45_receiver_refuted"
   ],
   "note": "At rest every process is drained, or its results flow into a zip or round robin merge that waits for a message. Hypotheses, each shown necessary by a refutation: no process destroyed (C45_destroy_refuted), no ready receiver copied and no handle overwritten by move assignment (C45_receiver_refuted), no error taken (C50_refuted). Scope: networks of any shape of function processes (no await/yield processes, copyable results), any clients and schedules, every buffer size 1 (the default)."
  },
  {
   "property": "C46",
   "status": "partial",
   "theorems": [
    "C46_once",
    "C46_complete",
    "C46_delivered",
    "C46_last",
    "C46_upstream",
    "C46_clients",
    "C46_all_closed",
    "C46_zip_refuted",
    "C46_late_refuted",
    "C46_buffer_refuted",
    "C46_buffer_open_refuted"
   ],
   "note": "Closing happens once, after everything has been dealt with and delivered, last, only when all senders are gone; at rest everything has closed. C46_zip_refuted: a channel zipped with a shorter one never closes. C46_late_refuted: who is attached to a closed channel is never told. Scope: networks of any shape of function processes (no await/yield processes, copyable results), any clients and schedules, every buffer size 1 (the default). C46_buffer_refuted, C46_buffer_open_refuted: with a buffer of two downstream, a channel can close before a running call's result is sent (which is then lost), or never close."
  },
  {
   "property": "C47",
   "status": "partial",
   "theorems": [
    "C47_aligned",
    "C47_prompt",
    "C47_buffer_refuted"
   ],
   "note": "Alignment with what the upstream processes have produced, for every reachable state; promptness at rest. C47_buffer_refuted: with another buffer size downstream a later pair may be dealt with first. Scope: networks of any shape of function processes (no await/yield processes, copyable results), any clients and schedules, every buffer size 1 (the default)."
  },
  {
   "property": "C48",
   "status": "partial",
   "theorems": [
    "C48_rotation",
    "C48_prompt",
    "C48_buffer_refuted"
   ],
   "note": "Rotation, for every reachable state; promptness at rest. C48_buffer_refuted: with another buffer size downstream the turn of an upstream may be missed. Scope: networks of any shape of function processes (no await/yield processes, copyable results), any clients and schedules, every buffer size 1 (the default)."
  },
  {
   "property": "C49",
   "status": "partial",
   "theorems": [
    "C49_interleaving",
    "C49_complete",
    "C49_buffer_refuted"
   ],
   "note": "Interleaving of prefixes, for every reachable state; completeness at rest. C49_buffer_refuted: with another buffer size downstream the order of one upstream's messages may be lost. Scope: networks of any shape of function processes (no await/yield processes, copyable results), any clients and schedules, every buffer size 1 (the default)."
  },
  {
   "property": "C50",
   "status": "partial",
   "theorems": [
    "C50_in_place",
    "C50_silent",
    "C50_refuted"
   ],
   "note": "The exception is delivered in place. C50_silent/C50_refuted: the function process that receives it never deals with a later message and never closes, in any continuation. Scope: networks of any shape of function processes (no await/yield processes, copyable results), any clients and schedules, every buffer size 1 (the default)."
  },
  {
   "property": "C51",
   "status": "partial",
   "theorems": [
    "C51_partial",
    "C51_upstream_partial",
    "C51_wrap",
    "C51_refuted"
   ],
   "note": "Exact while there are no more messages than the buffer size, always so for upstream processes; C51_wrap/C51_refuted: underflow when a client has sent more. Unlimited buffers report 2^64-1, not nothing."
  },
  {
   "property": "C52",
   "status": "partial",
   "theorems": [
    "C52_annotations_first_partial",
    "C52_single_annotation",
    "C52_executor_lost_refuted",
    "C52_buffer_size_lost_refuted",
    "C52_other_forms_do_not_compile",
    "C52_nothing_invented"
   ],
   "note": "Proved for a single annotation and for annotations written before the function; refuted for chains on an annotated_process (annotation assigned to a moved-from object); one documented form does not compile."
  },
  {
   "property": "C53",
   "status": "partial",
   "theorems": [
    "C53_steps_partial",
    "C53_steps_exact",
    "C53_completed",
    "C53_steps_with_assignment_refuted",
    "C53_steps_with_copy_assignment_refuted",
    "C53_completed_bounded_refuted"
   ],
   "note": "steps() exact for all histories without assignment; with assignments it is ahead by exactly the number of assignments over a linked function (C53_steps_exact, all histories); completed() exact for all histories; refuted: steps() under copy/move assignment, completed() <= steps()."
  },
  {
   "property": "C54",
   "status": "partial",
   "theorems": [
    "C54_tuple_find",
    "C54_get_i",
    "C54_void_i",
    "C54_tuple_for_each",
    "C54_apply_indexed",
    "C54_index_sequence_transform",
    "C54_remove_placeholder",
    "C54_apply_ignore_placeholders_refuted",
    "C54_all_true"
   ],
   "note": "All tuple algorithms proved; apply_ignore_placeholders refuted."
  },
  {
   "property": "C55",
   "status": "partial",
   "theorems": [
    "C55_work_conserving_refuted"
   ],
   "note": "Refuted: a task can sit in the queue of a busy thread while another thread sleeps and nothing will wake it. If the running task blocks on the queued one the program hangs."
  },
  {
   "property": "C56",
   "status": "proved",
   "theorems": [
    "C56_settles",
    "C56_progress",
    "C56_rest",
    "C56_any_settles",
    "C56_any_progress",
    "C56_any_rest"
   ],
   "note": "Proved by a measure that decreases in every step of a job or pending critical section; client steps (sending, attaching, destroying) are not bounded, of course. Function processes. The C56_any theorems are for any buffer sizes (a lexicographic pair of measures); as undefined behaviour can be reached then (C43_buffer_ub_refuted), they speak about executions up to it."
  },
  {
   "property": "C57",
   "status": "partial",
   "theorems": [
    "C57_order",
    "C57_all",
    "C57_untimed_partial",
    "C57_undelayed_partial",
    "C57_refuted",
    "C57_waits_refuted"
   ],
   "note": "Order, uniqueness and completeness at rest in all runs. Exclusion for processes that never await with a timeout, and for processes that never delay a yield. C57_refuted: with both, two yields run at once. C57_waits_refuted: a message that arrives just before a process begins to wait with a timeout is not noticed until the time is up. Scope: one process with one port, default buffer sizes, any processes downstream that ask for the next message once per message."
  },
  {
   "property": "C58",
   "status": "partial",
   "theorems": [
    "C58_partial",
    "C58_refuted"
   ],
   "note": "Proved for processes that never await with a timeout. C58_refuted: a timeout that a message has cancelled still yields in a process that now awaits for ever. Scope: one process with one port, default buffer sizes, any processes downstream that ask for the next message once per message."
  },
  {
   "property": "C59",
   "status": "partial",
   "theorems": [
    "C59_results_partial",
    "C59_pace_partial",
    "C59_order_refuted",
    "C59_pace_refuted"
   ],
   "note": "Proved for processes that never await with a timeout; refuted with timeouts (results overtake each other; a stale timeout ignores back pressure). Scope: one process with one port, default buffer sizes, any processes downstream that ask for the next message once per message."
  },
  {
   "property": "C60",
   "status": "partial",
   "theorems": [
    "C60_called_partial",
    "C60_closes_partial",
    "C60_closes_without_partial",
    "C60_last",
    "C60_once",
    "C60_often_refuted",
    "C60_refuted",
    "C60_generator_never"
   ],
   "note": "Without timeouts: close() is called with all senders gone and all messages dealt with, downstream is closed once and not before, unless close() leaves the process with something to yield or throws: then it is never closed (C60_refuted). close() is also called whenever the queue runs empty (C60_often_refuted). A process without await() never closes (C60_generator_never). Scope: one process with one port, default buffer sizes, any processes downstream that ask for the next message once per message."
  },
  {
   "property": "C61",
   "status": "partial",
   "theorems": [
    "C61_partial",
    "C61_refuted"
   ],
   "note": "Proved for processes that never await with a timeout. C61_refuted: a late timeout reads state() of the destroyed process. Scope: one process with one port, default buffer sizes, any processes downstream that ask for the next message once per message."
  },
  {
   "property": "C62",
   "status": "partial",
   "theorems": [
    "C62_terminates",
    "C62_unblocked",
    "C62_refuted"
   ],
   "note": "Termination and absence of blocking in all runs. What holds at rest: C57_all, C60_closes_partial. C62_refuted: a process with yield() only that reports await is marked as running for ever. Scope: one process with one port, default buffer sizes, any processes downstream that ask for the next message once per message."
  },
  {
   "property": "C63",
   "status": "partial",
   "theorems": [
    "C63_once",
    "C63_after",
    "C63_all_partial",
    "C63_refuted"
   ],
   "note": "At most once and not before resolution in all runs. C63_all_partial needs promises not overwritten by move assignment; C63_refuted: such a promise leaves the continuation uncalled for ever. Scope: one shared state of a move-only future, its handle, promise and continuations; any executor."
  },
  {
   "property": "C64",
   "status": "partial",
   "theorems": [
    "C64_resolved",
    "C64_reads",
    "C64_then_partial",
    "C64_refuted"
   ],
   "note": "C64_reads: the first reader has the value, the others what is left after the move. C64_then_partial: futures never polled. C64_refuted: get_try() of an lvalue moves the value out; a continuation attached afterwards is called with a moved-from value. Scope: one shared state of a move-only future, its handle, promise and continuations; any executor."
  },
  {
   "property": "C65",
   "status": "partial",
   "theorems": [
    "C65_safe",
    "C65_once",
    "C65_not_early",
    "C65_freed_partial",
    "C65_leak_refuted",
    "C65_detached_partial",
    "C65_detached_refuted"
   ],
   "note": "No use after destruction, destruction once and not early in all runs; freed at the end unless a promise was overwritten (C65_leak_refuted: detach(f) owns itself). C65_detached_partial: nothing attached after detach(). C65_detached_refuted: then() overwrites what detach() has put into the only slot, and destroying its result cancels the task. Scope: one shared state of a move-only future, its handle, promise and continuations; any executor."
  },
  {
   "property": "C66",
   "status": "proved",
   "theorems": [
    "C66_result",
    "C66_same",
    "C66_complete"
   ],
   "note": "C66_result and C66_complete compare with a big-step evaluation of the coroutines, C66_same two schedules with each other. Scope: futures fulfilled by the environment and coroutines in any number, started at any time; a coroutine is any tree of awaits, returns and throws; every interleaving."
  },
  {
   "property": "C67",
   "status": "proved",
   "theorems": [
    "C67_safe",
    "C67_awaits",
    "C67_frame",
    "C67_waits",
    "C67_ends",
    "C67_rest"
   ],
   "note": "C67_safe: never resumed unless suspended, frame never used after its destruction. C67_awaits: resumed once per await, in order, with the outcome of the awaited future. C67_waits: who has not finished at rest awaits a future that is not ready. C67_ends: no endless run of library steps. Scope: futures fulfilled by the environment and coroutines in any number, started at any time; a coroutine is any tree of awaits, returns and throws; every interleaving."
  },
  {
   "property": "C68",
   "status": "partial",
   "theorems": [
    "C68_order",
    "C68_delivered",
    "C68_close",
    "C68_all_partial",
    "C68_ends",
    "C68_rest",
    "C68_alone",
    "C68_alone_refuted",
    "C68_second_refuted"
   ],
   "note": "C68_order, C68_delivered, C68_close: in order, one at a time, results to the process attached, told of the end after everything. C68_all_partial: if something is attached, at rest everything sent has been dealt with and delivered. C68_alone_refuted, C68_alone: with nothing attached no more than one message is ever dealt with (size() is 1 regardless). C68_second_refuted: attaching a second process silently replaces the first, which is told that the channel is closed. C68_ends, C68_rest: no endless run. Scope: one function process with one port, default buffer size, an environment that answers each message once."
  },
  {
   "property": "C69",
   "status": "partial",
   "theorems": [
    "C69_safe",
    "C69_order",
    "C69_once",
    "C69_gone",
    "C69_last",
    "C69_done_partial",
    "C69_ends",
    "C69_rest",
    "C69_drop",
    "C69_drop_refuted",
    "C69_discarded",
    "C69_cycle_refuted"
   ],
   "note": "C69_safe: the instance is never used when destroyed. C69_order, C69_once, C69_gone, C69_last: tasks in order, destroyed once and after they ended; the instance destroyed last. C69_done_partial: if the executor discards no job, at rest everything has been executed and destroyed, and the instance with the last handle. C69_drop, C69_drop_refuted: after a discarded job nothing is executed any more. C69_cycle_refuted: if a task left behind holds an executor of the queue, both leak. C69_ends, C69_rest: no endless run. Scope: shared_ptr by contract (use count, destruction with the last reference)."
  },
  {
   "property": "C70",
   "status": "partial",
   "theorems": [
    "C70_all_partial",
    "C70_single_refuted"
   ],
   "note": "C70_all_partial: mode all. C70_single_refuted: in mode single the task is destroyed after the queue has been resubmitted, so the next task may start before. Scope: as C69."
  },
  {
   "property": "C71",
   "status": "partial",
   "theorems": [
    "C71_libdispatch_partial",
    "C71_assert_partial",
    "C71_pool_partial",
    "C71_ends",
    "C71_rest",
    "C71_late_timer_refuted",
    "C71_assert_refuted",
    "C71_timer_refuted",
    "C71_timer_executor_refuted",
    "C71_priorities_refuted"
   ],
   "note": "C71_libdispatch_partial: libdispatch, if the timer was not first used during pre_exit; C71_assert_partial: no assertion fails if tasks do not use the timer. C71_pool_partial: portable and Windows, tasks of one priority and no timer. C71_ends, C71_rest: pre_exit returns. Refuted without those hypotheses: C71_late_timer_refuted, C71_assert_refuted, C71_timer_refuted, C71_timer_executor_refuted, C71_priorities_refuted. Scope: pools by contract (C24 for the portable one); handlers of users and static destruction are not modelled."
  },
  {
   "property": "C72",
   "status": "partial",
   "theorems": [
    "C72_taken_partial",
    "C72_join_partial",
    "C72_ends",
    "C72_late_refuted",
    "C72_missed_refuted",
    "C72_limit_refuted"
   ],
   "note": "Portable pool. C72_taken_partial, C72_join_partial: if no try_lock of a non-empty queue fails while a thread scans for work, and the thread limit is not reached. C72_ends: it comes to rest, whatever fails. Refuted without: C72_late_refuted (a task submitted after the await, to the queue of the waiting thread, while another thread sleeps: needs neither a failure nor the limit), C72_missed_refuted, C72_limit_refuted. Scope: join is added in C73; which task of a queue is taken is arbitrary."
  },
  {
   "property": "C73",
   "status": "partial",
   "theorems": [
    "C73_safe_partial",
    "C73_before_partial",
    "C73_all_partial",
    "C73_ends",
    "C73_rest",
    "C73_late_refuted",
    "C73_hang_refuted",
    "C73_missed_refuted"
   ],
   "note": "Portable pool. C73_safe_partial, C73_before_partial: if no thread is added after join has read the end of the list of threads. C73_all_partial: if besides no try_pop fails on a non-empty queue. C73_ends, C73_rest: without conditions, join returns or a task of the pool waits for something that has not come. Refuted without: C73_late_refuted (a task that submits and awaits while join waits: the added thread is not joined and uses the cleared queues), C73_missed_refuted (a task submitted during join is dropped), C73_hang_refuted (fork and join inside a task: the thread woken for it leaves, the task and join wait for ever). Scope: clients make no calls during join; one join; the data race on _threads and the destruction of unjoined threads are not modelled."
  },
  {
   "property": "C74",
   "status": "partial",
   "theorems": [
    "C74_once",
    "C74_says",
    "C74_final",
    "C74_rest",
    "C74_in_order_partial",
    "C74_back_refuted",
    "C74_missed_refuted",
    "C74_overlap_refuted"
   ],
   "note": "Each completed invocation reports exactly once (C74_once); what it reports was the case between the completion and the report (C74_says); the final count is reported (C74_final); in order if no two invocations are in task_done at a time (C74_in_order_partial). Refuted without: the last report can say less than an earlier one (C74_back_refuted), counts are passed over (C74_missed_refuted), the callback is called concurrently with itself (C74_overlap_refuted)."
  },
  {
   "property": "C75",
   "status": "partial",
   "theorems": [
    "C75_queues",
    "C75_one_partial",
    "C75_refuted"
   ],
   "note": "C75_queues: for every number of threads, the tasks are divided among the queues so that those of each queue are started in order of priority, and of submission within a priority. C75_one_partial: a pool with one queue starts all tasks in that order. C75_refuted: with two queues a task of high priority waits while any number of tasks of low priority, submitted later, are started. As long as at most 2^62 tasks are submitted (C23_bound_tight)."
  },
  {
   "property": "C76",
   "status": "partial",
   "theorems": [
    "C76_synchronised_partial",
    "C76_with_fence",
    "C76_refuted"
   ],
   "note": "C76_refuted: the relaxed use_count() lets a move of the value race with an earlier copy in another thread. C76_synchronised_partial: no race if whoever has destroyed a future has synchronised with those who consume one later; C76_with_fence: with an acquire fence after use_count(), which the code lacks, there is none in any execution. get_ready of copyable values; loads of the count give the last value."
  },
  {
   "property": "C77",
   "status": "partial",
   "theorems": [
    "C77_returns",
    "C77_wakes_partial",
    "C77_lost_refuted",
    "C77_made_refuted",
    "C77_passed_refuted",
    "C77_ub_refuted"
   ],
   "note": "C77_returns: the first part. C77_wakes_partial: the second, if no notification comes between the evaluation of the predicate and the beginning of waiting, which the code does not exclude: C77_lost_refuted. C77_ub_refuted refutes the third part; C77_made_refuted and C77_passed_refuted show why the second says 'after a destruction' and 'no more are made or destroyed'."
  },
  {
   "property": "C78",
   "status": "proved",
   "theorems": [
    "C78_ready",
    "C78_exceptional"
   ],
   "note": "For every state and a call that is not interleaved with other threads' steps (they have no access to the new shared state before the call returns)."
  },
  {
   "property": "C79",
   "status": "partial",
   "theorems": [
    "C79_sizes",
    "C79_defined",
    "C79_unknown_refuted",
    "C79_maximum_refuted",
    "C79_default_refuted"
   ],
   "note": "C79_sizes: for up to 2^30 cores. C79_defined, C79_unknown_refuted: std::clamp is called with its bounds in the wrong order, undefined behaviour, exactly if there is a maximum and hardware_concurrency() is 0. C79_maximum_refuted, C79_default_refuted: the README's numbers of threads are wrong."
  },
  {
   "property": "C80",
   "status": "partial",
   "theorems": [
    "C80_beginning",
    "C80_insert_range",
    "C80_copy_partial",
    "C80_assign_partial",
    "C80_leak_refuted"
   ],
   "note": "(a) proved (C80_insert_range; the source in another forest; C80_beginning says what the first elements are). (b) All forests are unchanged, but the nodes copied before the exception are leaked, exactly those (C80_copy_partial, C80_assign_partial, C80_leak_refuted): the copy constructor does not delegate, so the destructor is not called."
  },
  {
   "property": "C81",
   "status": "partial",
   "theorems": [
    "C81_outside_partial",
    "C81_inside_refuted"
   ],
   "note": "Proved for every position but those inside the range and its end (C81_outside_partial); at each of these the loop never ends (C81_inside_refuted), so the property fails there for every non-empty range."
  },
  {
   "property": "C82",
   "status": "proved",
   "theorems": [
    "C82_calls",
    "C82_results",
    "C82_flow"
   ],
   "note": "Scope as C43 but for any buffer sizes. Order, exclusion and closing fail there (C43_buffer_refuted, C44_buffer_refuted, C46_buffer_refuted and others)."
  },
  {
   "property": "C83",
   "status": "proved",
   "theorems": [
    "C83_splice",
    "C83_splice_both",
    "C83_skip_next",
    "C83_skip"
   ],
   "note": "Proved. set_next_fn enters by contract (it changes one successor, and one predecessor for bidirectional nodes)."
  },
  {
   "property": "C84",
   "status": "partial",
   "theorems": [
    "C84_append_refuted",
    "C84_nodes_refuted"
   ],
   "note": "Refuted for every non-empty range (not only by a witness): `I prior(end)` should be `I prior(first)`; the result is the empty range and end is linked to itself. Forest is C12."
  },
  {
   "property": "C85",
   "status": "partial",
   "theorems": [
    "C85_cancel",
    "C85_stuck",
    "C85_deferred",
    "C85_ordered",
    "C85_any",
    "C85_refuted"
   ],
   "note": "Refuted for immediate_executor by a witness for each of the three contexts that cancel; proved for every other executor, and with an immediate executor exactly characterised: it gets stuck iff the task of a waiting argument owns the promise of a later waiting one. Missing for the full statement: nothing that holds."
  },
  {
   "property": "C86",
   "status": "partial",
   "theorems": [
    "C86_prompt",
    "C86_order",
    "C86_exact_partial",
    "C86_bound",
    "C86_early_refuted",
    "C86_far_refuted"
   ],
   "note": "In order and never late (C86_order, C86_prompt). Refuted: the time is truncated to milliseconds, so a function may be executed up to, but never, 1 ms early (C86_early_refuted, C86_bound; C86_exact_partial: not early for whole milliseconds); times after the year 3000 are due at once (C86_far_refuted, for all such times). gmtime_s and SystemTimeToFileTime by contract, dates as day numbers."
  },
  {
   "property": "C87",
   "status": "partial",
   "theorems": [
    "C87_history",
    "C87_pending",
    "C87_rest",
    "C87_timers_refuted",
    "C87_end_refuted",
    "C87_throw_refuted"
   ],
   "note": "Proved for all variants but the Windows timer (C87_history, C87_pending, C87_rest). Refuted for the Windows timer, for every run: timer objects are never closed before the end (C87_timers_refuted), functions not due by then are leaked (C87_end_refuted), and so is the function of a call that throws (C87_throw_refuted). The systems enter by contract."
  },
  {
   "property": "C88",
   "status": "partial",
   "theorems": [
    "C88_delivers",
    "C88_calm_partial",
    "C88_attach_refuted",
    "C88_ub_refuted"
   ],
   "note": "False: attaching during the loop invalidates its iterator (C88_attach_refuted, C88_ub_refuted); true if nobody attaches during a loop (C88_calm_partial), and what is delivered is right as long as nothing is undefined (C88_delivers)."
  },
  {
   "property": "C89",
   "status": "partial",
   "theorems": [
    "C89_count",
    "C89_under",
    "C89_once",
    "C89_not_before",
    "C89_zero_partial",
    "C89_forever_refuted",
    "C89_sender_refuted",
    "C89_receiver_refuted"
   ],
   "note": "Proved if no object that counts is assigned to and no ready receiver is copied (C89_zero_partial); in general the counter is too high by exactly the number of such operations (C89_count), and the process is never told afterwards (C89_forever_refuted, C89_sender_refuted, C89_receiver_refuted). It is never told too early, or twice (C89_not_before, C89_once, C89_under)."
  },
  {
   "property": "C90",
   "status": "partial",
   "theorems": [
    "C90_swap",
    "C90_values",
    "C90_equivalence",
    "C90_same_partial",
    "C90_same_refuted"
   ],
   "note": "Operations and swapping: proved (C90_values, C90_swap). Equality: an equivalence; right for receivers and for senders whose processes exist (C90_same_partial); senders of destroyed processes are all equal (C90_same_refuted)."
  },
  {
   "property": "C91",
   "status": "partial",
   "theorems": [
    "C91_afresh",
    "C91_results_partial",
    "C91_state_refuted",
    "C91_awaits"
   ],
   "note": "Proved for functions whose calls do not depend on earlier ones (C91_results_partial); in general each message is given to a copy of the original function object (C91_afresh), so that functions with a state give other results (C91_state_refuted)."
  },
  {
   "property": "C92",
   "status": "partial",
   "theorems": [
    "C92_looks",
    "C92_partial",
    "C92_refuted"
   ],
   "note": "Proved for processes that never await with a timeout (C92_partial); C92_looks shows that no job is left out of those that look at the process. With a timeout clear_to_send calls state() during yield() (C92_refuted)."
  },
  {
   "property": "C93",
   "status": "proved",
   "theorems": [
    "C93_bracket",
    "C93_outcome",
    "C93_exclusive",
    "C93_progress",
    "C93_order_needed",
    "C93_order_needed_two"
   ],
   "note": "For T a lock guard of one mutex. C93_order_needed and C93_order_needed_two show that the hypothesis of C93_progress cannot be dropped."
  }
 ]
}