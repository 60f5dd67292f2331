{
 "claims": [
  {
   "property": "C01",
   "status": "proved",
   "theorems": [
    "path_parse_segments",
    "path_segments_unique",
    "path_print_of_parse",
    "path_parse_of_print",
    "path_components_no_slash",
    "path_root_prints_empty",
    "path_empty_view_ub"
   ],
   "note": "Parsing equals the independent splitter; printing round trips up to a trailing slash; empty view is undefined behaviour."
  },
  {
   "property": "C02",
   "status": "proved",
   "theorems": [
    "canonicalise_fails_iff_climbs",
    "canonicalise_success",
    "canonicalise_stack_form",
    "canonicalise_idem",
    "canonicalise_failure",
    "canonicalise_no_new_components",
    "canonicalise_dot_refuted"
   ],
   "note": "Full; also shows that '.' is treated as an ordinary name."
  },
  {
   "property": "C03",
   "status": "proved",
   "theorems": [
    "make_absolute_anchors",
    "make_absolute_on_absolute",
    "make_absolute_default_text",
    "make_absolute_default_rooted"
   ],
   "note": ""
  },
  {
   "property": "C04",
   "status": "proved",
   "theorems": [
    "filetree_refines_export_history"
   ],
   "note": "Refinement of the tree to the history of accepted exports."
  },
  {
   "property": "C05",
   "status": "proved",
   "theorems": [
    "filetree_lookup_confined",
    "filetree_remainder_clean"
   ],
   "note": ""
  },
  {
   "property": "C06",
   "status": "proved",
   "theorems": [
    "filetree_add_refused_iff_below_directory",
    "filetree_accepted_add",
    "filetree_add_total",
    "filetree_add_empty_throws"
   ],
   "note": ""
  },
  {
   "property": "C07",
   "status": "proved",
   "theorems": [
    "filetree_relative_name_misfiled",
    "filetree_first_byte_ignored",
    "filetree_directory_not_replaceable_refuted",
    "filetree_directory_itself_not_found"
   ],
   "note": "Limits of the exported tree, as theorems about the faithful model."
  },
  {
   "property": "C08",
   "status": "proved",
   "theorems": [
    "contains_exact",
    "contains_sound",
    "contains_shrink",
    "contains_accepts_chunk_memory",
    "contains_every_heap_block_refuted",
    "domesticate_null_or_inside"
   ],
   "note": "contains skips the header twice; the refuted theorem records the consequence."
  },
  {
   "property": "C09",
   "status": "proved",
   "theorems": [
    "strdup_out_bounded_terminated",
    "strdup_out_terminates",
    "strdup_out_copies_cstring",
    "strdup_out_null_reason",
    "strdup_out_malloc_failure_refuted",
    "strdup_out_reads_what_was_there"
   ],
   "note": "Byte-wise loads, each answered by an arbitrary adversary."
  },
  {
   "property": "C10",
   "status": "proved",
   "theorems": [
    "alloc_request_never_wraps",
    "alloc_array_in_request",
    "alloc_object_in_request",
    "alloc_count_of_size_t",
    "alloc_count_of_other_type_refuted"
   ],
   "note": ""
  },
  {
   "property": "C11",
   "status": "proved",
   "theorems": [
    "shm_map_aligned_and_exact",
    "shm_map_small_aligned_and_exact",
    "shm_map_unmap_restores",
    "shm_map_mmap_aligned_and_exact",
    "pal_range_aligned_and_exact",
    "shm_map_failure_unreported",
    "pal_range_failure_unmaps_foreign_refuted",
    "shm_map_fixed_failure_leaks"
   ],
   "note": "the last two are limits"
  },
  {
   "property": "C12",
   "status": "proved",
   "theorems": [
    "location_round_trip",
    "child_maps_where_parent_mapped",
    "bootstrap_refuses_missing_location",
    "bootstrap_location_nonzero",
    "strtoull_reads",
    "strtoull_reads_nothing",
    "bootstrap_location_reads",
    "bootstrap_refuses_bad_location"
   ],
   "note": ""
  },
  {
   "property": "C13",
   "status": "proved",
   "theorems": [
    "memsvc_other_regions_untouched",
    "memsvc_host_entries_survive",
    "memsvc_mark_is_ownership"
   ],
   "note": "outside-region part for all hostile histories; inside part for histories with naturally aligned frees; the unconditional inside part is refuted under C17"
  },
  {
   "property": "C14",
   "status": "proved",
   "theorems": [
    "memsvc_grants_fresh_aligned_blocks",
    "host_chunks_fresh_aligned_blocks"
   ],
   "note": ""
  },
  {
   "property": "C15",
   "status": "proved",
   "theorems": [
    "memsvc_alloc_replies",
    "memsvc_dealloc_replies",
    "memsvc_failure_changes_nothing",
    "memsvc_no_memory_means_exhausted"
   ],
   "note": ""
  },
  {
   "property": "C16",
   "status": "proved",
   "theorems": [
    "memsvc_queues_stay_inside",
    "memsvc_grant_installs_checked_entry"
   ],
   "note": ""
  },
  {
   "property": "C17",
   "status": "proved",
   "theorems": [
    "memsvc_misaligned_free_captures_host_chunk_refuted",
    "memsvc_misaligned_free_exposes_header_refuted",
    "memsvc_unknown_kind_succeeds"
   ],
   "note": "limits; depend on the model of snmalloc's buddy allocator, see DESIGN.md"
  },
  {
   "property": "C18",
   "status": "proved",
   "theorems": [
    "library_destroy_clears_region",
    "library_destroy_deletes_host_pointers_only"
   ],
   "note": ""
  },
  {
   "property": "C19",
   "status": "proved",
   "theorems": [
    "claim_for_sandbox_lossless",
    "host_entry_round_trip",
    "host_entry_needs_16_alignment_refuted"
   ],
   "note": ""
  },
  {
   "property": "C20",
   "status": "proved",
   "theorems": [
    "callback_well_formed_runs_once",
    "callback_malformed_runs_nothing",
    "callback_reply_or_terminate"
   ],
   "note": "Kinds, sizes and pointers are arbitrary 64-bit words; registrations are arbitrary lists; handlers are arbitrary functions."
  },
  {
   "property": "C21",
   "status": "proved",
   "theorems": [
    "callback_numbers_stable",
    "callback_numbers_never_replaced"
   ],
   "note": ""
  },
  {
   "property": "C22",
   "status": "proved",
   "theorems": [
    "callback_single_snapshot",
    "callback_well_formed_runs_once"
   ],
   "note": "The adversary chooses the value of every single load."
  },
  {
   "property": "C23",
   "status": "proved",
   "theorems": [
    "fs_open_confined",
    "fs_stat_confined",
    "fs_access_confined",
    "fs_openat_confined",
    "fs_open_answer"
   ],
   "note": "The kernel is an arbitrary oracle; what RESOLVE_BENEATH means inside the kernel is not modelled."
  },
  {
   "property": "C24",
   "status": "proved",
   "theorems": [
    "open_end_to_end",
    "open_trap_end_to_end",
    "stat_trap_end_to_end",
    "access_trap_end_to_end",
    "connect_inside_end_to_end",
    "connect_trap_end_to_end"
   ],
   "note": "Whole path: program string/registers -> child marshalling -> dispatcher -> host handler -> host kernel -> reply -> value and errno the program sees, for every kernel behaviour, exported tree and memory layout with a working malloc. The kernel and the descriptor transfer are oracles."
  },
  {
   "property": "C25",
   "status": "proved",
   "theorems": [
    "openat_leaks_host_descriptor",
    "openat_loses_errno",
    "access_exported_file_always_efault",
    "openat_end_to_end_limit",
    "unemulated_trap_returns_number",
    "openat_trap_limit"
   ],
   "note": "The part about trapped calls without emulation is added with the child model."
  },
  {
   "property": "C26",
   "status": "proved",
   "theorems": [
    "net_policy_last_setting_decides",
    "net_last_setting_unique",
    "net_policy_operations_independent"
   ],
   "note": ""
  },
  {
   "property": "C27",
   "status": "proved",
   "theorems": [
    "bind_connect_private_copy",
    "net_default_deny"
   ],
   "note": ""
  },
  {
   "property": "C28",
   "status": "proved",
   "theorems": [
    "gai_list_rebuilt",
    "gai_bad_pointers_refused",
    "gai_consults_policy_once",
    "gai_host_pointers_leak",
    "gai_error_code_lost"
   ],
   "note": "The clause that no host pointer leaks is false; gai_host_pointers_leak proves the leak for every list."
  },
  {
   "property": "C29",
   "status": "proved",
   "theorems": [
    "seccomp_decides_as_documented",
    "seccomp_allowed_xor_trapped",
    "seccomp_rule_order_irrelevant",
    "seccomp_never_allows",
    "seccomp_runtime_works",
    "seccomp_missing_rules_fail_closed",
    "seccomp_asserts_fail_closed"
   ],
   "note": "x86-64 Linux numbers, builds without DEBUG_SANDBOX; libseccomp's matching semantics is part of the model."
  },
  {
   "property": "C30",
   "status": "proved",
   "theorems": [
    "sem_wakes_consumed_once",
    "sem_no_abort",
    "sem_no_lost_wakeup",
    "sem_pending_wait_succeeds",
    "sem_sleeper_is_woken",
    "sem_wake_in_transit",
    "sem_wait_progress",
    "sem_wait_bounded"
   ],
   "note": "futex implementation, any number of threads, sequentially consistent memory, FUTEX_WAIT/WAKE semantics with time-outs, spurious returns and EINTR"
  },
  {
   "property": "C31",
   "status": "proved",
   "theorems": [
    "sem_corrupt_wake_aborts",
    "sem_corrupt_negative_spins",
    "sem_corrupt_free_tokens"
   ],
   "note": "limit: every non-zero value aborts the next wake; negative values make wait spin; values above one succeed without a wake"
  },
  {
   "property": "C32",
   "status": "proved",
   "theorems": [
    "calls_nest_properly",
    "calls_are_sequential",
    "one_side_at_a_time",
    "depth_matches_nesting",
    "no_protocol_aborts",
    "calls_make_progress",
    "calls_take_bounded_steps",
    "loading_handler_call_deadlocks",
    "spurious_load_wait_breaks_calls",
    "user_code_decides",
    "first_call_starts"
   ],
   "note": "Any user code on both sides, every interleaving of single accesses to shared memory, debug and release builds. Hypotheses: frames are not null; handlers of loading-time callbacks do not call into the sandbox (without this loading_handler_call_deadlocks applies); the loading loop's wait does not return spuriously (otherwise spurious_load_wait_breaks_calls)."
  },
  {
   "property": "C33",
   "status": "proved",
   "theorems": [
    "dead_never_blocks",
    "dead_pending_call_throws",
    "dead_destructor_returns",
    "dies_between_calls",
    "dead_later_calls_abort",
    "dead_second_call_throws_refuted",
    "dead_call_never_succeeds_refuted",
    "dead_loading_spins",
    "dead_loading_sleeps"
   ],
   "note": "The claim that every later call throws is refuted (witnesses and the universal dead_later_calls_abort)."
  },
  {
   "property": "C34",
   "status": "proved",
   "theorems": [
    "shutdown_runs_nothing",
    "shutdown_ends"
   ],
   "note": "For a library that was called; shutdown_runs_nothing also covers one destroyed while loading."
  },
  {
   "property": "C35",
   "status": "proved",
   "theorems": [
    "status_is_own_process",
    "status_sticky",
    "reaped_once",
    "terminate_hits_own_process",
    "raw_terminate_hits_own_process_refuted",
    "signal_death_reports_zero"
   ],
   "note": "Invariant over all histories for any number of libraries, kernel process table with number reuse. Library-level terminate is safe; ChildProcess::terminate by itself is refuted with a witness; signal deaths report exit code 0."
  },
  {
   "property": "C36",
   "status": "proved",
   "theorems": [
    "concurrent_queries_exit_host",
    "concurrent_queries_safe_refuted",
    "failed_fork_terminate_kills_all",
    "failed_fork_query_exits_host",
    "failed_fork_steals_refuted",
    "concurrent_queries_truthful",
    "concurrent_answer_remembered"
   ],
   "note": "Limit property: universal theorems plus reachable witnesses."
  },
  {
   "property": "C37",
   "status": "proved",
   "theorems": [
    "descriptor_in_one_place",
    "no_descriptor_leaks",
    "every_close_succeeds",
    "handle_owns_alone",
    "validity_assertion_holds",
    "closes_only_own",
    "move_transfers",
    "move_construct_transfers",
    "self_move_closes",
    "double_wrap_safe_refuted",
    "stale_handle_caught"
   ],
   "note": "All programs over Handle that pass only numbers they hold. Self-move closes the descriptor (limit theorem); wrapping one number twice is refuted as safe."
  },
  {
   "property": "C38",
   "status": "proved",
   "theorems": [
    "child_descriptor_layout",
    "child_gets_nothing_else",
    "start_child_always_ends_refuted"
   ],
   "note": "All tables with room for 14 more descriptors; the loop without room never ends (limit)."
  },
  {
   "property": "C39",
   "status": "proved",
   "theorems": [
    "pagemap_only_readonly",
    "pagemap_readonly_if_reopen_fails_refuted",
    "closed_stdin_leaks_pagemap",
    "pagemap_as_stdio_leaks"
   ],
   "note": "Positive theorem plus universal limit theorems for the three ways it fails."
  },
  {
   "property": "C40",
   "status": "proved",
   "theorems": [
    "messages_arrive_intact",
    "interruptions_invisible",
    "receive_is_contained",
    "short_message_refused",
    "size_mismatch_refused_refuted",
    "nothing_to_receive",
    "failed_send_sends_nothing",
    "hang_up_is_noticed"
   ],
   "note": "The expected clause that every size mismatch is refused is false for longer messages: size_mismatch_refused_refuted."
  },
  {
   "property": "C41",
   "status": "proved",
   "theorems": [
    "exports_table",
    "exports_query_first",
    "nth_function_calls_nth_export",
    "debug_functions_match",
    "debug_stops_at_first_mismatch",
    "call_frees_frame",
    "dead_call_keeps_frame",
    "matching_declarations_free_everything",
    "release_mismatch_detected_refuted",
    "empty_library_query_undefined"
   ],
   "note": "The sandbox is assumed to run the code of the model (a hostile one can return anything). Counter overflow past INT_MAX is not modelled."
  },
  {
   "property": "C42",
   "status": "proved",
   "theorems": [
    "requests_served_in_order",
    "reply_to_requester",
    "service_is_sequential",
    "others_unaffected",
    "forgotten_for_good",
    "killed_only_for_cause",
    "next_request_gets_reply",
    "service_keeps_running",
    "registering_never_aborts",
    "kqueue_signal_ends_host",
    "polled_is_known"
   ],
   "note": "All event orders, any number of sandboxes; the pollers are PollModel's."
  },
  {
   "property": "C43",
   "status": "proved",
   "theorems": [
    "poll_reports_truth",
    "poll_keeps_messages",
    "waiting_is_reportable",
    "eof_reported_once",
    "hangup_hides_messages",
    "epoll_ignores_interruptions",
    "kqueue_fails_when_interrupted",
    "kqueue_eof_reported_once_refuted"
   ],
   "note": "Epoll and kqueue; the once-only report of end of file is refuted for kqueue."
  },
  {
   "property": "C44",
   "status": "proved",
   "theorems": [
    "initialised_once_if_first_alone",
    "initialised_once_refuted",
    "initialised_before_use_refuted",
    "registration_survives_refuted",
    "fault_needs_known_dead",
    "fault_needs_race",
    "service_safe_if_destroyed_late",
    "library_outlives_service_refuted",
    "leaked_end_breaks_lifetime"
   ],
   "note": "Conditions under which the races are harmless, and the races."
  },
  {
   "property": "C45",
   "status": "proved",
   "theorems": [
    "child_open_request",
    "child_access_request",
    "child_stat_request",
    "child_openat_request",
    "child_openat_absolute",
    "own_descriptor_opened",
    "own_descriptor_failure_is_eperm",
    "child_user_callback_request",
    "child_connect_inside",
    "child_connect_outside",
    "connect_outside_always_einval",
    "child_getaddrinfo_request",
    "child_getaddrinfo_null_refuted",
    "child_openat_own_asks_nothing",
    "child_copy_unchecked"
   ],
   "note": "For every host. Limits proved: an address outside shared memory is sent uncopied (and refused by the host), null host/service/hints to getaddrinfo is undefined behaviour, a failed dup is reported as EPERM."
  },
  {
   "property": "C46",
   "status": "proved",
   "theorems": [
    "strdup_in_copies_bytes",
    "strdup_in_terminated_refuted"
   ],
   "note": "The missing terminator is proved as a limit."
  },
  {
   "property": "C47",
   "status": "proved",
   "theorems": [
    "library_size_honoured",
    "library_size_wraps_refuted"
   ],
   "note": ""
  },
  {
   "property": "C48",
   "status": "proved",
   "theorems": [
    "library_destroy_deletes_once_per_chunk",
    "live_slab_deleted_once_per_chunk",
    "library_destroy_double_delete_refuted"
   ],
   "note": "finding: proved for every slab, with a witness"
  },
  {
   "property": "C49",
   "status": "proved",
   "theorems": [
    "seccomp_release_fails_open",
    "seccomp_names_let_through_refuted",
    "seccomp_debug_stops_nothing"
   ],
   "note": "Limits: universally quantified counterexamples. The last one is about builds with DEBUG_SANDBOX."
  },
  {
   "property": "C50",
   "status": "proved",
   "theorems": [
    "silent_sandbox_blocks_call",
    "silent_sandbox_blocks_destructor"
   ],
   "note": "A limit of the code, not a guarantee."
  },
  {
   "property": "C51",
   "status": "proved",
   "theorems": [
    "start_leaks_host_descriptors",
    "missing_library_leaves_wrong_numbers",
    "missing_library_closes_anothers_descriptor"
   ],
   "note": "Limit property, universal."
  },
  {
   "property": "C52",
   "status": "proved",
   "theorems": [
    "two_descriptors_leak",
    "short_message_leaks_descriptor",
    "sandbox_can_exhaust_descriptors"
   ],
   "note": "A limit, shown universally."
  },
  {
   "property": "C53",
   "status": "proved",
   "theorems": [
    "host_control_is_nested",
    "host_code_waits_for_calls",
    "handlers_follow_requests",
    "replies_are_results",
    "host_writes_documented",
    "throwing_handlers_follow_requests",
    "compromised_control_is_nested"
   ],
   "note": "The host half of the protocol model of C32 against an arbitrary adversary; exceptions thrown by a call are assumed to leave all handlers, as in C33."
  },
  {
   "property": "C54",
   "status": "proved",
   "theorems": [
    "call_can_be_faked",
    "call_can_abort_host",
    "destruction_can_abort_host",
    "call_serves_anything",
    "one_compromised_ends_all"
   ],
   "note": "Limits, proved from every host state at a call."
  },
  {
   "property": "C55",
   "status": "proved",
   "theorems": [
    "new_library_exports",
    "library_tree_is_history",
    "new_library_open_confined",
    "descriptor_zero_forgotten",
    "apart_exports_all"
   ],
   "note": "open(2) is an oracle from paths to descriptors"
  },
  {
   "property": "C56",
   "status": "proved",
   "theorems": [
    "library_and_runner",
    "dirname_in_directory",
    "dirname_in_root",
    "dirname_bare",
    "runner_from_working_directory"
   ],
   "note": "dladdr is an oracle; dirname is POSIX's"
  },
  {
   "property": "C57",
   "status": "proved",
   "theorems": [
    "heap_answers_match",
    "heap_calls_in_order",
    "heap_blocks_private",
    "heap_metadata_kept",
    "heap_death_causes",
    "heap_alloc_never_null",
    "heap_exhaustion_kills",
    "heap_calls_can_finish",
    "heap_failed_call_kills",
    "heap_failed_call_raises",
    "heap_lost_reply_shifts",
    "heap_blocks_private_after_lost_reply_refuted"
   ],
   "note": "Over the memory service of C13-C19 as the host side; the program inside is assumed to free only what it holds (heap_*), whereas a hostile program is covered by C13-C19. kept h says that no failed read was survived; heap_lost_reply_shifts and heap_blocks_private_after_lost_reply_refuted show what happens otherwise. An exception handled by nothing in the library ends the process (library_runner.cc 327-336)."
  },
  {
   "property": "C58",
   "status": "proved",
   "theorems": [
    "umtx_wakes_consumed_once",
    "umtx_no_abort",
    "umtx_no_lost_wakeup",
    "umtx_pending_wait_succeeds",
    "umtx_sleeper_is_woken",
    "umtx_wake_in_transit",
    "umtx_wait_progress",
    "umtx_wait_bounded",
    "umtx_wait_may_miss",
    "umtx_corrupt_wake_aborts",
    "umtx_corrupt_free_tokens",
    "umtx_corrupt_cancels_signal"
   ],
   "note": "FreeBSD counterpart of C29-C31; the kernel's UMTX_OP_SEM2 operations are part of the environment model."
  },
  {
   "property": "C59",
   "status": "proved",
   "theorems": [
    "pd_status_is_own_process",
    "pd_status_sticky",
    "pd_terminate_hits_own_process",
    "pd_destroy_ends_process",
    "pd_poll_sees_cached",
    "pd_signal_death_reports_zero",
    "pd_failed_fork_adopts",
    "pd_failed_fork_exits",
    "pd_concurrent_wait_hangs_refuted",
    "pd_concurrent_answers"
   ],
   "note": "FreeBSD counterpart of C35 and C36; process descriptors and kqueue events are part of the environment model."
  },
  {
   "property": "C60",
   "status": "proved",
   "theorems": [
    "cap_rights_exact",
    "cap_layout",
    "cap_pagemap_readonly",
    "cap_host_keeps",
    "cap_missing_directory_not_run",
    "cap_socket_unrestricted",
    "cap_closed_stdout_leaks_pagemap",
    "cap_missing_directory_runs_host_program",
    "cap_other_failures_end"
   ],
   "note": "cap_socket_unrestricted, cap_closed_stdout_leaks_pagemap and cap_missing_directory_runs_host_program are the limits. cap_enter's ignored result and the kernel's enforcement of rights are outside the model."
  },
  {
   "property": "C61",
   "status": "proved",
   "theorems": [
    "fb_open_confined",
    "fb_stat_confined",
    "fb_access_confined",
    "fb_openat_confined",
    "fb_trap_serves",
    "fb_trap_fails_only_in_call",
    "fb_trap_ignores",
    "fb_old_headers_lose_indirect",
    "fb_stat_overflows",
    "fb_child_stat_request",
    "fb_child_openat_request",
    "fb_child_openat_absolute",
    "fb_child_openat_null"
   ],
   "note": "The last two are the limits. Call numbers, TRAP_CAP, flag values and structure sizes are those of FreeBSD's headers on x86-64, which are not in the repository."
  },
  {
   "property": "C62",
   "status": "proved",
   "theorems": [
    "any_request_confined",
    "nothing_exported_nothing_reached",
    "request_uses_only_what_it_reads",
    "request_reports_its_writes"
   ],
   "note": "Linux; built-in handlers; the allocator in the sandbox is assumed to return blocks inside it, and the size of a resolver's list not to wrap a size_t."
  },
  {
   "property": "C63",
   "status": "proved",
   "theorems": [
    "threads_in_turn_are_sequential",
    "threads_in_turn_calls_complete",
    "threads_in_turn_never_abort",
    "threads_callbacks_in_order",
    "background_callback_loses_call",
    "concurrent_callbacks_swap_results",
    "concurrent_calls_lose_one",
    "concurrent_calls_abort_host",
    "concurrent_callbacks_abort_sandbox",
    "one_thread_each",
    "abort_ends_all_threads"
   ],
   "note": "Starts from a loaded library; a sandbox thread that runs off its start function is outside the turn-taking condition. The header's own comment says re-entrancy with several sandbox threads does not work; the limit theorems say how."
  },
  {
   "property": "C64",
   "status": "proved",
   "theorems": [
    "pivot_enters_and_returns",
    "pivot_without_stack_faults",
    "portable_stack_in_block",
    "pivot_never_uses_its_block",
    "pivot_overwrites_neighbour",
    "pivot_clobbers_rbx"
   ],
   "note": "x86-64 instructions used by the routine, word-addressed memory; the run loop is any behaviour that returns by the calling convention."
  },
  {
   "property": "C65",
   "status": "proved",
   "theorems": [
    "call_accesses",
    "call_is_function",
    "type_check_exact",
    "result_is_the_sandbox_choice",
    "reference_arguments_updated_refuted",
    "type_check_any_address",
    "function_writes_in_frame"
   ],
   "note": "Both sides are assumed to be built with the same frame layout; strcmp is taken to read one byte at a time."
  },
  {
   "property": "C66",
   "status": "proved",
   "theorems": [
    "concurrent_memory_operations_one_at_a_time",
    "concurrent_blocks_are_exclusive",
    "concurrent_slab_entries_stable",
    "concurrent_marks_never_on_host_memory",
    "concurrent_marks_only_in_live_libraries",
    "concurrent_mark_survives_racing_destruction_refuted",
    "concurrent_blocks_shared_after_racing_destruction_refuted"
   ],
   "note": "Steps are single accesses to the allocator (under its lock), to single pagemap entries (also in the destructor's loop) and to the set of libraries. The nodes that snmalloc's buddy allocator keeps in the pagemap entries of free blocks are not modelled, so an entry of a free block keeps its last value; the deletions of ~Library are in C48. The two _refuted theorems show that the condition on destruction is needed for requests of the dying sandbox."
  },
  {
   "property": "C67",
   "status": "proved",
   "theorems": [
    "check_passes",
    "failed_check_not_passed",
    "failed_check_stops",
    "failed_check_with_two_holes_raises",
    "failed_check_ignores_values",
    "code_checks",
    "failed_check_always_stops_refuted",
    "failed_check_shows_values_refuted",
    "checks_left_out_of_release"
   ],
   "note": "Assumes that fmt throws format_error for a placeholder without an argument, as it does when exceptions are enabled. code_checks goes through the list of the checks in the code, copied into the model with their messages and argument texts."
  },
  {
   "property": "C68",
   "status": "proved",
   "theorems": [
    "child_environment",
    "garbled_location_ends",
    "heap_at_the_same_place",
    "heap_found_or_ended",
    "heap_moved_by_old_kernels",
    "heap_replaces_other_memory",
    "heap_kept_by_old_kernels"
   ],
   "note": "Writing and reading of the description are those of C12. mmap is modelled as its manual says. The last two theorems are the limits."
  },
  {
   "property": "C69",
   "status": "proved",
   "theorems": [
    "shm_object_new",
    "shm_object_nameless",
    "shm_object_private",
    "shm_leftovers",
    "shm_creation_ends",
    "shm_failure_is_the_kernels",
    "shm_no_object_ends",
    "shm_object_private_refuted",
    "shm_removes_only_its_own_name_refuted",
    "shm_outsiders_keep"
   ],
   "note": "The kernel's shm_open with O_EXCL, shm_unlink, memfd_create and SHM_ANON are modelled as their manuals say. The last two theorems are the limits."
  },
  {
   "property": "C70",
   "status": "proved",
   "theorems": [
    "closed_before_library_code",
    "filtered_before_library_code",
    "runs_the_hosts_library",
    "told_only_when_ready",
    "smooth_start_serves",
    "new_sandbox_confined",
    "own_descriptor_opened",
    "filtered_in_release_refuted",
    "old_linker_asks_host"
   ],
   "note": "Linux. The linker is modelled by what it does to descriptors: it opens the path, closes the descriptor, then runs constructors. After the library's code has run main is modelled as it behaves if that code leaves it alone (C53, C54 treat hostile libraries)."
  },
  {
   "property": "C71",
   "status": "proved",
   "theorems": [
    "memsvc_noninterference",
    "memsvc_others_invisible"
   ],
   "note": "Requests are atomic in this model; C66 shows that interleaved requests give the results of atomic ones."
  },
  {
   "property": "C72",
   "status": "proved",
   "theorems": [
    "slab_metadata_private",
    "slab_metadata_accounted_for",
    "slab_metadata_not_leaked",
    "slab_exception_leaks_metadata",
    "slab_metadata_unique_in_pagemap_refuted",
    "metadata_range_exclusive_refuted",
    "slab_null_metadata_kills"
   ],
   "note": "The private allocator is assumed to answer atomically with blocks not in use: nothing in the code makes it atomic, which metadata_range_exclusive_refuted shows. Requires that no failed read was survived, as C57."
  },
  {
   "property": "C73",
   "status": "proved",
   "theorems": [
    "throwing_handlers_history",
    "throwing_is_sequential",
    "throwing_one_side_at_a_time",
    "throwing_leaks_depth",
    "throwing_never_aborts",
    "throwing_makes_progress",
    "throwing_shutdown_runs_nothing",
    "throwing_shutdown_ends",
    "caught_exception_misdelivers",
    "caught_exception_hangs",
    "caught_exception_refuted",
    "loading_throw_hangs"
   ],
   "note": "One thread on each side and a sandbox that does not die (as C32). The positive theorems assume that handlers do not catch exceptions of calls they make and that loading-time handlers do not throw; the limit theorems show what happens otherwise."
  },
  {
   "property": "C74",
   "status": "proved",
   "theorems": [
    "linked_history",
    "linked_frames",
    "linked_realises",
    "linked_realises_all"
   ],
   "note": "One thread on each side, a sandbox that neither dies nor misbehaves, allocations that succeed, callbacks with integer payloads and results. Handlers of callbacks made while loading do not call into the library (C32). linked_realises_all is for libraries that make no callback while loading; with such callbacks linked_realises gives all continuations once the first function has started, and first_call_starts (C32) that it can start. Pointers in arguments are bytes like any others: memory they point to is outside the specification. Reference arguments are C65."
  },
  {
   "property": "C75",
   "status": "proved",
   "theorems": [
    "exported_in_one_place",
    "exported_closes_succeed",
    "lookup_refers_to_export",
    "add_closes_what_it_hides",
    "refused_add_changes_nothing",
    "drop_closes_the_exports",
    "exports_never_leak",
    "exported_twice_refuted"
   ],
   "note": "Hosts that pass and close only what they hold, one thread. The refinement to the export history is for well-formed absolute paths; the ownership theorems are for all path texts."
  },
  {
   "property": "C76",
   "status": "proved",
   "theorems": [
    "open_without_create_ignores_mode",
    "open_asks_what_the_library_passed",
    "open_tmpfile_loses_mode",
    "open_exported_file_ignores_flags",
    "open_trap_unused_register_refuted",
    "openat_unused_argument_refuted"
   ],
   "note": "x86-64 Linux. The kernel is an oracle; openat2's rules on the mode are a hypothesis of the two refutations only. The limits are proved for every input in the class."
  },
  {
   "property": "C77",
   "status": "proved",
   "theorems": [
    "throwing_linked_history",
    "throwing_linked_frames",
    "throwing_leaks_frames",
    "throwing_counts_frames",
    "throwing_linked_realises"
   ],
   "note": "Exceptions are caught by the top-level code; an exception caught by a handler desynchronises the two sides (C73, caught_exception_refuted). Handlers of callbacks made while loading return."
  },
  {
   "property": "C78",
   "status": "proved",
   "theorems": [
    "forbidden_call_ends_thread",
    "forbidden_call_is_the_last",
    "forbidden_call_reported",
    "forbidden_call_unreported",
    "other_calls_and_threads"
   ],
   "note": "forbidden_call_unreported is a limit: a user may expect the default action to end the sandbox. The meaning of SCMP_ACT_KILL (thread, not process) is libseccomp's."
  },
  {
   "property": "C79",
   "status": "proved",
   "theorems": [
    "crash_history",
    "crash_told"
   ],
   "note": "What calls made after that exception do is C33's subject (they throw, abort the host or, in one case, report success)."
  },
  {
   "property": "C80",
   "status": "proved",
   "theorems": [
    "no_data_race",
    "user_code_ordered",
    "loaded_code_ordered",
    "atomics_needed",
    "failed_load_wait_races",
    "loading_is_concurrent",
    "threads_race"
   ],
   "note": "Which accesses a move makes is read off the steps of ThrowModel (it uses a field if it is not the same move for every value of the field). Interleavings are those of sequential consistency; that a program without data races has no others is the standard's guarantee for programs, not proved here, and it is the justification for modelling the protocol with interleavings at all."
  },
  {
   "property": "C81",
   "status": "proved",
   "theorems": [
    "library_as_if_alone",
    "library_exactly_as_alone",
    "several_libraries_sequential",
    "progress_despite_others",
    "compromised_control_is_nested",
    "others_stay",
    "one_compromised_ends_all"
   ],
   "note": "Each library has its own shared region, sockets and process (src/libsandbox.cc 865-932); that steps on one leave the others alone is the shape of the model, and that the program's code may look at all of them is what the theorems have to deal with. One thread at a time uses a given library (C63 for others). What libraries do share is treated elsewhere: the memory service thread (C42, C66, C71) and descriptors inherited by later sandboxes (C51)."
  },
  {
   "property": "C82",
   "status": "proved",
   "theorems": [
    "exports_survive_requests",
    "history_never_breaks",
    "request_only_touches",
    "request_leaves_the_table",
    "request_answered_once"
   ],
   "note": "Composes the exports (C75), the dispatcher (C21), the built-in calls (C22, C23, C27, C62) and receiving (C33) on one descriptor table. Assumed of the kernel: a number it hands out is not in use and nothing is opened through a closed number. Not included: handlers the program registers, what its own network functions do with descriptors, FreeBSD."
  },
  {
   "property": "C83",
   "status": "proved",
   "theorems": [
    "pagemap_shows_host_addresses",
    "pagemap_is_a_channel",
    "pagemap_noninterference_refuted",
    "pagemap_blank_outside_sandboxes"
   ],
   "note": "The positive half is pagemap_blank_outside_sandboxes. The other three state the limit for all histories. That the whole table is mapped for reading in each child is C68, that there is one table is C44. The host-address theorem is for sandboxes that free aligned blocks (see C17 for the others)."
  },
  {
   "property": "C84",
   "status": "proved",
   "theorems": [
    "descriptor_in_one_library",
    "libraries_never_break",
    "other_libraries_unchanged",
    "request_stays_in_its_library",
    "request_changes_no_export",
    "each_request_answered_once"
   ],
   "note": "Several libraries on one descriptor table, built from C75 and C82. Requests of different libraries are taken one after the other; handlers of the program are in C86; descriptors that the constructors use for themselves are in C87."
  },
  {
   "property": "C85",
   "status": "proved",
   "theorems": [
    "parallel_descriptor_in_one_library",
    "parallel_never_breaks",
    "parallel_others_unchanged",
    "parallel_request_changes_no_export",
    "parallel_numbers_kept",
    "parallel_received_is_new",
    "parallel_step_stays_in_its_library",
    "parallel_request_finished",
    "uninterrupted_request_as_one_step"
   ],
   "note": "One thread per library: the program does not change a library's tree or settings while a request of that library is served (the code has no lock for this). A thread's own computation is one step with receiving the request; its system calls, the reply and the kill are separate steps. Handlers of the program are in C86; descriptors that the constructors use for themselves are in C87."
  },
  {
   "property": "C86",
   "status": "proved",
   "theorems": [
    "handler_descriptor_in_one_place",
    "unpassed_descriptor_waits",
    "handler_number",
    "handler_called",
    "handler_called_only",
    "handler_returns",
    "handler_throws",
    "request_beside_handlers",
    "handlers_change_no_export",
    "handlers_never_break",
    "call_and_return_are_handle"
   ],
   "note": "Handlers made by make_callback_handler; a program's own class derived from CallbackHandlerBase is not included. The program closes, exports and returns only what it holds and does not destroy a library whose handler runs. The end of a call (close, reply, close) is one event; interleaving of such steps is C85. The counter of callback numbers is not wrapped at 2^31."
  },
  {
   "property": "C87",
   "status": "proved",
   "theorems": [
    "library_descriptors_fate",
    "library_descriptors_private",
    "library_descriptors_untouched",
    "program_descriptor_in_one_place",
    "making_changes_no_export",
    "making_never_breaks",
    "libraries_ever_made"
   ],
   "note": "Linux, where the child is made by vfork and empties the host's Handles. The five opens of a constructor, and the closes of a destructor, are taken together; the library file opens (C51 for one that does not). The descriptors of the pagemap and of the memory service's poller, opened once per process, are not included. Requests of different libraries are taken one after another (their steps: C85)."
  },
  {
   "property": "C88",
   "status": "proved",
   "theorems": [
    "request_work_bounded",
    "request_reads_the_heap_twice",
    "counted_service_is_service",
    "memory_request_work_bounded",
    "touched_entries_are_all"
   ],
   "note": "Linux. Loads of strings and of copied arguments are counted byte by byte. Not counted: the host's computation in its own memory (splitting a path, finding an export, the allocator's lists), the kernel's own time (an open or a connect may block), and the program's own handlers. The reply is sent when the socket has room; otherwise the sandbox is ended instead (C20, C42)."
  },
  {
   "property": "C89",
   "status": "proved",
   "theorems": [
    "memory_service_is_fair",
    "memory_service_keeps_pace",
    "fair_runs_are_runs",
    "fair_poll_is_possible",
    "unfair_kernel_starves_refuted",
    "round_work_bounded",
    "rounds_work_bounded"
   ],
   "note": "Linux's epoll. The round robin of epoll_wait(2) is modelled as the kernel's ready list (FairModel); it is part of the trusted base. Rounds are counted, not time; the work of a round is C88."
  }
 ]
}
