C01 proved | For capacities up to 2^31. For larger capacities the u32 sum in ringbuf_unwrite_elem wraps and the claim is false (C01_capacity_refuted).
  C01_ringbuf_is_bounded_fifo C01_capacity_refuted
C02 proved | Bulk transfers from every reachable state; outcome None (out of bounds, failed ASSERT) is excluded.
  C02_bulk_write_exact C02_bulk_read_exact
C03 proved | Every interleaving of any number of writes (more than nesting allows), the reader running only when no write is in progress, as the header demands; without that rule it is refuted. Both loads of the loops are separate steps; the compare-and-swap may fail spuriously. Capacities 1 to 32768.
  C03_fifo C03_exactly_once C03_unread_intact C03_results_truthful C03_reader_first_refuted
C04 proved | For any comparison that is a total preorder and while no operation starts on more than 5,702,885 objects (the exact limit of the 32-slot stack, see C05). The *_ptr variants compare by wrapping subtraction: proved for keys in a window of half the word range, refuted outside (C04_ptr_compare_refuted).
  C04_bintree_is_finite_map C04_bintree_ptr_is_finite_map C04_ptr_compare_refuted
C05 proved | Explicit bound 5,702,885 objects, shown exact; the header comment's 14.9 million is refuted.
  C05_bintree_stays_balanced C05_height_bound C05_documented_capacity_refuted
C06 proved | Callback visit, resumable visit (both directions) and first/last accessors.
  C06_visit_in_order C06_resumable_visit_in_order C06_first_last
C07 proved | Every heap of 2^(a+K) bytes, K <= 30, every history of correct use with all flags (multi-step, sub-blocks, split frees). Correct use excludes freeing a block as big as the heap, multi-step sizes that are no multiple of the minimum block and multi-step frees of unaligned ranges; each is refuted.
  C07_live_blocks C07_allocation_result C07_no_assertion_fails C07_metadata_in_bounds C07_metadata_odd_size_refuted C07_whole_heap_refuted C07_unaligned_range_refuted
C08 proved | Every history of correct use.
  C08_allocation_succeeds C08_empty_again
C09 partial | The size found from an address is always the one handed out. The counter is exact unless memory is allocated virtually or a split free covers several blocks bigger than the minimum; both cases are refuted.
  C09_size_found C09_size_written_back C09_counter_exact_partial C09_counter_in_range C09_split_free_refuted C09_virtual_alloc_refuted
C10 partial | All schedules of any number of tasks, recursion depth up to 2^32-1, as long as only kmutex_unlock wakes a task out of kmutex_lock. The kernel breaks that: a timed wait interrupted by a POSIX signal leaves its timer armed, and the timer wakes the task out of a later kmutex_lock (C10_stale_timer_refuted).
  C10_mutual_exclusion C10_held_never_negative C10_no_assertion_fails C10_trylock_exact C10_stale_timer_refuted
C11 proved | Arrival order, no overtaking, a mutex with waiters always has an owner, unlock hands over to the oldest waiter.
  C11_fifo_no_barging C11_no_lost_wakeup C11_unlock_wakes_oldest
C12 proved | All schedules, any number of tasks, timers firing at any moment. Without a maximum the int counter must not reach 2^31 (otherwise refuted).
  C12_units_conserved_and_bounded C12_signal_exact C12_wait_failure_justified C12_no_assertion_fails C12_unbounded_counter_refuted
C13 partial | Refuted for mixed request sizes (a woken large request overtaken by another task leaves a small one asleep); proved when all requests have one size (every user in the kernel asks for 1).
  C13_mixed_sizes_refuted C13_no_lost_wakeup_partial
C14 partial | Registration, signal-all and returns are proved for all schedules; signal-one is refuted when an expired waiter heads the list (proved otherwise); an interrupted wait returns "signalled" (refuted). POSIX signals during timed waits excluded (see C10).
  C14_registered_before_release C14_waiting_iff_asleep C14_signal_all_wakes_all C14_signal_one_wakes_oldest_partial C14_signal_one_swallowed_refuted C14_return_reason_and_ownership C14_spurious_return_refuted C14_no_assertion_fails
C15 proved | Mutex and semaphore used through C10/C12 (abstract owner, abstract units); any number of tasks, every schedule; fewer than 2^31-1 simultaneous readers.
  C15_exclusion C15_readers_never_wait_for_readers C15_no_deadlock C15_no_assertion_fails
C16 proved | Critical sections under rw->m are single steps; mutex and conditions used through C10/C14; POSIX signals interrupting the waits included; int counters below 2^31-1. Arrival order among writers, claimed in a comment only, is refuted.
  C16_exclusion C16_writers_first C16_no_lost_wakeup C16_outermost_unlock_releases C16_no_assertion_fails C16_writers_in_order_refuted
C17 proved | Every schedule of any number of tasks, pollers and closers; capacity up to 2^31 (4096 in the kernel). Mutex and conditions used through C10/C14; each critical section is one step.
  C17_stream_preserved C17_no_assertion_fails
C18 proved | Result of every read and write by cases, the handle counters against the history of dup/close, end of file and EPIPE justified by the history.
  C18_read_result C18_write_result C18_handle_counts C18_eof_only_at_the_end C18_epipe_only_without_readers C18_poll_readiness
C19 partial | Without pollers no sleeper is forgotten; after the last close nobody sleeps (pollers included). With pollers the first half is refuted: kcond_signal_one may wake only the poller.
  C19_no_sleep_after_last_close C19_no_forgotten_sleeper_partial C19_with_pollers_refuted C19_second_poller_refuted
C20 partial | 64-bit kernels: proved for every history of rt_sigaction, rt_sigprocmask, rt_sigsuspend, rt_sigreturn, execve, signals and deliveries with any arguments. 32-bit kernels: proved unless only the first word of a set passed to rt_sigprocmask is readable, in which case it is false (C20_half_mask_refuted).
  C20_protected_64 C20_protected_32_partial C20_half_mask_refuted
C21 partial | A selected signal is always pending and unblocked, SIGKILL first; selection succeeds when no pending signal is blocked. Otherwise it can fail (C21_selection_refuted). On 64 bits only for pending signals up to 31 (see C22).
  C21_selection_partial C21_delivery_sound C21_sent_signal C21_sigkill_is_fatal C21_pending_signals_exact C21_sets_are_words C21_selection_refuted C21_double_suspend_refuted C21_ignored_signal_refuted
C22 partial | 32 bits: proved for all signals. 64 bits: adding and testing for signals up to 31; removal loses signals 33-64, adding 32 adds 32-64, adding above is undefined (refuted).
  C22_add_exact_partial C22_test_exact_partial C22_del_exact_32 C22_del_64_refuted C22_add_64_refuted
C23 proved | Every history of arm, arm_if_armed, cancel, is_armed, ticks and worker-thread runs, with any operation allowed between two iterations of the tick loop. Conditions of use: deadlines below 2^64, a queued deferred timer is not armed again (both needed, refuted otherwise), at most 5702885 timers (C05).
  C23_no_failure C23_tick_handler C23_never_late C23_fires_when_due C23_exactly_once C23_deferred_in_order C23_cancel_result C23_is_armed_result C23_arm_if_armed_result C23_wrapped_deadline_refuted C23_rearm_while_queued_refuted
C24 proved | Same histories as C23; equality with the minimum in every state, also inside the tick handler.
  C24_earliest_is_minimum
C25 partial | Proved on x86 for 19-1000 Hz and for any hardware reporting a proper fraction, with drift corrections of less than 2^31 steps; time conversions and nanosleep's remaining time. Refuted: 18 Hz, riscv (which reports no fraction), larger drifts, the tick duration adaptation after a drift larger than the elapsed time, sleeps of 2^55 s.
  C25_time_is_exact C25_forward C25_no_jump C25_drift_corrected C25_pit_setup C25_pit_nearest C25_pit_exact C25_zero_denominator C25_nudge_partial C25_timespec_to_ticks C25_ticks_to_timespec C25_nanosleep_remaining C25_pit_18hz_refuted C25_riscv_refuted C25_huge_drift_refuted C25_nudge_refuted C25_long_sleep_refuted
C26 proved | All interleavings of ticks, timers, worker wake-ups, wake_up, stop/continue/kill, fork, vfork, exit, reaping and the scheduler's own steps; trees within the capacity of C05, tids unique.
  C26_no_assertion_fails C26_run_queue_exact C26_keys_stable C26_states_change_only
C27 partial | Selection, accounting, slices, wake-up floor and single running task proved. Refuted: the floor for tasks leaving STOPPED, stops undone by wake-ups and stale timers, workers preempted by lower priority work, order by deadline.
  C27_one_running C27_running_is_current C27_workers_first C27_fair_choice C27_chosen_keeps_or_switches C27_switch_starts_quantum C27_switch_ends C27_min_vruntime_grows C27_vruntime_grows C27_min_is_upper_bound C27_tick_charges_current C27_slice_bounds C27_woken_vruntime_floor C27_timer_vruntime_floor C27_wake_up_effective C27_least_is_eligible C27_tick_requests_reschedule C27_continued_vruntime_floor_refuted C27_stopped_stays_stopped_refuted C27_self_stop_effective_refuted C27_vfork_parent_stays_stopped_refuted C27_worker_not_preempted_by_lower_refuted C27_worker_not_preempted_by_task_refuted C27_deadline_order_refuted
C28 partial | Proved for every table and any wrap-around provided no process above the last given id is in a group, with id between the two, whose leader is gone; without this create_new_pid can return the id of a live process (refuted, reached by an explicit run). Failure happens only when every id is in use or names a group or session. The search ends in all cases.
  C28_pid_is_free_partial C28_no_wrap_no_condition C28_ids_unique_partial C28_no_failure_partial C28_search_terminates C28_duplicate_refuted C28_avoids_group_ids_refuted C28_setpgid_existing_group_refuted C28_groups_keep_ids C28_setsid_result
C29 proved | For every history of fork, vfork, exec, exit, wait4, stop and continue signals, sleeps, setpgid and SIGCHLD dispositions. A child whose status cannot be copied to the user is collected and lost (C29_status_lost_refuted); stop/continue reports are wrong in three cases (C29_*_refuted).
  C29_no_failure C29_family C29_life C29_zombie_kept C29_wait_result C29_exit_result C29_status_decodes C29_status_lost_refuted C29_second_stop_refuted C29_fork_continued_refuted C29_vfork_stopped_refuted
C30 partial | For wait4 with pid > 0, -1 and -pgid. wait4(0) is never woken up and setpgid on a zombie loses the wake-up (refuted).
  C30_no_forgotten_waiter_partial C30_no_forgotten_pid C30_exit_wakes_partial C30_stop_wakes_partial C30_cont_wakes_partial C30_wait_own_group_refuted C30_moved_zombie_refuted C30_resumed_unseen_refuted
C31 proved | Every history of brk calls and of changes outside the heap, every out-of-memory point. In addition refuted: the new bytes are not zeroed
  C31_heap_is_mapped C31_one_call C31_contents_kept C31_write_read C31_zeroed_refuted
C32 partial | Every list of mappings and every range of whole pages inside one mapping, histories of mmap, munmap and close, every out-of-memory point. Refuted: ranges not inside one mapping (whole mapping lost, underflow, nothing unmapped), unaligned addresses, read of the freed struct, sparse files, offsets of 4 GB on 32 bits
  C32_history_partial C32_munmap_partial C32_pages C32_unknown C32_close C32_file_pages C32_length_of_mapping_refuted C32_two_mappings_refuted C32_underflow_refuted C32_gap_refuted C32_unaligned_refuted C32_use_after_free_refuted C32_sparse_refuted C32_offset_refuted
C33 partial | Exact for ranges that end below the end of the address space; `ptr + n` can wrap around and then kernel addresses are accepted (refuted on every architecture).
  C33_exact_partial C33_copy_from_user_partial C33_copy_to_user_partial C33_short_ranges C33_wrap_refuted C33_architectures
C34 partial | For every memory mapped by pages, address and size; arrays: except on i386 those so long that pointers wrap (refuted).
  C34_copy_str C34_copy_str_complete C34_string_unique C34_copy_array_partial C34_array_wrap_refuted C34_pointer_bytes
C35 partial | At page granularity (the code rounds regions to pages first), for all maps of non-empty regions that do not reach the last page of the 64-bit space; the processing ends. An empty region can make it loop for ever and sums wrap at 2^64 (refuted). A map needing more than 512 entries panics.
  C35_map_is_normalised_partial C35_lookup C35_lookup_is_unique C35_lookup_type C35_limits C35_empty_region_hangs_refuted C35_top_of_memory_refuted
C36 proved | insertion_sort_ptr, insertion_sort_generic (byte level, elements up to 256 bytes) and array_reverse_ptr; the rest of the array is unchanged and no access is out of bounds.
  C36_sort_ptr C36_sort_generic C36_reverse
C37 proved | Both widths, signed and unsigned, bases 2 to 16; canonical text, exact round trip, buffer bounds.
  C37_print_parse_roundtrip C37_decimal_fits C37_hex_fixed
C38 partial | The code does not detect every overflow (refuted for all four types) and rejects "-05"; proved: every numeral that fits is returned exactly, range errors are justified, no digits is EINVAL.
  C38_overflow_detection_refuted C38_negative_leading_zero_refuted C38_in_range_exact_partial C38_range_error_justified_partial C38_no_digits_error
C39 partial | Proved for all paths in which no "." or ".." is followed by two slashes; for the others the code is wrong (two refutations). Bounds safety holds for all paths. The stored cwd text overflows by one byte for 255-character paths (refuted); getcwd needs one byte more than the text.
  C39_normalised_partial C39_in_bounds C39_wrong_destination_refuted C39_empty_component_refuted C39_cwd_text_partial C39_cwd_buffer_refuted C39_getcwd_text C39_getcwd_exact_size_refuted
C40 partial | Result = walk for all good worlds (mounts, nested/cyclic links) and tidy paths; last name and directory; inode and fs references in every world; missing: ENOTDIR lookups and over-long names crash, lock balance only without links or without mounts (both refuted otherwise); static tree during one resolution
  C40_follows_walk C40_walk_unique C40_returns_partial C40_crash_only C40_untidy_paths C40_last_name C40_last_directory C40_inode_references C40_fs_references C40_locks_partial C40_mount_table C40_mount_good C40_mount_references C40_mount_failure_partial C40_link_mount_unlocked_refuted C40_link_mount_double_unlock_refuted C40_link_mount_failure_refuted C40_eloop_refuted C40_last_name_refuted C40_missing_two_slashes_refuted C40_name_in_file_refuted C40_name_overflow_refuted C40_dangling_link_refuted C40_mount_on_root_refuted C40_mount_on_root_accepted_refuted C40_dotdot_covered_refuted C40_dotdot_stale_refuted C40_mount_leak_refuted C40_mount_on_itself_refuted
C41 partial | Every history of the covered calls, every allocation failure, both word sizes, assertions on or off. Excluded and refuted: offsets reaching the largest offt, failed seeks, unaligned shortening, vectored calls through the wrong kind of handle, hole writes with assertions.
  C41_history_partial C41_always_returns C41_no_panic_without_holes C41_shrink_keeps_dense C41_read_after_write C41_block_count C41_seek C41_fault C41_hole_write_refuted C41_offset_overflow_refuted C41_failed_seek_refuted C41_readv_stale_refuted C41_writev_readonly_refuted C41_readv_writeonly_refuted C41_writev_error_refuted C41_zero_page_refuted C41_fault_block_refuted
C42 partial | Exact behaviour proved; bytes up to the next page boundary survive a truncation (refuted).
  C42_truncate_partial C42_mappings C42_tail_refuted C42_block_count_refuted C42_readonly_handle_refuted C42_directory_refuted
C43 partial | All histories of the directory calls admitted by 'allowed' (calls atomic); excluded calls and overlapping close/rename are refuted
  C43_no_error_partial C43_names_unique_partial C43_counts_exact_partial C43_freed_exactly_partial C43_tree_partial C43_handle_positions_partial C43_rmdir C43_rmdir_succeeds C43_unlink C43_unlink_succeeds C43_mkdir C43_link C43_symlink C43_open C43_close C43_rmdir_dot_slash_refuted C43_mkdir_no_memory_refuted C43_mkdir_leak_refuted C43_mkdir_longest_refuted C43_symlink_leak_refuted C43_long_component_refuted C43_file_as_directory_refuted C43_create_slash_refuted C43_dup_close_refuted C43_close_race_refuted
C44 partial | Effect of every successful rename except the refuted cases; failed rename except out of memory over an existing name
  C44_rename C44_failed_rename_partial C44_same_name_refuted C44_same_object_refuted C44_into_itself_refuted C44_dotdot_refuted C44_dotdot_assert_refuted C44_dotdot_freed_refuted C44_dir_over_file_refuted C44_root_refuted C44_dot_refuted C44_enospc_refuted C44_race_refuted
C45 partial | Every interleaving of listing calls with other calls and every buffer size, accessible buffer; dup'd handles and seekdir refuted
  C45_once C45_complete C45_records C45_progress C45_dup_dangling_refuted C45_efault_refuted C45_seekdir_refuted C45_seek_end_refuted
C46 partial | Calls for different files interleave in every way; calls for one file are assumed not to overlap (refuted without). Leaks on two error paths (refuted).
  C46_one_owner_partial C46_counted_partial C46_disappears_partial C46_acquire_partial C46_release_partial C46_two_owners_refuted C46_lock_lost_refuted C46_use_after_free_refuted C46_failed_exec_refuted C46_failed_create_refuted C46_for_ever_refuted C46_kept_partial C46_unlinked_refuted
C47 proved | Every buffer; also detection of all bursts of up to 32 bits.
  C47_standard C47_pieces C47_range C47_detects_bursts
C48 partial | Every non-empty input. base64_decode rejects the encoding of the empty string (refuted).
  C48_encode C48_encoded_length C48_roundtrip_partial C48_empty_refuted C48_decode_in_bounds C48_decode_ignores
C49 partial | Proved for the timestamps of the years 0 to 65535 and, except for the year, all others; the year is stored in 16 bits (refuted beyond).
  C49_calendar C49_epoch C49_dates_unique C49_to_date_partial C49_all_timestamps C49_no_undefined_access C49_from_date C49_roundtrip_partial C49_roundtrip_back C49_year_refuted
C50 partial | Layout, table access, whole-file read and all sequences of read and seek on well-formed volumes; SEEK_END with an offset >= 0 goes to the wrong position and files of 2 GB are empty on 32 bit (refuted).
  C50_layout C50_layout_disjoint C50_read_entry C50_write_entry C50_read_whole_file C50_read_short_chain C50_open_file_partial C50_seek_end_from_current C50_seek_end_refuted C50_big_file_32bit_refuted
C57 partial | Proved for ranges of whole clusters (all ranges when a cluster is a page); wrong page, assertion or foreign memory otherwise (refuted).
  C57_mmap_partial C57_mmap_inside_cluster_refuted C57_mmap_part_of_cluster_refuted C57_mmap_empty_file_refuted
C60 partial | All fields but the seconds, which are half of what they should be (refuted).
  C60_time_stamp_partial C60_seconds_refuted
C58 partial | Walk, listing, lookup and path search on well-formed directories (any chain, long names across clusters, leftovers of deleted files with another checksum); departures refuted.
  C58_walk_partial C58_listing_partial C58_lookup_partial C58_path_partial C58_short_names C58_chain_no_cycle C58_stale_long_name_refuted C58_deleted_names_overflow_refuted C58_name_with_space_refuted C58_cyclic_chain_hangs_refuted C58_root_entries_cut_refuted C58_root_spills_into_data_refuted C58_component_overflow_refuted C58_not_a_directory_refuted C58_parent_of_top_directory_refuted C58_first_directory_is_root_refuted
C51 partial | Compaction keeps every file and directory of a tree, for all well-formed volumes with a free cluster; contiguity and the boot loader's size check; departures refuted.
  C51_keeps_files_partial C51_contiguous_partial C51_boot_check_partial C51_stale_dot_refuted C51_second_table_refuted C51_root_tail_refuted C51_root_clusters_refuted C51_last_two_clusters_refuted C51_endless_recursion_refuted
C59 partial | Moving the data area of every well-formed unaligned volume with room keeps tables, used clusters and the tree; compaction followed by moving keeps the tree; departures refuted.
  C59_align_partial C59_tree_partial C59_after_compaction_partial C59_already_aligned_refuted C59_kind_changes_refuted C59_last_cluster_lost_refuted
C52 partial | Every interleaving of enqueuing calls, timer interrupts, preemption and the worker; the ring buffer through C03. Exactly once, in order, never stranded, for all workers. A job which blocks is undisturbed except on worker 0, where a deferred timer wakes it wrongly (refuted; needs a user of deferred timers).
  C52_fifo_exactly_once C52_not_stranded C52_everything_runs C52_running_when_current C52_blocking_jobs_partial C52_blocking_job_of_worker_0_refuted C52_highest_priority_runs C52_enqueue_anywhere C52_find_worker
C53 partial | proved for every schedule with signals that reach the poll (kcond_signal_all, or no earlier waiter); refuted when another waiter takes the signal; only one event per file is reported, POLLNVAL is not counted
  C53_no_lost_event_partial C53_signal_reports C53_registered C53_zero_means_timeout C53_eintr_means_signal C53_ready_means_ready C53_timer_armed C53_timer_returns C53_signal_interrupts C53_done_clean C53_reports_honest_partial C53_ready_at_once C53_waits_unready C53_names_unified C53_other_waiter_refuted C53_all_events_refuted C53_count_refuted C53_names_refuted C53_infinite_refuted C53_read_only_refuted C53_select_poll_refuted C53_select_ticks
C54 partial | formats built from items: exact text, inside the buffer; any other format: at most one byte outside; unknown sequences and size 0 overflow
  C54_prints C54_bounds_partial C54_prefix C54_overflow_refuted C54_size_zero_refuted C54_reads_past_the_end_refuted C54_hangs_refuted C54_both_paddings_refuted C54_zero_negative_refuted C54_zero_right_refuted C54_precision_refuted C54_width_and_precision_refuted
C55 proved | Any number of lists and any sequence of allowed operations; loops whose body removes the current node.
  C55_lists C55_enumeration C55_loop_while_changing C55_reverse_loop_while_changing C55_removing_and_freeing C55_tests C55_removing_the_next_refuted
C61 partial | All histories in which a fork finds the memory for its page tables (otherwise refuted) and only RAM is mapped (a mapped framebuffer: refuted); the fault handler's other cases and the TLB are not described.
  C61_no_error_partial C61_write_partial C61_fork C61_isolated_partial C61_snapshot_partial C61_new_page C61_zero_page C61_file_page C61_unmap C61_exit C61_zero_stays_zero C61_private C61_fork_out_of_memory_refuted C61_framebuffer_refuted
C62 partial | All histories in which a fork finds the memory for its page tables and only RAM is mapped.
  C62_counts_partial C62_pages_partial C62_tables_partial C62_free C62_no_leak_partial
C63 partial | All histories of allowed calls; the excluded ones are refuted.
  C63_no_error_partial C63_counts_partial C63_pipe_ends_partial C63_one_to_one_partial C63_no_leak_partial C63_open C63_close C63_dup C63_dup2_partial C63_dupfd_partial C63_dupfd_cloexec_partial C63_fcntl_partial C63_pipe2 C63_exec C63_fork_partial C63_exit C63_dup2_dangling_refuted C63_dupfd_negative_refuted C63_dupfd_cloexec_refuted C63_fork_cloexec_refuted C63_fork_null_refuted C63_setfl_panic_refuted C63_position_refuted C63_dup2_same_refuted
C64 partial | One handle, one reader; histories within the discipline of [may]; the excluded ones are refuted.
  C64_canonical_partial C64_lines_counted_partial C64_poll_partial C64_progress_partial C64_raw_partial C64_raw_poll_partial C64_raw_progress_partial C64_erase_crosses_line_refuted C64_overflow_assert_refuted C64_overflow_spin_refuted C64_serial_deadlock_refuted C64_vmin_assert_refuted C64_vmin_eagain_refuted C64_mode_switch_refuted C64_poll_leftover_refuted C64_setfl_leftover_refuted C64_dup_leftover_refuted C64_nul_ends_line_refuted C64_kill_werase_refuted
C65 proved | All characters with an echo of their own; the exceptions are refuted.
  C65_echo_erase C65_echo_typed C65_echo_dropped C65_echo_off C65_eof_refuted C65_high_byte_refuted C65_del_refuted
C66 proved | Every operation except those refuted (fits, may in Term_Spec.v).
  C66_init C66_step C66_run C66_delete_lines_overflow_refuted C66_scroll_down_overflow_refuted C66_delete_line_refuted C66_delete_line_below_refuted C66_scroll_down_region_refuted C66_insert_line_above_refuted C66_tab_at_end_refuted C66_stale_tab_refuted C66_cell_past_end_refuted C66_hidden_cursor_refuted
C67 proved | On the lines of C66.
  C67_history C67_alternate_screen C67_text C67_erase_typed
C68 proved | Streams of sequences within the limits of seq_ok (Csi_Spec.v); the rest refuted.
  C68_init C68_stream C68_interrupted C68_parser_bytes C68_safe C68_params_overflow_refuted C68_lost_text_refuted C68_shifted_params_refuted C68_truncated_refuted C68_wrapped_fields_refuted C68_next_line_refuted C68_prefix_refuted C68_rest_printed_refuted C68_reset_refuted C68_report_refuted C68_gfx_letter_refuted C68_intermediate_refuted
C69 proved | Not scrolled back, default character set.
  C69_draw
C70 proved | Arrays that do not wrap around, as in C34.
  C70_copied C70_stack C70_too_many C70_exec
C72 proved | Static programs whose segments lie in user space and in the file; the rest refused or refuted.
  C72_exact C72_image C72_dynamic C72_unaligned C72_truncated C72_file_safe C72_kernel_refuted C72_file_refuted C72_ro_tail_refuted C72_sizes_refuted C72_hole_refuted C72_shared_ro_refuted
C73 proved | The bounded copies where the byte behind the bound exists (refuted where not), strstr of needles that are not empty; differences from C refuted.
  C73_strcmp C73_strncmp C73_memcmp C73_order_refuted C73_stricmp C73_strlen C73_strnlen_partial C73_bound_refuted C73_memchr C73_strchr C73_strrchr C73_strstr_partial C73_empty_needle_refuted C73_memcpy_c C73_memcpy_x86 C73_memcpy32 C73_memcpy32_assert_refuted C73_memmove_x86 C73_memmove_c C73_memset C73_memset16 C73_memset32 C73_bzero C73_strcpy C73_strcat C73_strncpy_partial C73_padding_refuted C73_strncat_partial C73_isxdigit C73_isxdigit_refuted
C74 proved | All sequences of calls without flags; freeing with the written-back size refuted.
  C74_no_assert C74_disjoint C74_inside C74_aligned C74_alloc C74_null_large C74_null_small C74_small_heaps_first C74_available C74_empty_heaps C74_memory C74_all_freed C74_written_back_size_refuted
C75 proved | All lines and tables; three surprising results refuted.
  C75_safe C75_words C75_options C75_arguments C75_no_panic C75_unique C75_not_separator C75_validate C75_selftest_refuted C75_stray_value_refuted C75_garbage_refuted
C76 proved | All histories with interrupts at any step; preemption inside printk refuted.
  C76_room C76_order C76_all_printed C76_in_turn C76_stuck_refuted C76_garbage_refuted
C71 proved | Counts within the limits; the rest refuted.
  C71_starts C71_nested C71_error C71_header C71_too_many C71_only_lines C71_no_args_refuted C71_row_overflow_refuted C71_errors C71_blank C71_header_overrun_refuted
C77 partial | Every history of allowed uses; the other uses refuted.
  C77_files C77_saved C77_immutable C77_number C77_string C77_two_writes_refuted C77_syncfs_refuted C77_dup_refuted C77_dup_freed_refuted C77_seek_refuted C77_long_number_refuted C77_short_memory_refuted C77_stale_digits_refuted C77_bool_refuted C77_string_refuted
C78 partial | Faults of user memory left out; timing findings refuted.
  C78_honest C78_steady C78_errors C78_ebadf C78_zero C78_time C78_remaining C78_pselect64 C78_spurious_refuted C78_pause_refuted C78_nocond_refuted C78_eintr_refuted C78_closed_refuted C78_more_left_refuted C78_slept_refuted C78_pselect32_refuted C78_pselect32_high_refuted C78_negative_refuted
C79 proved | Decoder and escape sequences; findings refuted.
  C79_decode C79_table C79_resync C79_ansi_digits C79_ansi_plain C79_ansi_room C79_function_keys_refuted C79_modifiers_refuted C79_lost_byte_refuted C79_repeat_refuted C79_right_ctrl_refuted
C80 proved | All histories and heap answers.
  C80_account C80_no_leak C80_apart C80_economy C80_failure
C81 partial | All interleavings with atomic interrupts; buffer reuse refuted.
  C81_queue C81_not_stuck C81_texts C81_returned_refuted C81_reuse_refuted C81_interrupt_refuted C81_panic_refuted
C56 proved | Every reachable table of tasks, any wrap-around.
  C56_ktid_is_free
