#!/usr/bin/env python3
"""Writes /verif/properties.jsonl. One P(...) call per property."""
import json, os
out = []
def P(id, title, statement, quantifier, why, anchors):
    out.append(dict(id=id, title=title, statement=statement, quantifier=quantifier,
                    why_tests_cant=why, anchors=anchors))

P("C01","Ring buffer is a bounded FIFO",
  "Starting from a freshly initialised ring buffer of capacity N between 1 and 2^31, any sequence of single-element writes, reads and 'unwrites', bulk byte writes, bulk byte reads and resets produces exactly the results of a plain bounded FIFO list of capacity N: a write succeeds iff fewer than N elements are held, a read returns the oldest unread element, an unwrite removes the newest one, and the reported element count is the length of the list.",
  "every capacity up to 2^31, every finite sequence of the ring-buffer operations with every argument",
  "The behaviour depends on the relative position of two wrap-around cursors after an arbitrary history; the number of reachable (history, capacity) pairs is unbounded.",
  ["kernel/ringbuf.c: ringbuf_write_elem, ringbuf_read_elem, ringbuf_unwrite_elem, ringbuf_write_bytes, ringbuf_read_bytes","include/tilck/kernel/ringbuf.h: ringbuf_write_elem1, ringbuf_read_elem1, ringbuf_reset"])
P("C02","Bulk ring-buffer transfers move exactly min(len, room) bytes, in bounds",
  "A bulk write of len bytes stores exactly min(len, free space) bytes - the first ones of the caller's buffer, in order - and a bulk read delivers exactly min(len, bytes available) bytes, oldest first; no byte outside the backing buffer is ever touched and no unread byte is overwritten, wherever the cursors are.",
  "every reachable buffer state, every len, every data",
  "The two-chunk split has a boundary for each cursor position and length; tests sample a few.",
  ["kernel/ringbuf.c: ringbuf_write_bytes, ringbuf_read_bytes"])
P("C03","Interrupt-safe ring buffer loses and duplicates nothing",
  "With one consumer and any number of producers that may interrupt each other at any instruction boundary (nested interrupts), every element whose write returned success is read exactly once, in the order in which the slots were claimed, no unread slot is overwritten, and the buffer never reports more elements than its capacity.",
  "every nesting of producers, every capacity up to 32768, every history",
  "Nested-interrupt interleavings cannot be enumerated by tests.",
  ["kernel/safe_ringbuf.cpp: __safe_ringbuf_write, __safe_ringbuf_read"])
P("C04","Binary tree refines a finite ordered map",
  "Starting from an empty tree, any sequence of inserts, removes and finds behaves as on a finite map keyed by the comparison: insert succeeds iff no equal key is present and then adds exactly that object, remove returns and deletes exactly the object with that key (or nothing), find returns the object with that key iff present; all other objects are unaffected. This holds while no operation starts on more than 5,702,885 objects, the largest size for which the fixed 32-slot traversal stack always suffices.",
  "every operation sequence, every key type with a total preorder, every tree shape",
  "Rotations and early exits depend on the global shape; the number of shapes is unbounded.",
  ["kernel/bintree/avl_insert.c.h","kernel/bintree/avl_remove.c.h","kernel/bintree/avl_find.c.h","kernel/bintree/avl_bintree.c: rotate_left_child, rotate_right_child, balance, bintree_remove_internal_aux"])
P("C05","Binary tree stays AVL-balanced and its height is logarithmic",
  "After any sequence of inserts and removes each node's two subtrees differ in height by at most one, every stored height is exact, and a tree of N nodes has height bounded by the Fibonacci bound, so operations with the fixed-size traversal stack do not overflow it for every N below an explicit bound.",
  "every operation sequence; every tree size",
  "Needs a proof over all shapes; overflow of the fixed stack only shows up with millions of nodes.",
  ["kernel/bintree/avl_bintree.c: balance","kernel/bintree/avl_int.h: AVL_BUILD_PATH_TO_OBJ, update_height","include/tilck/kernel/bintree.h: MAX_TREE_HEIGHT"])
P("C06","In-order visit enumerates the tree sorted, each object once",
  "The in-order visit and the first/last/leftmost accessors of a tree enumerate every stored object exactly once in strictly increasing key order; the first and last accessors return the minimum and the maximum.",
  "every tree reachable by inserts and removes",
  "Unbounded shapes.",
  ["kernel/bintree/avl_bintree.c: bintree_in_order_visit_internal, bintree_get_first_obj_internal, bintree_get_last_obj_internal"])
P("C07","Heap allocations are disjoint, aligned, in-heap and big enough",
  "For any history of allocations and frees on a kernel heap, every live allocation is a power-of-two block at least as large as requested and not smaller than the minimum block, lies inside the heap, is aligned to its own size relative to the heap base, and does not overlap any other live allocation.",
  "every heap size/min block size, every alloc/free history",
  "Overlap bugs need specific histories of splits and merges.",
  ["kernel/kmalloc/general_kmalloc.c.h","kernel/kmalloc/kmalloc.c: internal_kmalloc, internal_kfree"])
P("C08","Freeing gives memory back: free blocks always coalesce",
  "After any history, two free buddies are always merged: an allocation of size S succeeds whenever some aligned S-sized range of the heap contains no live allocation, and after freeing everything the heap is exactly as it was when created.",
  "every alloc/free history",
  "Fragmentation invariants range over all histories.",
  ["kernel/kmalloc/kmalloc.c: internal_kmalloc, internal_kfree","kernel/kmalloc/general_kmalloc.c.h"])
P("C09","Heap accounting is exact",
  "The heap's allocated-bytes counter always equals the total size of the live blocks, and per-allocation bookkeeping (size found when freeing without a size) returns the size of the block that was handed out.",
  "every alloc/free history",
  "Drift appears only after particular histories.",
  ["kernel/kmalloc/kmalloc.c: calculate_block_size, internal_kfree","kernel/kmalloc/kmalloc_heap_struct.h: mem_allocated"])
P("C10","Kernel mutex: mutual exclusion",
  "At any time at most one task is between a successful lock (or try-lock) and the matching unlock of a mutex, for plain and recursive mutexes; a recursive mutex is released only by the unlock matching the first lock.",
  "every number of tasks, every schedule, every lock/trylock/unlock sequence",
  "Interleavings are unbounded.",
  ["kernel/kmutex.c: kmutex_lock, kmutex_trylock, kmutex_unlock"])
P("C11","Kernel mutex: FIFO hand-off, no lost wake-ups, no barging",
  "A task that starts waiting on a mutex gets it after exactly the tasks already queued, in arrival order; no later task overtakes it; whenever the mutex has waiters it has an owner, so as long as owners eventually unlock, no waiter sleeps forever.",
  "every schedule and number of tasks",
  "Liveness-style ordering facts over all schedules.",
  ["kernel/kmutex.c","kernel/wobj.c: prepare_to_wait_on, wake_up"])
P("C12","Semaphore counter is conserved and bounded",
  "A semaphore's units are conserved: the counter plus the units granted minus those signalled equals the initial value at all times, it is never negative and never exceeds the maximum; a successful wait consumed exactly its units.",
  "every schedule, number of tasks, counts",
  "Schedules unbounded.",
  ["kernel/ksem.c: ksem_wait, ksem_signal"])
P("C13","Semaphore waiters are not left asleep while their request could be granted",
  "Whenever no wake-up is in flight, no task sleeps on a semaphore whose counter covers its request.",
  "every schedule, every mix of request sizes and timeouts",
  "Lost wake-ups need particular schedules.",
  ["kernel/ksem.c"])
P("C14","Condition variables: no signal is lost between unlock and sleep",
  "A task that calls wait on a condition while holding the mutex is registered as a waiter before the mutex is released, so any signal issued by a task that acquires the mutex afterwards finds it; signal-one wakes exactly one waiting task (the oldest) if there is one and signal-all wakes all tasks waiting at that moment; a wait without timeout returns only after having been signalled and owning the mutex again.",
  "every schedule",
  "Lost wake-ups need particular interleavings.",
  ["kernel/kcond.c: kcond_wait, kcond_signal_int"])
P("C15","Reader-preferring rwlock: readers share, writers exclude",
  "At all times either no task is writing, or exactly one is writing and none is reading; a reader never waits for another reader.",
  "every schedule, tasks",
  "Schedules unbounded.",
  ["kernel/rwlock.c: rwlock_rp_shlock, rwlock_rp_shunlock, rwlock_rp_exlock, rwlock_rp_exunlock"])
P("C16","Writer-preferring rwlock: exclusion and writer preference",
  "At all times either no task is writing, or exactly one is and none is reading; while a writer is active or waiting no new reader is admitted; whenever the lock is free no waiter is left asleep without a wake-up under way; recursive write locking is released only by the matching outermost unlock.",
  "every schedule, tasks",
  "Schedules unbounded.",
  ["kernel/rwlock.c: rwlock_wp_shlock, rwlock_wp_shunlock, rwlock_wp_exlock_int, rwlock_wp_exunlock_int"])
P("C17","Pipe: the byte stream is preserved",
  "The bytes delivered by successful reads from a pipe, concatenated in the order in which the reads took effect, are always a prefix of the bytes accepted by successful writes in the order they took effect, and what is still undelivered is exactly the pipe's content (at most its capacity).",
  "every number of readers and writers, every schedule, blocking or not",
  "Schedules and sizes unbounded.",
  ["kernel/pipe.c: pipe_read, pipe_write"])
P("C18","Pipe: end-of-file and broken-pipe are reported exactly when they should",
  "A read returns 0 for a non-zero length only when every write end is closed and no unread byte remains; a blocking write fails with EPIPE (and SIGPIPE) iff no read end is open; non-blocking operations return EAGAIN iff they would have to wait.",
  "every history",
  "History-dependent.",
  ["kernel/pipe.c: pipe_read, pipe_write, pipe_on_handle_close"])
P("C19","Pipe: no blocked reader or writer is forgotten",
  "A task blocked reading from a pipe is never left asleep with data available (or with every write end closed) and no wake-up in flight; symmetrically for writers.",
  "every schedule, any mix of blocking readers/writers and pollers",
  "Lost wake-ups.",
  ["kernel/pipe.c","kernel/kcond.c","kernel/poll.c"])
P("C20","SIGKILL and SIGSTOP cannot be blocked, ignored or caught",
  "After any sequence of signal-mask and signal-action system calls by a process, with any arguments including faulting pointers, SIGKILL and SIGSTOP are not in its blocked mask and have the default action.",
  "every sequence of rt_sigaction/rt_sigprocmask calls and arguments",
  "All argument combinations including faults half-way.",
  ["kernel/signal.c: sys_rt_sigaction, sys_rt_sigprocmask"])
P("C21","A pending unblocked signal is selected for delivery",
  "If a task has a pending signal that is not blocked, signal processing selects an unblocked pending signal (SIGKILL first); it never selects a blocked or non-pending one.",
  "every pending set and mask",
  "2^64 x 2^64 combinations.",
  ["kernel/signal.c: get_first_pending_sig, pending_signals, process_signals"])
P("C22","Signal set operations act on exactly one signal",
  "Adding, removing and testing a signal number in a task's pending and masked sets affects and reads exactly that signal's bit, for every valid signal number, on both word sizes.",
  "every set, every signal number, both word widths",
  "Needs all bit positions and contents.",
  ["kernel/signal.c: __add_sig, __del_sig, __is_sig_set"])
P("C23","Timers fire exactly once, not early and in order",
  "A one-shot timer armed for a deadline fires exactly once, at the first tick at which the deadline has passed and not before, unless cancelled first; timers fire in deadline order; a cancelled timer never fires after a successful cancel.",
  "every set of timers, every arm/cancel/tick history",
  "Histories unbounded.",
  ["kernel/timer.c: ktimer_arm, ktimer_cancel, tick_all_timers, run_pending_ktimers"])
P("C24","The cached earliest deadline equals the true minimum",
  "The deadline the tick handler checks is always the earliest deadline among armed timers (or 'none').",
  "every history of timer operations",
  "Cache coherence over histories.",
  ["kernel/timer.c"])
P("C25","System time never drifts from the tick count",
  "After k ticks the system time is exactly k times the tick duration plus the integer part of k times the fractional part: rounding error never accumulates.",
  "every tick count, every tick duration/fraction",
  "Unbounded tick counts.",
  ["kernel/timer.c: timer_irq_handler","kernel/datetime.c"])
P("C26","The run queue is exact and its keys are never changed while queued",
  "After any history of scheduler events the ready-queue holds exactly the runnable tasks that are not running, the runnable count equals its size, and the scheduler's cached sum equals the sum of the queued tasks' virtual runtimes.",
  "every history of create/wake/sleep/yield/tick/exit/stop/continue events",
  "Histories unbounded.",
  ["kernel/sched.c"])
P("C27","The scheduler picks the runnable task with least virtual runtime",
  "The task chosen is runnable and has the minimum (virtual runtime, tid) among the queued runnable tasks; idle runs only if nothing else can.",
  "every scheduler state",
  "Unbounded",
  ["kernel/sched.c: do_schedule, sched_do_select_runnable_task"])
P("C28","Process ids are unique among live tasks",
  "The id allocator never returns the id of a task that is still in the process table, and fails only when none is free.",
  "every set of live tasks, after any number of wrap-arounds",
  "Wrap-around with arbitrary occupancy.",
  ["kernel/sched.c: create_new_pid, create_new_kernel_tid"])
P("C29","Every child is reaped exactly once and its status is not lost",
  "Each exited child remains a zombie until its parent's wait (or init's, if the parent died) collects it; exactly one wait returns it, with the status it exited with; orphans are re-parented to init.",
  "every fork/exit/wait history",
  "Histories unbounded.",
  ["kernel/waitpid.c","kernel/exit.c","kernel/process.c"])
P("C30","A parent blocked in wait is woken when a matching child changes state",
  "If a parent is asleep in wait for a set of children and a child in that set exits, the parent is woken.",
  "every wait argument (pid, 0, -1, -pgid) and process tree",
  "Argument/tree combinations.",
  ["kernel/waitpid.c: wake_up_tasks_waiting_on","include/tilck/kernel/process.h"])
P("C31","Program break covers exactly the requested bytes",
  "After any sequence of brk calls the pages mapped for the heap are exactly those covering [initial break, current break), existing contents are unaffected by growth, and the returned break is what is mapped even if memory ran out half-way.",
  "every call sequence, every out-of-memory point",
  "Every OOM point.",
  ["kernel/mm/process_mm.c: sys_brk"])
P("C32","Unmapping removes exactly the requested range from a mapping",
  "munmap of a page-aligned range leaves the bookkeeping of mappings describing exactly the previously mapped pages minus that range, with each remaining page keeping its file offset.",
  "every mapping list and range",
  "Interval case analysis over all positions.",
  ["kernel/mm/process_mm.c: munmap_int, process_remove_user_mapping"])
P("C33","User-memory access checks never let a kernel address through",
  "Copying to or from user memory of n bytes at pointer p is accepted only if the whole range lies below the kernel's base address.",
  "every pointer and length, both word sizes",
  "2^64 x 2^64 arguments incl. wrap-around.",
  ["include/tilck/kernel/user.h: user_out_of_range","kernel/user.c"])
P("C34","Copying strings from user space is bounded and exact",
  "A user string copy stores at most the destination size, returns success exactly when the whole NUL-terminated string was read from valid user memory, with the exact bytes, and never reads a byte past the terminator's page or in kernel space.",
  "every memory content, address, max length",
  "All page-boundary placements.",
  ["kernel/user.c: copy_str_from_user, copy_str_array_from_user"])
P("C35","Physical memory map is normalised",
  "After processing the firmware memory map, the regions are sorted, pairwise disjoint, non-empty, and each address has the highest-priority type among the input regions covering it (nothing gained or lost).",
  "every firmware-supplied list of regions",
  "Arbitrary overlaps.",
  ["kernel/mm/system_mmap.c: fix_mem_regions, handle_region_overlap"])
P("C36","Sorting returns a sorted, stable permutation",
  "insertion_sort_ptr and insertion_sort_generic leave the array a permutation of its input sorted under the comparison and keep the relative order of equal elements, in bounds.",
  "every array and total preorder",
  "All inputs.",
  ["kernel/sort.c"])
P("C37","Integer formatting and parsing round-trip",
  "Printing any 32/64-bit signed or unsigned integer in a supported base and parsing the text back yields the same number and consumes the text; the output has no leading zeros and fits the documented buffer.",
  "every integer of each width, every base",
  "2^64 values",
  ["common/itoa.cpp: __itoa, __tilck_strtol"])
P("C38","Integer parsing detects overflow",
  "Parsing a digit string either returns its exact mathematical value or reports an out-of-range error.",
  "every digit string of any length",
  "Unbounded strings.",
  ["common/itoa.cpp: __tilck_strtol"])
P("C39","Absolute paths are normalised",
  "Resolving a path string against the current directory yields an absolute path without '.', '..' or empty components which denotes the directory obtained by walking the components one by one, never above the root, or fails if it does not fit.",
  "every path string and cwd",
  "Unbounded strings",
  ["kernel/cwd.c","kernel/fs/vfs_util.c: compute_abs_path"])
P("C40","Path resolution follows the component-by-component walk and terminates",
  "Resolving a path gives the object reached by following components, '.' and '..' and symbolic links one at a time across mount points, or the proper error; it always terminates: symlink nesting is bounded (ELOOP).",
  "every directory tree, mount table and path",
  "Unbounded trees/paths; cyclic links.",
  ["kernel/vfs/vfs_resolve.c.h"])
P("C41","In-memory file content is a byte array",
  "Any sequence of reads, writes (also past the end), seeks and extensions on a ramfs file behaves like on a byte array: a read returns the last value written at each position, holes read as zero, and the size is the maximum extent.",
  "every operation history, offsets, lengths; every allocation-failure point",
  "Histories unbounded.",
  ["kernel/fs/ramfs/blocks.c.h","kernel/fs/ramfs/ramfs.c"])
P("C42","Truncation discards data for good",
  "After truncating a file to a shorter length, the discarded bytes can never be observed again: extending the file yields zeros.",
  "every file and length",
  "Needs partial-block lengths and later history.",
  ["kernel/fs/ramfs/rw_ops.c.h: ramfs_inode_truncate_safe"])
P("C43","Directory operations keep link counts and names consistent",
  "After any history of create, link, unlink, mkdir, rmdir, symlink: names in a directory are unique, each inode's link count equals the number of directory entries naming it, an inode is freed exactly when it has no name and no open handle, rmdir succeeds only on empty directories.",
  "every history",
  "Histories unbounded.",
  ["kernel/fs/ramfs/dir_entries.c.h","kernel/fs/ramfs/ramfs.c"])
P("C44","Rename moves a name and never loses the object",
  "A successful rename leaves the object reachable under the new name with unchanged contents, the old name gone (unless both denote the same object, when nothing changes), the tree a tree with correct '..'; a failed rename changes nothing.",
  "every tree and pair of paths",
  "All tree/path combinations.",
  ["kernel/fs/ramfs/ramfs.c: ramfs_rename","kernel/vfs/vfs.c: vfs_rename"])
P("C45","Directory listing returns each surviving entry exactly once",
  "Reading a directory in several calls while other entries are created and removed returns each entry that existed throughout exactly once and never touches a removed entry.",
  "every interleaving of listing with removals and buffer sizes",
  "Interleavings.",
  ["kernel/vfs/vfs_getdents.c.h","kernel/fs/ramfs/getdents.c.h","kernel/fs/ramfs/dir_entries.c.h"])
P("C46","File locks have one owning subsystem",
  "A per-file subsystem lock is never held by two different subsystems at once, repeated acquisition by the same subsystem is counted, and the lock disappears exactly when the last acquisition is released.",
  "every history and schedule",
  "Schedules.",
  ["kernel/fs/flock.c"])
P("C47","CRC-32 is the standard CRC and is compositional",
  "crc32 of any byte string equals the bitwise division by the standard reflected polynomial, and computing it in pieces gives the same result as on the whole.",
  "every byte string and split",
  "All inputs.",
  ["common/3rd_party/crc32.c"])
P("C48","Base-64 decoding inverts encoding",
  "Decoding the encoding of any byte string returns that string with its exact length; the encoded length is the documented function of the input length.",
  "every byte string",
  "All inputs.",
  ["common/3rd_party/base64.c"])
P("C49","Calendar conversion round-trips",
  "Converting a timestamp to a date and back returns the timestamp, and the date is the proleptic Gregorian calendar date.",
  "every timestamp in the representable range",
  "All timestamps",
  ["common/3rd_party/datetime.c"])
P("C50","FAT file reading returns the cluster chain's bytes",
  "Reading a file from a FAT image returns the concatenation of its cluster chain's contents cut at the file size and the buffer size; the type (FAT12/16/32) decision and the cluster addressing arithmetic follow the FAT specification.",
  "every well-formed FAT image, file and buffer size",
  "All images.",
  ["common/fat32_base.c: fat_read_whole_file, fat_read_fat_entry, fat_get_type"])
P("C51","FAT cluster compaction preserves every file",
  "Compacting a FAT volume keeps every file's contents and directory structure, and afterwards the used clusters are contiguous from the start.",
  "every well-formed FAT volume",
  "All volumes.",
  ["common/fat32_base.c: fat_compact_clusters"])
P("C52","Deferred jobs are never stranded",
  "A job enqueued for a worker thread (from task or interrupt context) is executed exactly once, in FIFO order within its queue, and the worker never goes to sleep while its queue holds a job.",
  "every interleaving of producers and worker",
  "Interleavings.",
  ["kernel/wth.c"])
P("C53","Poll does not miss events",
  "A poll that sleeps is woken if any of its files becomes ready after registration, and returns exactly the set of ready files.",
  "every interleaving",
  "Interleavings.",
  ["kernel/poll.c"])
P("C54","Formatted printing never writes outside its buffer",
  "snprintk with a buffer of size n >= 1 writes only inside the n bytes, always NUL-terminates, and produces a prefix of the full formatted text.",
  "every format string, arguments and size",
  "All formats.",
  ["kernel/snprintk.c"])
P("C55","Intrusive lists stay well-formed",
  "After any sequence of list insertions and removals a list enumerates exactly its members, forwards and backwards, in order.",
  "every sequence",
  "Unbounded.",
  ["include/tilck/kernel/list.h"])
P("C56","Kernel thread ids are unique",
  "Kernel-thread id allocation returns an id in the kernel range not used by any live task, whenever one is free.",
  "every set of live tasks, any wrap-around",
  "All occupancies.",
  ["kernel/sched.c: create_new_kernel_tid"])
P("C57","FAT memory mappings show the file",
  "Mapping a range of a FAT file maps each page of the range, up to the end of the file's clusters, onto the bytes of the file at that offset.",
  "every well-formed FAT volume, file, offset and length",
  "All cluster sizes, offsets and lengths.",
  ["kernel/fs/fat32_mm.c: fat_mmap"])
P("C58","FAT directory listing and search",
  "Walking a FAT directory reports exactly its live entries, in order, with the long name stored for them or their short name; looking a name up finds the first entry with that name.",
  "every well-formed directory",
  "All directories: long names span entries, checksums, deleted entries, cluster boundaries.",
  ["common/fat32_base.c: fat_walk, fat_search_entry_cb, fat_handle_long_dir_entry, finalize_long_name","kernel/fs/fat32.c: fat_get_entry, fat_getdents"])
P("C59","Aligning the first data sector keeps the volume",
  "After fat_align_first_data_sector the first data sector is page aligned and every table entry and every used cluster reads as before.",
  "every well-formed FAT volume",
  "All layouts and occupancies.",
  ["common/fat32_base.c: fat_align_first_data_sector, fat_calculate_used_bytes"])
P("C60","FAT time stamps",
  "A FAT time stamp is decoded to the date and time that was packed into it (to its two-second granularity).",
  "every date and time",
  "All values.",
  ["kernel/fs/fat32.c: fat_datetime_to_regular_datetime"])

P("C61","Copy-on-write isolates processes",
  "A process' memory is its own: a forked child sees exactly what its parent saw at the time of the fork, and from then on no store, mapping, unmapping, further fork or exit of one process changes what another sees of its private pages, while pages mapped as shared show every store to everybody; the zero page stays zero; a store to a copy-on-write page succeeds exactly when the page was writable before the fork; and none of this uses a freed page table or fails an assertion.",
  "every history of map, unmap, write, fork and exit, any number of processes and any outcome of the allocator",
  "Sharing arises from nested forks with partial writes in between; which page is copied depends on the counts that the whole history left.",
  ["kernel/arch/i386/paging.c: handle_potential_cow, pdir_clone, pdir_destroy, map_page, map_zero_page, __unmap_page", "kernel/arch/generic_x86/paging_generic_x86.h: pf_ref_count_inc, pf_ref_count_dec"])
P("C62","Page-frame reference counts",
  "The reference count of a page frame is always the number of page-table entries that map it, plus one if it is owned by something else (the zero page, a block of a file, the ramdisk); a page is given back to the heap exactly when its last mapping goes; every page table belongs to exactly one entry of one page directory; and once all processes are gone all memory has been given back.",
  "every history of map, unmap, write, fork and exit, any number of processes and any outcome of the allocator",
  "A leak or a premature free shows only after particular sequences of forks, writes and exits, and then much later and elsewhere.",
  ["kernel/arch/i386/paging.c: pdir_clone, pdir_destroy, handle_potential_cow, __unmap_page, map_page_int", "kernel/arch/generic_x86/paging_generic_x86.h: pf_ref_count_inc, pf_ref_count_dec, pf_ref_count_get", "kernel/fs/ramfs/blocks.c.h: ramfs_new_block, ramfs_destroy_block"])

P("C63","File descriptors",
  "A descriptor always refers to a live handle of its own; inode, pipe-end and file-system reference counts are the numbers of descriptors that refer to them; open, dup, F_DUPFD and pipe2 return the lowest free descriptors; dup2, close, exec, exit and fork change exactly the descriptors they should; a failing call leaves nothing behind; and when all processes are gone all handles and pipes are.",
  "every history of open, close, dup, dup2, fcntl, pipe2, fork, exec and exit, any number of processes, any table size and any outcome of the allocator",
  "Counts go wrong only after particular mixes of fork, dup and failures in the middle of a call; the effect is an end-of-file that never comes or a use after free much later.",
  ["kernel/fs/fs_syscalls.c: get_free_handle_num_ge, sys_open, sys_close, sys_dup2, sys_dup, sys_fcntl64, sys_pipe2, close_cloexec_handles", "kernel/vfs/vfs.c: vfs_close, vfs_dup", "kernel/fork.c: fork_dup_all_handles", "kernel/exit.c: close_all_handles", "kernel/pipe.c: pipe_on_handle_close, pipe_on_handle_dup", "kernel/fs/kernelfs.c: kfs_create_new_handle, kfs_destroy_handle"])

P("C64","Terminal line discipline",
  "In canonical mode keys edit the current line and complete lines queue up; a read returns bytes of the oldest complete line only, in order, nothing lost, duplicated or merged, and the rest of the line is returned by the following reads; an end-of-file character ends the line without being delivered; a read blocks, or fails with EAGAIN, exactly when there is no complete line, and returns once there is one. In raw mode a read returns the oldest VMIN bytes. No assertion of the code fails.",
  "every interleaving of key events, signals and steps of read(), every read size, every setting of the special characters that keeps them different",
  "The counter of line ends, the ring buffer and the per-handle buffer get out of step only for particular mixes of erasing, partial reads, a full buffer and changes of mode, interleaved with key events.",
  ["kernel/tty/tty_input.c: tty_send_keyevent, tty_keypress_handle_canon_mode, tty_inbuf_write_elem, tty_inbuf_drop_last_written_elem, tty_read_int, tty_flush_read_buf, tty_internal_read_single_char_from_kb, tty_internal_should_read_return, tty_read_ready_int", "kernel/tty/tty_ctrl_handlers.c.h", "kernel/tty/tty_ioctl.c: tty_ioctl_tcsets", "kernel/tty/tty.c: tty_on_dup_extra"])
P("C65","Terminal echo",
  "Typing characters and then erasing all of them leaves the screen line as it was, control characters (echoed as a caret and a letter) included; with echo off nothing is written.",
  "every sequence of characters, every setting of the terminal, every content of the line before",
  "The width of what erasing removes has to agree with the width of what typing drew for every byte and every setting.",
  ["kernel/tty/tty_input.c: tty_keypress_echo, tty_char_echoed_as_caret, tty_echo_width, tty_inbuf_drop_last_written_elem"])

P("C66","Screen of the video terminal",
  "Every character written and every action (moving, erasing, inserting and deleting characters and lines, scrolling, scroll regions, alternate screen, reset, scrolling the view, pausing) stays within the terminal's buffers and changes cells, tabs, cursor and display as specified on plain lines of cells; the display always shows the lines of the current view. Exceptions are those refuted beside it.",
  "every size of screen and buffer, every reachable state, every sequence of operations, every driver with or without hardware scrolling",
  "The buffer is a ring addressed modulo its size; errors only show for particular wrap positions, regions, counts and cursor columns.",
  ["modules/console/video_term.c: term_internal_incr_row, term_internal_write_char2, term_internal_write_tab, term_internal_write_backspace, ts_set_scroll, term_redraw2, init_vterm", "modules/console/term_actions.c.h: term_action_*"])

P("C67","History, alternate screen and erasing",
  "Lines that scrolled off the screen never change until a reset; leaving the alternate screen restores the main screen, cursor, region and tabs; a text typed at the cursor appears there, wrapped and scrolled, and as many backspaces erase exactly it.",
  "every sequence of operations in between, every text, every cursor position",
  "The history shares the ring with the screen, and the alternate screen shares it with the main one; a test sees a few screens only.",
  ["modules/console/video_term.c: term_internal_incr_row, term_internal_write_backspace", "modules/console/term_actions.c.h: term_action_use_alt_buffer"])

P("C68","Escape sequences of the console",
  "A stream of characters and escape sequences has the effect its sequences specify, one after the other, on screen, colors, character sets, saved cursor, terminal settings and replies, even when it begins in the middle of another sequence; the parser stays within its arrays. Exceptions are those refuted beside it.",
  "every sequence of bytes for the parser's arrays; every stream of well-formed sequences, parameters and digits, every console and screen state, both widths of long",
  "Parameters of any value pass through several narrower types on the way to the screen, and arrays overflow only for particular byte counts in the middle of a sequence.",
  ["modules/console/console.c: tty_filter_end_csi_seq, tty_state_csi, tty_state_esc1, tty_csi_*_handler", "modules/console/console_def_state.c.h: tty_def_state_*", "modules/console/tables.c", "modules/console/term_actions.c.h: term_action_write", "modules/console/video_term_int.h: term_make_action_*"])

P("C69","Text at a position reaches the display",
  "Writing CSI row ; column H and a text that fits the row changes exactly these cells of the display, to these characters in the current color, and leaves the cursor behind the text.",
  "every row, column and text, every size of screen, every reachable state of console and terminal that is not scrolled back",
  "The claim spans the parser, the action queue, the ring buffer and the driver.",
  ["modules/console/console.c: tty_state_csi, tty_csi_fH_handler", "modules/console/term_actions.c.h: term_action_write, term_action_move_cursor", "modules/console/video_term.c: term_internal_write_char2"])

P("C70","Arguments of a new program",
  "execve copies the argument and environment strings of the old program when both arrays fit 4096 bytes together, and fails with EFAULT or E2BIG otherwise; the new program finds, at a stack pointer that is a multiple of 16, the count, pointers to its arguments, NULL, pointers to its environment, NULL and the auxiliary vector, each pointer leading to its string; nothing outside the two pages below the kernel is written.",
  "every memory of the old program and arrays that do not wrap around (C34), every strings, every word size and kernel base",
  "Alignment and padding depend on the length of every string and on the counts; the buffer is shared by the two arrays.",
  ["kernel/execve.c: execve_get_args", "kernel/user.c: duplicate_user_argv, push_args_on_user_stack, push_string_on_user_stack, push_on_user_stack"])

P("C71","Scripts",
  "Executing a file that begins with #! executes the interpreter named there with its argument, the path of the file and the arguments after the first, through at most two scripts; deeper nesting is ELOOP, more than 30 arguments E2BIG. Exceptions are those refuted beside it.",
  "every header of 128 bytes, interpreter, argument, number of arguments, every result of the loader",
  "The parser works in place in a fixed header, with arrays that previous calls filled; only particular positions and counts leave them.",
  ["kernel/execve.c: execve_handle_script, execve_load_elf, do_execve_int"])

P("C72","Program image",
  "Loading a static ELF program gives, for every list of segments inside user space and the file, exactly the image the headers describe: file bytes, zeros behind them, writable where the segment is, nothing else mapped, brk behind the last segment; a dynamic, misaligned or truncated program is refused; the program's file is not changed. Exceptions are those refuted beside it.",
  "every list of program headers, file size and content, word size, stack size; allocation failures; both ways of loading",
  "Segments share pages, begin inside pages and end before their memory does; the interesting combinations come from unusual linkers and hostile files.",
  ["kernel/elf.c: load_segment_by_copy, load_segment_by_mmap, check_segment_alignment, load_elf_program", "kernel/fs/ramfs/mmap.c.h: ramfs_mmap"])

P("C73","String and memory functions",
  "Each string and memory function of the kernel (strlen, strnlen, strcmp, strncmp, memcmp, stricmp, memchr, strchr, strrchr, strstr, strcpy, strncpy, strcat, strncat, memcpy, memcpy32, memmove, memset, memset16, memset32, bzero, isxdigit; x86 and generic variants) has the result of the C function of that name, reads only the bytes that function may read and writes nothing else. Exceptions are those refuted beside it.",
  "every memory, address, string and length; every overlap of source and destination that the function admits; signed and unsigned char",
  "Faults and overlaps depend on addresses and on what lies behind a buffer; tests put readable bytes there.",
  ["common/string_util.c","include/tilck/common/arch/generic_x86/asm_x86_strings.h"])
P("C74","kmalloc over main and small heaps",
"For every set of initialised main heaps and every sequence of kmalloc and kfree calls without flags, where callers free what they have with the size they asked for or with none: no ASSERT and no panic; live blocks are at least as large as asked for, aligned to their size up to 2048, inside one main heap, and overlap neither each other nor metadata, nodes of small heaps or main-heap metadata; NULL is returned for a large request only if no main heap has an aligned free range, for a small one only if moreover neither a small heap nor the room for a new one exists; a small heap is added only if the others have no room; the list of available small heaps holds exactly those that are not full; the counter of empty ones is right and never above the limit; memory in use is what callers have plus the allocator's own, and when all is freed only metadata and the kept empty heaps are left. Freeing with the size general_kmalloc wrote back is not covered: for requests of 1025 to 2047 bytes it asserts (refuted).",
"all main heaps, sizes, call sequences, limits of empty heaps; 32 and 64 bits",
"Two levels of heaps that live in each other: a wrong transition of a small heap (full, available, empty, destroyed) shows up only after long sequences that fill or empty a 32 KB chunk.",
["kernel/kmalloc/general_kmalloc.c.h","kernel/kmalloc/kmalloc_small_heaps.c.h"])
P("C75","Kernel command line",
"For every command line without NUL bytes and every table of options the parser writes only inside the word buffer, args_buf and cmd_args; only the first 255 bytes of each word and not the spacing matter; a line of options with values (in any order, repeated, by name or alias, mixed with unknown words) gives each variable the last value given and leaves the others at their defaults; up to 15 words after -- or -cmd, if they fit, become the argument vector unchanged, otherwise panic, and no line without a separator panics; in a checked table a word means one option; after validation ttys is in range. Refuted: a self test name of 247 to 255 bytes overflows a stack buffer; a value after an unknown word goes to an earlier option; garbage after numbers is accepted.",
"all lines, tables, defaults, initial buffer contents, word sizes",
"Tests try a few lines with the built-in table; overflow at the 255-byte, 15-argument and page limits and clobbered strings need extreme lines.",
["kernel/cmdline.c","include/tilck/common/cmdline_opts.h"])
P("C76","printk from tasks and interrupts",
"For every history of printk calls by tasks and nested interrupt handlers, with an interrupt at any step: accesses stay inside the ring, which never becomes full; if no task is preempted inside printk, the bytes printed from the ring are always a prefix of the appended pieces in order of reservation, and when all calls have returned the ring is empty, the first_printk bit clear, and each prefix and text was printed exactly once; calls in turn print in order, with a prefix where the previous text ended a line. Refuted for tasks preempted between setting first_printk and disabling preemption: a message stays in the ring after all calls returned, and an interrupt then prints bytes never written.",
"all ring sizes, contents, calls, histories, nesting depths",
"The windows between reservation and copy and between the bit and disable_preemption are a few instructions wide; tests do not interrupt or preempt there.",
["kernel/printk.c"])
P("C77","sysfs files: buffered handles and property types",
"For every history of open, read, write, seek, fsync, dup, close and syncfs on buffered sysfs files that reads and writes only up to the end of the data, calls fsync between a write and the next write or dup, calls syncfs only with nothing to store, and flushes a duplicate only while its original is open: no assertion fails, no freed handle is read, and all results and contents are those of handles working on snapshots which are stored at fsync and close. Reads of immutable data in any pieces give the data. Numbers and strings are stored as parsed. Refuted without these conditions: a second write or a syncfs loses the data, dup does not store, freed memory is read, uninitialised memory is shown, numbers of more than 32 bytes overflow the stack, bools cannot be set.",
"all file sizes and contents, any number of files and handles, all histories",
"Each failure needs a particular order of calls (write-write-close, write-syncfs, dup-close-close); no test of the project uses buffered properties at all.",
["modules/sysfs/fileops.c.h","modules/sysfs/types.c.h","modules/sysfs/sysfs.c"])
P("C78","select: results, sets and remaining time",
"For every set of open files, every sequence of answers of their readiness functions and every way the sleeps end: a result of select that is not an error is the number of bits in the returned sets; each of these was asked for, open and found ready during the call; each bit taken away was closed or found not ready; all else is unchanged. Something ready from the start gives the exact sets at once. With lasting readiness and a condition to wait on, 0 means that the time is over, and the time left is 0. Errors other than EINTR write nothing; with nothing ready a closed descriptor gives EBADF; the time left is the one given or a normalised number of ticks. Refuted: 0 without timeout, no waiting without conditions, EINTR with sets written, EBADF depending on other descriptors, more time left than given, and the time of pselect6 with 32 bits.",
"all handle tables, readiness answers, sets, timeouts, wake-up sequences",
"Readiness changing between the count and the second look, signals arriving after the sets were written and sources without conditions need exact timing; the tests only use pipes and a tty.",
["kernel/select.c"])
P("C79","PS/2 keyboard: scancodes to key events",
"For every sequence of key presses, repetitions, releases, fake shifts and Pause sequences of a set 1 keyboard, and for any layout: the handlers are told exactly these keys in order, with the character determined by the shift keys down and the parity of the lock presses, until Ctrl+Alt+Del; the table of pressed keys is the one of the keyboard. From every decoder state two plain bytes restore the synchronisation. Modifiers are inserted correctly in escape sequences, which have at most 7 characters. Refuted: F1-F5 with modifiers give no sequence, KB_MOD_ALT and KB_MOD_SHIFT are exchanged against kb_get_current_modifiers, a lost byte leaves keys pressed, held lock keys toggle repeatedly, the right Ctrl does not count for the reset.",
"all key sequences, decoder states, layouts, modifiers",
"No test sends scancodes; the state machine with its prefixes has unbounded input sequences.",
["modules/kb8042/generic_x86/kb.c","modules/kb8042/generic_x86/kb_ansi_seq.c.h","kernel/kb_input.c","include/tilck/kernel/kb.h"])
P("C80","kmalloc accelerator: every element once",
"For all element sizes and counts whose product fits in 32 bits, every sequence of get_elem and destroy calls and all answers of the heap, failures included: every element of every block taken from the heap is handed out, freed by destroy or still unused, exactly once; after destroy nothing is left; with blocks that do not overlap the elements do not overlap and lie inside the blocks; a new block is taken only when the last one is used up; a failure leaves the accelerator usable.",
"all sizes, counts, call sequences and heap answers",
"The only user takes pages four at a time during fork; leaks of single elements need particular numbers of calls and failures.",
["kernel/kmalloc/kmalloc_accelerator.c.h"])
P("C81","Terminal actions: order, no loss, always drained",
"For every interleaving of any number of tasks and of code with preemption disabled writing to a terminal: actions are executed in the order of enqueueing, none lost or twice; at most one task is inside the mutex; a non-empty queue always has a task which is going to execute it, and the tasks inside their calls can empty it from every reachable state; if texts are not changed while queued, the texts shown are the texts written. Refuted: a write may return with its buffer still queued by pointer and the next content is shown; code with preemption disabled executes inside the execution of a task; an interrupt that prints panics when tasks filled the queue.",
"all numbers of tasks, schedules, queue sizes, memory contents",
"Each step may be preempted; the tests write from one task at a time, so the queue is always empty at the call.",
["include/tilck/kernel/term_aux.h","kernel/term_aux.c","modules/serial/serial_term.c"])
os.chdir(os.path.dirname(os.path.abspath(__file__)) + "/..")
with open("properties.jsonl","w") as f:
    for o in out: f.write(json.dumps(o) + "\n")
print(len(out))
