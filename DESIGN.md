# Formal model of Tilck in Rocq (Coq 8.16.1)

## Approach

Tilck runs on a single CPU. A section with preemption disabled is atomic with
respect to other tasks and a section with interrupts disabled is also atomic
with respect to interrupt handlers. So:

* **Data structures and pure code** (ring buffer, AVL tree, buddy allocator,
  region list, paths, number parsing, CRC, ...) are modelled function by
  function as total Gallina functions. Where the C code can leave its domain
  (out-of-bounds access, failed ASSERT, use after free) the model has a
  distinct outcome and the theorems prove that it is not reached, or exhibit a
  run that reaches it.
* **Concurrent code** (mutex, semaphore, condition, rwlock, pipe, worker
  queue, ...) is modelled as a transition system: every task has a program
  counter, each atomic section is one step and the theorems range over *every*
  finite sequence of steps of *any* number of tasks.
* Specifications are small separate files or sections that do not use the
  model's helpers (a list used as a queue, a function from keys to values, a
  function from offsets to bytes, ...).
* Where the code violates the property, a theorem named `..._refuted` proves
  the existence of the bad run or input in the model, and the strongest true
  restriction is proved under a name ending in `_partial`.

Files: `rocq/theories/<Area>_Model.v` (definitions with citations),
`<Area>_Proofs.v` (lemmas), `P_<Area>.v` (the property theorems only, each with
`Print Assumptions` and a non-vacuity example).

## Plan per property

| Property | Model | Proof |
|---|---|---|
| C01, C02 | ring buffer record with cursors and buffer contents | simulation with a bounded list, induction over operations |
| C03 | producers as a stack of interrupted activations with CAS steps | invariant over all nestings |
| C04-C06 | AVL tree with stored heights, insert with early exit, remove via successor, shadow-stack visit | refinement to a sorted association list; balance invariant; Fibonacci bound |
| C07-C09 | buddy heap bitmap tree, alloc/free, block size search | invariant linking tree flags to the set of live blocks |
| C10, C11 | mutex transition system | invariant over all schedules |
| C12, C13 | semaphore transition system | conservation invariant; lost-wake-up analysis |
| C14 | condition + mutex transition system | invariant |
| C15, C16 | rwlocks on top of condition/mutex/semaphore steps | invariant |
| C17-C19 | pipe transition system over the ring buffer | history variables and invariant |
| C20-C22 | signal sets as word arrays, syscalls with fault points | bit-level lemmas, induction on calls |
| C23-C25 | timer tree, tick handler, clock accumulators | invariant over operation histories |
| C26, C27 | scheduler state: tasks, run queue, counters | invariant over event histories |
| C28, C56 | pid allocation visit over the sorted task list | counting argument on sorted lists |
| C29, C30 | process table, exit, wait4, wake-up conditions | invariant over histories |
| C31, C32 | brk and munmap bookkeeping over page sets | case analysis with interval arithmetic |
| C33, C34 | address arithmetic modulo 2^W, string copy loop | arithmetic, induction |
| C35 | memory region list and overlap handling | measure + per-address type preservation |
| C36 | insertion sort loops on arrays | induction on both loops |
| C37, C38 | itoa / strtol with explicit wrap | digit-list induction |
| C39 | path normaliser character loop | simulation with a component walk |
| C40 | vfs_resolve over an abstract file-system interface | induction on the path and link depth |
| C41, C42 | ramfs blocks | abstraction to a byte function |
| C43-C45 | ramfs directory entries, inodes, handles | invariants over histories |
| C46 | subsystem locks | serialised history + interleaving refutation |
| C47, C48, C49 | CRC-32, base64, calendar | table = bitwise; round trip by sweep and arithmetic |
| C50, C57, C60 | FAT arithmetic, chain walk, mappings, time stamps | induction on the chain |
| C58 | directory walk with a callback, long names | simulation with a list of items |
| C51, C59 | compaction and alignment of the image | frame conditions over a tree of files |
| C52, C53 | worker queue and poll transition systems | invariant over schedules |
| C54 | formatter output cursor | invariant of all writes |
| C55 | doubly linked list heap | separation-style representation predicate |
| C61, C62 | frames, page tables, counts; one step per kernel operation | invariant over histories; loops of fork and exit by a ghost state in which each iteration is one consistent step |
| C63 | handles, tables, counters; one step per system call | invariant over histories (one descriptor per handle, counts as lists without repetition); fork by a ghost table |
| C64 | ring buffer as a list, counter, one handle, one reader with a program counter; key events between any two steps of the reader | refinement to a queue of lines (canonical) or of bytes (raw) |
| C65 | bytes written for a key and for an erase | cells of the screen line as a stack |
| C66 | ring of cells, two tab maps, saved screen, display, cursor; accesses outside an array are an outcome of their own | simulation of an unbounded list of lines, one lemma per action |
| C67 | the lines of C66 | induction over operations; positions counted in cells from line 0 |
| C68 | parser states, the two byte arrays, attributes, character sets; narrow fields wrap explicitly; accesses outside an array are an outcome of their own | sequences with unbounded numbers as a separate datatype with a meaning on C66's lines; the parser run over their bytes, induction over the stream |
| C69 | C66 and C68 together | induction over the text |
| C70 | C34's copies; the stack as an array of bytes with `sp` reduced modulo the word size | layout as words and strings in the final memory; induction over the strings and the pushes |
| C71 | header and row as byte and pointer arrays, loads and stores outside them an outcome of their own; the loader a parameter | an inductive relation on paths and strings alone; pointers outside the two headers |
| C72 | page table as a map from pages to frames (own page or page of the file), bytes by address; allocation by page; kernel addresses an outcome of their own | the image as folds over the headers: last segment with a byte, frame, brk; induction over pages and headers |
| C73 | memory as a partial map from addresses to bytes, a missing one a fault; loops step by step, movsl reading four bytes before writing them | strings as lists at addresses, copies as 'exactly these bytes replaced'; induction over loops |
| C74 | a list of main heaps and one of small heaps, each a heap of Buddy_Model at an address; small heaps allocated in main heaps; the asserts as a missing result | callers' blocks as (address, size asked for); disjointness of everything in use, room as free aligned ranges, sums of memory | proved; freeing with the written-back size refuted |
| C75 | the word buffer, args_buf and cmd_args as lists with checked writes, the three states, the four handlers; any table of options | words of a line, items with values, effect of an item on a map from options to values; strings read back from args_buf | proved; self test name overflow, stray value, garbage after numbers refuted |
| C76 | a ring with the word of positions and bits, a stack of calls (current task, nested interrupts), preempted calls; each CAS and each copied byte a step | events on the terminal; the pieces of calls, in order or as a permutation | proved for histories without preemption inside printk; with it refuted |
| C77 | handles with buffers of arbitrary initial bytes, dirty_node and dirty_handles as list nodes (List_Model); property type functions on byte lists | snapshots per handle, stored at fsync and close; first line; parsed number | partial: allowed uses only; counterexamples for the others |
| C78 | fd sets as functions, a question counter for the readiness answers, a list of wake-ups (Sel_Model) | bits asked, open and found ready (`honest`); ticks | partial: faults of user memory and allocations left out; counterexamples for the rest |
| C79 | scancode state machine, key table, locks, escape sequences (Kb_Model) | history of the keys of a keyboard and the bytes it sends | proved; counterexamples for lost bytes, modifiers, function keys |
| C80 | accelerator with the answers of the heap as input (Acc_Model) | permutation of elements taken, given, freed and kept | proved |
| C81 | tasks, mutex, queue of pointers, memory as a transition system (Tq_Model) | order, a drainer for every non-empty queue, texts at the call | partial: interrupts are atomic; counterexamples for reused buffers and interrupts |

## Trusted base

* The Rocq (Coq 8.16.1) kernel and, for `coqchk`, the separate checker. `vm_compute`
  is used for some closed computations; the checker re-checks them by ordinary
  reduction.
* No axioms. Every theorem in a `P_*.v` file is followed by `Print Assumptions`, and
  each of them prints `Closed under the global context`. `coqchk -o` on the whole
  library lists seven axioms of `Coq.ssr.ssrunder`: they belong to a loaded standard
  library file and no theorem here depends on them.
* The statements: the definitions in `*_Spec.v` (what is claimed) and in `*_Model.v`
  (the code). The correspondence of `*_Model.v` with the C sources was established by
  reading; every definition cites the file and the lines it models. Nothing was compiled or
  run.
* The meaning of C as the project compiles it: `-fwrapv` (signed overflow wraps), 2's
  complement, `int` of 32 bits, little endian, `long`/pointers of 32 or 64 bits (a
  parameter where it matters). Wraps are explicit in the models (`u32`, `s32`,
  `wrap n`). Out-of-bounds accesses, use after free, failed ASSERTs (debug build), NULL
  dereferences, shifts beyond the width and exhausted fuel are distinct outcomes, never silently
  ignored.
* Single CPU: code with preemption disabled is one step for other tasks, code with
  interrupts disabled one step for interrupt handlers. Compiler and hardware reordering is not modelled.

Loops are functions on fuel or on the structure of a list. A theorem either
shows that enough fuel exists (and gives the bound) or, in a refutation, that none suffices.

## Layers

Higher-level primitives use lower-level ones by their proved behaviour, not by
inlining their code:

* rwlocks, pipes, poll use an abstract mutex (an owner) and abstract conditions (sets of
  waiters); justified by C10, C12, C14. Each section under such a mutex is one step.
* Users of the AVL tree (timers, scheduler, tasks, ramfs, file locks) use a sorted
  list or a finite map; justified by C04-C06 within the bound of C05.
* The worker threads use a bounded queue for `safe_ringbuf` (C03). Pipes use a
  bounded queue for `ringbuf` (C01, C02).
* `brk`, `mmap` use fresh pages for `kmalloc` (C07).

C10, C12 and C14 exclude one thing the kernel can do: a timer left armed by an interrupted wait
(finding under C10). The layers above inherit this assumption.

## What is modelled, and what is not

Ring buffer (C01, C02): `kernel/ringbuf.c`, all functions. Elements are opaque
values for C01, bytes for C02.

safe_ringbuf (C03): `include/tilck/kernel/safe_ringbuf.h`, `kernel/safe_ringbuf.cpp`. Any number of writes may interrupt each other
at each load, compare-and-swap and store. The copy of an element is one step. The
packed state word is a record (its fields are disjoint bit ranges).

AVL tree (C04-C06): `kernel/bintree/*`. Trees of values; pointers and field offsets are not
modelled.

kmalloc (C07-C09): `kernel/kmalloc/kmalloc.c`, one heap: `per_heap_kmalloc`, `per_heap_kfree`, block size search,
split and coalesce. Not modelled: the choice among heaps and small heaps, `in_use`
deferral, the page mapping behind a non-linear heap (mapping succeeds).

Mutex, semaphore, condition, rwlocks (C10-C16): `kernel/kmutex.c`, `kernel/ksem.c`, `kernel/kcond.c`, `kernel/rwlock.c`. Per-task program counters. `wait_obj` lists as
queues. Timers and POSIX signals as environment steps where the code admits them.

Pipe (C17-C19): `kernel/pipe.c`. Stop signals are not modelled. User memory copies succeed or
fail as a whole.

Signals (C20-C22): `kernel/signal.c`, `include/tilck/kernel/signal.h`. The scheduling effect of stop and continue is in
C27/C29. The old action returned by rt_sigaction is omitted. The signal frame is abstract.

Timers, clock (C23-C25): `kernel/timer.c`, `kernel/datetime.c`, the PIT and riscv timers' set-up, time conversions. The tick loop can be
interleaved between iterations. Callbacks of timers are not modelled.

Scheduler (C26, C27): `kernel/sched.c`, `kernel/process.c` (state changes). `kernel_process` stays
sleeping. The gating of signal wake-ups by the kind of wait object is not modelled.

Ids and wait (C28-C30, C56): `kernel/process.c`, `kernel/fork.c`, `kernel/exit.c`, `kernel/waitpid.c`: pid and kernel-thread id allocation, `sys_wait4`, exit, reparenting.
Processes are single-threaded; init neither exits nor stops; the SIGCHLD wake-up is a
separate step. `add_task` failing is an outcome.

Memory (C31-C35): `kernel/mm/process_mm.c`, `kernel/mm/process_mm_base.c`, `kernel/user.c`,
`kernel/mm/system_mmap.c`. Inode mapping lists are not modelled; in these models page tables are only "page mapped or not". User memory does not change during one call.

Page tables (C61, C62): `kernel/arch/i386/paging.c` (map_page, map_zero_page, __unmap_page, set_page_rw,
handle_potential_cow, pdir_clone, pdir_destroy), the counts of `generic_x86/paging_generic_x86.h`,
`ramfs_new_block`, `ramfs_destroy_block`. The user half only; page numbers instead of addresses; one kmalloc
of a page is an oracle that returns some free frame or fails; every call is one step (preemption is
disabled); the TLB is not modelled. A processor store is one step together with the copy-on-write
fault. Mapped files are frames with an owner, other than the zero page (which ramfs maps into holes, see
P_Ramfs). `pdir_deep_clone`, 4 MB pages and the other architectures are not modelled.

Terminals (C64, C65): `kernel/tty/tty_input.c` except the raw-scancode (mediumraw) mode and the key-to-sequence
translation, `tty_ctrl_handlers.c.h`, `tty_ioctl_tcsets`, `tty_on_dup_extra`. One handle and one reader at a time; a key event is
atomic with respect to the reader; job control is a boolean; the ring buffer is a list (C01 is the refinement); VTIME is not
implemented by the code and not modelled; the screen is C66, C65 counts cells.

Screen (C66, C67): `modules/console/video_term.c` and `term_actions.c.h`, all actions but "set color" and the text-mode font calls.
The filter that parses escape sequences is not part of it: an item is a character with its color or an action
with its arguments, written while the view is at the bottom (as `term_action_write` makes it). Cells are
numbers; the driver is an array of cells; the queue of actions and the periodic blinking are left out; line
numbers stay below 2^32. `slack` >= 1 in the positive theorems: one cell past the buffer is readable.

Escape sequences (C68, C69): `modules/console/console.c`, `console_def_state.c.h`, `tables.c`, the `term_action` constructors
of `video_term_int.h` and the loop of `term_action_write`. Replies are recorded, not typed in; ESC c does not clear the
input buffer in the model; the serial console and the queue of actions are left out. `strtol` is the one of C37.
The specification's sequences have at most 16 parameters of at most 63 bytes together and values below 2^31 (and below the
limits in `arg_ok` where a narrower field follows); sequences beyond these are refuted.

Starting a program (C70, C71): `kernel/execve.c` `execve_get_args`, `execve_handle_script`, `execve_load_elf`'s decision, the
recursion of `do_execve_int`; `kernel/user.c` `duplicate_user_argv`, `push_args_on_user_stack` and its helpers. The ELF loader
is a function from paths to success or an error with the first 128 bytes; saving, switching and freeing of the process are not
modelled. Default argv and environment (NULL pointers) are not modelled further than that they are chosen.

Program image (C72): `kernel/elf.c` `load_segment_by_copy`, `load_segment_by_mmap`, `check_segment_alignment`, the checks and the
loop of `load_elf_program`, the stack, brk and base mappings; the loop of `ramfs_mmap`. Reading and checking the ELF header
itself, the entry point, ASLR (none), freeing after an error and mappings other than user pages are not modelled; a page of the
address space is the file's or its own.

String functions (C73): all of `common/string_util.c` except `isspace` and the constant-size builtins, and `asm_x86_strings.h`.  Pointers do not wrap, 
lengths are mathematical; the x86 `strlen` counts in 32 bits (strings below 4 GB), which is not modelled.  `stosb` and `stosl` write byte by byte.

General allocator (C74): `general_kmalloc`, `general_kfree`, `main_heaps_kmalloc/kfree`, the small heaps (`alloc_new_small_heap`,
`small_heaps_kmalloc/kfree`, `destroy_small_heap`), all without flags, over the heaps of C07-C09. Preemption is disabled in them, so a call is one step.
Not modelled: sub-block, multi-step and DMA flags, leak detector, heavy statistics, poisoning, the registration of main heaps at boot
(their metadata is allocated at offset 0, hypothesis `new_main`).

Command line (C75): `kernel/cmdline.c`: `parse_kernel_cmdline`, `end_arg`, `use_kernel_arg`, the handlers of the four types,
`handle_cmdline_arg`, `do_args_validation`, `debug_check_all_kopts`, the buffer of `handle_selftest_kopt`. Strings compare as lists
(C73 covers strcmp), numbers by the model of C37. Left out: printk, sysfs objects, the symbol lookup of self tests, `ptr`-typed memory
of the variables (a map from option index to value). The theorems hold for any table; the one of the source is an Example.

printk (C76): `kernel/printk.c`: `__tilck_vprintk` from `try_set_first_printk_on_stack` on, `printk_append_to_ringbuf`,
`__printk_flush_ringbuf`, `printk_calc_used`, with the terminal initialised and no panic. Each successful CAS is one step (a word that
returns to the same value after exactly N more bytes is ignored), each copied byte one step, each `printk_direct_flush` one step.
Left out: formatting (C54), the early path and its `_DROPPED_` message, panic, tracing, colours.

sysfs files (C77): `modules/sysfs/fileops.c.h`: `sysfs_load_data`, `sysfs_flush_data`, `sysfs_free_data`, `sysfs_fsync`, the
IMMUTABLE and BUFFERED cases of read and write, seek, `sysfs_on_close`, `sysfs_on_dup`, `sysfs_open_file`;
`sysfs.c:155-180`; `types.c.h`: databuf, imm_data, ulong/long, bool and config_str stores. Handle memory is never reused,
and reading a freed handle is an error. Not modelled: hooks, failed allocations, mmap, ONESHOT and STREAM reads, preemption
inside an operation. No property registered in the tree is BUFFERED, so the C77 findings about handles are latent.

select (C78): `kernel/select.c`, all functions except the copying of user memory. Handles do not change during the call and do
have the functions asked for. Readiness is an arbitrary function of the number of the question, so it may change between any two
looks; what ends each sleep and the ticks elapsed are given by a list. Registration on the conditions and the sleep itself are
those of C53. `sys_pselect6` is modelled on the words of the user's timespec; the signal mask is ignored as in the code.

Keyboard (C79): `kb.c`: `kb_is_pressed`, `translate_printable_key`, `handle_special_keys_pressed`, `handle_key_pressed`,
`key_int_handler`, `kb_handle_default_state`, `kb_process_scancode`, the loop of the bottom half; `kb_ansi_seq.c.h`;
`kb_get_current_modifiers`, `kb_exact_match_modifiers`. Layout tables and `toupper` are parameters. Left out: the controller, the
IRQ handler and its ring buffer (C03 has the ring), LEDs, the list of handlers, `kb_translate_to_mediumraw`.

Accelerator (C80): `kmalloc_accelerator.c.h`, all functions. The heap (C74 and the heap properties) is replaced by arbitrary answers;
that freeing single elements of a block works is the property of the sub-blocks of the heap. Its assertions on sizes are left out.

Terminal actions (C81): `term_execute_or_enqueue_action_template`, `term_exec_everything`, `term_handle_full_ringbuf` (without the
panic branch). The ring buffer is a bounded list, the mutex free or held, an action one pointer; the text is read when its execution
starts. A call with preemption disabled is one step, so interrupts nested in it come before or after.

Descriptors (C63): `kernel/fs/fs_syscalls.c` (open, close, dup, dup2, fcntl, pipe2, close-on-exec), `vfs_close`,
`vfs_dup`, `kernel/fs/kernelfs.c`, the handles in `fork.c` and `exit.c`, the counters of `pipe.c`. One step per
system call (a process has one thread; the table is its own, `fslock` is held). Path resolution is an outcome; a kmalloc is an oracle that returns
some free address or fails. Reading and writing only move the position. Mappings and locks of a handle, `vfork`
and fcntl locks are not modelled.

Library code (C36-C38, C47-C49, C54, C55): sort, itoa/strtol, CRC-32, base64, dates, snprintk,
lists. For base64 malloc succeeds. For snprintk the argument list is a typed list and strings do not overlap
the destination. For lists CONTAINER_OF offsets are omitted.

Paths and resolution (C39, C40): `kernel/vfs/vfs_resolve.c.h`, `kernel/vfs/vfs_mp.c.h`, `kernel/cwd.c`,
`kernel/fs/vfs_util.c`. The world does not change during one
resolution; locks and references are a log of events; `get_entry` and `readlink` as in ramfs.

ramfs (C41-C45): data, truncate, seek, mmap faults; names, links, rename, listing. A call is
one step (inode or file system lock, C16), with explicit interleavings for the refutations. Page
contents are functions from offsets to bytes. Times and rwlock internals are not modelled.

File locks (C46): `kernel/fs/flock.c` for file systems without `exlock_noblk`; of ramfs files only links, handles and existence.

FAT (C50, C51, C57-C60): `common/fat32_base.c`, `kernel/fs/fat32*.c`. The image is a function from
offsets to bytes with a size; the header a record. Headers with a zero divisor are not
modelled. `fat_stat`, `pread`, directory seek are not modelled. For compaction and alignment the tree
of files is compared with the first-cluster fields of its entries blanked.

Worker threads and poll (C52, C53): one source per file and kind; arming the timer and going to
sleep is one step; completion waiters and `need_resched` are not modelled; select only through
its conversion to ticks.

Not modelled at all: devfs, framebuffer and serial drivers, PCI, tracing, architecture code, interrupts proper, debug
panel, ACPI. Terminal, keyboard, ELF loader and sysfs only as far as the paragraphs above say.

## Findings

Each of these is a theorem ending in `_refuted` in the named file unless marked (read).
They are departures of the modelled code from the property as stated.

* P_Ringbuf: capacities above 2^31 wrap.
* P_SafeRb: a reader that interrupts a writer reads an unwritten element.
* P_Avl: the 32-slot stack overflows at 5,702,886 objects, not at 14.9 million; pointer comparison by subtraction is not an order.
* P_Buddy: a block as big as the heap cannot be freed; a multi-step allocation of an odd size writes a node outside the metadata; a multi-step free of an unaligned range fails; split frees and virtual allocations make the counter drift.
* P_Kmutex, P_Kcond: a timer left armed by an interrupted wait later wakes the task out of kmutex_lock without ownership.
* P_Ksem: mixed request sizes lose a wake-up; the counter overflows.
* P_Kcond: signal_one is swallowed by a waiter whose timer expired; an interrupted wait reports success.
* P_RwWp: writers are not served in order of arrival.
* P_Pipe: a poller can take the only wake-up.
* P_Signal: a half-readable mask leaves SIGKILL blocked (32 bit); a blocked pending signal hides others; two sigsuspends fail an ASSERT; a handler can be called at address 1; on 64 bits signals 32-64 are mishandled.
* P_Timer: a deadline of 2^64 cannot be cancelled; re-arming a queued deferred timer corrupts the list.
* P_Clock: 18 Hz overflows the PIT divisor; riscv ticks lag; large drifts overflow; a nudge can make the tick duration 0 (then a division by zero); 2^55 s sleep returns at once.
* P_Sched: tasks leaving STOPPED skip the vruntime floor; wake_up and stale timers resume stopped tasks; a vfork parent can run; workers are preempted by lower priority work.
* P_Pid: duplicate pids after wrap-around with an orphan group; setpgid to a group that does not exist.
* P_Wait: wait4(0) is never woken; setpgid on a zombie loses the wake-up; a status is lost if it cannot be copied; three wrong stop/continue reports.
* P_User: user_out_of_range wraps and accepts kernel addresses; on i386 the size check of the copied argument array wraps, so that about 1 GB of pointers make execve store far outside its buffer.
* P_Brk: new heap bytes are not zeroed.
* P_Umap: munmap of ranges not inside one mapping removes too much, too little or underflows; read after free; sparse ramfs files are mapped at wrong addresses; 32-bit offsets and lengths wrap.
* P_Paging: a fork that runs out of memory for a page table frees the page tables of the parent, which goes on using them, and leaks the child's; a fork with the framebuffer mapped fails an ASSERT; pages beyond the end of RAM count as unreferenced, so that destroying a page directory that maps them frees them.
* P_Fd: dup2 onto an open descriptor without memory leaves a freed handle in the table; F_DUPFD with a negative argument reads before the table; F_DUPFD_CLOEXEC does not set FD_CLOEXEC unless the result is 0; fork clears FD_CLOEXEC; fork without memory closes null handles; F_SETFL with O_ASYNC or O_DIRECT panics; dup and fork do not share positions; dup2 onto itself fails; F_DUPFD with a full table returns EBADF.
* P_Term: CSI M (delete lines) copies only n + 1 rows, so lines are duplicated, changes the row below the region without redrawing it, and reads and writes past the tab map (heap) when the cursor's row plus 2n reaches the number of rows; CSI T with a region clears the wrong rows, and with more lines than the region's end indexes with a wrapped 32-bit row; CSI L above the region is not redrawn; a tab after a full line stores a width of 255 and the next backspace moves the cursor to column 65290, from where characters are written outside the buffer; overwritten tabs still make backspace jump; the cell under the cursor is read one past the buffer; writing shows a hidden cursor again.
* P_Csi: more than 16 parameters overflow an array on the stack, and 64 parameter or intermediate bytes put the terminator one past theirs: any program that can write to a terminal can do this; a parameter that overflows `long` shifts the others, and on 64 bits is cut to 32; action fields of 12 and 16 bits turn large counts into others, even moving the other way; CSI 2147483647 E moves up; private prefixes other than the question mark and intermediate bytes are ignored (CSI > 4;1 m changes colors); the rest of an overlong sequence is printed; ESC c keeps bold and reverse; the position reported after a full line does not exist; ESC 7, ESC = and ESC > swallow text up to the next byte from 0x40 to 0x5f; the line drawing set turns letters without a glyph into question marks.
* P_Exec: a script executed with an empty argument array gets an argument array without its NULL: the path overwrites it and stale pointers of the row follow (`execve.c:197-204`); a script with an interpreter argument called with exactly 30 arguments stores one pointer past the row of 32 (the limit check at `execve.c:176` does not count the interpreter's argument); a first blank at byte 126 makes the scan step over its terminator into the next header; a blank at the end of the line is an empty argument, and a second blank becomes part of the argument (C71_header holds with these). (read) the loader leaks the file's subsystem lock whenever the headers are refused, so for every script; setup_process leaks `pinfo->lf` on E2BIG.
* P_Elf: segment addresses are not compared with BASE_VA, so a program header can name kernel memory (`elf.c:71-108`: a mapped kernel page is simply read into); on file systems with mmap a writable segment that shares a page with a mapped read-only one is read into the page of the file itself and so changes the program on disk; the zero part of a mapped read-only segment is not zeroed; p_filesz > p_memsz is accepted; holes shift the pages behind them; a page shared by a writable and a read-only segment ends up read-only. (read) the error path of `ramfs_mmap` loops without end when the mapping begins at address 0; `alloc_and_map_stack_page` leaks its page when mapping fails; e_ehsize is compared with the size of a pointer to the header; `get_mapping` on 4 MB kernel pages is only checked by ASSERT.
* P_Tty: erasing after Enter removes the line end from the buffer but not from the count, and the next read never returns, signals or not; with 1024 characters buffered the line end is dropped but counted (assertion failure, or again a read without end), and on a serial line writer and reader wait for each other; raw reads of fewer bytes than VMIN fail an assertion, or lose bytes with EAGAIN; switching to raw mode and back hides complete lines; poll() does not see the rest of a line on a blocking handle, O_NONBLOCK set by F_SETFL makes it unreachable, dup() duplicates it; NUL ends a line although VEOL is disabled; VKILL and VWERASE are delivered as data; erasing an (unechoed) Ctrl+D removes a cell; bytes above 127 are echoed as a caret and a control character; DEL is echoed as a caret and 0xBF. (read) tty_reset_termios and tty_set_raw_mode do not refresh the control handlers; allocate_and_init_tty leaks its buffers when the terminal cannot be created.
* P_Mmap: an empty region makes the overlap loop endless; regions ending at 2^64 stay overlapping.
* P_Itoa: overflow not detected by strtol; "-05" is rejected.
* P_Path: "/a/.//../b" and "/..//x" are normalised wrongly; a 255-character cwd overflows by one byte.
* P_Resolve: links across mounts leave locks and references unbalanced; lookups in files; names of 231 characters or more overflow; "/abc//" yields the last component "c//"; ".." at a root; mounting on a mounted root.
* P_Ramfs: hole writes fail an ASSERT; offsets reaching OFFT_MAX; failed seeks reset the position; readv/writev ignore the access mode and copy stale bytes; the zero page is mapped writable; truncate leaves tail bytes; ftruncate on read-only handles; truncate on a directory.
* P_Dir: rename to itself, between links of one file, into its own subtree, over a file, of "/" and "."; rmdir("/a/./"); leaks on failure; components of NAMEMAX overflow; type confusion on "/file/x"; dup'd directory handles dangle; seekdir skips entries.
* P_Str: strcmp, strncmp and memcmp compare signed chars on x86 (C: unsigned); strnlen, strncpy and strncat read the byte behind the bound; strncpy does not pad; strstr does not find the empty string; the ASSERT of memcpy32 counts bytes where the copy counts words; isxdigit of a negative char reads before its table.
* P_Gk: `general_kmalloc` writes back the block size (2048 for 1025 to 2047 bytes); `general_kfree` with that size looks in the main heaps and asserts (in release builds frees a part of the small heap's chunk). The callers in the tree free with the size asked for, with none, or allocate more.
* P_Cmd: `handle_selftest_kopt` uses strcat before truncating: a self test name of 247 to 255 bytes overflows the 256-byte stack buffer; an unknown word keeps `last_opt`, so a later `false` applies to the option before it; `-ttys 5x` is 5.
* P_Pk: `first_printk` is set before `disable_preemption`: a task that found it set and is preempted before it appends leaves its message in the ring until the next printk; an interrupt that prints while it copies flushes bytes not yet written.
* P_Sysfs: `sysfs_file_write` adds the handle to `dirty_handles` although it is there: after a second write nothing is stored
  and the list keeps a pointer to the freed handle. `sysfs_syncfs` removes the handle from the list before `sysfs_fsync`, which
  stores only handles in the list. `sysfs_on_dup` looks at the list node copied into the new handle: nothing is stored, and a
  later close of the duplicate reads the freed original. Seek behind the end: assertion on read, uninitialised bytes after a
  write. `sysfs_ulong_store`, `sysfs_long_store`: MAX where MIN is meant. `sysfs_bool_store`: `s[1]` where `s[0]` is meant, so a
  bool can only be cleared. `sysfs_config_str_store` tests the byte before the bound.
* P_Sel: `select` looks twice; when the source is no longer ready at the second look it returns 0 without a timeout. Without a
  timeout and without conditions (no descriptors, or files without conditions) it returns 0 at once instead of waiting for a
  signal. After the sets were written a pending signal turns the result into EINTR. EBADF is only found when nothing else is
  ready. The time left can be larger than the one given (rounding to ticks), and is the one given after a sleep without
  conditions. Negative seconds give the longest timeout. `pselect6` with 32 bits passes `tv_sec` as (seconds, microseconds).
* P_Kb: F1 to F5 with a modifier give no escape sequence (`ESC [ [ A` is refused). `KB_MOD_ALT`/`KB_MOD_SHIFT` have the values
  Shift/Alt of `kb_get_current_modifiers` (latent: the macros are not used). A held lock key toggles with each repetition. A byte
  lost by the drained ring leaves keys down.
* P_Tq: an action keeps only the pointer to the caller's text (`io_copybuf` of the task in `sys_write`, a local variable in the
  echo of tty_input.c), but the call returns at once when the queue is not empty: the text may have changed when it is shown.
  With preemption disabled the actions are executed without the lock although a preempted task may be executing one.
* P_Flock: check-then-insert and decrement-then-remove races; locks leaked on two error paths, one of them by every attempt to execute a script, which so is never writable again; the lock keeps neither the inode nor its pages: unlinking a running program on ramfs frees pages that are mapped, and a new inode at the same address inherits the lock.
* P_Base64: the empty string cannot be decoded.
* P_Date: the year is truncated to 16 bits.
* P_Printk: unknown sequences store one byte and a NUL past the buffer; size 0 writes; "%##" reads past the format; widths overflow; several wrong renderings.
* P_List: a loop body that removes the next node does not terminate.
* P_Wth: a deferred timer wakes worker 0 out of a blocking job.
* P_Poll: a signal taken by another waiter loses poll's wake-up; only POLLIN is reported for a readable and writable file; POLLNVAL is not counted; an infinite timeout without conditions returns 0.
* P_Fat: SEEK_END with an offset >= 0 counts from the current position; files of 2 GB are empty on 32 bits; mappings inside multi-page clusters are wrong or fail an ASSERT; mapping an empty file maps foreign memory; time stamp seconds are halved.
* P_Fatdir: deleted long names can rename the next entry or overflow the buffer; names with a space fall back to the short name; cyclic chains hang; the FAT16 root directory is cut or spills into the data; components of 256 characters overflow; "SUB/../A" is not found.
* P_Fatcomp: dot entries are stale after compaction; only the first table is updated; the FAT32 root directory and FAT16 root entries beyond a cluster are not moved; the last two clusters do not count as used; a directory entry with cluster 0 recurses without end.
* P_Fatalign: an aligned volume fails an ASSERT instead of returning; the volume can change its kind; the last clusters are not moved.

Seen while reading, not encoded (read):

* devfs: `register_driver` looks for a free dynamic major in one pass, so with majors 901 and 900 registered in this order it gives 901
  again; `devfs_open_file` leaks its handle when `create_extra` fails; `create_dev_file` does not check for an existing name.
* `kthread_create2` leaves preemption disabled on an error path; `allocate_new_thread` frees twice and
  `allocate_new_process` frees the parent's mappings when out of memory; `vfs_fchmod` dereferences NULL.
* `pdir_deep_clone` destroys the parent's tables when out of memory; `fork_dup_all_handles` closes NULL handles when it fails;
  `alloc_and_map_stack_page` loses its page when it cannot be mapped; `map_page_int` keeps a new page table on failure (harmless).
* Signals do not wake tasks that wait on a mutex or semaphore (`signal.c:298`).
* A stopped child reparented to init does not wake init. Short pipe writes of up to PIPE_BUF are not atomic.
* `sys_nanosleep_time32` copies a 64-bit structure size; negative `tv_sec`/`tv_nsec` are not checked.
* `send_signal_to_session` compares a group id with a session id.
* In a full volume the search for a free cluster in `fat_compact_clusters` runs past the table.

## Testing the theorems

`tools/mutate.py` applies an edit to a definition of a model in a scratch copy and rebuilds what
depends on it. Every edit, the claim it breaks, the theorems that failed and the theorems
tightened because of it are in `seeded/LOG.jsonl`. Edits that no theorem noticed were either shown
to be harmless for the claim or led to a stronger theorem.
