# Formal model of verona-sandbox: design

Each area of the code has four kinds of Coq file under `rocq/theories/`:

* `<Area>Model.v`  – the model: total, computable functions or step relations that follow the C++
  function by function, each with the file and lines it models. No proofs.
* `<Area>Spec.v`   – small independent specification vocabulary (what the English property talks about).
* `<Area>Proof.v`  – lemmas and proofs.
* `<Area>Props.v`  – the claimed theorems only, each closed by `exact`, followed by
  `Print Assumptions`, and `Example`s showing that the hypotheses are met by non-trivial cases.

## Conventions

* Machine words are `Z` with explicit `mod 2^64` wherever the code computes on `size_t`/`uintptr_t`.
* Undefined behaviour, aborts (`SANDBOX_INVARIANT`, `err(1)`), thrown exceptions and blocked states are
  distinct outcomes of the model; they are never silently turned into a value.
* The operating system and snmalloc are environment: kernel answers are universally quantified
  arguments ("oracles") of the model functions or nondeterministic steps. Nothing is an axiom.
* A hostile sandbox is a nondeterministic adversary: its requests, the shared memory contents and
  the moments at which it changes shared memory are universally quantified.
* Where the full English claim is false of the code, the exact failing behaviour is proved as a
  theorem named `..._refuted` and the part that does hold is proved next to it.

The edits of seeded/LOG.jsonl: one line per attempt.  Lines whose edit starts with `line N:` come from an automated
survey of one-token edits; identical lines are the same replacement at different places of that line.  A fault in the
script that wrote them had logged some multi-line edits once per run of the script; those 210 repetitions are removed,
so earlier commits of the log hold more lines than there were attempts.

## Plan per property

| id | model | proof method |
|----|-------|--------------|
| C01 | `Path` over byte lists; `next_separator` as the real cursor loop | induction on the text; independent splitter spec |
| C02 | `remove_empty`, `remove_dotdot` with explicit left/right zipper of the `std::list` iterator | invariant of the zipper loop; counting spec and tree-walk semantics |
| C03 | `make_absolute` | algebra + C02 |
| C04 | directory tree as finite association maps, `add_handle` on the raw path string with `find_last_of`/`find_first_of`/`substr`, `lookup_file` | refinement: abstraction to a map from component lists to exports, induction over histories |
| C05, C06, C07 | same | corollaries of the refinement plus `_refuted` witnesses |
| C08 | `contains` over 64-bit words | arithmetic |
| C09 | `strdup_out` reading a memory that the adversary rewrites between any two byte reads | induction on the scan; universally quantified memory schedule |
| C10 | `umul` overflow and allocation | arithmetic |
| C11 | `mmap`/`munmap` as interval sets, oracle for the reservation address | arithmetic on intervals |
| C12 | `%zx` printer and `sscanf` reader | round trip by strong induction on the number |
| C13–C17 | pagemap as a total map, service `run` step per request, allocator as a block set with oracle choice | invariant over request lists |
| C18, C19 | destructor loop; bit-level `SandboxMetaEntry` | loop induction, bit lemmas |
| C20–C22 | handler vector, `handle`, `invoke` with snapshot reads | invariant over histories |
| C23–C25 | handlers with a kernel oracle and a trace of system calls performed | case analysis over all oracle answers |
| C26–C28 | policy tuple, bind/connect and getaddrinfo marshalling | fold over histories; list induction |
| C29 | filter as ordered rule list evaluated as libseccomp does | decision over the rule table, universally over arguments |
| C30, C31 | futex word, wait queue, threads as small-step system | inductive invariant over all reachable states |
| C32–C34 | parent/child token protocol as two-process small-step system with explicit stacks | inductive invariant, simulation by the synchronous call tree |
| C35, C36 | `ChildProcess` state machine, two-thread version | invariant; witness schedules |
| C37 | Handle store machine | invariant over operation lists |
| C38, C39 | descriptor table, `dup2`/`closefrom` | case analysis over all initial tables |
| C40 | socket queue with descriptor passing | induction over message lists |
| C41 | export list and counter | induction |
| C42, C43 | kernel sockets and interest lists, both pollers, the service loop interleaved with any number of sandboxes and host threads | inductive invariant; per-sandbox projection equals a sequential run |
| C44 | `ensure_initialised` with any number of threads; destroyed Libraries in the service model | invariant; schedules built for every thread count |
| C45 | child marshalling classes | algebra over memory functions |
| C46 | `Library::strdup` as `memcpy` of `strlen` bytes | computation over byte lists; limit (no terminator) |
| C47 | size rounding in the Library constructor | arithmetic on powers of two |
| C48 | destructor loop over the pagemap with multi-chunk slabs | universal counting theorem (limit) |
| C49 | the filter of C29 | universally quantified counterexamples (limits) |
| C50 | the protocol of C32 with a sandbox that stops moving | no host step is enabled, for every reachable state (limit) |
| C51 | the vfork child sharing the host's Handle objects | universal over tables (limit) |
| C52 | the socket model of C40 | induction on the number of hostile messages (limit) |
| C53 | the host half of C32's model against an adversary that rewrites the header and the socket at will | inductive invariant over all adversarial runs; nesting specification |
| C54 | the same | explicit strategies from every state (limits) |
| C55 | the dispatcher's constructor over the tree of C04, `open` as oracle | the default exports are incomparable, so the history specification makes them exactly the view |
| C56 | path resolution in the Library constructor, POSIX `dirname` | induction over texts |
| C57 | `requestHostService` and its callers as interleaved threads with a lock, the request socket, the memory service model and host activity; vocabulary in ChildHeapSpec.v | invariants: who holds the lock and what is on the socket; every block held, on its way in or on its way out belongs to the sandbox and is apart from the others; replies are grants or exhaustion |
| C58 | `UMtxOneBitSem` and the kernel's UMTX_OP_SEM2 operations as an interleaved step relation over any number of threads; vocabulary of SemSpec.v | counting invariant over all runs (tokens, wakers in the kernel, waiters bit), frozen-word argument for a pending wake, witness histories for the limits |
| C59 | `ChildProcessPDFork` over kernel process descriptors and one-shot exit events, any number of libraries; PdSpec.v | simulation of a list of processes by induction over histories; explicit histories for the limits |
| C60 | descriptor set-up shared with C38, then `SandboxCapsicum::execve` over a table of rights per descriptor; CapSpec.v gives uses and the rights they need | universal over tables and rights: run inversion, then case per descriptor; limits universal |
| C61 | FreeBSD wrappers under the handlers of C23; trap frame with carry flag over the callbacks of C45; FbCallsSpec.v | universal over exports, registers and host oracles; bit-level lemmas for the flags; limits universal |
| C62 | EffectsModel: one request served from dispatch to reply, with every operation, load and store it causes. | Composition of the theorems for dispatch and for each handler: each operation is permitted given the ones before it. |
| C63 | MtModel: any number of host and sandbox threads, each running the code of ProtoModel over the one shared header and socket; taking turns defined in MtSpec.v | simulation of every schedule that takes turns by a one-threaded execution (decisions of the past fixed by history length), then the C32 invariant; induction for the order of callbacks; explicit schedules for the limits |
| C64 | PivotModel: the nine instructions of the x86-64 stack pivot over registers and word memory, the run loop as an arbitrary callee; the portable version as pthread_attr_setstack | symbolic execution of the routine for all states; the part that fails on x86-64 stated as universal limits |
| C65 | FrameModel: the byte accesses of one call and of the debug type check, the sandbox changing memory before every access | induction over the access lists; frame contents by disjointness of fields |
| C66 | MemConcModel: the operations of MemSvcModel split into their critical sections and single pagemap accesses, creation and destruction of libraries with them, for the service thread and any number of program threads | simulation: each operation's instant is its allocator access (or its failing check); blocks in transit are exclusive, and entries differ from the one-at-a-time state only there |
| C67 | CheckModel: the macros, the formatter for `{}`, `{{`, `}}` and characters, and all 23 checks with their messages and argument texts; CheckSpec gives messages as pieces | induction on the pieces; a case per check |
| C68 | BootModel: the platforms' environments, the description of C12, mmap over a list of mappings with three kinds of kernels | case analysis of the mapping, on top of C12's round trip |
| C69 | ShmModel: creations of any number of processes, other programs and crashes as interleaved steps over one namespace | invariant over histories; pigeonhole for the number of tries |
| C70 | MainModel: main and fdlopen over the filter of C29, the descriptor tables of C38 and the emulated openat of C45 | case analysis over all environments; decimal printing and parsing by induction |
| C71 | MemSvcModel's histories; projection of a history to one sandbox in MemSvcNISpec | unwinding: a relation between the full and the projected run, kept by every event, by induction over histories |
| C72 | SlabModel: alloc_chunk, dealloc_chunk and SharedMemoryRange as threads over ChildHeapModel, with the private metadata allocator as an oracle | one invariant over all runs (owners of metadata and of chunks), with the blocks of C57; concrete runs for the limits |
| C73 | ThrowModel: ProtoModel's steps plus an exception as an action of the host's user code, which leaves handle and send without answering, decrementing the depth or waking the sandbox | the invariant of ProtoProof with abandoned pairs of frames at any place of the sandbox's stack; histories by a sequential program in which a throw empties the stack; the limits by invariants over all executions from the throw on |
| C74 | LinkModel: user code on both sides as functions of what they saw, argument frames as bytes in shared memory (FrameModel), driven by the events of ProtoModel; LinkSpec: the same code with plain procedure calls | simulation: the sequential program of C32 refines the direct one, with the frames as part of the relation; the converse by progress (C32) and determinism of the direct program |
| C75 | OwnModel: the add functions of FileTreeModel with the Handles they destroy, over a descriptor table with identities (HandleModel) | invariant that splits the table into exported and held descriptors; permutation lemma for add; visible iff in the tree by induction over the tree; refinement of C04 carried from numbers to identities |
| C76 | the end-to-end path of C24 (ChildCallsModel, DispatchModel, HostCallsModel) with openat2's rules on the mode as a specification of the kernel | corollaries of the end-to-end theorems, bit reasoning on the flags |
| C77 | XLinkModel: the programs of C74 with a command for throwing, over the protocol of C73 | relation between the sequential program with exceptions and direct execution with the list of leaked frames, induction over both; determinism of direct execution for the converse |
| C78 | KillModel: threads of the sandbox making system calls under the filter of C29, with the host of the protocol model and a sandbox that writes what it likes | invariant (no threads iff the process has ended), induction over executions; C29's decision theorem and C33's and C50's |
| C79 | CrashModel: the executions of C77 in which the process may also die | a host that has not been told cannot distinguish a dead sandbox from one that is not scheduled, so its history is one of C77 |
| C80 | RaceModel (which fields are atomic, memory orders), RaceSpec (executions as lists of moves, uses read off the steps, happens-before) over ThrowModel with death | invariant: whose turn it is, with the set of moves already ordered before that side; witnesses for the limits |
| C81 | MultiModel (a family of ThrowModel/CrashModel/HostileModel states, one history, host code that sees all of it) | projection to one library: the host's code seen from one library is again a program; every run of one alone lifts to a run of all |
| C82 | GateModel (OwnModel + DispatchModel + EffectsModel on one descriptor table with identities) | a run with requests simulates a run of OwnModel without them on the identities the program opened; each built-in call is one of a few shapes of operations |
| C83 | MemSvcModel, LeakProps (what each child reads in the pagemap) | induction over hostile histories with the layout invariant; each event changes entries of its own region only, and the end of a region clears it |
| C84 | LibsModel (trees and policies by library, one descriptor table) | for each library a ghost history of OwnModel in which the other libraries' actions appear as the program opening and closing; invariant: no identity is found in two libraries |
| C85 | ParModel (LibsModel with the steps of requests of different libraries interleaved) | each system call of a request is, for the invariant of C84, the program opening or closing a descriptor in a ghost history; per request the numbers it received and opened are tracked by identity; no two requests share one |
| C86 | UserModel (LibsModel with handlers of the program: a call is two events with any others between them) | the descriptor that comes with a call is, for the invariant of C84, one that the program opens in a ghost history; what waits for a handler is held there and by no one else; the stack of calls is compared with one computed from the history |
| C87 | LifeModel (UserModel with the opens of Library's constructor, the closes of its destructor and of the memory service) | those descriptors are, for the invariant of C86, ones that the program opens and closes in a ghost history that it cannot name; the three that are never closed are distinct and open, and counted |
| C88 | EffectsModel (C62) for requests of the callback socket; WorkModel: MemSvcModel's service with the touched pagemap entries recorded | every load of a string is in the trace of strnlen or of the copy, each no longer than the heap; the recorded service is proved equal to `service`, and a block that the allocator grants lies in the region by the invariant of hostile histories (C17) |
| C89 | FairModel: SvcModel's histories (C42) with the kernel's list of ready descriptors, which epoll_wait takes from the front and puts back at the end | invariant: whatever is listed and readable is in the list, once; the place of a waiting sandbox only moves forward, by at least one with each round that is not its own; the entries of a round by C88 at the state the sequential history (C42) gives, and their sum over a stretch of a history by induction |

## Trusted base

* Coq 8.16.1's kernel (`coqchk` on the compiled library accepts it too).
* `Print Assumptions` follows every claimed theorem in the `*Props.v` files (`ProtoDeath.v` and `ProtoLoadProgress.v` for C32, C33, C34,
  C50) and answers `Closed under the global context` for each of them: no theorem uses an axiom, not even one
  of the standard library.
* A whole-library listing (`coqchk -o`, `vcheck`) names seven entries `Coq.ssr.ssrunder.Under_rel.*`. They are
  the fields of a module type in the standard library's ssreflect support that gets loaded with other standard
  modules; no theorem here depends on them.
* That the model says what the C++ code does. Each definition cites the lines it models and its simplifications.
* The environment models: kernel (futex, umtx, epoll/kqueue, sequenced-packet sockets, descriptor tables,
  vfork/wait/kill, seccomp evaluation), libseccomp rule matching, snmalloc's buddy allocator (`BuddyModel.v`;
  only C14, C17, C48 and the service theorems that go through it depend on its placement decisions) and
  snmalloc's pagemap entry layout. Kernel answers are otherwise universally quantified.
  C89 alone also relies on epoll_wait(2)'s round robin through the ready descriptors, modelled as a list in
  `FairModel.v`; everything else about the memory service holds whichever ready descriptor the kernel reports.
* Memory is sequentially consistent; the C++ atomics used are all `seq_cst` (default order), except two
  acquire/release operations on the single word of the FreeBSD semaphore, where coherence gives the same order.
  For plain (non-atomic) fields this is justified by C80: host and sandbox never race on them, and C++ gives
  data-race-free programs whose atomics are `seq_cst` sequentially consistent behaviour.

## What is modelled and what is not

| file in /repo | modelled | not modelled |
|---------------|----------|--------------|
| include/process_sandbox/path.h | all | `std::list` allocation failure |
| filetree.h | all | |
| sandbox.h | bounds checks, `LocalState`, `alloc*`, `strdup*`, `ensure_initialised`, vtable counter, pagemap entry marking | snmalloc's own front end |
| callbacks.h, callback_numbers.h | handler table, `invoke`, argument snapshot | template argument deduction |
| cxxsandbox.h | `Function`, `Library` export and type query | C++ type name mangling (opaque text) |
| netpolicy.h | all | |
| sandbox_meta_entry.h, shared_memory_region.h | all | |
| helpers.h | the run-time checks (SANDBOX_INVARIANT) | type-level code, compile-time only |
| platform/platform.h | `Handle`, `SharedMemory` descriptors | |
| platform/child_process_vfork.h, child_process_pdfork.h | all | the child's stack |
| platform/onebitsem_futex.h, onebitsem_umtx.h | all | EFAULT from the kernel |
| platform/poller_epoll.h, poller_kqueue.h | all | |
| platform/sandbox_seccomp-bpf.h, sandbox.h | rule table in both builds, descriptor set-up | |
| platform/sandbox_capsicum.h | descriptor set-up, rights, environment | `cap_enter`'s kernel effect |
| platform/shm_posix.h | creation of objects, sizes, aligned mapping | |
| platform/socketpair_posix.h | all | |
| platform/safe_syscalls-linux.h, safe_syscalls-freebsd.h | all | what RESOLVE_BENEATH means in the kernel |
| platform/syscall_context_linux.h, syscall_context_freebsd.h | x86-64 register access | other architectures |
| src/libsandbox.cc | service thread, callbacks, `send`, start-up, destructor, status | |
| src/library_runner.cc | marshalling, emulated calls, traps, `runloop`, `callback`, `main`, `fdlopen`, `runloop_with_stack_pivot`, `requestHostService`, `alloc_chunk`, `dealloc_chunk`, `bootstrap` | `dlopen` itself; the contents of the two SmallBuddyRange instances |
| src/child_malloc.h | over-allocating range | |

## Findings

Each is a theorem about the model, found while trying to prove the stronger statement.

* Memory service: a free of a block that is owned and chunk-aligned but not naturally aligned makes the buddy
  allocator hand out memory that was never freed, including the host's chunk and the shared header (C17). A
  request of unknown kind is answered with success (C15).
* `~Library` deletes the metadata of a live multi-chunk host slab once per chunk (C48).
* Mapping: an `mmap` failure is not reported; with a null reservation foreign memory is unmapped (C11).
* Path: the backslash escape has no effect; `.` is an ordinary name (C01, C02).
* Exported tree: malformed add paths misfile (C07).
* `contains` skips the header twice (C08); `Library::strdup` writes no terminator (C46).
* `openat` on an exported file leaks the host's descriptor number and loses errno; `access` on one always gives
  EFAULT; trapped calls without emulation return their own number (C25).
* getaddrinfo: host pointers are left in the copied records; error codes are replaced; the host list leaks when
  allocation fails; in the child null arguments are undefined and the result pointer is set from an
  uninitialised local on failure (C28, C45). The child's copy test in bind/connect is inverted (C45).
* Seccomp: execve, execveat, utimensat, sendto/sendmsg/sendmmsg, signal queueing, io_uring and setns are
  allowed; a release build carries on when the filter does not load (C49).
* Semaphore: any unexpected word aborts the host's next wake or makes its wait spin (C31). On FreeBSD a
  wait that times out during delivery of a wake can report failure with the wake pending (C58).
* Calls: after the sandbox dies, a later call can report success from a stale token, then abort the host; a
  spurious wake-up while loading desynchronises host and sandbox; a handler that calls in while loading
  deadlocks; the host spins or sleeps for ever if the child dies while loading (C33). An uncooperative sandbox
  blocks calls and the destructor for ever (C50).
* Status: concurrent queries can make the host exit, which the sandbox can provoke; a failed vfork goes
  unnoticed and leads to `kill(-1)`; death by signal reads as exit code 0; a reused process number can be
  killed (C35, C36).
* Descriptors: vfork shares the Handle objects, so three host descriptors leak per Library and a dead sandbox's
  end of file never arrives (C51). Standard streams closed in the host leak a writable pagemap; a failed reopen
  leaves it writable (C39). `move_fd` loops for ever when `dup` fails (C38). Self-move of a Handle closes the
  descriptor (C37). Oversized messages are accepted truncated (C40); hostile descriptors accumulate (C52).
* Hostile sandbox: at every call it can pretend that the function ran, keep the host serving requests, or abort
  the host, and destruction gives it a last chance (C54).
* Start-up: a library directory that opens as descriptor 0 is neither exported nor closed (C55); the runner may
  come from the host's working directory (C56).
* An allocation inside the sandbox that the host cannot meet ends the whole
  sandboxed process; the null check in `alloc_chunk` is never reached. A signal that
  interrupts the read or write of a request raises an exception there, which ends the process too unless the library handles it (C57).
* Function calls: a release build checks neither signature nor index (C41).
* Service thread: on kqueue builds a signal ends the host; requests pending at hang-up are dropped (C42, C43);
  a destroyed Library is used in a race, and without one when the end of file is suppressed (C44).
* FreeBSD processes: a failed `pdfork` leaves the descriptor uninitialised, so the host exits or adopts another
  library's process; a wait hangs if a concurrent poll got the exit event (C59).
* FreeBSD descriptors: the descriptor-passing socket is the one descriptor whose rights are never limited, and a
  host with standard output closed gives a later sandbox a writable pagemap as descriptor 1 (C60). The result of
  `cap_enter` is ignored, so a runner whose `cap_enter` fails goes on unsandboxed (outside the model).
* FreeBSD system calls: the emulated stat is number 188, whose buffer is the 120-byte structure of old programs,
  but 224 bytes of the current structure are written to it, so memory after the buffer is overwritten; calls
  through syscall(2) are not emulated with headers lacking si_syscall (C61).
Several threads (C63). `Library::send`, `runloop` and `callback` take no lock. A callback made by a thread of the library between two host calls makes the next call return without its function having run (`background_callback_loses_call`); two callbacks at once can exchange their results (`concurrent_callbacks_swap_results`); two host threads calling at once lose a call or end the host on a failed check (`concurrent_calls_lose_one`, `concurrent_calls_abort_host`). The second is the case the FIXME in shared_memory_region.h mentions.
Stack pivot (C64). The x86-64 routine loads rsp with the *lowest* address of the 8 MiB block from malloc, so the block is never used as stack: every frame is below it, and the first three pushes overwrite the last 24 bytes of whatever precedes the block (`pivot_never_uses_its_block`, `pivot_overwrites_neighbour`). malloc's result is not checked (`pivot_without_stack_faults`), and rbx is not kept (`pivot_clobbers_rbx`). The damage stays inside the sandbox.
Debug builds: `Function`'s constructor calls strcmp and `free` on a pointer the sandbox returned without a bounds check (`type_check_any_address`). Reference arguments are copied in and never out (`reference_arguments_updated_refuted`), as a FIXME in cxxsandbox.h says.
DeallocChunk's ownership scan reads pagemap entries without the pagemap lock, although the comment at `Pagemap::set_metaentry` says checks and updates happen with the lock held. C66 shows this is harmless while one service thread is the only one that sets or clears sandbox marks.

`~Library` waits for the child process but not for the service thread. If the service thread is inside an AllocChunk of the dead child, it can write the sandbox mark after the destructor has cleared the pagemap. The mark then outlives the library; when a new library is mapped at the same place, its sandbox can free that chunk without having been given it, and the host and the sandbox can then be given the same chunk (C66, two `_refuted` theorems).

SANDBOX_INVARIANT passes the *source text* of all its arguments as one string (`#__VA_ARGS__`) to the formatter, not the arguments. So no failed check prints a value, and a failed check whose message has two placeholders makes fmt throw `format_error` before anything is printed: the process is not ended (C67). Consequences proved in the model: on FreeBSD a library directory that does not open lets a copy of the host program run in the child (C60); a failed or interrupted read of a memory request inside the sandbox raises an exception, and if the library handles it, every later reply is given to the wrong request and two blocks can overlap (C57).

`bootstrap` does not compare the result of mmap with the address it asked for. Linux before 4.17 takes MAP_FIXED_NOREPLACE as a hint, so the sandbox can go on with its heap at another address than the host's, while the bounds in the header are the host's (C68).

With the POSIX interface the name of a new shared memory object exists for a moment, as a comment in shm_posix.h says; a program that opens it then shares the sandbox's memory, and `shm_unlink` removes whatever object has the name by then. random() is never seeded, so every process tries the same names in the same order (C69).

The filter is installed with assertions as the only check: a release build whose filter does not load runs the library unconfined, and loads whatever is at `/proc/<pid>/fd/6` (C70). With DEBUG_SANDBOX the default action is "log", so nothing is stopped (C49). The child's openat special case compares only the beginning of the path, so `/proc/<pid>/fd/6/../../x` opens descriptor 6, and it returns dup's -1, which the caller sees as EPERM (C45). It is not in `open`, so the scheme needs a linker that uses openat (C70).
`dealloc_chunk` (src/library_runner.cc 263-275) returns the metadata block to the private allocator before it tells the host, so another thread's new slab can get it while the page map still leads there from the old chunk (`slab_metadata_unique_in_pagemap_refuted`). `metadata_range` and `allocator_range` (src/child_malloc.h 89-90, src/library_runner.cc 215) are used without a lock, although `requestHostService` expects several threads (`metadata_range_exclusive_refuted`). `alloc_chunk` leaks its metadata block when the request is left by an exception (`slab_exception_leaks_metadata`).
`Library::send` and `CallbackDispatcher::handle` (src/libsandbox.cc 661-681, 934-991) are not exception-safe. An exception that leaves a handler leaves callback_depth one too high and the sandbox's callback unanswered. As long as it reaches the top level this only costs nesting levels and sandbox stack (C73). If an outer handler catches it, that handler's answer goes to the inner callback and the outer call then hangs (`caught_exception_misdelivers`, `caught_exception_hangs`): the host thread polls forever, the sandbox waits in `blocking_receive`. While the library loads, one exception makes the next call block for good (`loading_throw_hangs`).
Library::alloc (C10). alloc<T>(8) with a literal is not an array of 8: the literal is an int, for which the forwarding overload (sandbox.h 708-709) matches better than the one that takes a size_t (642), so one element with the value 8 is allocated. All calls in the repository pass a size_t.

The system call `open`, and `openat` as a function or system call, forward the register of the mode even when the caller passed none; `openat2` refuses a mode without O_CREAT, so such a call fails unless the register happens to be 0. `open` with O_TMPFILE drops the mode. Opening an exported file duplicates the host's descriptor whatever the flags (C76).
An exception that leaves a callback handler leaves `Function::operator()` without freeing its argument frame: the shared heap loses one frame per abandoned call (C77, throwing_leaks_frames).
The filter's default action is SCMP_ACT_KILL, which ends the calling thread only. A library that has started a second thread and then makes a forbidden call in the thread that serves the host leaves the host polling a process that is alive and will never answer (C78, forbidden_call_unreported); SCMP_ACT_KILL_PROCESS would have made the call throw.
The pagemap is readable by all sandboxes and not private (C83). The child maps the whole table read-only (src/library_runner.cc 413-421). It holds host heap addresses of slab records, which helps to defeat address randomisation, and words chosen by other sandboxes, which is a channel between sandboxes that the replies do not give (C71). Nothing outside the sandboxes' memory shows.
Every Library that is made leaves three descriptors open in the host for the rest of the process: the vfork'ed child's `take` of the Handles for the shared memory (libsandbox.cc 810) and for its ends of both sockets (812-831) empties the parent's Handles too, so nothing closes them there (C87, `libraries_ever_made`: at most a third of RLIMIT_NOFILE libraries per process, even if each is destroyed).  The host also keeps the shared memory's pages for as long.
When the library file does not open, the vfork'ed child has put its own numbers for both sockets into the host's Handles, whose destructors then close those numbers in the host; another thread's descriptor that got such a number meanwhile is closed (C51, `missing_library_closes_anothers_descriptor`).
One sixteen-byte request makes the host read the sandbox's heap twice (C88, `request_reads_the_heap_twice`): a path is measured with strnlen up to the end of the heap and then copied, and no length limit such as PATH_MAX is applied (strdup_out, sandbox.h; handle_path_syscall, libsandbox.cc).  With a heap of gigabytes the callback thread is busy for as long, and the copy allocates as much host memory.
The memory service itself takes no turns: poll asks the kernel for one event and serves it (poller_epoll.h 64-67, libsandbox.cc 113).  That a sandbox sending without pause cannot starve the others rests on epoll's round robin alone (C89, `memory_service_is_fair`; `unfair_kernel_starves_refuted` without it).
