{"id": "C01", "title": "Path text is split exactly at '/' and printed back", "statement": "Constructing a Path from a non-empty text yields an absolute path iff the text starts with '/', and its components are exactly the maximal '/'-free segments of the rest, in order, with one trailing empty segment dropped; a backslash never hides a separator. Printing the Path gives back the original text minus at most one trailing '/'; re-parsing the print of a canonical path gives the same path.", "quantifier": "every byte string", "why_tests_cant": "the input space is unbounded; tests/path.cc covers a handful of literals", "anchors": ["include/process_sandbox/path.h: Path::Path(string_view), Path::next_separator, Path::str"]}
{"id": "C02", "title": "Canonicalisation normalises without ever climbing above the start", "statement": "canonicalise() succeeds iff no prefix of the (non-empty) components contains more '..' than ordinary names; on success the result contains no empty and no '..' component, is the stack normal form of the input, is unchanged by a second canonicalisation, and names the same node as the original path under lexical walking of any tree; on failure the path starts with '..'.", "quantifier": "every component list (any length, any mixture of '', '.', '..' and names)", "why_tests_cant": "escape bugs live in unusual interleavings of '..'; no finite test set covers them", "anchors": ["include/process_sandbox/path.h: Path::remove_empty, Path::remove_dotdot, Path::canonicalise"]}
{"id": "C03", "title": "make_absolute anchors relative requests", "statement": "For a relative path and any base, make_absolute yields an absolute path whose components are the base's followed by the path's; after a successful canonicalise the path is still absolute and contains no '..'. With the default base, the working directory, the printed result is the directory's text, a '/' and the path's text; a working directory the kernel cannot name is undefined behaviour, and one it names without a leading '/' is taken for a path below the root.", "quantifier": "every pair of paths", "why_tests_cant": "unbounded inputs", "anchors": ["include/process_sandbox/path.h: Path::make_absolute", "src/libsandbox.cc: CallbackDispatcher::handle_path_syscall"]}
{"id": "C04", "title": "Exported file tree lookup returns what the host exported there", "statement": "After any sequence of add_file/add_directory calls with well-formed absolute paths, looking up a component list returns exactly what an abstract map from paths to most recent exports says: the exported file when the request is an exported file path with nothing above it replaced, the deepest enclosing exported directory plus the remaining components when the request is below an exported directory, and nothing otherwise.", "quantifier": "every history of adds and every request path", "why_tests_cant": "the number of histories is infinite and overwrite/shadow interactions depend on order", "anchors": ["include/process_sandbox/filetree.h: ExportedFileTree::add_file, add_directory, lookup_file, Dir::add_handle"]}
{"id": "C05", "title": "The sandbox can reach only exported handles", "statement": "Every handle that a lookup returns was passed to add_file/add_directory earlier, at a path that is a prefix of the request; when it is a directory the returned remainder is relative, non-empty, contains no '..' for canonical requests, and prefix plus remainder equals the request.", "quantifier": "every history and every request", "why_tests_cant": "confinement is a universal claim over hostile requests", "anchors": ["include/process_sandbox/filetree.h: lookup_file"]}
{"id": "C06", "title": "Adds below an exported directory are refused and change nothing", "statement": "add_file/add_directory below an exported directory handle return false and leave every lookup result unchanged; any other add with a well-formed path returns true and makes exactly the new path resolvable, keeping all lookups that do not pass through it.", "quantifier": "every tree state, path and handle", "why_tests_cant": "needs all reachable trees", "anchors": ["include/process_sandbox/filetree.h: Dir::add_handle"]}
{"id": "C07", "title": "Malformed add paths misfile (limits of the tree)", "statement": "Paths without a leading '/' are stored somewhere else than asked (first byte of the first component dropped), the empty path throws, an exported directory can be replaced by a file and then by a virtual tree, and looking up an exported directory by its own path finds nothing.", "quantifier": "all one-component relative names / witnesses", "why_tests_cant": "characterises behaviour on a whole input class, not one example", "anchors": ["include/process_sandbox/filetree.h: Dir::add_handle, lookup_file"]}
{"id": "C08", "title": "contains() is exact interval inclusion for every 64-bit pointer and size", "statement": "Library::contains(p, n) is true exactly when p is a byte of the shared region after twice its header and p+n, computed without wrap-around, does not pass the region's end, for all 64-bit p and n. So an accepted block lies in the sandbox's shared heap, every block in a chunk the allocator can hand out is accepted, and shrinking a range keeps it accepted. (Limit: a block in the first header-sized bytes of the heap is refused.)", "quantifier": "all 64-bit pointers and sizes, all region layouts", "why_tests_cant": "2^128 inputs", "anchors": ["include/process_sandbox/sandbox.h: SharedAllocConfig::LocalState::contains, Library::contains"]}
{"id": "C09", "title": "strdup_out copies a bounded, NUL-terminated private string under any concurrent mutation", "statement": "For any pointer and any sequence of concurrent writes by the sandbox, strdup_out never reads outside the shared region, returns either null or a private buffer that is NUL-terminated within its allocation, never returns null-terminated data past the region end, and equals the C string at the pointer when the sandbox does not write during the call. Even while the sandbox writes, each byte of the string returned was at its place in the region at some moment of the call, and the call returns null only when no terminator was seen before the end of the region.", "quantifier": "all pointers, all memory contents, all schedules of hostile writes", "why_tests_cant": "TOCTOU schedules are not enumerable by tests", "anchors": ["include/process_sandbox/sandbox.h: Library::strdup_out"]}
{"id": "C10", "title": "Sandbox array allocation cannot overflow", "statement": "alloc<T>(count) either requests exactly count*sizeof(T) bytes computed without wrap-around or returns null; no request smaller than the mathematical product is ever made. (Limit: with an argument of any integer type other than size_t, such as a literal, alloc<T>(n) selects the constructor overload and makes room for one element.)", "quantifier": "all counts and element sizes below 2^64", "why_tests_cant": "overflow inputs are a 2^128 space", "anchors": ["src/libsandbox.cc: Library::alloc_in_sandbox", "include/process_sandbox/sandbox.h: Library::alloc"]}
{"id": "C11", "title": "Shared memory is mapped naturally aligned and the slack is returned exactly", "statement": "For any reservation address the kernel returns, the shared object is mapped at a multiple of its size inside the reservation, and exactly the bytes of the reservation outside the mapping are unmapped: nothing inside the mapping and nothing outside the reservation is ever unmapped. Where the kernel can align mappings itself, the same holds with a single mapping and no unmapping.", "quantifier": "all power-of-two sizes and all reservation addresses", "why_tests_cant": "address layout is chosen by the kernel", "anchors": ["include/process_sandbox/platform/shm_posix.h: SharedMemoryMapPOSIX", "src/child_malloc.h: PalRange::alloc_range"]}
{"id": "C12", "title": "The child reconstructs exactly the parent's shared region from its environment", "statement": "The SANDBOX_LOCATION text produced by the parent for any 64-bit base and size fits its 52-byte buffer and is decoded by the child to the same base and size. The child reads a location in any spelling of the two numbers that strtoull accepts, and stops at anything else.", "quantifier": "all 64-bit base/size pairs", "why_tests_cant": "2^128 inputs", "anchors": ["src/libsandbox.cc: Library::start_child", "src/library_runner.cc: bootstrap"]}
{"id": "C13", "title": "Memory service cannot be used to alter metadata outside the requesting sandbox", "statement": "For any sequence of requests from any sandboxes with arbitrary contents, a pagemap entry that lies outside the requesting sandbox's region, and every other sandbox's allocator, is never changed by a request. Inside the region, as long as every free so far was aligned to its size, entries of chunks held by the host and of the header chunk survive any sequence of requests unchanged, and the ownership bit is exactly who holds the chunk. (Without the alignment condition the inside part is false: see C17.)", "quantifier": "all request histories, all argument values, any number of sandboxes", "why_tests_cant": "the attacker chooses the request sequence", "anchors": ["src/libsandbox.cc: MemoryServiceProvider::run", "include/process_sandbox/sandbox.h: Pagemap::set_metaentry, Backend::dealloc_range"]}
{"id": "C14", "title": "Granted chunks are in range, aligned and disjoint from everything live", "statement": "Every successful AllocChunk answer, and every chunk the host allocates in a sandbox, is a block of the requested power-of-two size, aligned to that size, wholly inside the region after the header chunk and disjoint from every block currently held by the sandbox or by the host, as long as frees were of naturally aligned blocks.", "quantifier": "all interleavings of host and sandbox allocation and naturally aligned frees, any number of sandboxes created and destroyed", "why_tests_cant": "heap states are unbounded", "anchors": ["src/libsandbox.cc: MemoryServiceProvider::run (AllocChunk)", "include/process_sandbox/sandbox.h: alloc_chunk, LocalState"]}
{"id": "C15", "title": "Memory service replies are the documented decision table", "statement": "AllocChunk fails with 3 iff the size is below the chunk size or not a power of two, else with 1 iff the supplied metadata is invalid, else with 2 iff no memory is available, else succeeds; DeallocChunk fails with 1,2,3,4 in that priority for out-of-range, bad size, misaligned base, not owned; a failing request changes nothing.", "quantifier": "all requests and states", "why_tests_cant": "all argument combinations", "anchors": ["src/libsandbox.cc: MemoryServiceProvider::run"]}
{"id": "C16", "title": "A sandbox-supplied message queue is null or inside the sandbox", "statement": "In every history, every sandbox-owned entry lies in a live sandbox's region and its remote-allocator pointer is null or points to a full RemoteAllocator inside that sandbox's heap, never to the host allocator's queue that lives in the region header; a granted block carries exactly the submitted metadata, and its object size does not exceed the block.", "quantifier": "all histories of hostile requests", "why_tests_cant": "hostile 64-bit values", "anchors": ["src/libsandbox.cc: MemoryServiceProvider::run (is_metaentry_valid)"]}
{"id": "C17", "title": "Hostile frees of owned but unaligned blocks capture memory never freed (limit)", "statement": "A DeallocChunk whose base is not aligned to its size is accepted when every chunk is sandbox-owned. Two such frees make the allocator hand out a block that includes a chunk the host holds, or the header chunk of the region. An unknown request kind is answered with success.", "quantifier": "witness histories (refutation of the unconditional form of C13/C14); all states for the unknown kind", "why_tests_cant": "documents exactly which checks are missing", "anchors": ["src/libsandbox.cc: MemoryServiceProvider::run (DeallocChunk, default)"]}
{"id": "C18", "title": "Destroying a Library clears every pagemap entry of its region", "statement": "After ~Library every pagemap entry of the region is empty and no entry outside is changed; after any history of hostile requests, no pointer supplied by a sandbox is ever deleted by the host.", "quantifier": "all pagemap states; all histories", "why_tests_cant": "any allocation history may precede destruction", "anchors": ["src/libsandbox.cc: Library::~Library", "include/process_sandbox/sandbox_meta_entry.h"]}
{"id": "C19", "title": "Sandbox ownership marking is lossless", "statement": "claim_for_sandbox makes is_sandbox_owned true and changes neither the slab metadata pointer returned by get_slab_metadata nor the remote/sizeclass word; an unclaimed, unused entry is is_unowned; claiming twice is claiming once.", "quantifier": "all 64-bit metadata words", "why_tests_cant": "2^128 entries", "anchors": ["include/process_sandbox/sandbox_meta_entry.h"]}
{"id": "C20", "title": "Callback dispatch runs a handler only for well-formed requests", "statement": "For any request, the handler for its kind runs iff the kind is a registered number, the size equals the handler's argument size and the argument block lies in the sandbox; otherwise the reply is -ENOSYS and no handler runs. Every received request gets exactly one reply, in order.", "quantifier": "all request values, all registration histories", "why_tests_cant": "hostile 64-bit fields", "anchors": ["src/libsandbox.cc: CallbackDispatcher::handle", "include/process_sandbox/callbacks.h: CallbackHandler::invoke"]}
{"id": "C21", "title": "Callback numbers are unique and never replace a built-in", "statement": "register_callback returns consecutive numbers starting at 7; each registered handler stays reachable under its number forever, and the handlers for Open..GetAddrInfo are never replaced by user registrations.", "quantifier": "all registration histories", "why_tests_cant": "unbounded histories", "anchors": ["src/libsandbox.cc: CallbackDispatcher::register_callback, enlarge_handlers, register_handler, constructor"]}
{"id": "C22", "title": "Handlers see one private snapshot of their arguments", "statement": "The argument bytes a handler sees are read from shared memory exactly once per byte; later sandbox writes cannot change what the handler already received.", "quantifier": "all schedules of sandbox writes", "why_tests_cant": "TOCTOU schedules", "anchors": ["include/process_sandbox/callbacks.h: CallbackHandler::invoke"]}
{"id": "C23", "title": "File-system callbacks touch only exported objects, resolved beneath them", "statement": "For every open/stat/access request the host performs at most one file-system operation: either on an exported file handle itself or on an exported directory handle with a relative, non-empty, '..'-free remainder under resolve-beneath; a request that is unreadable, climbs above the root or is not exported performs none and is answered with EINVAL/ENOENT. The file or directory used is the one the host's exports give for the path read, and the answer is the operation's own result or its negated error; EINVAL is given only for an unreadable path or buffer, ENOENT only for a path that climbs or names nothing exported.", "quantifier": "all requests, all trees, all kernel answers", "why_tests_cant": "hostile paths", "anchors": ["src/libsandbox.cc: handle_path_syscall, handle_open, handle_stat, handle_access", "include/process_sandbox/platform/safe_syscalls-linux.h"]}
{"id": "C24", "title": "System call results cross the boundary faithfully", "statement": "For open, stat and access the value and errno the sandboxed program observes are those the host handler produced: a non-negative result is returned unchanged, a failure yields -1 with errno equal to the host's error, and a returned descriptor takes precedence.", "quantifier": "all results and errors in range", "why_tests_cant": "encoding/decoding must agree for every value", "anchors": ["src/libsandbox.cc: return_int, return_fd", "src/library_runner.cc: callback_helper, syscall_return, syscall_callback_helper", "include/process_sandbox/platform/syscall_context_linux.h"]}
{"id": "C25", "title": "openat and access on exported files do not behave as documented (limits)", "statement": "The openat handler returns a host descriptor number as a plain integer (and leaks the descriptor) and -1 for every error, so the program sees errno 1; access on an exported file always fails with EFAULT on Linux; trapped system calls without emulation return their own number as if successful.", "quantifier": "all inputs of those handlers", "why_tests_cant": "characterises a class of wrong results", "anchors": ["src/libsandbox.cc: handle_openat, handle_access", "src/library_runner.cc: syscall_callback"]}
{"id": "C26", "title": "Network operations are denied unless the host allowed that very operation", "statement": "For any history of allow/deny/register_handler calls, an operation reaches the system implementation iff the last call for that operation was allow, reaches the registered handler iff the last call was register_handler, and otherwise fails with ENOSYS without effect; settings for one operation never affect another.", "quantifier": "all policy histories", "why_tests_cant": "unbounded histories", "anchors": ["include/process_sandbox/netpolicy.h"]}
{"id": "C27", "title": "bind/connect use a bounded private copy and only the descriptor the sandbox sent", "statement": "The host calls the policy with the descriptor received in the message and a private copy of exactly addrlen bytes that lay in the sandbox; otherwise it performs no network operation and replies with an error.", "quantifier": "all requests and memory contents", "why_tests_cant": "hostile values", "anchors": ["src/libsandbox.cc: handle_bind_or_connect"]}
{"id": "C28", "title": "getaddrinfo results are rebuilt correctly in sandbox memory", "statement": "When the resolver returns any list of addresses, the list the sandbox receives has the same length, order, families, flags and socket addresses, all inside one sandbox allocation; host pointers must not leak (they do, via ai_canonname).", "quantifier": "all resolver results", "why_tests_cant": "arbitrary list lengths", "anchors": ["src/libsandbox.cc: handle_getaddrinfo"]}
{"id": "C29", "title": "Seccomp policy: default deny and self-only restrictions", "statement": "For every system call number and argument values: calls not listed are killed, listed trap calls are delivered to the emulator, clone is permitted only with CLONE_THREAD, pid-first calls only with pid 0 or self; no call is both allowed and trapped.", "quantifier": "all system call numbers and arguments", "why_tests_cant": "2^64 argument values per call", "anchors": ["include/process_sandbox/platform/sandbox_seccomp-bpf.h"]}
{"id": "C30", "title": "One-bit semaphore loses no wake-ups", "statement": "With one waker per token, in every interleaving of wake and wait with the kernel queue: a wake that has not been consumed makes the next wait succeed, each wake is consumed by at most one wait, a wait that reports success consumed a wake, and a blocked waiter with a pending wake is always runnable.", "quantifier": "all interleavings and any number of operations", "why_tests_cant": "schedules cannot be enumerated by tests", "anchors": ["include/process_sandbox/platform/onebitsem_futex.h"]}
{"id": "C31", "title": "A corrupted semaphore aborts the host (limit)", "statement": "If the sandbox writes a non-zero value to the semaphore word the host's next wake aborts the host process, contrary to the threat model.", "quantifier": "all non-zero values", "why_tests_cant": "states the failing class", "anchors": ["include/process_sandbox/platform/onebitsem_futex.h: wake"]}
{"id": "C32", "title": "Calls and callbacks hand control over strictly and nest properly", "statement": "For a well-behaved sandbox and any tree of nested calls and callbacks, in every interleaving: exactly one side runs user code at a time, each call returns after exactly the callbacks it made were served in order, each call executes the requested function exactly once with the requested frame, and the nesting depth on return equals that on entry. A call made while the library is still loading is not lost: whatever callbacks loading makes, the called function can always still start.", "quantifier": "all finite call/callback trees and all interleavings of the two processes", "why_tests_cant": "schedules and nesting depth unbounded", "anchors": ["src/libsandbox.cc: Library::send", "src/library_runner.cc: runloop, callback"]}
{"id": "C33", "title": "A dead sandbox is reported, not waited for", "statement": "Once the sandbox process has died after loading, the host is never blocked by it: a call that is waiting for an answer raises an exception, a sandbox that dies between calls makes the next call raise one, and destroying the library succeeds. (The stronger claim that every later call raises an exception is false of this code: the failed call leaves its wake token set, so a host that calls again is aborted within two further calls, and one call on a dead sandbox may even report success; a sandbox that dies while loading makes the first call spin or sleep forever.)", "quantifier": "every crash point and schedule", "why_tests_cant": "crash points are arbitrary", "anchors": ["src/libsandbox.cc: Library::send, has_child_exited"]}
{"id": "C34", "title": "Shutdown never runs user functions", "statement": "When the host destroys the library, the sandbox leaves its run loop without starting any exported function, and shutdown of a library that was in use always ends, within a bounded number of steps, with the sandbox process exited.", "quantifier": "all interleavings", "why_tests_cant": "schedules", "anchors": ["src/libsandbox.cc: wait_for_child_exit", "src/library_runner.cc: runloop"]}
{"id": "C35", "title": "Child exit status is sticky and belongs to the right process", "statement": "Whatever the kernel does with process numbers, every status query and wait on a library reports the fate of that library's own process; once a child is seen as exited, every later query reports the same exit status without another wait system call, an exited child is never reported running again, each process is reaped once, and terminating a library never signals a reaped process number. (The low-level terminate of the process object has no such protection, and death by a signal is reported as exit code 0.)", "quantifier": "all histories of forks, exits, queries, waits and terminations over any number of libraries, with any reuse of process numbers", "why_tests_cant": "timing and process-number reuse", "anchors": ["include/process_sandbox/platform/child_process_vfork.h", "src/libsandbox.cc: Library::terminate, has_child_exited, wait_for_child_exit"]}
{"id": "C36", "title": "Concurrent status queries may kill the host (limit)", "statement": "Two host threads polling the same child can both miss the cached status; one then reaps the child and the other exits the host with an error. A failed fork makes terminate signal every process. Whatever the schedule of the queries, an answer that is returned is the truth about the child.", "quantifier": "witness schedules", "why_tests_cant": "race", "anchors": ["include/process_sandbox/platform/child_process_vfork.h: waitpid, constructor, terminate"]}
{"id": "C37", "title": "File descriptors are owned linearly", "statement": "In any program over Handle (construct, move, assign, reset, take, destroy) every descriptor given to a Handle is closed at most once, exactly once unless taken, and is never closed while another live Handle owns it. A handle whose descriptor was closed behind its back is caught by the validity assertion in debug builds; a release build closes a number that is not open.", "quantifier": "all operation sequences", "why_tests_cant": "unbounded programs", "anchors": ["include/process_sandbox/platform/platform.h: Handle"]}
{"id": "C38", "title": "The child starts with exactly the documented descriptors", "statement": "Whatever numbers the host's descriptors have and whatever else it has open, the sandbox process starts (Linux) with descriptors 3..7 referring to the shared memory, pagemap, descriptor socket, library and memory-service socket respectively, the host's open standard descriptors 0..2 unchanged, nothing from 8 up, and no other host file anywhere. (Limit: with no free descriptor number the rearrangement never ends and the host waits for ever.)", "quantifier": "all initial descriptor tables, descriptor numbers and limits", "why_tests_cant": "depends on descriptor numbers allocated at run time", "anchors": ["src/libsandbox.cc: Library::start_child", "include/process_sandbox/sandbox_fd_numbers.h", "include/process_sandbox/platform/sandbox_seccomp-bpf.h: execve"]}
{"id": "C39", "title": "The child's pagemap descriptor is read-only", "statement": "On Linux, when the host has its standard descriptors open and the read-only re-open succeeds, the sandbox's only descriptor for the pagemap is number 4 and it does not permit writing. (Limits: if the re-open fails, or the host runs without standard input, or the pagemap is among descriptors 0..2, the sandbox silently gets a writable pagemap.)", "quantifier": "all descriptor tables and outcomes of the system calls", "why_tests_cant": "failure injection and unusual descriptor tables", "anchors": ["include/process_sandbox/platform/sandbox_seccomp-bpf.h: execve", "src/libsandbox.cc: Library::start_child"]}
{"id": "C40", "title": "Socket messages are delivered whole, in order, with their descriptor", "statement": "For every sequence of sends and receives of equally sized messages, send/receive pairs preserve message order, boundaries, bytes and the attached descriptor, signal interruptions are invisible, and nothing is written outside the caller's buffer; a send that reports failure queues nothing; a message shorter than the receive size is refused (and consumed); a message longer than the receive size is, contrary to what one would expect, accepted truncated.", "quantifier": "all message sequences, interruption counts and buffers", "why_tests_cant": "unbounded sequences; interruption timing", "anchors": ["include/process_sandbox/platform/socketpair_posix.h: send_msg, receive_msg, send, receive"]}
{"id": "C41", "title": "Function numbering agrees between host and sandbox", "statement": "If the host declares Function objects in the order and with the signatures the library exports, then in either build each declaration succeeds and calling the i-th Function runs the i-th exported function on the given arguments and yields its result, index 0 always being the type query. In a debug build any list of declarations gives only Functions whose index is inside the table with the exported signature, and the first disagreement stops the host (or throws, if nothing is exported there). A release build checks nothing: a disagreeing declaration succeeds and its calls are undefined in the sandbox. Returning calls free their frame.", "quantifier": "all export lists, declaration lists, arguments and function behaviours", "why_tests_cant": "unbounded", "anchors": ["include/process_sandbox/cxxsandbox.h: Function, ExportedLibrary", "include/process_sandbox/sandbox.h: next_vtable_entry"]}
{"id": "C42", "title": "Memory requests are served against the requesting sandbox only", "statement": "For any number of registered sandboxes and any event order, the host's memory service answers each request on the socket it came from, against that sandbox's own region, exactly once and in order, as if the sandbox's requests were served one after another with nothing in between; one sandbox's requests or misbehaviour do not change what another is told, a sandbox is forgotten for good when it disconnects, and it is killed only for a malformed packet or for a reply that cannot be sent. The service never stops because of what a sandbox does. Limit: on the kqueue build, a signal delivered to the service thread ends the host.", "quantifier": "all event orders, numbers of sandboxes and packets", "why_tests_cant": "unbounded schedules and hostile packets", "anchors": ["src/libsandbox.cc: MemoryServiceProvider::run, add_range"]}
{"id": "C43", "title": "Event polling reports real events and keeps messages", "statement": "poll() only ever reports a registered descriptor that really has a message or a closed peer, takes no message from any socket, and after every history each descriptor with something waiting can be reported by the next poll; with epoll a closed peer is reported exactly once and interrupted waits are retried. Limits: with kqueue the end of file is reported again until the descriptor is closed and a signal makes poll fail; messages still pending at hang-up are not announced as messages.", "quantifier": "all event sequences and descriptor sets", "why_tests_cant": "timing and signals", "anchors": ["include/process_sandbox/platform/poller_epoll.h", "include/process_sandbox/platform/poller_kqueue.h"]}
{"id": "C44", "title": "One-time initialisation and object lifetime races", "statement": "If one thread has finished constructing its first library before any other starts, exactly one pagemap is ever made and every library uses it; the memory service is safe if a library is destroyed only after its sandbox is dead and forgotten. Limits: otherwise any number of threads can each make a pagemap, a thread can use the pagemap before it exists, a registration can be lost when the pagemap is replaced, and the service can use a Library after it was destroyed, either in a race or, when the host leaks a copy of the socket end (C51), with no race at all.", "quantifier": "all schedules of any number of threads", "why_tests_cant": "races", "anchors": ["include/process_sandbox/sandbox.h: ensure_initialised", "src/libsandbox.cc: MemoryServiceProvider::run"]}
{"id": "C45", "title": "The child's own argument marshalling is sound", "statement": "For every string or block argument the child passes to a host callback, the pointer sent refers to shared memory holding the same bytes (strings NUL-terminated), copying back results when needed; bind/connect do so only by accident because the copy test is inverted. Opening /proc/<own pid>/fd/<n> through openat duplicates descriptor n without asking the host (limit: any failure is reported as EPERM). (limit: malloc's answer is not checked before a copy, so out of memory is undefined behaviour in the sandbox.)", "quantifier": "all argument values and locations", "why_tests_cant": "all pointer positions", "anchors": ["src/library_runner.cc: CallbackPtrArg, CallbackCStrArg, callback_bind_or_connect, is_inside_shared_memory"]}
{"id": "C46", "title": "Library::strdup copies exactly the bytes of the string and no terminator", "statement": "For every host string s and every answer of the sandbox allocator, strdup(s) returns null or a sandbox block for which exactly strlen(s) bytes were requested, whose bytes equal s; nothing outside that block is written. The terminating NUL is not copied, so the sandbox sees a C string that continues into whatever follows.", "quantifier": "all strings, all allocator answers", "why_tests_cant": "strings and adjacent memory contents are unbounded; tests that print the string usually find a zero byte by luck", "anchors": ["include/process_sandbox/sandbox.h: Library::strdup, Library::alloc"]}
{"id": "C47", "title": "A sandbox is at least as large as requested", "statement": "Library(name, n) maps the smallest power of two of bytes that is at least n GiB, for every n from 1 to 2^33; outside that range the request wraps (n = 0 and n = 2^34 are undefined, n = 2^34+1 gives 1 GiB).", "quantifier": "all 64-bit sizes", "why_tests_cant": "the size domain is 2^64", "anchors": ["src/libsandbox.cc: Library::Library", "include/process_sandbox/platform/shm_posix.h: SharedMemoryMapPOSIXBase"]}
{"id": "C48", "title": "Destroying a Library with a live multi-chunk host slab deletes its metadata more than once (limit)", "statement": "If the host still holds a slab when the Library is destroyed, the metadata pointer of that slab is passed to delete at least once for every chunk of the slab, whatever the sandbox requested since: a slab of two or more chunks is deleted more than once.", "quantifier": "all histories with naturally aligned frees, all slab sizes; a witness history", "why_tests_cant": "needs a host allocation larger than a chunk that is live at destruction", "anchors": ["src/libsandbox.cc: Library::~Library"]}
{"id": "C49", "title": "The system call filter lets some global names through (limits)", "statement": "execve, execveat and utimensat (file names), sendto, sendmsg and sendmmsg (network addresses), rt_sigqueueinfo, rt_tgsigqueueinfo, pidfd_send_signal, the sched_set calls, setpgid, ioprio_set and setns (other processes) and io_uring (which performs other calls unfiltered) are allowed with any arguments, so the network policy and the file tree can be bypassed and other processes of the user signalled; in a release build a filter that fails to load is silently absent; a build with DEBUG_SANDBOX stops no native call at all.", "quantifier": "all arguments of those calls; all outcomes of loading the filter", "why_tests_cant": "characterises a class of escapes over all arguments", "anchors": ["include/process_sandbox/platform/sandbox_seccomp-bpf.h: apply_sandboxing_policy_postexec"]}
{"id": "C50", "title": "A sandbox that never answers blocks its caller", "statement": "The code gives no bound on a call: if the sandbox stays alive and never hands control back, the calling host thread stays in that call forever, and a destructor that waits for the sandbox to exit stays there forever.", "quantifier": "all host executions of any length while the sandbox does not answer", "why_tests_cant": "an unbounded wait cannot be observed by a finite test", "anchors": ["src/libsandbox.cc: Library::send, wait_for_child_exit"]}
{"id": "C51", "title": "Starting a sandbox leaks host descriptors (limit)", "statement": "Because the child shares the host's memory until it executes the runner, starting a sandbox empties the host's owning objects for the shared memory and for the sandbox's ends of both sockets without closing the host's descriptors; if the library file is missing they are left holding numbers that are not open in the host. Limit: when the library file does not open and a socket of the host has a number below 8, the host's destructor closes a number that was not the host's; whatever another thread of the host opened under it in the meantime is closed.", "quantifier": "all descriptor tables", "why_tests_cant": "needs inspection of the whole descriptor table over all assignments", "anchors": ["src/libsandbox.cc: Library::start_child, Library::Library", "include/process_sandbox/platform/child_process_vfork.h", "include/process_sandbox/platform/platform.h: Handle"]}
{"id": "C52", "title": "A sandbox can make the host accumulate descriptors (limit)", "statement": "Two descriptors attached to a well-formed request, or one attached to a short request, stay open in the host with no owner; by repeating this a sandbox can use up any descriptor limit of the host.", "quantifier": "all counts and descriptor tables", "why_tests_cant": "unbounded repetition", "anchors": ["include/process_sandbox/platform/socketpair_posix.h: receive_msg, receive", "src/libsandbox.cc: CallbackDispatcher::handle 661-682"]}
{"id": "C53", "title": "A hostile sandbox cannot confuse the host's control flow", "statement": "Whatever values the sandbox leaves in the shared header between any two accesses of the host, and whatever it sends on the callback socket, the host's own code sees properly nested calls and handlers: a handler runs only inside a call, every call and handler ends before what surrounds it continues, handlers run for exactly the requests sent, in order and at most once each, the sandbox receives on that socket only the results of finished handlers, and the host stores only documented values in the header.", "quantifier": "all sandbox behaviours, host programs and interleavings of single accesses", "why_tests_cant": "adversarial schedules and shared-memory contents are unbounded", "anchors": ["src/libsandbox.cc: Library::send, CallbackDispatcher::handle, Library::wait_for_child_exit", "include/process_sandbox/shared_memory_region.h"]}
{"id": "C54", "title": "A hostile sandbox can fake, prolong or abort any call (limit)", "statement": "At every call the sandbox can make the host believe that the function ran without running anything, have any list of requests handled without the call ever ending, or end the host process through the semaphore's invariant; destroying the library gives it the last chance too.", "quantifier": "all host states at a call, all request lists", "why_tests_cant": "adversarial schedules", "anchors": ["src/libsandbox.cc: Library::send, Library::wait_for_child_exit", "include/process_sandbox/platform/onebitsem_futex.h: wake"]}
{"id": "C55", "title": "What a new sandbox can name by default", "statement": "With no export by the host, an open, stat or access by the sandbox can reach exactly /etc/ld.so.cache and what lies strictly below /lib, /usr/lib and /usr/local/lib, as far as the host could open them; exports by the host are added to these. (Limit: a directory that opens as descriptor 0 is not exported and its descriptor is never closed.)", "quantifier": "all answers of open(2), all requests and all further exports", "why_tests_cant": "the requests are unbounded and the answers depend on the machine", "anchors": ["src/libsandbox.cc: libdirs, CallbackDispatcher::CallbackDispatcher 703-719", "include/process_sandbox/filetree.h"]}
{"id": "C56", "title": "Which library and runner are used", "statement": "The runner is the file library_runner in the directory of the file that contains libsandbox; a library given by an absolute path is that file, any other name is looked for in that directory only. (Limit: if libsandbox's file is not known with a directory, the runner comes from the working directory.)", "quantifier": "all file names", "why_tests_cant": "unbounded strings", "anchors": ["src/libsandbox.cc: Library::Library 891-920"]}
{"id": "C57", "title": "Memory obtained inside the sandbox", "statement": "Whatever the schedule of the sandbox's threads, of the host's memory service, of the host's own threads and of other sandboxes, memory requested inside a sandbox works like an allocator: each call ends once, with one result or one exception, in the thread that made it, in that thread's order, and a result is the host's answer to that very request; the blocks a sensible program holds have the requested sizes, are aligned to their size, lie in its own region above the header, belong to it in the host's books and never overlap; the metadata it asked for stays recorded for every chunk it holds; and no call deadlocks. The process is ended only by a failed or interrupted system call or by the host having no aligned free place. Limits: an allocation never reports failure (a null result is impossible), instead an allocation that cannot be met ends the whole sandboxed process. A read or write of a request that fails or is interrupted raises an exception in its caller, which ends the process unless the sandboxed library handles it. (All but the order of calls holds while no failed read has been handled: after one, every later call is given the host's answer to the call before it, and two blocks in use can then overlap.)", "quantifier": "all numbers of threads, schedules, requests, host activity and prior host histories", "why_tests_cant": "unbounded interleavings of threads of three processes", "anchors": ["src/library_runner.cc: requestHostService, SharedMemoryRange, Backend::alloc_chunk, Backend::dealloc_chunk 142-283"]}
{"id": "C58", "title": "One-bit semaphore on FreeBSD", "statement": "On FreeBSD builds, for every number of threads and every schedule, a wait that reports success consumed a wake and no wake is consumed twice; threads that never wake while a wake is pending are never aborted; with one waiter, a wake that has returned is never left behind a sleeping waiter and a wait started after it succeeds; wait is never stuck and takes at most six internal steps between interruptions. Limits: a wait that times out while a wake is being delivered can report failure although the wake is pending; a sandbox that writes the shared word can make the host's next wake abort, give its waits wake-ups nobody sent, or cancel a wake's signal.", "quantifier": "all thread counts, schedules, time-outs, interruptions and values written to the shared word", "why_tests_cant": "interleavings of threads of two processes and the kernel cannot be enumerated by tests", "anchors": ["include/process_sandbox/platform/onebitsem_umtx.h: UMtxOneBitSem::wake, UMtxOneBitSem::wait"]}
{"id": "C59", "title": "Sandbox process status on FreeBSD", "statement": "On FreeBSD, for any number of libraries and any history of forks, exits, queries, waits, terminations and destructions, every status query and wait reports the fate of that library's own process; a reported exit status never changes and costs no further system call; terminating a library, even through the low-level call after its process ended, signals its own process or nothing; destroying it ends its process and no other. Limits: death by a signal reads as exit code 0; a failed process creation goes unnoticed and ends the host or makes the new library control another library's process; a wait in one thread never returns when another thread's poll received the exit event.", "quantifier": "all histories over any number of libraries, all interruptions, all pairs of thread schedules for the limit", "why_tests_cant": "histories and schedules are unbounded", "anchors": ["include/process_sandbox/platform/child_process_pdfork.h", "src/libsandbox.cc: Library::has_child_exited, Library::terminate"]}
{"id": "C60", "title": "Descriptors and rights on FreeBSD", "statement": "On FreeBSD a running sandbox has descriptors 0 to 10 only, and can use each of them, the descriptor-passing socket apart, in the documented ways and no other, whatever descriptors and rights the host had: the shared heap can be mapped and written but not truncated, the library and the library directories read and mapped but not changed. A directory that does not open or a limit that cannot be set keeps the sandbox from running. A limit that cannot be set, a missing library or a failed trap set-up ends the child. For a host with open standard streams the sandbox starts, 3 to 7 are the documented objects, 8 to 10 the library directories, and no permitted use of any descriptor changes the pagemap. The host closes its copies of the sandbox's socket ends and nothing else. Limits: the descriptor-passing socket keeps every right; a host with standard output closed gives a later sandbox write access to the pagemap through descriptor 1; a library directory that does not open does not end the child: in a host that handles exceptions, the child goes on as a copy of the host program, outside any sandbox.", "quantifier": "all host descriptor tables, rights, descriptor numbers, libraries, directories, debug and release builds", "why_tests_cant": "descriptor tables are unbounded and the layout depends on the holes in them", "anchors": ["include/process_sandbox/platform/sandbox_capsicum.h: SandboxCapsicum::execve", "src/libsandbox.cc: Library::start_child", "include/process_sandbox/sandbox_fd_numbers.h"]}
{"id": "C61", "title": "System calls on FreeBSD", "statement": "On FreeBSD, every open, stat and access request of a sandbox makes the host perform at most one file operation, on a file the host exported or on a relative path below an exported directory with the resolve-beneath flag set and the sandbox's other flags unchanged, with results only written inside the sandbox; openat works beneath the descriptor the sandbox sent. Inside the sandbox, a trapped call of one of the six emulated numbers gives the program the value, or -1 and the error, that the corresponding libc function gives for the program's arguments, whether made directly or through syscall(2); nothing but the result register and the carry flag changes; other traps change nothing. Limits: where the headers lack si_syscall, calls through syscall(2) are not emulated; the emulation of the old stat call writes 224 bytes to the program's 120-byte buffer. The request the child sends for stat and openat carries exactly the path and the descriptor the program gave; a null path is answered without a request.", "quantifier": "all export lists, sandbox memory contents, flags, register contents, call numbers and host answers", "why_tests_cant": "inputs are chosen by an adversary over unbounded strings and 64-bit registers", "anchors": ["include/process_sandbox/platform/safe_syscalls-freebsd.h", "include/process_sandbox/platform/syscall_context_freebsd.h", "src/library_runner.cc: syscall_callback, emulate, callback_stat, callback_openat", "src/libsandbox.cc: handle_open, handle_openat, handle_access, handle_stat"]}
{"id": "C62", "title": "Whatever a sandbox asks for, the host stays inside what it was given", "statement": "For every callback request a sandbox can send - any kind, any size, any data pointer, any argument bytes, with or without a descriptor, the memory changing while the host looks at it - the host's built-in handlers read and write only the sandbox's own memory, ask the system only for operations on exported objects (paths resolved beneath them), on the descriptor that came with the request or on descriptors opened from these, and for network operations only as the host's settings allow; exactly one reply is sent, and a descriptor in it was opened by one of those operations. With nothing exported and no network setting made, nothing at all is done except opening beneath a descriptor the sandbox already holds. What it does depends on nothing else: it is the same for all contents, at all times, of every byte it does not read.", "quantifier": "all export histories, network settings, memory contents (also changing ones), requests, received descriptors, kernel answers and resolver answers", "why_tests_cant": "the request is chosen by an attacker: 2^64 pointers, all argument bytes and all interleavings of writes to the shared memory", "anchors": ["src/libsandbox.cc: CallbackDispatcher::handle", "src/libsandbox.cc: handle_open, handle_stat, handle_access, handle_openat, handle_bind_or_connect, handle_getaddrinfo", "include/process_sandbox/callbacks.h: CallbackHandler::invoke"]}
{"id": "C63", "title": "Threads: calls stay correct exactly when turns are taken", "statement": "A program with several host threads and a sandboxed library with threads of its own gets correct calls and callbacks if turns are taken: host threads use the Library one at a time (for instance under a lock), and the library's threads make callbacks one at a time and only while the host is in a call. Then every history is that of one sequential program whose decisions are those of the threads, all completed calls ran their function once and got their own results, and neither process is ended by a check. Without turns, callbacks are still handled in the order made, at most once each, and results are handed out in the order produced; but calls and results can be lost or exchanged (limits proved for every function, argument and result).", "quantifier": "all numbers of threads on both sides, all behaviours of user code on both sides, all schedules", "why_tests_cant": "a schedule that loses a call or swaps two results needs a few instructions of two threads to interleave; the good behaviour must hold for all schedules and thread counts", "anchors": ["src/libsandbox.cc: Library::send", "src/library_runner.cc: runloop, callback", "include/process_sandbox/shared_memory_region.h: SharedMemoryRegion::token"]}
{"id": "C64", "title": "The library runs on a stack of its own and comes back to its caller", "statement": "The sandboxed library's functions run on a stack set aside for them in shared memory. The run loop is entered at depth 0 with the stack aligned as the calling convention asks; when it ends, control is back in the program's main with main's stack pointer; if no memory for the stack could be had, the sandbox stops before serving any call. On machines without the assembly version, all frames are inside the block set aside. On x86-64 they are not (limit): all frames are below the block, whatever lies there, beginning with the last 24 bytes before it.", "quantifier": "all stack addresses, register and memory contents, depths of the run loop's frames and behaviours of the run loop that keep the calling convention", "why_tests_cant": "the frames land in memory of another owner only for some heap layouts; a test sees a crash at most if that memory is used", "anchors": ["src/library_runner.cc: runloop_with_stack_pivot, main"]}
{"id": "C65", "title": "What a call exchanges with the sandbox", "statement": "A call of a Function object stores only into its own argument frame, then loads each byte of the return value exactly once and nothing else, whatever the sandbox does to its memory at the same time. If the sandbox runs the function and otherwise leaves the frame alone, the result is the function's result for exactly the arguments passed, for every layout of the frame. In debug builds a Function object comes into being exactly if the type name found in the sandbox is the host's, the host reads no further than its own name is long, and frees only the string it checked. Limits: a sandbox that does not run the function chooses the result; arguments passed by reference are not updated; the debug check reads and frees at any address the sandbox names. A function that runs in the sandbox and returns values of the declared sizes changes no byte outside its frame.", "quantifier": "all frame layouts and addresses, argument and result bytes, functions, concurrent changes of memory by the sandbox between any two byte accesses, type names and pointers returned", "why_tests_cant": "the sandbox may change memory between any two loads of the host; layouts and values are unbounded", "anchors": ["include/process_sandbox/cxxsandbox.h: argframe, Function::Function, Function::operator(), ExportedFunction::operator()", "include/process_sandbox/sandbox.h: Library::alloc"]}
{"id": "C66", "title": "Concurrent memory operations, creation and destruction of libraries take effect one at a time", "statement": "The service thread's handling of sandbox requests and any number of host threads allocating and freeing sandbox memory, creating libraries and destroying them may interleave at every access to the allocator and to every single pagemap entry. Still every operation behaves as if it happened at one instant between its call and its return, with the same result, and when none is in progress the libraries, the free blocks and the pagemap are those of that one-at-a-time history. When an allocation returns, nobody holds any byte of its block and no concurrent allocation returns one. At every moment the pagemap has, for every slab the host holds, the metadata the host stored for it, never a sandbox's mark on memory the host holds, is being given or is giving back, and no mark outside a library that exists. (Assumed: sandboxes name naturally aligned blocks when freeing; the host frees only blocks it holds and destroys a library only when no thread uses it. The last part includes the service thread: if it is still inside a request of the library's sandbox, a mark can outlive the library, and after a new library gets the same memory the new sandbox can be given memory that the host holds.)", "quantifier": "all states reached by admissible histories, all numbers of host threads, all interleavings of their steps with the service thread's, all requests, sizes and addresses, all creations and destructions of libraries on other threads", "why_tests_cant": "the number of interleavings is unbounded and a test cannot choose the schedule", "anchors": ["src/libsandbox.cc: MemoryServiceProvider::run, Library::Library, Library::~Library", "include/process_sandbox/sandbox.h: Pagemap::set_metaentry, LocalState::get_memory, Backend::alloc_chunk, Backend::dealloc_range, Backend::dealloc_chunk"]}
{"id": "C67", "title": "What a failed run-time check does", "statement": "A run-time check of the library (SANDBOX_INVARIANT, SANDBOX_DEBUG_INVARIANT) that holds, or that is not compiled in, does nothing. A check that fails is never passed: nothing after it in its function runs. If its message has at most one placeholder the process stops and prints the file, line and function of the check and the message. Limits: the placeholder shows the source text of the arguments, never their values; and a failed check whose message has two or more placeholders does not stop the process, an exception leaves the function instead. Of the checks in the code exactly five do so: the reads and writes of memory requests, the position of the shared heap, the length of its description, and the library directories on FreeBSD. In a release build exactly five of the checks are left out.", "quantifier": "all messages, arguments, values, places, build types and all checks in the code", "why_tests_cant": "a failing check is rarely provoked, and never for every message and every argument", "anchors": ["include/process_sandbox/helpers.h: SANDBOX_INVARIANT, SANDBOX_DEBUG_INVARIANT, invariant, invariant_fail 107-188", "src/libsandbox.cc", "src/library_runner.cc", "include/process_sandbox/platform/sandbox_capsicum.h"]}
{"id": "C68", "title": "A new sandbox has its heap where the host has it", "statement": "The environment of a new sandbox process is the description of its heap (and on FreeBSD the numbers of the library descriptors); nothing of the host's own environment reaches it. On a kernel that never replaces mappings the process then either ends, or goes on with every address of the heap naming the same byte as in the host, the bounds it checks against being those of the heap, the pagemap readable but not writable, and nothing in its memory overwritten; it goes on exactly if the place is free and the kernel maps both objects. If the description has no colon the process ends. Limits: a kernel that takes the address as a hint lets the sandbox go on with its heap at another address; where neither flag exists the heap replaces what was there.", "quantifier": "all heap addresses and sizes, host environments, platforms, memory layouts of the new process and kernel decisions", "why_tests_cant": "addresses differ from run to run and cover the 64-bit range; kernels decide about mappings", "anchors": ["src/libsandbox.cc: Library::start_child 843-859", "src/library_runner.cc: bootstrap 350-424", "include/process_sandbox/platform/sandbox.h: SandboxNoOp::execve", "include/process_sandbox/platform/sandbox_capsicum.h: SandboxCapsicum::execve 101-104"]}
{"id": "C69", "title": "The memory of a sandbox is a new, nameless, private object", "statement": "However many processes create sandbox memory at once, whichever of them crash and at whichever point, and whatever other programs do in the same namespace: every creation that succeeds yields an object that did not exist before and that no other creation yields, that has no name when the creation returns, and that nobody else has open unless another program opened it by name between its creation and the removal of its name. Left-over names are only those of creations that are in or crashed in that window. Names in use, left over or not, never make a creation fail: with distinct random numbers it takes at most one try more than there are names. If the kernel refuses to make or size the object the process ends. Limits: a program that opens the name in the window shares the memory; if the name was removed and reused in the window, another program's name is removed. What an outsider has opened stays open to them whatever the processes do.", "quantifier": "all numbers of processes, interleavings, crash points, initial namespaces, actions of other programs, random numbers and the three kinds of system interface", "why_tests_cant": "needs every crash point and every interleaving of several processes", "anchors": ["include/process_sandbox/platform/shm_posix.h: SharedMemoryObjectPOSIX, SharedMemoryObjectMemFD, SharedMemoryObjectShmAnon, SharedMemoryMapPOSIXBase"]}
{"id": "C70", "title": "A sandbox process is confined before any of the library's code runs", "statement": "However a sandbox process's start-up goes: when the first instruction of the library (a constructor, before sandbox_init) runs, the handler for trapped system calls is installed, the descriptors of the heap and the pagemap are closed, and the other descriptors are as the host set them up; if assertions are compiled in, the whole system call filter is in force; the code is that of the very file the host opened, whatever the file system has under any name by then. The host is told that the library is loaded only by a process that goes on to serve calls, after the library was loaded, sandbox_init returned and sandbox_call was found. If nothing goes wrong the process gets there. Limits: a release build whose filter does not load runs the library without one; a C library whose linker opens files with open instead of openat cannot load the library unless the host exports that name.", "quantifier": "all start-up environments: builds, outcomes of the libseccomp calls, process numbers, descriptor tables, libraries and answers of kernel and host", "why_tests_cant": "every failing call and every library at every point of start-up", "anchors": ["src/library_runner.cc: main, fdlopen, callback_openat", "include/process_sandbox/platform/sandbox_seccomp-bpf.h: apply_sandboxing_policy_postexec"]}
{"id": "C71", "title": "Sandboxes cannot observe or influence each other through the memory service", "statement": "Take any two histories of requests from any number of hostile sandboxes and of the host's use of their memory that agree on one sandbox (its requests and the host's use of its memory) and on which sandboxes are created and destroyed. Then that sandbox gets the same replies in both, the host gets the same memory in it, and the part of the shared pagemap that describes its memory is the same, although all sandboxes share one pagemap and one service. In particular its replies are those it would get if no other sandbox ever sent a request.", "quantifier": "all pairs of hostile histories, all argument values, any number of sandboxes", "why_tests_cant": "a property of pairs of unbounded histories: no single run can show it", "anchors": ["src/libsandbox.cc: MemoryServiceProvider::run, Library::~Library", "include/process_sandbox/sandbox.h: Pagemap::set_metaentry, Backend"]}
{"id": "C72", "title": "Every slab in the sandbox has its own bookkeeping block, and none leaks", "statement": "In a sandboxed process with any number of threads that allocate and free, under every schedule and whatever the host and other sandboxes do: the slabs the process holds do not overlap; each has a bookkeeping (metadata) block that no other live slab has and no thread is just getting or giving back; and the shared page map leads from every byte of a slab to its block. The private allocator of these blocks is never given back a block that is not out, and the blocks that are out are exactly those of live slabs, of calls in progress, and of calls left by an exception. So without exceptions none leaks; an exception leaks one for good (a limit). Also limits: the page map can for a while lead from a slab being freed to the block of a new slab, and nothing keeps two threads from using the private allocator at once. When no metadata is left the process dies without asking the host.", "quantifier": "all schedules of any number of threads, all sizes, all answers of the private allocator, all behaviour of host and other sandboxes", "why_tests_cant": "depends on the interleaving of threads with the host service and on failures of system calls at chosen points", "anchors": ["src/library_runner.cc: Backend::alloc_chunk, Backend::dealloc_chunk, SharedMemoryRange", "src/child_malloc.h: SnmallocGlobals::metadata_range"]}
{"id": "C73", "title": "A callback handler that throws abandons its calls and nothing else", "statement": "When a handler of a callback throws and the exception is caught by the host's top-level code, every call in progress is abandoned: its function does not go on, its callback is not answered, and neither happens later, whatever else the host calls. All other calls behave as in C32: each runs its function once with its frame, with properly nested callbacks that get their handlers' results, user code never runs on both sides, neither process is aborted by the protocol's checks, the next event can always be reached, and destroying the library starts nothing and ends with the sandbox process gone. Each abandoned handler uses up one level of nesting and its stack frames in the sandbox for good. Limits: an exception of a nested handler that an outer handler catches desynchronises the two sides, so the value the outer handler returns is given to the inner callback and the outer call then never returns; and if a handler of a callback made while the library loads throws, the next call blocks for good.", "quantifier": "all behaviours of host and sandboxed code with one thread on each side, all schedules, any number of calls, callbacks and exceptions", "why_tests_cant": "the state left behind by an exception is felt only by later calls, at any depth and under any schedule", "anchors": ["src/libsandbox.cc: Library::send, CallbackDispatcher::handle, Library::wait_for_child_exit", "src/library_runner.cc: runloop, callback"]}
{"id": "C74", "title": "A library in a sandbox behaves as if it were linked into the program", "statement": "A program that calls a well-behaved library through Function objects and a library that calls back see, under every schedule of the two processes, exactly what they would see if the library were linked in and called directly: every function runs with the argument bytes the program passed, every call returns the bytes its function returned, every handler runs with the payload its callback passed and every callback returns what its handler returned, in the same order. Conversely, everything the directly linked program can do the sandboxed one can do. The argument frames in shared memory never overlap, there are exactly as many as calls in progress, and none is left over. Callbacks made while the library loads may overlap the first call, which runs after them.", "quantifier": "all programs and libraries (any function of everything they have seen), all signatures and argument values, all allocators and all other memory traffic that leaves frames in transit alone, all schedules, any number and nesting of calls and callbacks", "why_tests_cant": "combines unbounded nesting, all schedules, all values and all memory contents; a test sees one of each", "anchors": ["include/process_sandbox/cxxsandbox.h: Function::operator(), ExportedFunction::operator(), argframe", "include/process_sandbox/sandbox.h: Library::alloc", "src/libsandbox.cc: Library::send", "src/library_runner.cc: runloop, callback"]}
{"id": "C75", "title": "The exported tree owns the descriptors given to it and closes them when they are hidden", "statement": "A descriptor accepted by add_file or add_directory stays open, and refers to the same thing, for as long as some lookup answers with it: a lookup never answers with a closed descriptor or with a number that was since reused. An accepted add closes exactly what could be found before it and cannot be found after it (what it replaces, and a whole subtree hidden by it); a refused or throwing add takes nothing and changes nothing; destroying the tree closes exactly what could be found. Everything the host opened is at every moment closed once, in the host's hands or exported, and no close fails.", "quantifier": "all histories of opening, adding (any path text), closing and destroying, and all choices of descriptor numbers by the kernel", "why_tests_cant": "number reuse by the kernel and replacement of whole subtrees depend on the entire history", "anchors": ["include/process_sandbox/filetree.h: ExportedFileTree::add_handle, ExportedDirectory::add_file, add_directory, add_tree", "include/process_sandbox/platform/platform.h: Handle"]}
{"id": "C76", "title": "An open asks for the flags and mode the library passed, and only those (with limits)", "statement": "The function open of the sandboxed library asks the host's kernel for exactly the flags passed, with the mode passed if O_CREAT is among them; without O_CREAT whatever the third argument's register holds has no effect, and the request is always one openat2 accepts. Limits: with O_TMPFILE the mode passed is lost; an exported file is duplicated whatever the flags; the trapped system call open, and openat, forward the unused register, so that on a kernel with openat2's rules they fail whenever it is not 0.", "quantifier": "all flags, modes, register contents, paths, exported trees, memory layouts and kernel answers", "why_tests_cant": "depends on register contents the caller did not set and on all flag combinations", "anchors": ["src/library_runner.cc: open, openat, callback_open, callback_openat, syscall_callback, extract_args", "src/libsandbox.cc: handle_open, handle_openat", "include/process_sandbox/platform/safe_syscalls-linux.h: openat_beneath"]}
{"id": "C77", "title": "A sandboxed library behaves as if linked into a program whose callback handlers may throw, but leaks argument memory", "statement": "When callback handlers may throw to the program's top level, everything the user's code on both sides does and sees, with every argument, result and callback answer, is what it would be if the library were linked into the program and called directly, an exception unwinding every call and handler in progress; and every continuation the direct program has can be reached. Argument frames never overlap, those of abandoned calls included. There are exactly as many as calls that were made and did not return: the frames in use when an exception is thrown stay allocated for as long as the library exists.", "quantifier": "all programs on both sides, layouts, allocators, schedules, memory writers that leave frames in transit alone, nestings and exceptions", "why_tests_cant": "the interleaving of the two processes, the nesting of calls and callbacks and the points where handlers throw are unbounded", "anchors": ["include/process_sandbox/cxxsandbox.h: Function::operator()", "src/libsandbox.cc: Library::send, CallbackDispatcher::handle", "src/library_runner.cc: runloop"]}
{"id": "C78", "title": "A forbidden system call ends the thread that makes it, and the sandbox only with its last thread", "statement": "A system call the filter forbids ends the thread of the sandbox that made it and nothing else; that thread does nothing afterwards. If it was the only one, the sandbox ends and the host's call in progress throws. If another thread is alive, the host is not told: its call goes on for as long as any thread of the sandbox lives and does not answer. Of the calls that are not forbidden only exit, exit_group, execve, execveat and clone end or start threads, each the ones the kernel documents.", "quantifier": "all system calls with all arguments, all numbers of threads, all schedules of host and sandbox threads, executions of any length", "why_tests_cant": "every forbidden call, thread count and schedule", "anchors": ["include/process_sandbox/platform/sandbox_seccomp-bpf.h: apply_sandboxing_policy_postexec", "include/process_sandbox/platform/child_process_vfork.h: waitpid", "src/libsandbox.cc: Library::send"]}
{"id": "C79", "title": "A crash of the sandbox shows as an exception and as nothing else before it", "statement": "Whenever and wherever the sandbox's process dies, what the program and the library did and saw, with every argument, result and callback answer, is what they would have done and seen had the library been linked into the program, up to the exception that tells the program. That exception leaves a call that had been made and had not returned, never comes while the process lives, and after it the library does nothing. If the process dies while the library's code runs, the exception is the next thing to happen.", "quantifier": "all programs on both sides, layouts, allocators, schedules, nestings, handlers that throw, and points at which the process dies", "why_tests_cant": "the process can die between any two steps of either side, at any depth of nesting; a test picks one point", "anchors": ["src/libsandbox.cc: Library::send, Library::has_child_exited", "src/library_runner.cc: runloop, callback", "include/process_sandbox/cxxsandbox.h: Function::operator()"]}
{"id": "C80", "title": "Host and sandbox never race on the memory they pass control through", "statement": "From the start of a sandbox on, any two accesses of host and sandbox to the same field of the shared header that is not atomic are ordered by happens-before in the sense of C++, whatever the two programs do, whenever handlers throw and whenever the process dies. The same holds for any two pieces of user code of the two sides, and so for arguments, results and other memory passed between them; the one exception is that the program may start its first call, or give up the library, while the library is still loading. Every field that is atomic has to be. Limits: if the wait for a callback during loading returns without a token, a data race can follow; two threads that call functions of one library race.", "quantifier": "all programs on both sides, schedules, nestings, handlers that throw and points at which the process dies; all pairs of accesses in an execution", "why_tests_cant": "a data race shows in no particular run: on most machines the wrong program passes its tests; the claim is about every pair of accesses of every interleaving", "anchors": ["include/process_sandbox/shared_memory_region.h: SharedMemoryRegion", "include/process_sandbox/platform/onebitsem_futex.h: wake, wait", "src/libsandbox.cc: Library::send, Library::wait_for_child_exit", "src/library_runner.cc: runloop, callback, main"]}
{"id": "C81", "title": "Several libraries in one program do not disturb each other's calls", "statement": "A program has any number of sandboxed libraries, calls them from several threads and from handlers of each other, and some of the sandboxes are compromised or die. A library whose sandbox is not compromised behaves as if it were the only one: its state is one it can reach alone, its calls and handlers are those of a sequential program as long as it lives, and it can always make progress without any other library making a move. In a compromised library the program still sees only properly nested calls and handlers. Limit: a compromised sandbox that the program calls can make the host abort, and this ends the use of all libraries.", "quantifier": "all numbers of libraries, all subsets of them compromised, all programs of the host and of the sandboxes, schedules, handlers that throw and points at which processes die", "why_tests_cant": "a test runs a few libraries with one schedule; interference would need a particular interleaving of many processes, one of them hostile", "anchors": ["include/process_sandbox/sandbox.h: Library", "src/libsandbox.cc: Library::Library, Library::send, Library::wait_for_child_exit", "src/library_runner.cc: runloop, callback"]}
{"id": "C82", "title": "Whatever a sandbox asks for over a whole history, the host keeps its descriptors and uses only what it granted", "statement": "A program opens and exports files and directories, ends exports and makes network settings, in any order, while a hostile sandbox sends any requests with any descriptors. Nothing that is asked closes or loses a descriptor of the program. Each system call made for a request is about an object that is exported at that moment, that came with this request or that this request opened, by identity of the object and not only by number; network calls need a setting that allows them. Afterwards the exports and the descriptor table are as before, except that descriptors dropped on arrival, and the one a successful openat returns, stay open. Each request gets exactly one answer; a descriptor in it was opened for this request, and the host closes its own copy.", "quantifier": "all histories of program actions and requests, all request contents, descriptors sent along, contents of shared memory at each read and answers of the kernel", "why_tests_cant": "reuse of descriptor numbers makes confusion depend on the whole history; a test follows one history with a cooperative sandbox", "anchors": ["src/libsandbox.cc: CallbackDispatcher::handle", "src/libsandbox.cc: handle_open, handle_stat, handle_access, handle_openat, handle_bind_or_connect, handle_getaddrinfo", "include/process_sandbox/platform/platform.h: Handle", "include/process_sandbox/filetree.h: ExportedFileTree", "include/process_sandbox/netpolicy.h: NetworkPolicy"]}
{"id": "C83", "title": "What the shared pagemap tells every sandbox about the host and the other sandboxes (limit)", "statement": "One table describes the memory of all sandboxes of a program, and every sandbox can read all of it. Outside the memory of the sandboxes that are alive the table is always blank, whatever the sandboxes do. Inside it is not private: when the host allocates a slab in a sandbox, every sandbox can read the address of the host's own record of the slab, for as long as the host keeps it; and a sandbox can publish any 64-bit word that is a multiple of 16 to all others by asking for a chunk, so two runs in which a sandbox is asked and told the same can still differ in what it reads.", "quantifier": "all histories of requests, allocations by the host, creations and ends of any number of sandboxes, all words and all addresses", "why_tests_cant": "a test reads the table of one sandbox after one history; that nothing else ever shows, and that the two leaks always exist, ranges over all histories", "anchors": ["src/library_runner.cc: bootstrap", "src/libsandbox.cc: MemoryServiceProvider::run", "include/process_sandbox/sandbox.h: Pagemap::set_metaentry, Backend"]}
{"id": "C84", "title": "Several libraries in one program: requests of one never reach what belongs to another or to the program", "statement": "A program may use any number of libraries, each with its own exports and network settings, on its one table of descriptors. Whatever the program and all the sandboxes do: each descriptor the program opened is closed, exactly once, or in the program's hands, or exported to exactly one library. Every operation of a request is about something exported to the library the request came from, something that came with it or something it opened itself, never about a descriptor in the program's hands or exported to another library. Whatever happens to one library, its destruction included, every other library keeps its settings and finds the same things at the same paths. No request of any library breaks an assertion, and no close fails.", "quantifier": "all histories of any number of libraries: exports, settings, requests with arbitrary content and memory, kernel answers and destructions, in every order", "why_tests_cant": "a test uses one or two libraries in one order; reuse of descriptor numbers across libraries, which is what could mix them up, depends on the whole history", "anchors": ["src/libsandbox.cc: CallbackDispatcher, Library::filetree, Library::network_policy", "include/process_sandbox/filetree.h: ExportedFileTree", "include/process_sandbox/platform/platform.h: Handle", "include/process_sandbox/netpolicy.h: NetworkPolicy"]}
{"id": "C85", "title": "Libraries used by several threads at once never reach each other's descriptors or the program's", "statement": "A program may use each of its libraries from a thread of its own, so that the system calls of requests of different libraries take turns in any order, mixed with what the program itself opens, exports and closes. At every moment each descriptor the program opened is closed, exactly once, or in the program's hands, or exported to exactly one library, and while the program has it in its hands its number stands for the same thing. Every system call of a request is about something exported at that moment to the library the request came from, something that came with the request or something the request opened, never about a descriptor in the program's hands, exported to another library, or belonging to a request of another library. A descriptor sent to a sandbox was opened for the request that is answered. No step breaks an assertion and no close fails. Each request that is finished was answered exactly once, and what came with it and what it opened is closed (openat leaves its result open). A request that is not interrupted is served as one step.", "quantifier": "all histories and all interleavings of any number of libraries' requests, step by step, with arbitrary content, memory, kernel answers and number reuse", "why_tests_cant": "a test sees a few schedules; a descriptor number closed by one thread and reused by another between two calls is a rare interleaving", "anchors": ["src/libsandbox.cc: CallbackDispatcher::handle, Library::send", "include/process_sandbox/platform/platform.h: Handle", "include/process_sandbox/filetree.h: ExportedFileTree", "include/process_sandbox/netpolicy.h: NetworkPolicy"]}
{"id": "C86", "title": "A program's own callback handlers get the right calls and never lose, leak or double-close a descriptor", "statement": "A program may register handlers of its own with any of its libraries, at any time, and while one runs it may do anything: open, close and export descriptors, change settings, register more handlers, and call into the sandbox, which may call handlers again. A handler is called exactly for requests that carry its number, the right size and arguments in the sandbox's memory, on a copy of the bytes read once each; a request for it that does not fit gets -ENOSYS. A descriptor that comes with the request is given to a handler that takes one, and is the program's from then on; otherwise it stays open and out of everyone's reach while the handler runs, and is closed, once, when the handler returns or throws, or at once if no handler runs. What a handler returns is sent to the sandbox, with the very descriptor it returned, and that descriptor is closed afterwards; calls end in the reverse of the order in which they began. Each descriptor the program opened or was given is at every moment closed, exactly once, or in its hands, or exported to exactly one library. Requests of other kinds that come in between are served by the exports and settings of their library at that moment and never touch what the program holds or what waits for a handler. No call or its end changes what any library exports.", "quantifier": "all histories of registrations, requests with arbitrary content, handler calls nested to any depth, returns, throws and the program's own actions, over any number of libraries", "why_tests_cant": "handlers nest and their effects mix with exports and closes in unboundedly many ways; a test calls one or two handlers", "anchors": ["include/process_sandbox/callbacks.h: CallbackHandler, CallbackHandlerBase::Result, make_callback_handler", "src/libsandbox.cc: CallbackDispatcher::handle, register_callback", "include/process_sandbox/sandbox.h: Library::register_callback", "include/process_sandbox/platform/platform.h: Handle"]}
{"id": "C87", "title": "The descriptors a library uses for itself are its own, and three of them outlive it", "statement": "Making a library opens five descriptors in the host: its shared memory and both ends of two socket pairs. No two of these, of one library or of several, are the same descriptor; none is ever exported, handed to a handler of the program or the subject of a request of any sandbox, and nothing that the program or its handlers do closes one. The host's end of the callback socket is open until the library is destroyed and closed exactly once then; the host's end of the memory-service socket is open until that service drops the library, and closed exactly once then. Limit: the shared memory and the sandbox's two socket ends stay open in the host for ever, whatever becomes of the library, so a process whose descriptors are numbered below L makes at most L/3 libraries in its life, however many it destroys. Making, destroying and dropping a library changes nothing that another library exports; what the program opened or was given stays, as in C86, closed once, in its hands or exported to exactly one library, even when the numbers of a destroyed library are used again; and nothing aborts and no close fails.", "quantifier": "all histories in which any number of libraries are made, used, dropped by the memory service and destroyed, with requests, handlers and actions of the program in between", "why_tests_cant": "a test makes and destroys a few libraries and does not run into the descriptor limit; that a number used again never leads to another library's descriptor depends on the whole history", "anchors": ["src/libsandbox.cc: Library::Library, Library::~Library, Library::start_child, MemoryServiceProvider::add_range, MemoryServiceProvider::run, CallbackDispatcher", "include/process_sandbox/platform/platform.h: Handle", "include/process_sandbox/platform/child_process_vfork.h: ChildProcessVFork", "include/process_sandbox/platform/shm_posix.h: SharedMemoryMapPOSIX::get_handle"]}
{"id": "C88", "title": "The work that one request makes the host do is bounded by the size of the sandbox", "statement": "Whatever a sandbox sends and however it changes its memory meanwhile, serving one request with the built-in handlers makes the host perform at most four system calls, read at most the larger of 4096 bytes and four times the sandbox's heap (plus 48 bytes) from the sandbox's memory, write at most 144 bytes plus what the program's own resolver answered, and send exactly one reply. One request to the memory service touches only pagemap entries for memory of the sandbox that sent it, at most two for each chunk of its region. Limit: the order of that bound is reached by a sandbox to which nothing was exported, which makes the host read its heap twice with a request of sixteen bytes.", "quantifier": "all requests, contents of the shared memory at every load, exports, policies, kernels, resolvers and allocators; for the memory service all histories of any number of hostile sandboxes", "why_tests_cant": "a test times a few requests; the longest a sandbox can make the host work depends on memory it changes between the host's loads", "anchors": ["src/libsandbox.cc: CallbackDispatcher::handle, handle_open, handle_stat, handle_access, handle_openat, handle_bind_or_connect, handle_getaddrinfo, MemoryServiceProvider::run", "include/process_sandbox/sandbox.h: Pagemap::set_metaentry, Backend::dealloc_range, Library::strdup_out"]}
{"id": "C89", "title": "No sandbox can keep the memory service from another", "statement": "Whatever the other sandboxes send, and however many are created meanwhile: once a message of a sandbox is waiting at the host's memory service, the service carries out a request of that sandbox (or ends its service to it) within N + 1 rounds of its loop, where N is the number of sandboxes it knows at that moment; if it never knows more than M sandboxes, n waiting messages are carried out within n * (M + 1) rounds. A round that carries out a request touches at most two pagemap entries for each chunk of the requesting sandbox's region, all of them its own; so no sandbox delays another's memory requests for long. Limits: the service must not have run into a Library that was destroyed too early; and it is the kernel that takes turns: with one that reported any ready descriptor it likes, a sandbox that goes on sending would keep the service to itself for ever. Over any stretch of a history in which no region has more than 2^B bytes, the entries touched, times the chunk size, are at most 2 * 2^B for each round.", "quantifier": "all histories of any number of sandboxes with arbitrary messages, creations, destructions, hang-ups and signals, on Linux", "why_tests_cant": "a test floods the service for a while from a few sandboxes; that a request is reached in every history needs an argument about the queue", "anchors": ["src/libsandbox.cc: MemoryServiceProvider::run, MemoryServiceProvider::add_range", "include/process_sandbox/platform/poller_epoll.h: EPollPoller::poll, EPollPoller::add"]}
