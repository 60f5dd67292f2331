(** Model of the system call filter the child installs before it loads any
    untrusted code: include/process_sandbox/platform/sandbox_seccomp-bpf.h,
    with the semantics of libseccomp's rules and the x86-64 system call
    numbers.  No proofs in this file. *)
From Coq Require Import List ZArith Bool.
From Verif Require Import Base.
Import ListNotations.
Open Scope Z_scope.

(** SCMP_ACT_KILL, SCMP_ACT_TRAP, SCMP_ACT_ALLOW. *)
Inductive action := Kill | Trap | Allow.

(** SCMP_CMP_EQ and SCMP_CMP_MASKED_EQ on a 64-bit argument. *)
Inductive cmp := CEq (datum : Z) | CMaskedEq (mask datum : Z).
Definition holds_cmp (c : cmp) (v : Z) : bool :=
  match c with
  | CEq d => v =? d
  | CMaskedEq m d => Z.land v m =? d
  end.

(** A rule: action, system call number, conditions on arguments, all of which
    must hold. *)
Record rule := Rule { ru_act : action; ru_nr : Z; ru_conds : list (nat * cmp) }.

(** A system call as the kernel presents it to the filter: whether it uses the
    native calling convention, its number and its arguments. *)
Record sysc := Sysc { sc_native : bool; sc_nr : Z; sc_args : list Z }.
Definition sarg (c : sysc) (i : nat) : Z := nth i (sc_args c) 0.

Definition conds_hold (c : sysc) (conds : list (nat * cmp)) : bool :=
  forallb (fun '(i, k) => holds_cmp k (sarg c i)) conds.

(** What the kernel does with a call under a loaded libseccomp filter: the
    action of a rule that applies, otherwise the default action given to
    seccomp_init, 69-73: SCMP_ACT_KILL, or with DEBUG_SANDBOX SCMP_ACT_LOG,
    which lets the call through after logging it; calls of a foreign
    architecture (including x32) are killed (libseccomp's
    SCMP_FLTATR_ACT_BADARCH). *)
Definition decide_build (debug_sandbox : bool) (rules : list rule) (c : sysc) : action :=
  if sc_native c then
    match find (fun r => (ru_nr r =? sc_nr c) && conds_hold c (ru_conds r)) rules with
    | Some r => ru_act r
    | None => if debug_sandbox then Allow else Kill
    end
  else Kill.
(** The build without DEBUG_SANDBOX. *)
Definition decide : list rule -> sysc -> action := decide_build false.

(** ** The policy, 66-478 *)

(** allow(SCMP_SYS(...)), 98-324. *)
Definition allowed : list Z := [
  0 (* read *); 1 (* write *); 3 (* close *); 5 (* fstat *); 7 (* poll *); 8 (* lseek *);
  9 (* mmap *); 10 (* mprotect *); 11 (* munmap *); 12 (* brk *); 13 (* rt_sigaction *);
  14 (* rt_sigprocmask *); 15 (* rt_sigreturn *); 17 (* pread64 *); 18 (* pwrite64 *);
  19 (* readv *); 20 (* writev *); 22 (* pipe *); 23 (* select *); 24 (* sched_yield *);
  25 (* mremap *); 26 (* msync *); 27 (* mincore *); 28 (* madvise *); 30 (* shmat *);
  31 (* shmctl *); 34 (* pause *); 35 (* nanosleep *); 36 (* getitimer *); 37 (* alarm *);
  38 (* setitimer *); 39 (* getpid *); 40 (* sendfile *); 41 (* socket *); 43 (* accept *);
  44 (* sendto *); 45 (* recvfrom *); 46 (* sendmsg *); 47 (* recvmsg *); 50 (* listen *);
  51 (* getsockname *); 52 (* getpeername *); 53 (* socketpair *); 54 (* setsockopt *);
  55 (* getsockopt *); 59 (* execve *); 60 (* exit *); 63 (* uname *); 65 (* semop *);
  66 (* semctl *); 67 (* shmdt *); 69 (* msgsnd *); 70 (* msgrcv *); 71 (* msgctl *);
  73 (* flock *); 74 (* fsync *); 75 (* fdatasync *); 78 (* getdents *); 79 (* getcwd *);
  77 (* ftruncate *); 81 (* fchdir *); 91 (* fchmod *); 93 (* fchown *); 95 (* umask *);
  96 (* gettimeofday *); 97 (* getrlimit *); 98 (* getrusage *); 99 (* sysinfo *);
  100 (* times *); 102 (* getuid *); 104 (* getgid *); 105 (* setuid *); 106 (* setgid *);
  107 (* geteuid *); 108 (* getegid *); 109 (* setpgid *); 110 (* getppid *); 111 (* getpgrp *);
  112 (* setsid *); 113 (* setreuid *); 114 (* setregid *); 115 (* getgroups *);
  116 (* setgroups *); 117 (* setresuid *); 118 (* getresuid *); 119 (* setresgid *);
  120 (* getresgid *); 121 (* getpgid *); 122 (* setfsuid *); 123 (* setfsgid *);
  124 (* getsid *); 125 (* capget *); 126 (* capset *); 127 (* rt_sigpending *);
  128 (* rt_sigtimedwait *); 129 (* rt_sigqueueinfo *); 130 (* rt_sigsuspend *);
  131 (* sigaltstack *); 140 (* getpriority *); 138 (* fstatfs *); 142 (* sched_setparam *);
  143 (* sched_getparam *); 144 (* sched_setscheduler *); 145 (* sched_getscheduler *);
  146 (* sched_get_priority_max *); 147 (* sched_get_priority_min *);
  148 (* sched_rr_get_interval *); 149 (* mlock *); 150 (* munlock *); 151 (* mlockall *);
  152 (* munlockall *); 153 (* vhangup *); 154 (* modify_ldt *); 158 (* arch_prctl *);
  160 (* setrlimit *); 162 (* sync *); 186 (* gettid *); 187 (* readahead *);
  190 (* fsetxattr *); 193 (* fgetxattr *); 196 (* flistxattr *); 199 (* fremovexattr *);
  201 (* time *); 202 (* futex *); 203 (* sched_setaffinity *); 204 (* sched_getaffinity *);
  205 (* set_thread_area *); 206 (* io_setup *); 207 (* io_destroy *); 208 (* io_getevents *);
  209 (* io_submit *); 210 (* io_cancel *); 211 (* get_thread_area *); 213 (* epoll_create *);
  214 (* epoll_ctl_old *); 215 (* epoll_wait_old *); 217 (* getdents64 *);
  218 (* set_tid_address *); 219 (* restart_syscall *); 220 (* semtimedop *);
  221 (* fadvise64 *); 222 (* timer_create *); 223 (* timer_settime *); 224 (* timer_gettime *);
  225 (* timer_getoverrun *); 226 (* timer_delete *); 227 (* clock_settime *);
  228 (* clock_gettime *); 229 (* clock_getres *); 230 (* clock_nanosleep *);
  231 (* exit_group *); 232 (* epoll_wait *); 233 (* epoll_ctl *); 237 (* mbind *);
  238 (* set_mempolicy *); 239 (* get_mempolicy *); 242 (* mq_timedsend *);
  243 (* mq_timedreceive *); 244 (* mq_notify *); 245 (* mq_getsetattr *); 251 (* ioprio_set *);
  252 (* ioprio_get *); 253 (* inotify_init *); 270 (* pselect6 *); 271 (* ppoll *);
  273 (* set_robust_list *); 274 (* get_robust_list *); 275 (* splice *); 276 (* tee *);
  277 (* sync_file_range *); 278 (* vmsplice *); 280 (* utimensat *); 281 (* epoll_pwait *);
  282 (* signalfd *); 283 (* timerfd_create *); 284 (* eventfd *); 285 (* fallocate *);
  286 (* timerfd_settime *); 287 (* timerfd_gettime *); 288 (* accept4 *); 289 (* signalfd4 *);
  290 (* eventfd2 *); 291 (* epoll_create1 *); 293 (* pipe2 *); 294 (* inotify_init1 *);
  295 (* preadv *); 296 (* pwritev *); 297 (* rt_tgsigqueueinfo *); 299 (* recvmmsg *);
  300 (* fanotify_init *); 305 (* clock_adjtime *); 306 (* syncfs *); 307 (* sendmmsg *);
  308 (* setns *); 309 (* getcpu *); 314 (* sched_setattr *); 315 (* sched_getattr *);
  318 (* getrandom *); 319 (* memfd_create *); 322 (* execveat *); 323 (* userfaultfd *);
  324 (* membarrier *); 325 (* mlock2 *); 326 (* copy_file_range *); 327 (* preadv2 *);
  328 (* pwritev2 *); 329 (* pkey_mprotect *); 330 (* pkey_alloc *); 331 (* pkey_free *);
  333 (* io_pgetevents *); 334 (* rseq *); 424 (* pidfd_send_signal *); 425 (* io_uring_setup *);
  426 (* io_uring_enter *); 427 (* io_uring_register *); 32 (* dup *); 33 (* dup2 *);
  72 (* fcntl *); 292 (* dup3 *)].

(** allow_on_self, 92-97 and 328-334. *)
Definition self_only : list Z := [
  302 (* prlimit64 *); 279 (* move_pages *); 256 (* migrate_pages *); 234 (* tgkill *);
  310 (* process_vm_readv *); 311 (* process_vm_writev *); 434 (* pidfd_open *)].

(** trap(SCMP_SYS(...)), 408-472. *)
Definition trapped : list Z := [
  2 (* open *); 4 (* stat *); 6 (* lstat *); 16 (* ioctl *); 21 (* access *); 29 (* shmget *);
  42 (* connect *); 49 (* bind *); 62 (* kill *); 64 (* semget *); 68 (* msgget *);
  76 (* truncate *); 80 (* chdir *); 82 (* rename *); 83 (* mkdir *); 84 (* rmdir *);
  85 (* creat *); 86 (* link *); 87 (* unlink *); 88 (* symlink *); 89 (* readlink *);
  90 (* chmod *); 92 (* chown *); 94 (* lchown *); 103 (* syslog *); 132 (* utime *);
  136 (* ustat *); 137 (* statfs *); 139 (* sysfs *); 141 (* setpriority *); 157 (* prctl *);
  188 (* setxattr *); 189 (* lsetxattr *); 191 (* getxattr *); 192 (* lgetxattr *);
  194 (* listxattr *); 195 (* llistxattr *); 197 (* removexattr *); 198 (* lremovexattr *);
  235 (* utimes *); 240 (* mq_open *); 241 (* mq_unlink *); 298 (* perf_event_open *);
  301 (* fanotify_mark *); 303 (* name_to_handle_at *); 304 (* open_by_handle_at *);
  316 (* renameat2 *); 332 (* statx *); 257 (* openat *); 258 (* mkdirat *); 259 (* mknodat *);
  260 (* fchownat *); 261 (* futimesat *); 262 (* newfstatat *); 263 (* unlinkat *);
  264 (* renameat *); 265 (* linkat *); 266 (* symlinkat *); 267 (* readlinkat *);
  268 (* fchmodat *); 269 (* faccessat *); 254 (* inotify_add_watch *);
  255 (* inotify_rm_watch *)].

(** deny(SCMP_SYS(...)), 89 and 345-404: documentation only, adds no rule. *)
Definition denied : list Z := [
  57 (* fork *); 58 (* vfork *); 48 (* shutdown *); 101 (* ptrace *); 133 (* mknod *);
  134 (* uselib *); 135 (* personality *); 155 (* pivot_root *); 156 (* _sysctl *);
  159 (* adjtimex *); 161 (* chroot *); 163 (* acct *); 164 (* settimeofday *); 165 (* mount *);
  166 (* umount2 *); 167 (* swapon *); 168 (* swapoff *); 169 (* reboot *);
  170 (* sethostname *); 171 (* setdomainname *); 172 (* iopl *); 173 (* ioperm *);
  174 (* create_module *); 175 (* init_module *); 176 (* delete_module *);
  177 (* get_kernel_syms *); 178 (* query_module *); 179 (* quotactl *); 180 (* nfsservctl *);
  181 (* getpmsg *); 182 (* putpmsg *); 183 (* afs_syscall *); 184 (* tuxcall *);
  185 (* security *); 200 (* tkill *); 216 (* remap_file_pages *); 212 (* lookup_dcookie *);
  236 (* vserver *); 272 (* unshare *); 317 (* seccomp *); 320 (* kexec_file_load *);
  321 (* bpf *); 428 (* open_tree *); 429 (* move_mount *); 430 (* fsopen *); 431 (* fsconfig *);
  432 (* fsmount *); 433 (* fspick *); 246 (* kexec_load *); 61 (* wait4 *); 247 (* waitid *);
  248 (* add_key *); 249 (* request_key *); 250 (* keyctl *); 435 (* clone3 *)].

Definition CLONE_THREAD : Z := 65536.     (* 0x00010000 *)

(** The rules in the order in which they are added; [me] is
    static_cast<scmp_datum_t>(getpid()). *)
Definition policy_for (me : Z) : list rule :=
  map (fun n => Rule Allow n []) allowed
  ++ flat_map (fun n => [Rule Allow n [(0%nat, CEq me)]; Rule Allow n [(0%nat, CEq 0)]]) self_only
  ++ [Rule Allow 56 [(0%nat, CMaskedEq CLONE_THREAD CLONE_THREAD)]]   (* clone, 337-342 *)
  ++ flat_map (fun _ => []) denied
  ++ map (fun n => Rule Trap n []) trapped.
(** [self] is getpid(), 90. *)
Definition policy (self : Z) : list rule := policy_for (wrap self).

(** apply_sandboxing_policy_postexec, 66-478.  [asserts] is whether assert is
    compiled in (no NDEBUG); [init_ok], [add_ok] (by position of the rule) and
    [load_ok] are the outcomes of seccomp_init, seccomp_rule_add and
    seccomp_load.  The result is the filter in force afterwards, None when
    there is none.  Without a context every later call fails. *)
Fixpoint add_rules (asserts : bool) (add_ok : nat -> bool) (i : nat) (rs : list rule)
  : outcome (list rule) :=
  match rs with
  | [] => Ret []
  | r :: rest =>
    if add_ok i then obind (add_rules asserts add_ok (S i) rest) (fun l => Ret (r :: l))
    else if asserts then Aborts
    else add_rules asserts add_ok (S i) rest
  end.
Definition install (asserts init_ok : bool) (add_ok : nat -> bool) (load_ok : bool) (rules : list rule)
  : outcome (option (list rule)) :=
  if negb init_ok then (if asserts then Aborts else Ret None)
  else obind (add_rules asserts add_ok 0 rules) (fun rs =>
       if load_ok then Ret (Some rs) else if asserts then Aborts else Ret None).
Definition apply_policy (asserts init_ok : bool) (add_ok : nat -> bool) (load_ok : bool) (self : Z)
  : outcome (option (list rule)) := install asserts init_ok add_ok load_ok (policy self).

(** The fate of a call in a process with or without a filter. *)
Definition fate (flt : option (list rule)) (c : sysc) : action :=
  match flt with Some rs => decide rs c | None => Allow end.
