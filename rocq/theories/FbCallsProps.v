(** Claimed theorems about the system-call layer on FreeBSD (C61). *)
From Coq Require Import String Ascii List ZArith Lia Bool.
From Verif Require Import Base PathModel PathSpec PathProof FileTreeModel FileTreeSpec FileTreeProof
  FileTreeProps RegionModel RegionSpec RegionProof DispatchModel HostCallsModel HostCallsSpec HostCallsProof HostCallsProps
  ChildCallsModel FbCallsModel FbCallsSpec.
From Verif Require ChildCallsProof.
Import ListNotations.
Open Scope Z_scope.

(** ** Host *)

(** The flags contain the resolve-beneath bit and are otherwise the sandbox's. *)
Definition beneath_flags (bit asked passed : Z) : Prop :=
  Z.testbit passed bit = true /\ forall i, 0 <= i -> i <> bit -> Z.testbit passed i = Z.testbit asked i.

Lemma lor_bit n x : 0 <= n -> beneath_flags n x (Z.lor x (2 ^ n)).
Proof.
  intros N. split; [rewrite Z.lor_spec, Z.pow2_bits_true by auto; apply orb_true_r|].
  intros i I D. rewrite Z.lor_spec, Z.pow2_bits_false by auto. apply orb_false_r.
Qed.

(** C61: open.  At most one operation: duplicate an exported file, or open a path
    beneath an exported directory with the resolve-beneath flag. *)
Theorem fb_open_confined : forall calls oks t shm size hdr k rd in_path flags mode,
  host_calls calls -> run_host calls = Ret (oks, t) -> mapping_ok shm size hdr -> is_word in_path ->
  let h := library_heap shm size hdr in
  let ex := combine calls oks in
  exists res ops, fb_handle_open k t h rd true in_path flags mode [] = Ret (res, ops) /\
  (refused (shm + 2 * hdr) (shm + size) ex rd in_path res ops \/
   (exists q fd, exported_file ex q fd /\ request_names (shm + 2 * hdr) (shm + size) rd in_path q /\
      ops = [KDup fd] /\ answers_fd (k [] (KDup fd)) res) \/
   (exists q fd tail p fl, exported_dir ex q fd /\ request_names (shm + 2 * hdr) (shm + size) rd in_path (q ++ tail) /\
      beneath_path p tail /\ beneath_flags 23 flags fl /\
      let op := KFb (FbOpenat fd (Some p) fl mode) in ops = [op] /\ answers_fd (k [] op) res)).
Proof.
  intros calls oks t shm size hdr k rd in_path flags mode HC RH M Wp h ex.
  destruct (path_syscall_cases _ _ _ _ _ _ rd in_path HC RH M Wp) as [[Y A]|[[Y A]|(fd & tail & q & A & R & D)]];
    unfold fb_handle_open, h; rewrite A.
  1,2: eexists _, _; split; [reflexivity|left; split; auto].
  destruct D as [[D1 D2]|(D1 & D2 & D3)].
  - unfold is_empty. rewrite D1 in *. cbn [negb kcall]. eexists _, _. split; [reflexivity|].
    right; left. exists q, fd. rewrite app_nil_r in R. split; [auto|]. split; [auto|]. split; [reflexivity|apply return_fd_answers].
  - unfold is_empty. destruct (comps tail) as [|c r] eqn:E; [congruence|]. cbn [negb].
    unfold fb_openat_beneath, kcall. eexists _, _. split; [reflexivity|].
    right; right. exists q, fd, (c :: r), (str tail), (Z.lor flags (2 ^ 23)).
    split; auto. split; auto. split; auto. split; [apply lor_bit; lia|]. split; [reflexivity|apply return_fd_answers].
Qed.
Print Assumptions fb_open_confined.

(** C61: stat.  One operation; the answer goes to a block inside the sandbox. *)
Theorem fb_stat_confined : forall calls oks t shm size hdr k rd in_path statbuf,
  host_calls calls -> run_host calls = Ret (oks, t) -> mapping_ok shm size hdr ->
  is_word in_path -> is_word statbuf ->
  let h := library_heap shm size hdr in
  let ex := combine calls oks in
  exists res ops, fb_handle_stat k t h rd true in_path statbuf [] = Ret (res, ops) /\
  (refused (shm + 2 * hdr) (shm + size) ex rd in_path res ops \/
   (res = Result (-22) None /\ ops = [] /\ ~ block_within (shm + 2 * hdr) (shm + size) statbuf 224) \/
   (block_within (shm + 2 * hdr) (shm + size) statbuf 224 /\
    ((exists q fd, exported_file ex q fd /\ request_names (shm + 2 * hdr) (shm + size) rd in_path q /\
        ops = [KFstat fd statbuf] /\ answers_int (k [] (KFstat fd statbuf)) res) \/
     (exists q fd tail p fl, exported_dir ex q fd /\
        request_names (shm + 2 * hdr) (shm + size) rd in_path (q ++ tail) /\ beneath_path p tail /\ beneath_flags 13 0 fl /\
        let op := KFb (FbFstatat fd (Some p) statbuf fl) in ops = [op] /\ answers_int (k [] op) res)))).
Proof.
  intros calls oks t shm size hdr k rd in_path statbuf HC RH M Wp Wb h ex.
  destruct (path_syscall_cases _ _ _ _ _ _ rd in_path HC RH M Wp) as [[Y A]|[[Y A]|(fd & tail & q & A & R & D)]];
    unfold fb_handle_stat, h; rewrite A.
  1,2: eexists _, _; split; [reflexivity|left; split; auto].
  unfold check_pointer. change fb_sizeof_stat with 224.
  destruct (contains (library_heap shm size hdr) statbuf 224) eqn:C.
  2:{ eexists _, _. split; [reflexivity|]. right; left. split; [reflexivity|]. split; [reflexivity|]. intros B.
      enough (contains (library_heap shm size hdr) statbuf 224 = true) by congruence. apply contains_iff; auto; [unfold is_word, W; lia|].
      pose proof (B statbuf ltac:(lia)). pose proof (B (statbuf + 224 - 1) ltac:(lia)). lia. }
  apply contains_iff in C; auto; try (unfold is_word, W; lia).
  assert (B : block_within (shm + 2 * hdr) (shm + size) statbuf 224) by (intros x Hx; lia).
  destruct (Z.eqb_spec statbuf 0) as [->|N].
  { unfold mapping_ok in M. lia. }
  cbn [negb]. destruct D as [[D1 D2]|(D1 & D2 & D3)].
  - unfold is_empty. rewrite D1 in *. cbn [kcall]. eexists _, _. split; [reflexivity|].
    right; right. split; [exact B|]. left. exists q, fd. rewrite app_nil_r in R. split; [auto|]. split; [auto|]. split; [reflexivity|apply return_int_answers].
  - unfold is_empty. destruct (comps tail) as [|c r] eqn:E; [congruence|].
    unfold fb_fstatat_beneath, kcall. eexists _, _. split; [reflexivity|]. right; right. split; [exact B|]. right.
    exists q, fd, (c :: r), (str tail), (Z.lor 0 (2 ^ 13)).
    split; auto. split; auto. split; auto. split; [apply lor_bit; lia|]. split; [reflexivity|apply return_int_answers].
Qed.
Print Assumptions fb_stat_confined.

(** C61: access.  One operation. *)
Theorem fb_access_confined : forall calls oks t shm size hdr k rd in_path mode,
  host_calls calls -> run_host calls = Ret (oks, t) -> mapping_ok shm size hdr -> is_word in_path ->
  let h := library_heap shm size hdr in
  let ex := combine calls oks in
  exists res ops, fb_handle_access k t h rd true in_path mode [] = Ret (res, ops) /\
  (refused (shm + 2 * hdr) (shm + size) ex rd in_path res ops \/
   exists q fd tail path fl,
     request_names (shm + 2 * hdr) (shm + size) rd in_path (q ++ tail) /\
     ((exported_file ex q fd /\ tail = [] /\ path = None) \/
      (exported_dir ex q fd /\ exists p, path = Some p /\ beneath_path p tail)) /\
     beneath_flags 13 0 fl /\ let op := KFb (FbFaccessat fd path mode fl) in ops = [op] /\ answers_int (k [] op) res).
Proof.
  intros calls oks t shm size hdr k rd in_path mode HC RH M Wp h ex.
  destruct (path_syscall_cases _ _ _ _ _ _ rd in_path HC RH M Wp) as [[Y A]|[[Y A]|(fd & tail & q & A & R & D)]];
    unfold fb_handle_access, h; rewrite A.
  1,2: eexists _, _; split; [reflexivity|left; split; auto].
  unfold fb_faccessat_beneath, kcall.
  set (path := if is_empty tail then None else Some (str tail)).
  assert (P : (exported_file ex q fd /\ comps tail = [] /\ path = None) \/
      (exported_dir ex q fd /\ exists p, path = Some p /\ beneath_path p (comps tail))).
  { unfold path, is_empty. destruct D as [[D1 D2]|(D1 & D2 & D3)].
    - left. rewrite D1. auto.
    - right. destruct (comps tail); [congruence|]. eauto. }
  eexists _, _. split; [reflexivity|]. right. exists q, fd, (comps tail), path, (Z.lor 0 (2 ^ 13)).
  split; auto. split; auto. split; [apply lor_bit; lia|]. split; [reflexivity|apply return_int_answers].
Qed.
Print Assumptions fb_access_confined.

(** C61: openat.  One operation beneath the descriptor the sandbox sent (an invalid
    one if it sent none), which is then closed.  The answer is the raw number: the
    limits of C25 hold here too. *)
Theorem fb_openat_confined : forall shm size hdr k rd in_path flags mode in_fd,
  mapping_ok shm size hdr -> is_word in_path ->
  let h := library_heap shm size hdr in
  let fd := match in_fd with Some f => f | None => -1 end in
  exists path fl, string_or_null (shm + 2 * hdr) (shm + size) rd in_path path /\ beneath_flags 23 flags fl /\
    fb_handle_openat k h rd true in_path flags mode in_fd []
    = Ret (Result (fst (k [] (KFb (FbOpenat fd path fl mode)))) None,
           KFb (FbOpenat fd path fl mode) :: match in_fd with Some f => [KClose f] | None => [] end).
Proof.
  intros shm size hdr k rd in_path flags mode in_fd M Wp h fd. unfold fb_handle_openat, h.
  destruct (get_path_total shm size hdr rd in_path M Wp) as (o & G & _ & RD). rewrite G. cbn [obind].
  unfold fb_openat_beneath, kcall. exists o, (Z.lor flags (2 ^ 23)). split; [exact RD|]. split; [apply lor_bit; lia|].
  change o_resolve_beneath with (2 ^ 23). destruct in_fd; reflexivity.
Qed.
Print Assumptions fb_openat_confined.

(** ** Sandboxed process *)

Lemma to_int32_range x : - 2 ^ 31 <= to_int32 x < 2 ^ 31.
Proof. unfold to_int32. pose proof (Z.mod_pos_bound x (2 ^ 32) ltac:(lia)). destruct (Z.ltb_spec (x mod 2 ^ 32) (2 ^ 31)); lia. Qed.
Lemma to_int32_id x : - 2 ^ 31 <= x < 2 ^ 31 -> to_int32 x = x.
Proof.
  intros R. unfold to_int32. destruct (Z.leb_spec 0 x).
  - rewrite Z.mod_small by lia. destruct (Z.ltb_spec x (2 ^ 31)); lia.
  - replace (x mod 2 ^ 32) with (x + 2 ^ 32); [destruct (Z.ltb_spec (x + 2 ^ 32) (2 ^ 31)); lia|].
    symmetry. replace x with (x + 2 ^ 32 + (-1) * 2 ^ 32) at 1 by lia. rewrite Z.mod_add, Z.mod_small; lia.
Qed.

Lemma success_view f x : 0 <= x < 2 ^ 31 ->
  fb_view (fb_success f x) = (x, None) /\ only_result_differs f (fb_success f x).
Proof.
  intros R. unfold fb_view, only_result_differs, fb_success. cbn [b_flags b_rax b_code b_sysno b_args b_rest].
  assert (O : forall i, 0 <= i -> Z.testbit (Z.land (b_flags f) (Z.lnot 1)) i = if i =? 0 then false else Z.testbit (b_flags f) i).
  { intros i I. rewrite Z.land_spec, Z.lnot_spec by auto. destruct (Z.eqb_spec i 0) as [->|D]; [cbn; apply andb_false_r|].
    replace (Z.testbit 1 i) with false; [cbn; apply andb_true_r|]. symmetry. change 1 with (2 ^ 0). apply Z.pow2_bits_false. auto. }
  split.
  - rewrite <- Z.bit0_odd, O by lia. cbn. unfold wrap, W. rewrite Z.mod_small by lia. auto.
  - repeat split; auto. intros i I. rewrite O by lia. destruct (Z.eqb_spec i 0); [lia|auto].
Qed.
Lemma error_view f x : 0 <= x < 2 ^ 31 ->
  fb_view (fb_error f x) = (-1, Some x) /\ only_result_differs f (fb_error f x).
Proof.
  intros R. unfold fb_view, only_result_differs, fb_error. cbn [b_flags b_rax b_code b_sysno b_args b_rest].
  assert (O : forall i, 0 <= i -> Z.testbit (Z.lor (b_flags f) 1) i = if i =? 0 then true else Z.testbit (b_flags f) i).
  { intros i I. rewrite Z.lor_spec. destruct (Z.eqb_spec i 0) as [->|D]; [cbn; apply orb_true_r|].
    replace (Z.testbit 1 i) with false; [apply orb_false_r|]. symmetry. change 1 with (2 ^ 0). apply Z.pow2_bits_false. auto. }
  split.
  - rewrite <- Z.bit0_odd, O by lia. cbn. unfold wrap, W. rewrite Z.mod_small by lia. auto.
  - repeat split; auto. intros i I. rewrite O by lia. destruct (Z.eqb_spec i 0); [lia|auto].
Qed.

Section TRAPS.
Variables (lo hi : Z) (alloc : list (Z * Z) -> Z -> Z) (fuel : nat).

(** The registers the emulation reads are the call's arguments. *)
Lemma made_args f n a : length (b_args f) = 6%nat -> made_call f n a ->
  (forall i, (i < 5)%nat -> get_arg true f i = Ret (nth i a 0)) /\ (- 2 ^ 31 <= b_sysno f < 2 ^ 31 -> syscall_number true f = n).
Proof.
  intros L M. destruct M as [N0 N1|n rest B E R].
  - assert (I : is_syscall true f = false).
    { unfold is_syscall, SYS_syscall, SYS___syscall. destruct (Z.eqb_spec (b_sysno f) 0), (Z.eqb_spec (b_sysno f) 198); try contradiction. auto. }
    split.
    + intros i Hi. unfold get_arg. rewrite I, Nat.add_0_r. rewrite (nth_error_nth' _ 0) by lia. auto.
    + intros _. unfold syscall_number. rewrite I. auto.
  - assert (I : is_syscall true f = true).
    { unfold is_syscall, SYS_syscall, SYS___syscall. destruct B as [-> | ->]; auto. }
    split.
    + intros i Hi. unfold get_arg. rewrite I, E, Nat.add_1_r. cbn [nth_error]. rewrite E in L. cbn in L. rewrite (nth_error_nth' _ 0) by lia. auto.
    + intros _. unfold syscall_number. rewrite I, E. apply to_int32_id. lia.
Qed.

Lemma callback_of H sp st f n a : length (b_args f) = 6%nat -> - 2 ^ 31 <= b_sysno f < 2 ^ 31 -> made_call f n a ->
  fb_syscall_callback lo hi alloc fuel true H sp st SyscallCallbackCount f =
  match served lo hi alloc fuel H sp st n a with
  | None => Ret (st, f)
  | Some o => obind o (fun '(st', x) =>
        let result := to_int32 x in
        if result =? - 2 ^ 31 then UB
        else Ret (st', if result <? 0 then fb_error f (- result) else fb_success f result))
  end.
Proof.
  intros L S M. destruct (made_args f n a L M) as [A N]. specialize (N S).
  cbn [fb_syscall_callback SyscallCallbackCount fb_numbers nth]. rewrite N.
  destruct (Z.eqb_spec 98 n) as [<-|N1]; [|destruct (Z.eqb_spec 104 n) as [<-|N2]; [|destruct (Z.eqb_spec 499 n) as [<-|N3];
    [|destruct (Z.eqb_spec 33 n) as [<-|N4]; [|destruct (Z.eqb_spec 188 n) as [<-|N5]; [|destruct (Z.eqb_spec 5 n) as [<-|N6]]]]]];
    [unfold served, fb_emulated; rewrite ?A by lia; cbn [obind]; rewrite ?ChildCallsProof.int_of_eq; reflexivity..|].
  assert (Q : served lo hi alloc fuel H sp st n a = None); [|rewrite Q; reflexivity].
  unfold served. destruct n as [|p|p]; auto.
  repeat (destruct p as [p|p|]; try reflexivity); congruence.
Qed.

(** A trapped call whose number is one of the six gives the program what the libc
    function of that name gives, called with the program's arguments, whether made
    directly or through syscall(2): the value, or -1 and the error.  Nothing else of
    the interrupted program changes. *)
Theorem fb_trap_serves : forall H sp st f n a o st' x,
  b_code f = 4 -> length (b_args f) = 6%nat -> - 2 ^ 31 <= b_sysno f < 2 ^ 31 -> made_call f n a ->
  served lo hi alloc fuel H sp st n a = Some o -> o = Ret (st', x) -> - 2 ^ 31 < x < 2 ^ 31 ->
  exists g, fb_emulate lo hi alloc fuel true H sp st f = Ret (st', g) /\ 
    fb_view g = (if x <? 0 then (-1, Some (- x)) else (x, None)) /\ only_result_differs f g.
Proof.
  intros H sp st f n a o st' x C L S M Sv -> R. unfold fb_emulate, TRAP_CAP. rewrite C, Z.eqb_refl.
  rewrite (callback_of H sp st f n a L S M), Sv. cbn [obind]. rewrite to_int32_id by lia.
  destruct (Z.eqb_spec x (- 2 ^ 31)); [lia|]. destruct (Z.ltb_spec x 0).
  - destruct (error_view f (- x)) as [V O]; [lia|]. exists (fb_error f (- x)). auto.
  - destruct (success_view f x) as [V O]; [lia|]. exists (fb_success f x). auto.
Qed.

(** The emulation itself never raises an exception, aborts or misbehaves: if the
    process ends here, the libc function would have ended it. *)
Theorem fb_trap_fails_only_in_call : forall H sp st f n a,
  length (b_args f) = 6%nat -> - 2 ^ 31 <= b_sysno f < 2 ^ 31 -> made_call f n a ->
  (forall st' x, served lo hi alloc fuel H sp st n a = Some (Ret (st', x)) -> - 2 ^ 31 < x < 2 ^ 31) ->
  (forall g, fb_emulate lo hi alloc fuel true H sp st f <> Ret g) ->
  exists o, served lo hi alloc fuel H sp st n a = Some o /\ forall r, o <> Ret r.
Proof.
  intros H sp st f n a L S M R B. unfold fb_emulate, TRAP_CAP in B. rewrite (callback_of H sp st f n a L S M) in B.
  destruct (Z.eqb_spec (b_code f) 4); [|destruct (B _ eq_refl)].
  destruct (served lo hi alloc fuel H sp st n a) as [o|]; [|destruct (B _ eq_refl)].
  exists o. split; auto. intros [st' x] ->. specialize (R st' x eq_refl). cbn [obind] in B. rewrite to_int32_id in B by lia.
  destruct (Z.eqb_spec x (- 2 ^ 31)); [lia|]. destruct (B _ eq_refl).
Qed.

(** Any other trap leaves the program as it was, without asking the host. *)
Theorem fb_trap_ignores : forall H sp st f n a,
  length (b_args f) = 6%nat -> - 2 ^ 31 <= b_sysno f < 2 ^ 31 -> made_call f n a ->
  ~ In n [5; 33; 98; 104; 188; 499] \/ b_code f <> 4 ->
  fb_emulate lo hi alloc fuel true H sp st f = Ret (st, f).
Proof.
  intros H sp st f n a L S M O. unfold fb_emulate, TRAP_CAP. destruct (Z.eqb_spec (b_code f) 4) as [C|C]; auto.
  destruct O as [O|O]; [|contradiction]. rewrite (callback_of H sp st f n a L S M).
  assert (Q : served lo hi alloc fuel H sp st n a = None); [|rewrite Q; reflexivity].
  unfold served. destruct n as [|p|p]; auto.
  repeat (destruct p as [p|p|]; try reflexivity); destruct O; cbn; tauto.
Qed.

(** Limit.  Where the headers lack si_syscall, a call made through syscall(2) or
    __syscall(2) is not emulated: rax holds 0 or 198. *)
Theorem fb_old_headers_lose_indirect : forall H sp st f,
  b_rax f = 0 \/ b_rax f = 198 -> fb_emulate lo hi alloc fuel false H sp st f = Ret (st, f).
Proof.
  intros H sp st f R. unfold fb_emulate. destruct (b_code f =? TRAP_CAP); auto.
  cbn [fb_syscall_callback SyscallCallbackCount fb_numbers nth syscall_number].
  destruct R as [-> | ->]; reflexivity.
Qed.

(** Limit.  The emulation of call 188 treats the program's 120-byte buffer as 224
    bytes: outside the shared heap, the bytes after it become whatever is in the
    copy the host filled. *)
Theorem fb_stat_overflows : forall H sp st path buf st' x,
  is_inside lo hi path 1 = true -> is_inside lo hi buf 1 = false -> 0 < buf ->
  fb_callback_stat lo hi alloc fuel H sp st path buf = Ret (st', x) ->
  exists b after_host, b = alloc (cs_blocks st) 224 /\
    forall i, 120 <= i < 224 -> cs_mem st' (buf + i) = after_host (b + i).
Proof.
  intros H sp st path buf st' x P B Pb E. unfold fb_callback_stat, syscall_callback_helper, callback_helper, prepare in E.
  cbn [marshal] in E. unfold cstr_arg in E. rewrite P in E. cbn [obind] in E.
  unfold ptr_arg at 1 in E. rewrite B in E. destruct (Z.eqb_spec buf 0); [lia|]. unfold malloc in E. change fb_sizeof_stat with 224 in E.
  set (b := alloc (cs_blocks st) 224) in *. destruct (b =? 0); [discriminate|]. cbn [obind andb] in E.
  match type of E with context [ptr_arg lo hi alloc ?s ?q ?n] => destruct (ptr_arg lo hi alloc s q n) as [[[st3 q3] c3]| | | |] eqn:PA end; cbn [obind] in E; try discriminate.
  match type of E with context [callback H ?s ?kk ?q ?n ?fd] => destruct (callback H s kk q n fd) as [[st4 r4]| | | |] eqn:CB end; cbn [obind] in E; try discriminate.
  injection E as <- <-. exists b, (cs_mem st4). split; auto. intros i I. cbn [cs_mem copy_back fold_left].
  change (Pos.to_nat 224) with (Z.to_nat 224). unfold write_bytes. assert (Ln : length (read_bytes (cs_mem st4) b (Z.to_nat 224)) = 224%nat) by (unfold read_bytes; rewrite map_length, seq_length; reflexivity).
  rewrite Ln. destruct (Z.leb_spec buf (buf + i)); [|lia]. destruct (Z.ltb_spec (buf + i) (buf + Z.of_nat 224)); [|lia]. cbn [andb].
  replace (buf + i - buf) with i by lia. unfold read_bytes.
  rewrite nth_indep with (d' := cs_mem st4 (b + Z.of_nat 0)) by (rewrite map_length, seq_length; lia).
  rewrite (map_nth (fun j => cs_mem st4 (b + Z.of_nat j)) (seq 0 (Z.to_nat 224)) 0%nat). rewrite seq_nth by lia. f_equal. lia.
Qed.

End TRAPS.
Print Assumptions fb_trap_serves.
Print Assumptions fb_trap_fails_only_in_call.
Print Assumptions fb_trap_ignores.
Print Assumptions fb_old_headers_lose_indirect.
Print Assumptions fb_stat_overflows.

(** The hypotheses are met: a directly made and an indirectly made connect of
    the same socket; the host refuses with EACCES.  Old rflags 0x247 and 0x246. *)
Definition fb_direct := BFrame 4 98 94 583 [6; 2000; 16; 0; 0; 0] 77.
Definition fb_indirect := BFrame 4 198 94 582 [98; 6; 2000; 16; 0; 0] 77.
Definition fb_refusing : host := fun _ _ _ => Some (HostReply [] (-13) None).
Definition fb_child : cst := CSt (fun _ => nul) [(2000, 16); (900, 32)].
Example fb_ex :
  made_call fb_direct 98 [6; 2000; 16; 0; 0; 0] /\ made_call fb_indirect 98 [6; 2000; 16; 0; 0] /\
  (exists st', served 100 5000 (fun _ _ => 3000) 10 fb_refusing 900 fb_child 98 [6; 2000; 16; 0; 0; 0] = Some (Ret (st', -13))) /\
  (forall f, f = fb_direct \/ f = fb_indirect -> exists st' g,
     fb_emulate 100 5000 (fun _ _ => 3000) 10 true fb_refusing 900 fb_child f = Ret (st', g) /\ fb_view g = (-1, Some 13) /\ b_flags g = 583).
Proof.
  split; [apply (Direct fb_direct); cbn; lia|]. split; [eapply Indirect; cbn; [auto|reflexivity|lia]|]. split; [eexists; reflexivity|].
  intros f [-> | ->]; eexists _, _; (split; [reflexivity|split; reflexivity]).
Qed.
Definition fb_accepting : host := fun rq _ _ => Some (HostReply [(3100, "x"%char)] 0 None).
Example fb_ex_stat : exists st', is_inside 1000 5000 2000 1 = true /\ is_inside 1000 5000 500 1 = false /\
  fb_callback_stat 1000 5000 (fun bs _ => 3000 + 500 * (Z.of_nat (List.length bs) - 2)) 10 fb_accepting 900 fb_child 2000 500 = Ret (st', 0).
Proof. eexists. repeat split. Qed.
