(** Claimed theorems about the flags and the mode of an open in the sandboxed
    process: whose they are and what happens when the caller passed no mode
    (C76).  The model is ChildCallsModel.v with HostCallsModel.v; the
    specification of Linux's openat2 is below. *)
From Coq Require Import String Ascii List ZArith Lia Bool.
From Verif Require Import Base PathModel PathSpec FileTreeModel FileTreeSpec FileTreeProps RegionModel RegionSpec
  DispatchModel HostCallsModel ChildCallsModel ChildCallsSpec ChildCallsProps EndToEndProps.
Import ListNotations.
Open Scope Z_scope.

(** ** Specification: openat2(2) *)

(** O_CREAT is bit 6; O_TMPFILE is recognised by bit 22. *)
Definition creates (flags : Z) : bool := Z.testbit flags 6 || Z.testbit flags 22.
(** "mode must be zero unless a file may be created", and have no bits other
    than the permission bits (07777) otherwise. *)
Definition acceptable (flags mode : Z) : Prop :=
  if creates flags then 0 <= mode <= 4095 else mode = 0.
(** A kernel that refuses every other request with EINVAL (22). *)
Definition openat2_kernel (k : kernel) : Prop :=
  forall log fd path flags mode resolve,
    ~ acceptable flags mode -> k log (KOpenat2 fd path flags mode resolve) = (-1, 22).

Lemma creat_bit flags : (Z.land flags 64 =? 64) = Z.testbit flags 6.
Proof.
  change 64 with (2 ^ 6). destruct (Z.eqb_spec (Z.land flags (2 ^ 6)) (2 ^ 6)) as [E|E].
  - assert (X : Z.testbit (Z.land flags (2 ^ 6)) 6 = true) by (rewrite E; apply Z.pow2_bits_true; lia).
    rewrite Z.land_spec in X. apply andb_true_iff in X. destruct X as [X _]. symmetry. exact X.
  - destruct (Z.testbit flags 6) eqn:T; [|reflexivity]. exfalso. apply E. apply Z.bits_inj'. intros n Hn.
    rewrite Z.land_spec, Z.pow2_bits_eqb by lia. destruct (Z.eqb_spec 6 n) as [<-|]; [rewrite T; reflexivity|apply andb_false_r].
Qed.

Lemma creates_wrap flags : creates (wrap flags) = creates flags.
Proof.
  unfold creates, wrap, W. rewrite !Z.mod_pow2_bits_low by lia. reflexivity.
Qed.

(** ** The function open *)

(** C76: without O_CREAT the mode does not matter: whatever the register of the
    argument that was not passed holds, for every host. *)
Theorem open_without_create_ignores_mode : forall lo hi alloc fuel H sp st path flags mode mode',
  Z.testbit flags 6 = false ->
  posix_open lo hi alloc fuel H sp st path flags mode = posix_open lo hi alloc fuel H sp st path flags mode'.
Proof.
  intros lo hi alloc fuel H sp st path flags mode mode' F. unfold posix_open. change o_creat with 64.
  rewrite creat_bit, F. reflexivity.
Qed.

Section O.
Variables (shm size hdr : Z) (alloc : list (Z * Z) -> Z -> Z) (fuel : nat) (maxn : Z).
Variables (calls : list (list text * leaf)) (oks : list bool) (t : dir) (np : netpolicy).
Variables (k : kernel) (recv : Z -> Z) (eff : crequest -> list (Z * ascii)).
Hypothesis HC : host_calls calls.
Hypothesis RH : run_host calls = Ret (oks, t).
Hypothesis LK : linux_kernel k.
Hypothesis RV : forall f, 0 <= f -> 0 <= recv f < 2 ^ 31.
Let the_host : host := host_process k t np (library_heap shm size hdr) recv eff.

(** C76: open beneath an exported directory asks the kernel, with the flags the
    library passed, for something openat2 accepts (given permission bits when
    there is O_CREAT), and the library sees the kernel's answer. *)
Theorem open_asks_what_the_library_passed : forall st sp p s fd tail flags mode,
  child_ready shm size hdr alloc maxn st sp -> program_string st maxn fuel sp p s ->
  - 2 ^ 31 <= flags < 2 ^ 31 -> 0 <= mode < 2 ^ 32 ->
  resolves (combine calls oks) s (inr (fd, tail)) -> tail <> [] ->
  (Z.testbit flags 6 = true -> mode <= 4095) ->
  exists st' mode', acceptable flags mode' /\ (Z.testbit flags 6 = true -> mode' = mode) /\
    let answer := k [] (KOpenat2 fd (Some (joined tail)) (wrap flags) mode' 8) in
    posix_open shm (shm + size) alloc fuel the_host sp st p flags mode
    = Ret (st', if 0 <=? fst answer then (recv (fst answer), None) else (-1, Some (snd answer))).
Proof.
  intros st sp p s fd tail flags mode CR PS Hf Hm R ET HM.
  destruct (open_end_to_end shm size hdr alloc fuel maxn calls oks t np k recv eff HC RH LK RV
              st sp p s _ flags mode CR PS Hf Hm R) as [st' E].
  rewrite creat_bit in E. exists st', (if Z.testbit flags 6 then mode else 0). split; [|split].
  - unfold acceptable, creates. destruct (Z.testbit flags 6); cbn [orb].
    + specialize (HM eq_refl). lia.
    + destruct (Z.testbit flags 22); [lia|reflexivity].
  - intros ->. reflexivity.
  - cbv zeta. unfold the_host. rewrite E. unfold open_result. destruct tail; [congruence|]. reflexivity.
Qed.

(** C76 (limit): with O_TMPFILE, which takes a mode too, the mode the library
    passed is replaced by 0: the file is made without any permission. *)
Theorem open_tmpfile_loses_mode : forall st sp p s fd tail flags mode,
  child_ready shm size hdr alloc maxn st sp -> program_string st maxn fuel sp p s ->
  - 2 ^ 31 <= flags < 2 ^ 31 -> 0 <= mode < 2 ^ 32 ->
  resolves (combine calls oks) s (inr (fd, tail)) -> tail <> [] ->
  Z.testbit flags 22 = true -> Z.testbit flags 6 = false ->
  exists st',
    let answer := k [] (KOpenat2 fd (Some (joined tail)) (wrap flags) 0 8) in
    posix_open shm (shm + size) alloc fuel the_host sp st p flags mode
    = Ret (st', if 0 <=? fst answer then (recv (fst answer), None) else (-1, Some (snd answer))).
Proof.
  intros st sp p s fd tail flags mode CR PS Hf Hm R ET _ F6.
  destruct (open_end_to_end shm size hdr alloc fuel maxn calls oks t np k recv eff HC RH LK RV
              st sp p s _ flags mode CR PS Hf Hm R) as [st' E].
  rewrite creat_bit, F6 in E. exists st'. cbv zeta. unfold the_host. rewrite E. unfold open_result. destruct tail; [congruence|]. reflexivity.
Qed.

(** C76 (limit): an exported file is duplicated: neither the flags nor the mode
    count, so that O_WRONLY of a file the host opened for reading succeeds, as
    do O_CREAT with O_EXCL, and O_TRUNC without truncating. *)
Theorem open_exported_file_ignores_flags : forall st sp p s fd flags mode,
  child_ready shm size hdr alloc maxn st sp -> program_string st maxn fuel sp p s ->
  - 2 ^ 31 <= flags < 2 ^ 31 -> 0 <= mode < 2 ^ 32 ->
  resolves (combine calls oks) s (inr (fd, [])) ->
  exists st',
    let answer := k [] (KDup fd) in
    posix_open shm (shm + size) alloc fuel the_host sp st p flags mode
    = Ret (st', if 0 <=? fst answer then (recv (fst answer), None) else (-1, Some (snd answer))).
Proof.
  intros st sp p s fd flags mode CR PS Hf Hm R.
  destruct (open_end_to_end shm size hdr alloc fuel maxn calls oks t np k recv eff HC RH LK RV
              st sp p s _ flags mode CR PS Hf Hm R) as [st' E].
  exists st'. cbv zeta. unfold the_host. rewrite E. unfold open_result. cbn [none_left]. reflexivity.
Qed.

(** ** The system call open and openat *)

(** C76 (limit): the trapped system call open of a path beneath an exported
    directory, without O_CREAT and O_TMPFILE, fails with EINVAL whenever the
    register that would hold a mode is not 0 (in its low 32 bits), although the
    call does not use that register. *)
Theorem open_trap_unused_register_refuted : forall st sp p s fd tail flags proc dup f,
  openat2_kernel k ->
  child_ready shm size hdr alloc maxn st sp -> program_string st maxn fuel sp p s ->
  - 2 ^ 31 <= flags < 2 ^ 31 -> creates flags = false ->
  resolves (combine calls oks) s (inr (fd, tail)) -> tail <> [] ->
  f_code f = 1 -> f_sysno f = 2 -> argument f 0 = p -> int_of (argument f 1) = flags -> argument f 2 mod 2 ^ 32 <> 0 ->
  exists st' f', emulate shm (shm + size) alloc fuel the_host proc dup sp st f = Ret (st', f') /\
    libc_view (f_rax f') = (-1, Some 22) /\ f_rip f' = f_call_addr f.
Proof.
  intros st sp p s fd tail flags proc dup f OK CR PS Hf C R ET Fc Fn F0 F1 F2.
  assert (Hm : 0 <= argument f 2 mod 2 ^ 32 < 2 ^ 32) by (apply Z.mod_pos_bound; lia).
  destruct (open_trap_end_to_end shm size hdr alloc fuel maxn calls oks t np k recv eff HC RH LK RV
              st sp p s _ flags (argument f 2 mod 2 ^ 32) proc dup f CR PS Hf Hm R Fc Fn F0 F1 eq_refl)
    as (st' & f' & E & V & I).
  exists st', f'. split; [exact E|]. split; [|exact I]. rewrite V. unfold open_result. destruct tail; [congruence|]. cbn [none_left].
  rewrite OK; [reflexivity|]. unfold acceptable. rewrite creates_wrap, C. exact F2.
Qed.

(** C76 (limit): so does openat, as a function and as a system call, of a
    relative path; the library then sees errno 1 (C25). *)
Theorem openat_unused_argument_refuted : forall st sp p s proc dup dirfd flags mode,
  openat2_kernel k ->
  child_ready shm size hdr alloc maxn st sp -> program_string st maxn fuel sp p s ->
  (exists r, proc = slash :: r) -> hd_error s <> Some slash ->
  - 2 ^ 31 <= flags < 2 ^ 31 -> creates flags = false -> 0 < mode < 2 ^ 32 -> 0 <= dirfd ->
  exists st', posix_openat shm (shm + size) alloc fuel the_host proc dup sp st dirfd p flags mode
    = Ret (st', (-1, Some 1)).
Proof.
  intros st sp p s proc dup dirfd flags mode OK CR PS PR NS Hf C Hm Hd.
  destruct (openat_end_to_end_limit shm size hdr alloc fuel maxn t np k recv eff LK
              st sp p s proc dup dirfd flags mode CR PS PR NS Hf ltac:(lia) Hd) as [st' E].
  exists st'. unfold the_host. rewrite E. rewrite OK; [reflexivity|]. unfold acceptable. rewrite creates_wrap, C. lia.
Qed.
End O.
Print Assumptions open_without_create_ignores_mode.
Print Assumptions open_asks_what_the_library_passed.
Print Assumptions open_tmpfile_loses_mode.
Print Assumptions open_exported_file_ignores_flags.
Print Assumptions open_trap_unused_register_refuted.
Print Assumptions openat_unused_argument_refuted.

(** ** The hypotheses are met *)

Definition strict_kernel : kernel := fun log op =>
  match op with
  | KOpenat2 _ _ flags mode _ =>
    if (if creates flags then (0 <=? mode) && (mode <=? 4095) else mode =? 0) then (40, 0) else (-1, 22)
  | KDup _ => (41, 0)
  | _ => (0, 0)
  end.
Example strict_linux : linux_kernel strict_kernel /\ openat2_kernel strict_kernel.
Proof.
  split.
  - intros log op. unfold strict_kernel. destruct op; try lia.
    destruct (if creates flags then _ else _); lia.
  - intros log fd path flags mode resolve N. unfold strict_kernel, acceptable in *.
    destruct (creates flags).
    + destruct ((0 <=? mode) && (mode <=? 4095)) eqn:E; [|reflexivity]. lia.
    + destruct (Z.eqb_spec mode 0); [contradiction|reflexivity].
Qed.

(** open("/usr/lib/a", O_RDONLY) in the demonstration: the function succeeds
    with any third argument, the system call fails when rdx holds 7. *)
Example demo_open_mode : exists t st' st'' f',
  let the_host := host_process strict_kernel t new_netpolicy (library_heap 1000000 100000 16) demo_recv (fun _ => []) in
  run_host demo_calls = Ret ([true; true; false; true; true], t) /\
  posix_open 1000000 1100000 demo_alloc 100 the_host 2000 demo_child 1000 0 7 = Ret (st', (9, None)) /\
  emulate 1000000 1100000 demo_alloc 100 the_host [slash] (fun _ => -1) 2000 demo_child
    (Frame 1 2 7000 2 7002 [1000; 0; 7; 0; 0; 0]) = Ret (st'', f') /\
  libc_view (f_rax f') = (-1, Some 22) /\ f_rip f' = 7000.
Proof.
  destruct demo_exports as (t & RH & RS). destruct strict_linux as [SL SO].
  assert (RV : forall f, 0 <= f -> 0 <= demo_recv f < 2 ^ 31) by (intros; unfold demo_recv; lia).
  destruct (open_asks_what_the_library_passed 1000000 100000 16 demo_alloc 100 4096 demo_calls _ t new_netpolicy
    strict_kernel demo_recv (fun _ => []) filetree_ex_calls RH SL RV demo_child 2000 1000 demo_text _ _ 0 7
    demo_ready demo_string ltac:(lia) ltac:(lia) RS ltac:(discriminate) ltac:(discriminate)) as (st' & mode' & A & _ & E).
  destruct (open_trap_unused_register_refuted 1000000 100000 16 demo_alloc 100 4096 demo_calls _ t new_netpolicy
    strict_kernel demo_recv (fun _ => []) filetree_ex_calls RH SL RV demo_child 2000 1000 demo_text _ _ 0 [slash] (fun _ => -1)
    (Frame 1 2 7000 2 7002 [1000; 0; 7; 0; 0; 0]) SO
    demo_ready demo_string ltac:(lia) eq_refl RS ltac:(discriminate) eq_refl eq_refl eq_refl eq_refl ltac:(discriminate))
    as (st'' & f' & E1 & E2 & E3).
  exists t, st', st'', f'. cbv zeta. cbv zeta in E. split; [exact RH|]. split.
  { change (acceptable 0 mode') with (mode' = 0) in A. subst mode'. exact E. }
  split; [exact E1|]. split; [exact E2|exact E3].
Qed.
