(** Claimed theorems about the file-system callbacks (C23, C25). *)
From Coq Require Import String Ascii List ZArith Lia Bool.
From Verif Require Import Base PathModel PathSpec PathProof PathProps FileTreeModel FileTreeSpec FileTreeProof
  FileTreeProps RegionModel RegionSpec RegionProof DispatchModel HostCallsModel HostCallsSpec HostCallsProof.
Import ListNotations.
Open Scope Z_scope.

(** C23: open.  At most one operation: duplicate an exported file, or open a
    path beneath an exported directory. *)
Theorem fs_open_confined : forall calls oks t shm size hdr k rd in_path flags mode,
  host_calls calls -> run_host calls = Ret (oks, t) -> mapping_ok shm size hdr -> is_word in_path ->
  let h := library_heap shm size hdr in
  let ex := combine calls oks in
  exists res ops, handle_open k t h rd true in_path flags mode [] = Ret (res, ops) /\
  (refused (shm + 2 * hdr) (shm + size) ex rd in_path res ops \/
   (exists q fd, exported_file ex q fd /\ request_names (shm + 2 * hdr) (shm + size) rd in_path q /\
      ops = [KDup fd] /\ answers_fd (k [] (KDup fd)) res) \/
   (exists q fd tail p, exported_dir ex q fd /\ request_names (shm + 2 * hdr) (shm + size) rd in_path (q ++ tail) /\
      beneath_path p tail /\
      let op := KOpenat2 fd (Some p) (wrap flags) mode 8 in ops = [op] /\ answers_fd (k [] op) res)).
Proof.
  intros calls oks t shm size hdr k rd in_path flags mode HC RH M Wp h ex.
  destruct (path_syscall_cases _ _ _ _ _ _ rd in_path HC RH M Wp) as [[Y A]|[[Y A]|(fd & tail & q & A & R & D)]];
    unfold handle_open, h; rewrite A.
  1,2: eexists _, _; split; [reflexivity|left; split; auto].
  destruct D as [[D1 D2]|(D1 & D2 & D3)].
  - unfold is_empty. rewrite D1 in *. cbn [negb kcall]. eexists _, _. split; [reflexivity|].
    right; left. exists q, fd. rewrite app_nil_r in R. split; [auto|]. split; [auto|]. split; [reflexivity|apply return_fd_answers].
  - unfold is_empty. destruct (comps tail) as [|c r] eqn:E; [congruence|]. cbn [negb].
    unfold openat_beneath, kcall. eexists _, _. split; [reflexivity|].
    right; right. exists q, fd, (c :: r), (str tail). split; [auto|]. split; [auto|]. split; [auto|]. split; [reflexivity|apply return_fd_answers].
Qed.
Print Assumptions fs_open_confined.

(** C23: stat.  The answer goes to a block inside the sandbox only. *)
Theorem fs_stat_confined : forall calls oks t shm size hdr k rd in_path statbuf stat_size,
  host_calls calls -> run_host calls = Ret (oks, t) -> mapping_ok shm size hdr ->
  is_word in_path -> is_word statbuf -> is_word stat_size -> 0 < stat_size ->
  let h := library_heap shm size hdr in
  let ex := combine calls oks in
  exists res ops, handle_stat k t h rd true stat_size in_path statbuf [] = Ret (res, ops) /\
  (refused (shm + 2 * hdr) (shm + size) ex rd in_path res ops \/
   (res = Result (-22) None /\ ops = [] /\ ~ block_within (shm + 2 * hdr) (shm + size) statbuf stat_size) \/
   (block_within (shm + 2 * hdr) (shm + size) statbuf stat_size /\
    ((exists q fd, exported_file ex q fd /\ request_names (shm + 2 * hdr) (shm + size) rd in_path q /\
        ops = [KFstat fd statbuf] /\ answers_int (k [] (KFstat fd statbuf)) res) \/
     (exists q fd tail p rest, exported_dir ex q fd /\
        request_names (shm + 2 * hdr) (shm + size) rd in_path (q ++ tail) /\ beneath_path p tail /\
        let op := KOpenat2 fd (Some p) 2097152 0 8 in let pfd := fst (k [] op) in let op2 := KFstatat pfd [] statbuf 4096 in
        ops = op :: rest /\
        (pfd < 0 /\ rest = [] /\ res = Result (- snd (k [] op)) None \/
         0 <= pfd /\ rest = [op2; KClose pfd] /\ answers_int (k [op] op2) res))))).
Proof.
  intros calls oks t shm size hdr k rd in_path statbuf ssz HC RH M Wp Wb Wz Pz h ex.
  destruct (path_syscall_cases _ _ _ _ _ _ rd in_path HC RH M Wp) as [[Y A]|[[Y A]|(fd & tail & q & A & R & D)]];
    unfold handle_stat, h; rewrite A.
  1,2: eexists _, _; split; [reflexivity|left; split; auto].
  unfold check_pointer.
  destruct (contains (library_heap shm size hdr) statbuf ssz) eqn:C.
  2:{ eexists _, _. split; [reflexivity|]. right; left. split; [reflexivity|]. split; [reflexivity|]. intros B.
      enough (contains (library_heap shm size hdr) statbuf ssz = true) by congruence. apply contains_iff; auto.
      pose proof (B statbuf ltac:(lia)). pose proof (B (statbuf + ssz - 1) ltac:(lia)). lia. }
  apply contains_iff in C; auto.
  assert (B : block_within (shm + 2 * hdr) (shm + size) statbuf ssz) by (intros x Hx; lia).
  destruct (Z.eqb_spec statbuf 0) as [->|N].
  { unfold mapping_ok in M. lia. }
  cbn [negb]. destruct D as [[D1 D2]|(D1 & D2 & D3)].
  - unfold is_empty. rewrite D1 in *. cbn [kcall]. eexists _, _. split; [reflexivity|].
    right; right. split; [exact B|]. left. exists q, fd. rewrite app_nil_r in R. split; [auto|]. split; [auto|]. split; [reflexivity|apply return_int_answers].
  - unfold is_empty. destruct (comps tail) as [|c r] eqn:E; [congruence|].
    unfold fstatat_beneath, via_path_handle, openat_beneath, kcall.
    change (wrap o_path) with 2097152. change resolve_beneath with 8.
    change (Z.lor 0 at_empty_path) with 4096. cbn [fst snd app].
    destruct (Z.ltb_spec (fst (k [] (KOpenat2 fd (Some (str tail)) 2097152 0 8))) 0);
      eexists _, _; (split; [reflexivity|]); right; right; (split; [exact B|]); right;
      exists q, fd, (c :: r), (str tail); eexists; (split; [exact D2|]); (split; [exact R|]);
      (split; [exact D3|]); (split; [reflexivity|]); [left; auto|right; split; [auto|]; split; [reflexivity|apply return_int_answers]].
Qed.
Print Assumptions fs_stat_confined.

(** C23: access. *)
Theorem fs_access_confined : forall calls oks t shm size hdr k rd in_path mode,
  host_calls calls -> run_host calls = Ret (oks, t) -> mapping_ok shm size hdr -> is_word in_path ->
  let h := library_heap shm size hdr in
  let ex := combine calls oks in
  exists res ops, handle_access k t h rd true in_path mode [] = Ret (res, ops) /\
  (refused (shm + 2 * hdr) (shm + size) ex rd in_path res ops \/
   exists q fd tail path rest,
     request_names (shm + 2 * hdr) (shm + size) rd in_path (q ++ tail) /\
     ((exported_file ex q fd /\ tail = [] /\ path = None) \/
      (exported_dir ex q fd /\ exists p, path = Some p /\ beneath_path p tail)) /\
     let op := KOpenat2 fd path 2097152 0 8 in let pfd := fst (k [] op) in let op2 := KFaccessat2 pfd [] mode 4096 in
     ops = op :: rest /\
     (pfd < 0 /\ rest = [] /\ res = Result (- snd (k [] op)) None \/
      0 <= pfd /\ rest = [op2; KClose pfd] /\ answers_int (k [op] op2) res)).
Proof.
  intros calls oks t shm size hdr k rd in_path mode HC RH M Wp h ex.
  destruct (path_syscall_cases _ _ _ _ _ _ rd in_path HC RH M Wp) as [[Y A]|[[Y A]|(fd & tail & q & A & R & D)]];
    unfold handle_access, h; rewrite A.
  1,2: eexists _, _; split; [reflexivity|left; split; auto].
  unfold faccessat_beneath, via_path_handle, openat_beneath, kcall.
  change (wrap o_path) with 2097152. change resolve_beneath with 8.
  change (Z.lor 0 at_empty_path) with 4096. cbn [fst snd app].
  set (path := if is_empty tail then None else Some (str tail)).
  assert (P : (exported_file ex q fd /\ comps tail = [] /\ path = None) \/
      (exported_dir ex q fd /\ exists p, path = Some p /\ beneath_path p (comps tail))).
  { unfold path, is_empty. destruct D as [[D1 D2]|(D1 & D2 & D3)].
    - left. rewrite D1. auto.
    - right. destruct (comps tail); [congruence|]. eauto. }
  destruct (Z.ltb_spec (fst (k [] (KOpenat2 fd path 2097152 0 8))) 0);
    eexists _, _; (split; [reflexivity|]); right; exists q, fd, (comps tail), path; eexists;
    (split; [exact R|]); (split; [exact P|]); (split; [reflexivity|]);
    [left; auto|right; split; [auto|]; split; [reflexivity|apply return_int_answers]].
Qed.
Print Assumptions fs_access_confined.

(** C23: openat.  Exactly one operation, beneath the descriptor the sandbox
    itself sent (an invalid one if it sent none), which is then closed. *)
Theorem fs_openat_confined : forall shm size hdr k rd in_path flags mode in_fd,
  mapping_ok shm size hdr -> is_word in_path ->
  let h := library_heap shm size hdr in
  exists res path, handle_openat k h rd true in_path flags mode in_fd []
    = Ret (res, KOpenat2 (match in_fd with Some f => f | None => -1 end) path (wrap flags) mode 8
                :: match in_fd with Some f => [KClose f] | None => [] end) /\
    string_or_null (shm + 2 * hdr) (shm + size) rd in_path path.
Proof.
  intros shm size hdr k rd in_path flags mode in_fd M Wp h. unfold handle_openat, h.
  destruct (get_path_total shm size hdr rd in_path M Wp) as (o & G & _ & RD). rewrite G. cbn [obind].
  unfold openat_beneath, kcall. exists (Result (fst (k [] (KOpenat2 (match in_fd with Some f => f | None => -1 end) o (wrap flags) mode resolve_beneath))) None), o.
  split; [|exact RD]. destruct in_fd; reflexivity.
Qed.
Print Assumptions fs_openat_confined.

(** A string the sandbox leaves alone is read as it is. *)
Lemma stable_read shm size hdr m in_path s :
  mapping_ok shm size hdr -> is_word in_path -> shm + 2 * hdr <= in_path -> in_path + Z.of_nat (length s) < shm + size ->
  cstring_at m in_path s -> get_path (library_heap shm size hdr) (fun _ a => m a) true in_path = Ret (Some s).
Proof.
  intros M Wp A B C. unfold get_path.
  destruct (strdup_out_total shm size hdr (fun _ a => m a) in_path) as [[[buf|] tr] E].
  - destruct (strdup_out_stable_some _ _ _ _ _ _ _ M Wp E) as (s' & -> & C' & _).
    rewrite <- (cstring_unique _ _ _ _ C C') in *. rewrite E. cbn [obind dup_buf].
    assert (V : forall l, (forall i c, nth_error l i = Some c -> c <> nul) -> c_view (l ++ [nul]) = Some l).
    { induction l as [|c l IH]; intros H; [reflexivity|]. cbn.
      destruct (ascii_dec c nul) as [->|]; [exfalso; exact (H 0%nat nul eq_refl eq_refl)|].
      rewrite IH; [reflexivity|]. intros i d Hd. exact (H (S i) d Hd). }
    rewrite V; [reflexivity|]. intros i c Hi. apply (proj1 C i c Hi).
  - exfalso. destruct (strdup_out_stable_none _ _ _ _ _ _ M Wp E) as [X|[X|X]]; try lia.
    specialize (X s C). lia.
Qed.

(** The decision for such a string. *)
Lemma stable_decision calls oks t shm size hdr m in_path s segs :
  host_calls calls -> run_host calls = Ret (oks, t) -> mapping_ok shm size hdr -> is_word in_path ->
  shm + 2 * hdr <= in_path -> in_path + Z.of_nat (length s) < shm + size ->
  cstring_at m in_path s -> segments_of s segs ->
  let names := rev (follow (fun n c => c :: n) (@tl text) [] segs) in
  let asked handler := handle_path_syscall t (library_heap shm size hdr) (fun _ a => m a) true in_path [] handler in
  exists v, history (combine calls oks) v /\
  (climbs_above_start segs -> forall handler, asked handler = Ret (Result (-22) None, [])) /\
  (~ climbs_above_start segs -> (forall fd, v names <> AFile fd) ->
     (forall q tail fd, names = q ++ tail -> tail <> [] -> v q <> ADir fd) -> forall handler, asked handler = Ret (Result (-2) None, [])) /\
  (~ climbs_above_start segs -> forall fd, v names = AFile fd -> forall handler, asked handler = Ret (handler fd (mkPath false []))) /\
  (~ climbs_above_start segs -> forall q tail fd, names = q ++ tail -> tail <> [] -> v q = ADir fd ->
     forall handler, asked handler = Ret (handler fd (mkPath false tail))).
Proof.
  intros HC RH M Wp A B C SG names asked.
  destruct (filetree_refines_export_history _ HC) as (oks' & t' & v & RH' & _ & Hv & Lv).
  assert (oks' = oks /\ t' = t) as [-> ->] by (split; congruence). clear RH'. exists v. split; [exact Hv|].
  pose proof (stable_read _ _ _ _ _ _ M Wp A B C) as G.
  destruct (path_of_cstr_total s) as [p P]. destruct (parse_segments _ _ P) as (_ & segs' & SG' & NE).
  rewrite (path_segments_unique _ _ _ SG' SG) in NE. clear segs' SG'.
  pose proof (canonicalise_fails_iff p) as F. rewrite <- climbs_nonempty, <- NE, climbs_nonempty in F.
  unfold asked, handle_path_syscall. rewrite G. cbn [obind]. rewrite P. cbn [obind].
  destruct (canonicalise p) as [ok [a cs]] eqn:Cn. cbn [fst] in F.
  split; [intros X handler; apply F in X; subst ok; reflexivity|].
  assert (K : ~ climbs_above_start segs -> ok = true /\ cs = names).
  { intros X. destruct ok; [|exfalso; apply X, F; reflexivity]. split; [reflexivity|].
    pose proof (canonicalise_normal_form _ _ Cn) as NF. cbn [comps] in NF. unfold names.
    rewrite NF, <- (follow_nonempty _ _ _ segs), NE, follow_nonempty. reflexivity. }
  split; [|split]; intros X; destruct (K X) as [-> ->]; cbn [negb].
  - intros N1 N2 handler. destruct (lookup_file t (mkPath a names)) as [[fd tail]|] eqn:L; [|reflexivity]. exfalso.
    apply Lv in L as (_ & [[_ D]|(D1 & q & D2 & D3)]); [exact (N1 _ D)|exact (N2 _ _ _ D2 D1 D3)].
  - intros fd D handler. assert (L : lookup_file t (mkPath a names) = Some (fd, mkPath false [])) by (apply Lv; cbn; auto).
    rewrite L. reflexivity.
  - intros q tail fd E N D handler. assert (L : lookup_file t (mkPath a names) = Some (fd, mkPath false tail)) by (apply Lv; cbn; split; [auto|right; eauto]).
    rewrite L. reflexivity.
Qed.

(** C23: the decision and the answer, for a string the sandbox leaves alone. *)
Theorem fs_open_answer : forall calls oks t shm size hdr k m in_path s segs flags mode,
  host_calls calls -> run_host calls = Ret (oks, t) -> mapping_ok shm size hdr -> is_word in_path ->
  shm + 2 * hdr <= in_path -> in_path + Z.of_nat (length s) < shm + size ->
  cstring_at m in_path s -> segments_of s segs ->
  let names := rev (follow (fun n c => c :: n) (@tl text) [] segs) in
  let answer := handle_open k t (library_heap shm size hdr) (fun _ a => m a) true in_path flags mode [] in
  exists v, history (combine calls oks) v /\
  (climbs_above_start segs -> answer = Ret (Result (-22) None, [])) /\
  (~ climbs_above_start segs -> (forall fd, v names <> AFile fd) ->
     (forall q tail fd, names = q ++ tail -> tail <> [] -> v q <> ADir fd) -> answer = Ret (Result (-2) None, [])) /\
  (~ climbs_above_start segs -> forall fd, v names = AFile fd ->
     exists res, answer = Ret (res, [KDup fd]) /\ answers_fd (k [] (KDup fd)) res) /\
  (~ climbs_above_start segs -> forall q tail fd, names = q ++ tail -> tail <> [] -> v q = ADir fd ->
     let op := KOpenat2 fd (Some (joined tail)) (wrap flags) mode 8 in
     exists res, answer = Ret (res, [op]) /\ answers_fd (k [] op) res).
Proof.
  intros calls oks t shm size hdr k m in_path s segs flags mode HC RH M Wp A B C SG names answer.
  destruct (stable_decision _ _ _ _ _ _ _ _ _ _ HC RH M Wp A B C SG) as (v & Hv & D1 & D2 & D3 & D4). exists v.
  split; [exact Hv|]. unfold answer, handle_open. split; [intros X; apply D1, X|]. split; [intros; apply D2; auto|]. split.
  - intros X fd E. rewrite (D3 X fd E). cbn. eexists. split; [reflexivity|apply return_fd_answers].
  - intros X q tail fd E N Q. rewrite (D4 X q tail fd E N Q). unfold is_empty. cbn [comps]. destruct tail as [|c r]; [congruence|].
    cbn [negb]. unfold openat_beneath, kcall. unfold str. cbn [is_abs]. rewrite str_loop_false.
    eexists. split; [reflexivity|apply return_fd_answers].
Qed.
Print Assumptions fs_open_answer.

(** C25: openat answers with the number the host's descriptor has in the host,
    sends no descriptor, and never closes the one it opened. *)
Theorem openat_leaks_host_descriptor : forall shm size hdr k rd in_path flags mode in_fd r e,
  mapping_ok shm size hdr -> is_word in_path ->
  let h := library_heap shm size hdr in
  let dirfd := match in_fd with Some f => f | None => -1 end in
  (forall path, string_or_null (shm + 2 * hdr) (shm + size) rd in_path path ->
     k [] (KOpenat2 dirfd path (wrap flags) mode 8) = (r, e)) -> 0 <= r -> r <> dirfd ->
  exists ops, handle_openat k h rd true in_path flags mode in_fd [] = Ret (Result r None, ops) /\
    ~ In (KClose r) ops.
Proof.
  intros shm size hdr k rd in_path flags mode in_fd r e M Wp h dirfd K R N.
  destruct (get_path_total shm size hdr rd in_path M Wp) as (path & G & _ & RD). specialize (K _ RD).
  unfold handle_openat, h in *. rewrite G. cbn [obind]. unfold openat_beneath, kcall.
  change resolve_beneath with 8. fold dirfd. rewrite K. cbn [fst].
  eexists. split; [reflexivity|]. unfold dirfd in N. destruct in_fd as [f|]; cbn.
  - intros [X|[X|[]]]; [discriminate|]. injection X as ->. congruence.
  - intros [X|[]]. discriminate.
Qed.
Print Assumptions openat_leaks_host_descriptor.

(** C25: whatever the error, openat answers with the raw -1. *)
Theorem openat_loses_errno : forall shm size hdr k rd in_path flags mode in_fd,
  mapping_ok shm size hdr -> is_word in_path ->
  let h := library_heap shm size hdr in
  (forall path, string_or_null (shm + 2 * hdr) (shm + size) rd in_path path ->
     fst (k [] (KOpenat2 (match in_fd with Some f => f | None => -1 end) path (wrap flags) mode 8)) = -1) ->
  exists ops, handle_openat k h rd true in_path flags mode in_fd [] = Ret (Result (-1) None, ops).
Proof.
  intros shm size hdr k rd in_path flags mode in_fd M Wp h K.
  destruct (get_path_total shm size hdr rd in_path M Wp) as (path & G & _ & RD). specialize (K _ RD).
  unfold handle_openat, h in *. rewrite G. cbn [obind]. unfold openat_beneath, kcall.
  change resolve_beneath with 8. rewrite K. eexists. reflexivity.
Qed.
Print Assumptions openat_loses_errno.

(** C25: access on an exported file opens a null path; on a kernel that
    rejects null paths with EFAULT (14) it always fails with EFAULT. *)
Theorem access_exported_file_always_efault : forall calls oks t shm size hdr k m in_path s segs mode fd,
  host_calls calls -> run_host calls = Ret (oks, t) -> mapping_ok shm size hdr -> is_word in_path ->
  shm + 2 * hdr <= in_path -> in_path + Z.of_nat (length s) < shm + size ->
  cstring_at m in_path s -> segments_of s segs -> ~ climbs_above_start segs ->
  exported_file (combine calls oks) (rev (follow (fun n c => c :: n) (@tl text) [] segs)) fd ->
  (forall log f fl mo re, k log (KOpenat2 f None fl mo re) = (-1, 14)) ->
  exists ops, handle_access k t (library_heap shm size hdr) (fun _ a => m a) true in_path mode [] = Ret (Result (-14) None, ops).
Proof.
  intros calls oks t shm size hdr k m in_path s segs mode fd HC RH M Wp A B C SG NX (v' & Hv' & E) K.
  destruct (stable_decision _ _ _ _ _ _ _ _ _ _ HC RH M Wp A B C SG) as (v & Hv & _ & _ & D3 & _).
  rewrite (history_determines _ _ _ Hv' Hv) in E.
  unfold handle_access. rewrite (D3 NX fd E). cbn. unfold faccessat_beneath, via_path_handle, openat_beneath, kcall. rewrite K. cbn.
  eexists. reflexivity.
Qed.
Print Assumptions access_exported_file_always_efault.

(** The hypotheses are met: a string "/usr/../etc//passwd" in sandbox memory,
    the tree of FileTreeProps.demo_calls. *)
Definition demo_text : text := tx "/usr/../etc//passwd".
Definition demo_mem (a : Z) : ascii := nth (Z.to_nat (a - 0x12000)) demo_text nul.

Example fs_open_demo :
  exists oks t, host_calls demo_calls /\ run_host demo_calls = Ret (oks, t) /\
    mapping_ok 0x10000 0x4000 256 /\
    handle_open (fun _ _ => (33, 0)) t (library_heap 0x10000 0x4000 256) (fun _ a => demo_mem a) true 0x12000 0 0 []
      = Ret (Result (-38) (Some 33), [KDup 14]) /\
    handle_access (fun _ o => match o with KOpenat2 _ None _ _ _ => (-1, 14) | _ => (0, 0) end) t
      (library_heap 0x10000 0x4000 256) (fun _ a => demo_mem a) true 0x12000 4 []
      = Ret (Result (-14) None, [KOpenat2 14 None 2097152 0 8]).
Proof.
  destruct filetree_ex_run as (t & R & _). exists [true; true; false; true; true], t.
  split; [exact filetree_ex_calls|]. split; [exact R|].
  vm_compute in R. injection R as <-.
  split; [unfold mapping_ok, W; lia|]. split; vm_compute; reflexivity.
Qed.

Definition demo_text2 : text := tx "/usr/lib/../lib/./libz.so".
Definition demo_mem2 (a : Z) : ascii := nth (Z.to_nat (a - 0x12000)) demo_text2 nul.
Example fs_open_demo_beneath :
  exists oks t, run_host demo_calls = Ret (oks, t) /\
    handle_open (fun _ _ => (-1, 13)) t (library_heap 0x10000 0x4000 256) (fun _ a => demo_mem2 a) true 0x12000 0 0 []
      = Ret (Result (-13) None, [KOpenat2 11 (Some (tx "./libz.so")) 0 0 8]) /\
    cstring_at demo_mem2 0x12000 demo_text2.
Proof.
  destruct filetree_ex_run as (t & R & _). exists [true; true; false; true; true], t.
  split; [exact R|]. vm_compute in R. injection R as <-. split; [vm_compute; reflexivity|].
  split; [|vm_compute; reflexivity]. intros i c H.
  do 25 (destruct i as [|i]; [injection H as <-; split; [vm_compute; reflexivity|vm_compute; discriminate]|]).
  destruct i; discriminate.
Qed.
