(** Claimed theorems about how much work a request makes the host do (C88). *)
From Coq Require Import String Ascii List ZArith Lia Bool.
From Verif Require Import Base PathModel FileTreeModel FileTreeSpec FileTreeProps RegionModel RegionSpec RegionProof RegionProps DispatchModel DispatchProps
  HostCallsModel HostCallsSpec NetProps ChildCallsModel ChildCallsSpec ChildCallsProof EffectsModel EffectsSpec EffectsProof EffectsProps WorkSpec
  BuddyModel BuddyProof MemSvcModel MemSvcSpec MemSvcProof MemSvcProps WorkModel.
Import ListNotations.
Local Open Scope Z_scope.

Lemma bytes_app a b : bytes (a ++ b) = bytes a + bytes b.
Proof. induction a as [|x a IH]; cbn [app bytes fold_right]; [reflexivity|]. fold (bytes (a ++ b)). fold (bytes a). lia. Qed.
Lemma bytes_loads l : bytes (byte_loads l) = Z.of_nat (length l).
Proof. induction l as [|x l IH]; [reflexivity|]. cbn [byte_loads map bytes fold_right snd length]. fold (byte_loads l). fold (bytes (byte_loads l)). lia. Qed.
Lemma strnlen_trace rd : forall k t p n t' tr, strnlen rd t p k = (n, t', tr) -> (length tr <= k)%nat /\ Z.of_nat (length tr) <= n + 1.
Proof.
  induction k as [|k IH]; intros t p n t' tr H; cbn [strnlen] in H; [injection H as <- _ <-; cbn; lia|].
  destruct (ascii_dec (rd t p) nul); [injection H as <- _ <-; cbn; lia|].
  destruct (strnlen rd (S t) (p + 1) k) as [[n1 t1] tr1] eqn:E. injection H as <- _ <-. apply IH in E. cbn [length]. lia.
Qed.
Lemma memcpy_trace rd : forall k t p bs t' tr, memcpy_out rd t p k = (bs, t', tr) -> length tr = k.
Proof.
  induction k as [|k IH]; intros t p bs t' tr H; cbn [memcpy_out] in H; [injection H as _ _ <-; reflexivity|].
  destruct (memcpy_out rd (S t) (p + 1) k) as [[b1 t1] tr1] eqn:E. injection H as _ _ <-. apply IH in E. cbn [length]. lia.
Qed.

Section WORK.
Variables (shm size hdr : Z).
Hypothesis M : mapping_ok shm size hdr.
Local Notation h := (library_heap shm size hdr).
Local Notation room := (size - 2 * hdr).

Lemma top_is : h_top h = shm + size.
Proof. rewrite library_heap_eq by exact M. reflexivity. Qed.
Lemma path_work rd p : is_word p -> bytes (path_loads h rd p) <= 2 * room.
Proof.
  intros Wp. unfold path_loads, strdup_out. destruct M as (M1 & M2 & M3 & M4). destruct (contains h p 1) eqn:C; [|cbn [dup_trace byte_loads map bytes fold_right]; lia].
  apply (contains_exact _ _ _ _ _ M Wp) in C; [|unfold is_word, W; lia]. rewrite top_is.
  destruct (strnlen rd 0 p (Z.to_nat (shm + size - p))) as [[n t'] tr] eqn:E. destruct (strnlen_trace _ _ _ _ _ _ _ E) as [L1 L2].
  destruct (strnlen_bound _ _ _ _ _ _ _ E) as [B _]. destruct (n =? shm + size - p) eqn:F; [cbn [dup_trace]; rewrite bytes_loads; lia|].
  destruct (memcpy_out rd t' p (Z.to_nat n)) as [[bs t2] tr2] eqn:E2. cbn [dup_trace]. rewrite bytes_loads, app_length, (memcpy_trace _ _ _ _ _ _ _ E2). lia.
Qed.
Lemma addr_work rd a n fd : bytes (addr_loads h rd a n fd) <= 4096.
Proof.
  unfold addr_loads. destruct ((_ <? 0) || (max_sockaddr <? n) || negb (contains h a n)) eqn:C; [cbn; lia|].
  destruct (memcpy_out rd 0 a (Z.to_nat n)) as [[bs t2] tr2] eqn:E2. rewrite bytes_loads, (memcpy_trace _ _ _ _ _ _ _ E2).
  apply orb_false_iff in C as [C _]. apply orb_false_iff in C as [_ C]. apply Z.ltb_ge in C. unfold max_sockaddr in C. lia.
Qed.
End WORK.

Lemma via_work k log fd p op : (length (snd (via_path_handle k log fd p op)) <= length log + 3)%nat.
Proof.
  unfold via_path_handle, openat_beneath, kcall. destruct (fst (k log _) <? 0); cbn [snd]; rewrite !app_length; cbn [length]; lia.
Qed.
Lemma path_syscall_ops vfs h rd ok p n f r ops : (forall fd tail, (length (snd (f fd tail)) <= n)%nat /\ r_fd (fst (f fd tail)) = None) ->
  handle_path_syscall vfs h rd ok p [] f = Ret (r, ops) -> (length ops <= n)%nat /\ r_fd r = None.
Proof.
  intros F. unfold handle_path_syscall. destruct (get_path h rd ok p) as [raw| | | |]; try discriminate. cbn [obind].
  destruct raw as [s|]; [|intros [= <- <-]; cbn; split; [lia|reflexivity]]. destruct (path_of_cstr s) as [q| | | |]; try discriminate. cbn [obind].
  destruct (canonicalise q) as [okc q']. destruct (negb okc); [intros [= <- <-]; cbn; split; [lia|reflexivity]|].
  destruct (lookup_file vfs q') as [[fd tail]|]; [|intros [= <- <-]; cbn; split; [lia|reflexivity]].
  intros E. specialize (F fd tail). injection E as E. rewrite E in F. exact F.
Qed.
Lemma open_ops k vfs h rd ok p fl m r ops : handle_open k vfs h rd ok p fl m [] = Ret (r, ops) -> (length ops <= 1)%nat.
Proof.
  unfold handle_open, handle_path_syscall. destruct (get_path h rd ok p) as [raw| | | |]; try discriminate. cbn [obind].
  destruct raw as [s|]; [|intros [= <- <-]; cbn; lia]. destruct (path_of_cstr s) as [q| | | |]; try discriminate. cbn [obind].
  destruct (canonicalise q) as [okc q']. destruct (negb okc); [intros [= <- <-]; cbn; lia|].
  destruct (lookup_file vfs q') as [[fd tail]|]; [|intros [= <- <-]; cbn; lia].
  unfold openat_beneath, kcall. destruct (negb (is_empty tail)); intros [= <- <-]; cbn; lia.
Qed.
Lemma return_int_fd r : r_fd (return_int r) = None.
Proof. unfold return_int. destruct (_ <=? _); reflexivity. Qed.

Lemma decoded_words tag bs vs : decode (tuple_widths tag) bs = Some vs -> forall v, In v vs -> is_word v.
Proof.
  intros D v I1. apply decode_range in D as [L D]. apply In_nth_error in I1 as [i I1].
  destruct (nth_error (tuple_widths tag) i) as [w|] eqn:N; [|apply nth_error_None in N; assert (i < length vs)%nat by (apply nth_error_Some; congruence); lia].
  specialize (D _ _ _ N I1). assert (w <= 8)%nat.
  { apply nth_error_In in N. unfold tuple_widths in N. repeat (destruct (_ =? _) in N); cbn in N; intuition lia. }
  unfold is_word, W. assert (256 ^ Z.of_nat w <= 256 ^ 8) by (apply Z.pow_le_mono_r; lia). change (2 ^ 64) with (256 ^ 8). lia.
Qed.
Lemma stat_ops k vfs h rd a b r ops (ok := true) (sz := sizeof_stat) : handle_stat k vfs h rd ok sz a b [] = Ret (r, ops) ->
  (length ops <= 3)%nat /\ r_fd r = None /\ bytes (stat_writes ops) <= 144.
Proof.
  intros E. unfold handle_stat in E. pose proof E as E'. apply (path_syscall_ops _ _ _ _ _ 3) in E'.
  - destruct E' as [E1 E2]. split; [exact E1|]. split; [exact E2|].
    unfold handle_path_syscall in E. destruct (get_path h rd ok a) as [raw| | | |]; try discriminate. cbn [obind] in E.
    destruct raw as [s|]; [|injection E as _ <-; cbn; lia]. destruct (path_of_cstr s) as [q| | | |]; try discriminate. cbn [obind] in E.
    destruct (canonicalise q) as [okc q']. destruct (negb okc); [injection E as _ <-; cbn; lia|].
    destruct (lookup_file vfs q') as [[fd tail]|]; [|injection E as _ <-; cbn; lia].
    destruct (negb _); [|injection E as _ <-; cbn; lia]. unfold fstatat_beneath, via_path_handle, openat_beneath, kcall in E.
    destruct (is_empty tail); [injection E as _ <-; cbn; unfold sizeof_stat; lia|]. destruct (fst (k [] _) <? 0); injection E as _ <-; cbn; unfold sizeof_stat; lia.
  - intros fd tail. destruct (negb _); [|cbn; split; [lia|reflexivity]].
    destruct (is_empty tail); [cbn; split; [lia|apply return_int_fd]|].
    pose proof (via_work k [] fd (Some (str tail)) (fun pfd => KFstatat pfd [] (check_pointer h sz b) (Z.lor 0 at_empty_path))) as V.
    unfold fstatat_beneath. destruct (via_path_handle _ _ _ _ _) as [r1 l1]. cbn [fst snd] in *. split; [exact V|apply return_int_fd].
Qed.
Lemma net_ops k np op ar : (length (snd (net_invoke k np [] op ar)) <= 1)%nat.
Proof. unfold net_invoke, kcall. destruct (get_policy np op); cbn; lia. Qed.
Lemma bind_ops k np h rd op a n fd r ops : handle_bind_or_connect k np h rd op a n fd [] = (r, ops) -> r_fd r = None /\ (length ops <= 2)%nat.
Proof.
  unfold handle_bind_or_connect. destruct (_ || _); [intros [= <- <-]; destruct fd; cbn; split; auto; lia|].
  destruct (memcpy_out _ _ _ _) as [[bs t2] tr]. pose proof (net_ops k np op) as L.
  destruct (net_invoke _ _ _ _ _) as [r1 l1] eqn:E. intros [= <- <-]. split; [apply return_int_fd|].
  specialize (L (NAddr match fd with Some f => f | None => -1 end (bs ++ repeat fill_byte (Z.to_nat (max_sockaddr - n))) n)). rewrite E in L. cbn in L.
  rewrite app_length. destruct fd; cbn; lia.
Qed.
Lemma bytes_stores_bytes l : bytes (map store_range (map (fun '(a, b) => SByte a b) l)) = Z.of_nat (length l).
Proof. induction l as [|[a b] l IH]; [reflexivity|]. cbn [map store_range bytes fold_right snd length]. fold (bytes (map store_range (map (fun '(a, b) => SByte a b) l))). lia. Qed.
Lemma bytes_from_length bs : forall p, length (bytes_from p bs) = length bs.
Proof. induction bs as [|b bs IH]; intros p; cbn [bytes_from length]; auto. Qed.
Lemma copy_bytes l : forall c sa, bytes (map store_range (ai_copy l c sa)) = fold_right (fun a n => 64 + Z.of_nat (length (ai_sockaddr a)) + n) 0 l.
Proof.
  induction l as [|a l IH]; intros c sa; [reflexivity|]. cbn [ai_copy fold_right]. rewrite !map_app, !bytes_app, IH.
  unfold byte_stores. rewrite bytes_stores_bytes, bytes_from_length. cbn [map store_range bytes fold_right snd]. unfold sizeof_addrinfo. lia.
Qed.
Lemma extra_le l : forall e, 0 <= e -> 0 <= fold_left (fun e a => wrap (e + ai_addrlen a)) l e <= e + fold_right (fun a n => Z.of_nat (length (ai_sockaddr a)) + n) 0 l.
Proof.
  induction l as [|a l IH]; intros e E; cbn [fold_left fold_right]; [lia|].
  assert (X : 0 <= wrap (e + ai_addrlen a) <= e + ai_addrlen a) by (unfold wrap, W, ai_addrlen; split; [apply Z.mod_pos_bound; lia|apply Z.mod_le; lia]).
  specialize (IH _ (proj1 X)). unfold ai_addrlen in X at 3. lia.
Qed.
Lemma gai_ops k np h rd1 rd2 hd resolver alloc a b c d g (ok := true) : handle_getaddrinfo k np h rd1 rd2 ok hd resolver alloc a b c d [] = Ret g ->
  exists log, bytes (map store_range (g_stores g)) <= 16 + answer_bytes (resolver log) /\ (length (g_log g) <= 1)%nat.
Proof.
  assert (An : forall l, 0 <= answer_bytes l) by (induction l; cbn [answer_bytes fold_right]; [lia|fold (answer_bytes l); lia]).
  assert (N : forall log, 0 <= 16 + answer_bytes (resolver log)) by (intros log; specialize (An (resolver log)); lia).
  unfold handle_getaddrinfo. destruct (negb (contains h d _)); [intros [= <-]; exists []; cbn; split; [apply N|lia]|].
  destruct (_ && _); [intros [= <-]; exists []; cbn; split; [apply N|lia]|].
  destruct (get_path h rd1 ok a) as [host| | | |]; try discriminate. cbn [obind]. destruct (get_path h rd2 ok b) as [service| | | |]; try discriminate. cbn [obind].
  set (ar := NNames host service _). pose proof (net_ops k np NGetAddrInfo ar) as L. destruct (net_invoke k np [] NGetAddrInfo ar) as [r log1]. cbn [snd] in L.
  destruct (fst r =? 0); [|intros [= <-]; exists []; cbn; split; [apply N|exact L]].
  destruct (0 <? _); [|intros [= <-]; exists []; cbn; split; [apply N|exact L]].
  set (l := resolver log1). destruct (alloc_array alloc 1 _) as [pl|] eqn:Al; [|intros [= <-]; exists []; cbn; split; [apply N|exact L]].
  intros [= <-]. exists log1. fold l. cbn [g_stores g_log]. split; [|exact L].
  rewrite !map_app, !bytes_app, bytes_stores_bytes, copy_bytes.
  assert (Pl : Z.of_nat (length (pl_stored pl)) <= sizeof_addrinfo * Z.of_nat (length l) + ai_extra l).
  { revert Al. unfold alloc_array. destruct (alloc_request _ _); [|discriminate].
    cbv zeta. destruct (alloc z =? 0); [discriminate|]. intros [= <-]. cbn [pl_stored].
    rewrite bytes_from_length, repeat_length. pose proof (proj1 (extra_le l 0 ltac:(lia))) as X. fold (ai_extra l) in X. unfold sizeof_addrinfo.
    rewrite Z.mul_1_r. rewrite Z2Nat.id by (unfold wrap, W; apply Z.mod_pos_bound; lia). unfold wrap, W. apply Z.mod_le; lia. }
  pose proof (proj2 (extra_le l 0 ltac:(lia))) as X. fold (ai_extra l) in X. unfold sizeof_addrinfo in Pl.
  assert (S : 48 * Z.of_nat (length l) + fold_right (fun a n => Z.of_nat (length (ai_sockaddr a)) + n) 0 l + fold_right (fun a n => 64 + Z.of_nat (length (ai_sockaddr a)) + n) 0 l = answer_bytes l).
  { clear. unfold answer_bytes. induction l as [|x l IH]; [reflexivity|]. cbn [length fold_right]. lia. }
  cbn [map store_range bytes fold_right snd sizeof_ptr]. unfold sizeof_ptr. lia.
Qed.

(** What a built-in handler does at most: operations, bytes read, bytes written
    apart from an answer of getaddrinfo; it returns a descriptor only if it opens a
    file. *)
Lemma builtin_work shm size hdr k t np rd1 rd2 hd resolver alloc tag bs fd r e : mapping_ok shm size hdr ->
  run_builtin k t np (library_heap shm size hdr) rd1 rd2 hd resolver alloc tag bs fd = Ret (r, e) ->
  bytes (e_reads e) <= Z.max 4096 (4 * (size - 2 * hdr) + 16) /\ e_replies e = [] /\
  (exists log, bytes (e_writes e) <= 144 + answer_bytes (resolver log)) /\
  ((length (e_ops e) <= 1)%nat \/ r_fd r = None /\ ((length (e_ops e) <= 2)%nat \/ (length (e_ops e) <= 3)%nat /\ (tag = K_Stat \/ tag = K_Access))).
Proof.
  intros M. pose proof M as (M1 & M2 & M3 & M4).
  assert (An : forall l, 0 <= answer_bytes l) by (induction l; cbn [answer_bytes fold_right]; [lia|fold (answer_bytes l); lia]).
  assert (Nothing : forall r0, Ret (r0, no_effects) = Ret (r, e) -> 
    bytes (e_reads e) <= Z.max 4096 (4 * (size - 2 * hdr) + 16) /\ e_replies e = [] /\ (exists log, bytes (e_writes e) <= 144 + answer_bytes (resolver log)) /\
    ((length (e_ops e) <= 1)%nat \/ r_fd r = None /\ ((length (e_ops e) <= 2)%nat \/ (length (e_ops e) <= 3)%nat /\ (tag = K_Stat \/ tag = K_Access)))).
  { intros r0 [= <- <-]. cbn [no_effects e_reads e_replies e_writes e_ops bytes fold_right length]. split; [lia|]. split; [reflexivity|]. split; [exists []; specialize (An (resolver [])); lia|left; lia]. }
  unfold run_builtin. destruct (decode (tuple_widths tag) bs) as [vs|] eqn:D; [|apply Nothing].
  pose proof (decoded_words _ _ _ D) as Ra.
  destruct vs as [|a [|b [|c [|d [|]]]]]; try (apply Nothing).
  - pose proof (Ra a (or_introl eq_refl)) as Wa. destruct (Z.eqb_spec tag K_Stat) as [T|T]; [|destruct (Z.eqb_spec tag K_Access) as [T'|T']; [|apply Nothing]].
    + destruct (handle_stat _ _ _ _ _ _ _ _ _) as [[r0 ops]| | | |] eqn:E; try discriminate. cbn [obind]. intros [= -> <-]. cbn [e_reads e_replies e_writes e_ops].
      pose proof (path_work shm size hdr M rd1 a Wa). split; [lia|]. split; [reflexivity|]. 
      pose proof (stat_ops _ _ _ _ _ _ _ _ E) as (S1 & S2 & S3). split; [exists []; specialize (An (resolver [])); lia|]. right. auto.
    + destruct (handle_access _ _ _ _ _ _ _ _) as [[r0 ops]| | | |] eqn:E; try discriminate. cbn [obind]. intros [= -> <-]. cbn [e_reads e_replies e_writes e_ops].
      pose proof (path_work shm size hdr M rd1 a Wa). split; [lia|]. split; [reflexivity|]. split; [exists []; specialize (An (resolver [])); cbn [bytes fold_right]; lia|].
      unfold handle_access in E. apply (path_syscall_ops _ _ _ _ _ 3) in E; [destruct E; right; auto|]. intros f0 tl.
      pose proof (via_work k [] f0 (if is_empty tl then None else Some (str tl)) (fun pfd => KFaccessat2 pfd [] (to_int32 b) (Z.lor 0 at_empty_path))) as V.
      unfold faccessat_beneath. destruct (via_path_handle _ _ _ _ _) as [r1 l1]. cbn [fst snd] in *. split; [exact V|apply return_int_fd].
  - destruct (Z.eqb_spec tag K_Open) as [T|T]; [|destruct (Z.eqb_spec tag K_Bind) as [T'|T']; [|destruct (Z.eqb_spec tag K_Connect) as [T2|T2]; [|apply Nothing]]].
    + pose proof (Ra a (or_introl eq_refl)) as Wa. destruct (handle_open _ _ _ _ _ _ _ _ _) as [[r0 ops]| | | |] eqn:E; try discriminate. cbn [obind]. intros [= -> <-]. cbn [e_reads e_replies e_writes e_ops].
      pose proof (path_work shm size hdr M rd1 a Wa). split; [lia|]. split; [reflexivity|]. split; [exists []; specialize (An (resolver [])); cbn [bytes fold_right]; lia|]. left. exact (open_ops _ _ _ _ _ _ _ _ _ _ E).
    + destruct (handle_bind_or_connect _ _ _ _ _ _ _ _ _) as [r0 ops] eqn:E. intros [= -> <-]. cbn [e_reads e_replies e_writes e_ops].
      pose proof (addr_work shm size hdr rd1 b c fd). split; [lia|]. split; [reflexivity|]. split; [exists []; specialize (An (resolver [])); cbn [bytes fold_right]; lia|].
      destruct (bind_ops _ _ _ _ _ _ _ _ _ _ E). right. auto.
    + destruct (handle_bind_or_connect _ _ _ _ _ _ _ _ _) as [r0 ops] eqn:E. intros [= -> <-]. cbn [e_reads e_replies e_writes e_ops].
      pose proof (addr_work shm size hdr rd1 b c fd). split; [lia|]. split; [reflexivity|]. split; [exists []; specialize (An (resolver [])); cbn [bytes fold_right]; lia|].
      destruct (bind_ops _ _ _ _ _ _ _ _ _ _ E). right. auto.
  - destruct (Z.eqb_spec tag K_OpenAt) as [T|T]; [|destruct (Z.eqb_spec tag K_GetAddrInfo) as [T'|T']; [|apply Nothing]].
    + pose proof (Ra b (or_intror (or_introl eq_refl))) as Wb. unfold handle_openat. destruct (get_path _ _ _ _) as [raw| | | |]; try discriminate. cbn [obind].
      unfold openat_beneath, kcall. intros [= <- <-]. cbn [e_reads e_replies e_writes e_ops r_fd].
      pose proof (path_work shm size hdr M rd1 b Wb). split; [lia|]. split; [reflexivity|]. split; [exists []; specialize (An (resolver [])); cbn [bytes fold_right]; lia|].
      right. split; [reflexivity|]. left. destruct fd; cbn; lia.
    + pose proof (Ra a (or_introl eq_refl)) as Wa. pose proof (Ra b (or_intror (or_introl eq_refl))) as Wb.
      destruct (handle_getaddrinfo _ _ _ _ _ _ _ _ _ _ _ _ _ _) as [g| | | |] eqn:E; try discriminate. cbn [obind]. intros [= <- <-]. cbn [e_reads e_replies e_writes e_ops].
      split; [|split; [reflexivity|]].
      * unfold gai_loads. pose proof (path_work shm size hdr M rd1 a Wa). pose proof (path_work shm size hdr M rd2 b Wb).
        destruct (negb (contains _ d _)); [cbn [bytes fold_right]; lia|]. destruct (_ && _); [cbn [bytes fold_right]; lia|]. rewrite !bytes_app. destruct (c =? 0); cbn [bytes fold_right snd]; lia.
      * destruct (gai_ops _ _ _ _ _ _ _ _ _ _ _ _ _ E) as (log & G1 & G2). split; [exists log; specialize (An (resolver log)); lia|left; exact G2].
Qed.
Lemma slot_size n tag sz tk : nth_error (d_handlers (new_dispatcher tuple_size)) n = Some (SFn tag sz tk) -> 0 <= sz <= 32.
Proof. intros E. do 7 (destruct n as [|n]; [vm_compute in E; injection E as _ <- _; lia|]). vm_compute in E. destruct n; discriminate. Qed.

(** C88: whatever a callback request of a sandbox contains and however the sandbox
    changes its memory meanwhile, the host makes at most four system calls for it,
    reads at most four times as many bytes as the sandbox's heap has (and a constant),
    writes no more than a struct stat or twice the answer of getaddrinfo, and sends
    one reply. *)
Theorem request_work_bounded shm size hdr k t np rd0 rd1 rd2 hd resolver alloc rq sent e : mapping_ok shm size hdr ->
  serve k t np (library_heap shm size hdr) rd1 rd2 hd resolver alloc rd0 rq sent = Ret e ->
  (length (e_ops e) <= 4)%nat /\
  bytes (e_reads e) <= Z.max 4096 (4 * (size - 2 * hdr) + 16) + 32 /\
  (exists log, bytes (e_writes e) <= 144 + answer_bytes (resolver log)) /\
  length (e_replies e) = 1%nat.
Proof.
  intros M E. pose proof M as (M1 & M2 & M3 & M4).
  assert (An : forall l, 0 <= answer_bytes l) by (induction l; cbn [answer_bytes fold_right]; [lia|fold (answer_bytes l); lia]).
  assert (Short : forall i f rest, all_effects k t np (library_heap shm size hdr) rd1 rd2 hd resolver alloc (close_opt f ++ [AReply i None] ++ [] ++ close_opt rest) = Ret e ->
    (length (e_ops e) <= 4)%nat /\ bytes (e_reads e) <= Z.max 4096 (4 * (size - 2 * hdr) + 16) + 32 /\ (exists log, bytes (e_writes e) <= 144 + answer_bytes (resolver log)) /\ length (e_replies e) = 1%nat).
  { intros i f rest X. destruct f, rest; cbn in X; injection X as <-; cbn [and_then no_effects app e_ops e_reads e_writes e_replies bytes fold_right length].
    all: (split; [lia|]; split; [lia|]; split; [exists []; specialize (An (resolver [])); lia|reflexivity]). }
  unfold serve, handle, select_handler in E.
  destruct (cr_kind rq <? _); [|apply (Short (- ENOSYS) None sent); exact E].
  destruct (nth_error _ _) as [s|] eqn:Ns; [|apply (Short (- ENOSYS) None sent); exact E].
  unfold invoke in E. destruct s as [|tag sz tk]; [apply (Short (- ENOSYS) sent None); exact E|].
  destruct (negb (cr_size rq =? sz)); [apply (Short (- ENOSYS) sent None); exact E|].
  destruct (negb (contains _ (cr_data rq) (cr_size rq))); [apply (Short (- ENOSYS) sent None); exact E|].
  apply slot_size in Ns. destruct (memcpy_out rd0 0 (cr_data rq) (Z.to_nat sz)) as [[bs n] tr] eqn:Mc. apply memcpy_trace in Mc.
  assert (X : forall x c, all_effects k t np (library_heap shm size hdr) rd1 rd2 hd resolver alloc
      ((map ALoad tr ++ AInvoke tag bs x :: close_opt c) ++
       [AReply (r_int (builtin_result k t np (library_heap shm size hdr) rd1 rd2 hd resolver alloc tag bs x)) (r_fd (builtin_result k t np (library_heap shm size hdr) rd1 rd2 hd resolver alloc tag bs x))] ++
       close_opt (r_fd (builtin_result k t np (library_heap shm size hdr) rd1 rd2 hd resolver alloc tag bs x)) ++ close_opt None) = Ret e ->
      exists r eb, run_builtin k t np (library_heap shm size hdr) rd1 rd2 hd resolver alloc tag bs x = Ret (r, eb) /\
        e = and_then (Effects [] [] (byte_loads tr) []) (and_then eb (Effects (map KClose (opt_list c) ++ map KClose (opt_list (r_fd r))) [] [] [(r_int r, r_fd r)]))).
  { intros x c F. rewrite <- app_assoc, all_effects_app, loads_effects in F. cbn [obind app all_effects effects_of] in F. unfold builtin_result in F.
    destruct (run_builtin _ _ _ _ _ _ _ _ _ _ _ _) as [[r eb]| | | |]; try discriminate F. cbn [obind] in F.
    exists r, eb. split; [reflexivity|]. destruct c, (r_fd r); cbn in F; injection F as <-; reflexivity. }
  assert (Y : exists c x r eb, run_builtin k t np (library_heap shm size hdr) rd1 rd2 hd resolver alloc tag bs x = Ret (r, eb) /\
        e = and_then (Effects [] [] (byte_loads tr) []) (and_then eb (Effects (map KClose (opt_list c) ++ map KClose (opt_list (r_fd r))) [] [] [(r_int r, r_fd r)]))).
  { destruct tk.
    - destruct (X sent None E) as (r & eb & F & G). eauto 10.
    - destruct (X None sent E) as (r & eb & F & G). eauto 10. }
  destruct Y as (c & x & r & eb & F & ->). destruct (builtin_work _ _ _ _ _ _ _ _ _ _ _ _ _ _ _ _ M F) as (B1 & B2 & (log & B3) & B4).
  cbn [and_then e_ops e_reads e_writes e_replies app]. rewrite B2, !app_nil_r, bytes_app, bytes_loads, Mc. 
  split; [|split; [lia|split; [exists log; exact B3|reflexivity]]].
  rewrite !app_length, !map_length. assert (length (opt_list c) <= 1)%nat by (destruct c; cbn; lia). assert (length (opt_list (r_fd r)) <= 1)%nat by (destruct (r_fd r); cbn; lia).
  destruct B4 as [B4|[B5 B4]]; [lia|]. rewrite B5. cbn [opt_list length]. lia.
Qed.

Lemma slice_is m : forall l p, (forall i, (i < length l)%nat -> m (p + Z.of_nat i) = nth i l nul) -> mem_slice m p (length l) = l.
Proof.
  induction l as [|x l IH]; intros p H; [reflexivity|]. cbn [length mem_slice]. f_equal.
  - specialize (H 0%nat). cbn in H. rewrite Z.add_0_r in H. apply H. lia.
  - apply IH. intros i L. specialize (H (S i)). cbn [nth length] in H. rewrite <- H by lia. f_equal. lia.
Qed.
Lemma strnlen_trace_hit rd : forall k t p n t' tr, strnlen rd t p k = (n, t', tr) -> n < Z.of_nat k -> Z.of_nat (length tr) = n + 1.
Proof.
  induction k as [|k IH]; intros t p n t' tr H L; cbn [strnlen] in H; [injection H as <- _ <-; lia|].
  destruct (ascii_dec (rd t p) nul); [injection H as <- _ <-; reflexivity|].
  destruct (strnlen rd (S t) (p + 1) k) as [[n1 t1] tr1] eqn:E. injection H as <- _ <-. apply IH in E; [|lia]. cbn [length]. lia.
Qed.

(** C88, limit: the bound is of the right order.  A sandbox to which nothing was
    exported makes the host read nearly twice its whole heap with one request of
    sixteen bytes, without changing memory meanwhile. *)
Theorem request_reads_the_heap_twice shm size hdr k rd2 hd resolver alloc sent : mapping_ok shm size hdr -> 16 < size - 2 * hdr ->
  (forall n, alloc n = 0 \/ inside (shm + 2 * hdr) (shm + size) (alloc n, n)) ->
  (forall log, 48 * Z.of_nat (length (resolver log)) +
     fold_right (fun a n => Z.of_nat (length (ai_sockaddr a)) + n) 0 (resolver log) < W) ->
  exists memory rq e,
    serve k [] new_netpolicy (library_heap shm size hdr) (fun _ => memory) rd2 hd resolver alloc (fun _ => memory) rq sent = Ret e /\
    cr_size rq = 16 /\ bytes (e_reads e) = 2 * (size - 2 * hdr) - 17.
Proof.
  intros M Big Al Rs. pose proof M as (M1 & M2 & M3 & M4). set (base := shm + 2 * hdr). set (p := base + 16).
  set (tuple := encode [(8%nat, p); (4%nat, 0); (4%nat, 0)]).
  set (m := fun a => if a <? p then nth (Z.to_nat (a - base)) tuple nul else if a =? shm + size - 1 then nul else "a"%char).
  set (rq := CRequest 0 16 base).
  assert (Wb : is_word base) by (unfold is_word, base; lia). assert (Wp : is_word p) by (unfold is_word, p, base; lia).
  destruct (nothing_exported_nothing_reached shm size hdr k (fun _ => m) (fun _ => m) rd2 hd resolver alloc rq sent M) as (e & E & _); try assumption;
    try (unfold is_word, W; cbn; lia).
  exists m, rq, e. split; [exact E|]. split; [reflexivity|].
  unfold serve, handle, select_handler in E. unfold rq in E. cbn [cr_kind cr_size cr_data] in E.
  change (0 <? Z.of_nat (length (d_handlers (new_dispatcher tuple_size)))) with true in E. cbv iota in E.
  change (nth_error (d_handlers (new_dispatcher tuple_size)) (Z.to_nat 0)) with (Some (SFn 0 16 false)) in E. cbn [invoke cr_size cr_data] in E.
  change (16 =? 16) with true in E. cbn [negb] in E.
  replace (contains (library_heap shm size hdr) base 16) with true in E by (symmetry; apply contains_exact; [exact M|exact Wb|unfold is_word, W; lia|unfold base; lia]).
  cbn [negb] in E. destruct (memcpy_out (fun _ => m) 0 base (Z.to_nat 16)) as [[bs n] tr] eqn:Mc.
  pose proof (memcpy_trace _ _ _ _ _ _ _ Mc) as Lt. apply (memcpy_stable m) in Mc.
  assert (Len : length tuple = 16%nat) by (unfold tuple; rewrite encode_length; reflexivity).
  assert (Bs : bs = tuple).
  { rewrite Mc. change (Z.to_nat 16) with 16%nat. rewrite <- Len. apply slice_is. intros i L. unfold m.
    destruct (Z.ltb_spec (base + Z.of_nat i) p); [|unfold p in *; lia]. f_equal. lia. }
  cbv beta iota in E.
  rewrite <- !app_assoc, all_effects_app, loads_effects in E. cbn [obind app all_effects effects_of] in E.
  destruct (run_builtin _ _ _ _ _ _ _ _ _ _ _ _) as [[r eb]| | | |] eqn:Rb; try discriminate E. cbn [obind] in E.
  assert (Er : e_reads e = byte_loads tr ++ e_reads eb).
  { destruct sent; cbn [close_opt app all_effects effects_of obind] in E; match type of E with context [close_opt ?x] => destruct x end;
      cbn in E; injection E as <-; cbn [e_reads and_then]; rewrite ?app_nil_r; reflexivity. }
  rewrite Er, bytes_app, bytes_loads, Lt. rewrite Bs in Rb. unfold run_builtin in Rb.
  change (tuple_widths 0) with (map fst [(8%nat, p); (4%nat, 0); (4%nat, 0)]) in Rb. unfold tuple in Rb. rewrite decode_encode in Rb. cbn [map] in Rb.
  change (0 =? K_Open) with true in Rb. cbv iota in Rb. replace (p mod 256 ^ Z.of_nat 8) with p in Rb by (symmetry; apply Z.mod_small; exact Wp).
  destruct (handle_open _ _ _ _ _ _ _ _ _) as [[r0 ops]| | | |]; try discriminate Rb. cbn [obind] in Rb. injection Rb as _ <-. cbn [e_reads].
  unfold path_loads, strdup_out.
  replace (contains (library_heap shm size hdr) p 1) with true by (symmetry; apply contains_exact; [exact M|exact Wp|unfold is_word, W; lia|unfold p, base; lia]).
  rewrite (top_is shm size hdr M).
  set (s := repeat "a"%char (Z.to_nat (size - 2 * hdr - 17))).
  destruct (strnlen_stable_hit m (Z.to_nat (shm + size - p)) 0 p s) as (t' & tr' & Hs).
  { split.
    - intros i c Hi. assert (Li : (i < length s)%nat) by (apply nth_error_Some; congruence). unfold s in Li. rewrite repeat_length in Li.
      apply nth_error_In, repeat_spec in Hi. subst c. split; [|discriminate]. unfold m. destruct (Z.ltb_spec (p + Z.of_nat i) p); [lia|].
      destruct (Z.eqb_spec (p + Z.of_nat i) (shm + size - 1)); [unfold p, base in *; lia|reflexivity].
    - unfold s. rewrite repeat_length, Z2Nat.id by lia. unfold m. destruct (Z.ltb_spec (p + (size - 2 * hdr - 17)) p); [lia|].
      destruct (Z.eqb_spec (p + (size - 2 * hdr - 17)) (shm + size - 1)); [reflexivity|unfold p, base in *; lia]. }
  { unfold s. rewrite repeat_length. unfold p, base. lia. }
  change (stable m) with (fun _ : nat => m) in Hs. rewrite Hs.
  pose proof (strnlen_trace_hit _ _ _ _ _ _ _ Hs) as T. cbv beta iota zeta.
  assert (Ls : Z.of_nat (length s) = size - 2 * hdr - 17) by (unfold s; rewrite repeat_length, Z2Nat.id by lia; reflexivity).
  rewrite Ls in *. destruct (Z.eqb_spec (size - 2 * hdr - 17) (shm + size - p)); [unfold p, base in *; lia|].
  destruct (memcpy_out (fun _ : nat => m) t' p (Z.to_nat (size - 2 * hdr - 17))) as [[b2 t2] tr2] eqn:E2. cbn [dup_trace].
  rewrite bytes_loads, app_length, (memcpy_trace _ _ _ _ _ _ _ E2). specialize (T ltac:(unfold p, base; lia)). lia.
Qed.

(** ** The memory service *)

Lemma counted_set_is c t : forall n a pm, fst (counted_set c n a t pm) = set_loop c n a t pm.
Proof. induction n as [|n IH]; intros a pm; cbn [counted_set set_loop]; [reflexivity|]. rewrite <- IH. destruct (counted_set _ _ _ _ _); reflexivity. Qed.
Lemma counted_scan_is c pm : forall n a, fst (counted_scan c pm n a) = all_sandbox_owned c pm n a.
Proof.
  induction n as [|n IH]; intros a; cbn [counted_scan all_sandbox_owned]; [reflexivity|]. rewrite <- IH.
  destruct (is_sandbox_owned _); [|reflexivity]. destruct (counted_scan _ _ _ _); reflexivity.
Qed.
Definition steps_from (c : cfg) (a : Z) (n : nat) (x : Z) : Prop := exists j, 0 <= j < Z.of_nat n /\ x = a + j * chunk c.
Lemma counted_set_l c t : forall n a pm, length (snd (counted_set c n a t pm)) = n /\ (forall x, In x (snd (counted_set c n a t pm)) -> steps_from c a n x).
Proof.
  induction n as [|n IH]; intros a pm; cbn [counted_set]; [split; [reflexivity|intros x []]|].
  specialize (IH (a + chunk c) (pm_set pm (a / chunk c) t)). destruct (counted_set _ _ _ _ _) as [pm' l]. cbn [snd length] in *. destruct IH as [L I].
  split; [lia|]. intros x [<-|H]; [exists 0; lia|]. destruct (I x H) as (j & J & ->). exists (j + 1). lia.
Qed.
Lemma counted_scan_l c pm : forall n a, (length (snd (counted_scan c pm n a)) <= n)%nat /\ (forall x, In x (snd (counted_scan c pm n a)) -> steps_from c a n x).
Proof.
  induction n as [|n IH]; intros a; cbn [counted_scan]; [split; [reflexivity|intros x []]|].
  destruct (is_sandbox_owned _).
  - specialize (IH (a + chunk c)). destruct (counted_scan _ _ _ _) as [r l]. cbn [snd length] in *. destruct IH as [L I].
    split; [lia|]. intros x [<-|H]; [exists 0; lia|]. destruct (I x H) as (j & J & ->). exists (j + 1). lia.
  - cbn [snd length]. split; [lia|]. intros x [<-|[]]. exists 0. lia.
Qed.
Lemma steps_inside c a size x : chunk_size c size -> steps_from c a (chunk_steps c size) x -> a <= x /\ x + chunk c <= a + size.
Proof.
  intros CS (j & J & ->). destruct (chunk_size_mult c size CS) as (m & Hm & ->). rewrite chunk_steps_mult, Z2Nat.id in J by lia.
  pose proof (chunk_pos c). nia.
Qed.
Lemma steps_count c size : chunk_size c size -> Z.of_nat (chunk_steps c size) * chunk c = size.
Proof. intros CS. destruct (chunk_size_mult c size CS) as (m & Hm & ->). rewrite chunk_steps_mult, Z2Nat.id by lia. reflexivity. Qed.

(** The recorded request is the request. *)
Theorem counted_service_is_service c pm b rq : fst (counted_service c pm b rq) = service c pm b rq.
Proof.
  unfold counted_service, service. destruct (rq_kind rq =? 0).
  - unfold counted_alloc, service_alloc, set_metaentry. destruct (_ || _); [reflexivity|]. destruct (negb _); [reflexivity|].
    destruct (alloc_range _ _) as [[a f]|]; [|reflexivity]. rewrite <- counted_set_is. destruct (counted_set _ _ _ _ _); reflexivity.
  - destruct (rq_kind rq =? 1); [|reflexivity]. unfold counted_dealloc, service_dealloc, backend_dealloc, set_metaentry.
    destruct (negb (contains _ _ _)); [reflexivity|]. destruct (negb (_ && _)); [reflexivity|]. destruct (negb (align_down _ _ =? _)); [reflexivity|].
    rewrite <- counted_scan_is, <- counted_set_is. destruct (counted_scan _ _ _ _) as [[|] l]; cbn [fst negb]; [|reflexivity].
    destruct (counted_set _ _ _ _ _); reflexivity.
Qed.

Lemma counted_set_changes c t : forall n a pm k, fst (counted_set c n a t pm) k <> pm k -> exists x, In x (snd (counted_set c n a t pm)) /\ x / chunk c = k.
Proof.
  induction n as [|n IH]; intros a pm k; cbn [counted_set]; [intros H; destruct (H eq_refl)|].
  specialize (IH (a + chunk c) (pm_set pm (a / chunk c) t) k). destruct (counted_set _ _ _ _ _) as [pm' l]. cbn [fst snd] in *. intros H.
  destruct (Z.eq_dec (a / chunk c) k) as [E|N]; [exists a; split; [left; reflexivity|exact E]|].
  destruct IH as (x & X & Y); [|exists x; split; [right; exact X|exact Y]].
  unfold pm_set. destruct (Z.eqb_spec k (a / chunk c)); [congruence|exact H].
Qed.
Lemma counted_set_same c t : forall n a pm pm2, snd (counted_set c n a t pm2) = snd (counted_set c n a t pm).
Proof.
  induction n as [|n IH]; intros a pm pm2; cbn [counted_set]; [reflexivity|]. specialize (IH (a + chunk c) (pm_set pm (a / chunk c) t) (pm_set pm2 (a / chunk c) t)).
  destruct (counted_set c n _ t (pm_set pm _ t)), (counted_set c n _ t (pm_set pm2 _ t)). cbn [snd] in *. congruence.
Qed.
Lemma counted_scan_same c pm pm2 : forall n a, (forall x, In x (snd (counted_scan c pm n a)) -> pm2 (x / chunk c) = pm (x / chunk c)) ->
  counted_scan c pm2 n a = counted_scan c pm n a.
Proof.
  induction n as [|n IH]; intros a; cbn [counted_scan]; [reflexivity|]. specialize (IH (a + chunk c)). intros H.
  assert (E : pm2 (a / chunk c) = pm (a / chunk c)).
  { apply H. destruct (is_sandbox_owned _); [destruct (counted_scan _ _ _ _)|]; left; reflexivity. }
  rewrite E. destruct (is_sandbox_owned _); [|reflexivity]. destruct (counted_scan c pm n _) as [r l]. rewrite IH; [reflexivity|].
  intros x X. apply H. right. exact X.
Qed.

(** The list beside the result leaves nothing out: an entry that the request changes is
    in it, and entries that are not in it have no influence on the reply, on the free
    blocks or on which entries are touched. *)
Theorem touched_entries_are_all c pm b rq :
  let touched := snd (counted_service c pm b rq) in
  (forall k, fst (fst (service c pm b rq)) k <> pm k -> exists x, In x touched /\ x / chunk c = k) /\
  (forall other, (forall x, In x touched -> other (x / chunk c) = pm (x / chunk c)) ->
     snd (service c other b rq) = snd (service c pm b rq) /\ snd (fst (service c other b rq)) = snd (fst (service c pm b rq)) /\
     snd (counted_service c other b rq) = touched).
Proof.
  cbv zeta. rewrite <- !counted_service_is_service. split.
  - intros k. unfold counted_service. destruct (rq_kind rq =? 0).
    + unfold counted_alloc. destruct (_ || _); [intros H; destruct (H eq_refl)|]. destruct (negb _); [intros H; destruct (H eq_refl)|].
      destruct (alloc_range _ _) as [[a f]|]; [|intros H; destruct (H eq_refl)].
      pose proof (counted_set_changes c (claim_for_sandbox (Entry (rq_1 rq) (rq_2 rq))) (chunk_steps c (rq_0 rq)) a pm k) as H.
      destruct (counted_set _ _ _ _ _). exact H.
    + destruct (rq_kind rq =? 1); [|intros H; destruct (H eq_refl)]. unfold counted_dealloc.
      destruct (negb _); [intros H; destruct (H eq_refl)|]. destruct (negb _); [intros H; destruct (H eq_refl)|]. destruct (negb _); [intros H; destruct (H eq_refl)|].
      destruct (counted_scan _ _ _ _) as [[|] l]; cbn [negb]; [|intros H; destruct (H eq_refl)].
      pose proof (counted_set_changes c (backend_entry c) (chunk_steps c (rq_1 rq)) (rq_0 rq) pm k) as H.
      destruct (counted_set _ _ _ _ _) as [pm' l']. cbn [fst snd] in *. intros X. destruct (H X) as (x & I & E). exists x. split; [apply in_or_app; right; exact I|exact E].
  - intros other. rewrite <- counted_service_is_service. unfold counted_service. destruct (rq_kind rq =? 0).
    + intros _. unfold counted_alloc. destruct (_ || _); [auto|]. destruct (negb _); [auto|]. destruct (alloc_range _ _) as [[a f]|]; [|auto].
      pose proof (counted_set_same c (claim_for_sandbox (Entry (rq_1 rq) (rq_2 rq))) (chunk_steps c (rq_0 rq)) a pm other) as E.
      destruct (counted_set _ _ _ _ pm), (counted_set _ _ _ _ other). cbn [fst snd] in *. auto.
    + destruct (rq_kind rq =? 1); [|auto]. unfold counted_dealloc.
      destruct (negb _); [auto|]. destruct (negb _); [auto|]. destruct (negb _); [auto|]. intros H.
      assert (E : counted_scan c other (chunk_steps c (rq_1 rq)) (rq_0 rq) = counted_scan c pm (chunk_steps c (rq_1 rq)) (rq_0 rq)).
      { apply counted_scan_same. intros x X. apply H. destruct (counted_scan _ _ _ _) as [[|] l]; cbn [negb snd] in *; [|exact X].
        destruct (counted_set _ _ _ _ _). cbn [snd]. apply in_or_app. left. exact X. }
      rewrite E. destruct (counted_scan _ _ _ _) as [[|] l]; cbn [negb]; [|auto].
      pose proof (counted_set_same c (backend_entry c) (chunk_steps c (rq_1 rq)) (rq_0 rq) pm other) as E2.
      destruct (counted_set _ _ _ _ pm), (counted_set _ _ _ _ other). cbn [fst snd] in *. rewrite E2. auto.
Qed.

(** C88, the memory service: after any history of sandboxes that send what they
    like, every entry of the pagemap touched by a request is one for memory of the
    sandbox that sent it, and there are at most two for each chunk it has. *)
Theorem memory_request_work_bounded c evs st tr i b rq : cfg_ok c -> hostile_history c evs -> run c init_state evs = (st, tr) ->
  nth_error (g_box st) i = Some b -> b_live b = true -> request_words rq ->
  let touched := snd (counted_service c (g_pm st) b rq) in
  (forall x, In x touched -> b_shm b <= x /\ x + chunk c <= b_shm b + 2 ^ Z.of_nat (b_bits b)) /\
  Z.of_nat (length touched) * chunk c <= 2 * 2 ^ Z.of_nat (b_bits b).
Proof.
  intros C P H Hi Lv (W0 & W1 & W2). cbv zeta. fold (region_size b). pose proof (hostile_inv c evs st tr C P H) as I.
  pose proof (L_ok _ _ _ (H_layout _ _ _ _ I) i b Hi Lv) as R. pose proof (H_free _ _ _ _ I i b Hi Lv) as Rf. pose proof (chunk_pos c) as Cp.
  assert (Rp : 0 < region_size b) by (apply Z.pow_pos_nonneg; lia).
  assert (None_ : (forall x, In x (@nil Z) -> b_shm b <= x /\ x + chunk c <= b_shm b + region_size b) /\
    Z.of_nat (length (@nil Z)) * chunk c <= 2 * region_size b) by (split; [intros x []|cbn [length]; lia]).
  unfold counted_service. destruct (rq_kind rq =? 0).
  - unfold counted_alloc. destruct (_ || _) eqn:S; [exact None_|]. apply size_ok in S; auto. destruct (negb _); [exact None_|].
    destruct (alloc_range _ _) as [[a f]|] eqn:A; [|exact None_].
    destruct (region_rough_pre _ _ _ R) as [P1 P2]. pose proof S as (n & Hn & Hsz). rewrite Hsz in A.
    destruct (remove_block_f_rough _ _ _ P1 P2 _ _ _ _ _ Hn Rf A) as [_ F2].
    destruct (rough_region _ _ _ _ R F2) as (G1 & G2 & G3). rewrite <- Hsz in G3.
    pose proof (counted_set_l c (claim_for_sandbox (Entry (rq_1 rq) (rq_2 rq))) (chunk_steps c (rq_0 rq)) a (g_pm st)) as [L In_].
    destruct (counted_set _ _ _ _ _) as [pm' l]. cbn [snd] in *. split.
    + intros x X. apply In_, steps_inside in X; [lia|exact S].
    + rewrite L, steps_count by exact S. lia.
  - destruct (rq_kind rq =? 1); [|exact None_]. unfold counted_dealloc.
    destruct (contains (box_heap c b) (rq_0 rq) (rq_1 rq)) eqn:Ct; cbn [negb]; [|exact None_].
    destruct (is_pow2 (rq_1 rq) && (chunk c <=? rq_1 rq)) eqn:S; cbn [negb]; [|exact None_].
    destruct (align_down (rq_0 rq) (chunk c) =? rq_0 rq) eqn:A; cbn [negb]; [|exact None_].
    apply andb_true_iff in S as [S1 S2]. assert (CS : chunk_size c (rq_1 rq)).
    { apply size_ok; auto. rewrite S1. cbn. rewrite orb_false_r. apply Z.ltb_ge. lia. }
    apply align_down_fix in A. destruct (contains_after_header c b _ _ C R W0 W1 A Ct) as [B1 B2].
    pose proof (counted_scan_l c (g_pm st) (chunk_steps c (rq_1 rq)) (rq_0 rq)) as [L1 I1].
    pose proof (counted_set_l c (backend_entry c) (chunk_steps c (rq_1 rq)) (rq_0 rq) (g_pm st)) as [L2 I2].
    pose proof (steps_count c (rq_1 rq) CS) as Sc.
    destruct (counted_scan _ _ _ _) as [[|] l1]; cbn [negb snd] in *.
    + destruct (counted_set _ _ _ _ _) as [pm' l2]. cbn [snd] in *. split.
      * intros x X. apply in_app_or in X as [X|X]; [apply I1 in X|apply I2 in X]; apply steps_inside in X; try exact CS; lia.
      * rewrite app_length, L2. nia.
    + split; [|nia]. intros x X. apply I1, steps_inside in X; [lia|exact CS].
Qed.

(** Examples.  A request of kind 1 (stat) for /data/a, with a descriptor sent along,
    makes the host perform four calls and write 144 bytes: the bounds are reached. *)
Definition wk_mem : Z -> ascii := fun a => if a =? 4909 then ascii_of_nat 22 else ex_mem a.
Definition wk_stat : outcome effects :=
  serve (fun _ _ => (9, 0)) (match run_host [([list_ascii_of_string "data"], LeafDir 7)] with Ret (_, t) => t | _ => [] end)
    (policy_after []) (library_heap 4096 4096 64) (fun _ => wk_mem) (fun _ => wk_mem) (fun _ => 0) (fun _ => []) (fun _ => 0)
    (fun _ => wk_mem) (CRequest 1 16 4900) (Some 33).
Example wk_stat_work : match wk_stat with Ret e => (length (e_ops e), bytes (e_reads e), bytes (e_writes e)) | _ => (O, 0, 0) end = (4%nat, 31, 144) /\
  mapping_ok 4096 4096 64.
Proof. split; [vm_compute; reflexivity|]. unfold mapping_ok. cbn. repeat split; try lia; reflexivity. Qed.
(** The heap read nearly twice: 8192 bytes, with the allocator that has nothing. *)
Example wk_twice : exists memory rq e,
  serve (fun _ _ => (-1, 2)) [] new_netpolicy (library_heap 4096 8320 64) (fun _ => memory) (fun _ _ => nul) (fun _ => 0) (fun _ => []) (fun _ => 0)
    (fun _ => memory) rq None = Ret e /\ cr_size rq = 16 /\ bytes (e_reads e) = 16367.
Proof.
  destruct (request_reads_the_heap_twice 4096 8320 64 (fun _ _ => (-1, 2)) (fun _ _ => nul) (fun _ => 0) (fun _ => []) (fun _ => 0) None) as (m & rq & e & E & S & B).
  - unfold mapping_ok, W. lia.
  - lia.
  - auto.
  - intros log. cbn. unfold W. lia.
  - exists m, rq, e. rewrite B, S. split; [exact E|split; reflexivity].
Qed.
(** After the polite history of MemSvcProps.v, giving back two chunks touches their two
    entries twice, and giving back two of which the second is not the sandbox's touches two. *)
Example wk_memory : let st := fst (run ex_cfg init_state polite_ex) in
  match nth_error (g_box st) 0 with
  | Some b => (b_live b, snd (counted_service ex_cfg (g_pm st) b (alloc_rq 4)), snd (counted_service ex_cfg (g_pm st) b (free_rq 4 1)),
               snd (counted_service ex_cfg (g_pm st) b (free_rq 4 2)))
  | None => (false, [], [], [])
  end = (true, map (fun k => ex_base + k * ck) [8; 9; 10; 11], map (fun k => ex_base + k * ck) [4; 4], map (fun k => ex_base + k * ck) [4; 5]).
Proof. vm_compute. reflexivity. Qed.
Print Assumptions request_work_bounded.
Print Assumptions request_reads_the_heap_twice.
Print Assumptions counted_service_is_service.
Print Assumptions touched_entries_are_all.
Print Assumptions memory_request_work_bounded.
