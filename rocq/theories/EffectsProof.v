(** Lemmas for EffectsProps.v. *)
From Coq Require Import String Ascii List ZArith Lia Bool.
From Verif Require Import Base PathModel FileTreeModel FileTreeSpec FileTreeProps RegionModel RegionSpec RegionProof DispatchModel DispatchProps
  HostCallsModel HostCallsSpec HostCallsProof HostCallsProps NetProof NetProps ChildCallsModel EffectsModel EffectsSpec.
Import ListNotations.
Open Scope Z_scope.

Lemma le_value_range : forall bs, 0 <= le_value bs < 256 ^ Z.of_nat (length bs).
Proof.
  induction bs as [|b r IH]; [cbn; lia|]. cbn [le_value length]. rewrite Nat2Z.inj_succ, Z.pow_succ_r by lia.
  assert (Z.of_N (N_of_ascii b) < 256) by (pose proof (N_ascii_bounded b); lia).
  assert (0 <= Z.of_N (N_of_ascii b)) by lia. lia.
Qed.

Lemma decode_range : forall ws bs vs, decode ws bs = Some vs ->
  length vs = length ws /\ forall i w v, nth_error ws i = Some w -> nth_error vs i = Some v -> 0 <= v < 256 ^ Z.of_nat w.
Proof.
  induction ws as [|w ws IH]; intros bs vs H; cbn [decode] in H.
  - destruct bs; inversion H; subst. split; [reflexivity|]. intros [|i] ? ? X; discriminate.
  - destruct (Nat.ltb (length bs) w) eqn:L; [discriminate|].
    destruct (decode ws (skipn w bs)) as [vs'|] eqn:D; [|discriminate]. inversion H; subst.
    destruct (IH _ _ D) as [A B]. split; [cbn; congruence|].
    intros [|i] w' v X Y; cbn in X, Y; [|eauto]. inversion X; inversion Y; subst.
    apply Nat.ltb_ge in L. pose proof (le_value_range (firstn w' bs)) as R.
    rewrite firstn_length_le in R by exact L. exact R.
Qed.

Section PERMITTED.
Variables (k : kernel) (ex : exports) (hist : list (netop * policy)) (sent : option Z).
Local Notation perm := (permitted k ex hist sent).
Local Notation allp := (all_permitted k ex hist sent).

Lemma allp_nil : allp [].
Proof. intros before op after E. destruct before; discriminate. Qed.

Lemma allp_snoc ops op : allp ops -> perm ops op -> allp (ops ++ [op]).
Proof.
  intros A P before op' after E.
  destruct after as [|a after] using rev_ind.
  - apply app_inj_tail in E as [-> ->]. exact P.
  - rewrite app_comm_cons, app_assoc in E. apply app_inj_tail in E as [-> _]. eapply A. reflexivity.
Qed.

Lemma allp_one op : perm [] op -> allp [op].
Proof. intros P. apply (allp_snoc []); [apply allp_nil|exact P]. Qed.

Lemma opened_first op rest f : 0 <= f -> f = fst (k [] op) ->
  match op with KOpenat2 _ _ _ _ _ | KDup _ => True | _ => False end -> opened k (op :: rest) f.
Proof. intros A B C. split; [exact A|]. exists [], op, rest. auto. Qed.

Lemma opened_app ops more f : opened k ops f -> opened k (ops ++ more) f.
Proof.
  intros (A & pre & op & post & -> & B & C). split; [exact A|]. exists pre, op, (post ++ more).
  rewrite <- app_assoc. auto.
Qed.

(** What is proved of each handler. *)
Definition good (lo hi : Z) (r : result) (e : effects) : Prop :=
  allp (e_ops e) /\ Forall (inside lo hi) (e_writes e) /\ Forall (inside lo hi) (e_reads e) /\
  Forall (answers_inside lo hi) (e_ops e) /\ e_replies e = [] /\
  (forall f, r_fd r = Some f -> opened k (e_ops e) f).

Lemma good_none lo hi r : r_fd r = None -> good lo hi r no_effects.
Proof.
  intros E. unfold good, no_effects; cbn [e_ops e_writes e_reads e_replies].
  split; [apply allp_nil|]. repeat (split; [constructor|]). intros f F. congruence.
Qed.
End PERMITTED.

Lemma stat_writes_inside lo hi ops : Forall (answers_inside lo hi) ops -> Forall (inside lo hi) (stat_writes ops).
Proof.
  induction 1 as [|op ops H _ IH]; [constructor|]. unfold stat_writes. cbn [flat_map].
  apply Forall_app. split; [|exact IH]. destruct op; cbn in *; auto.
Qed.

Lemma byte_loads_inside lo hi l : (forall x, In x l -> lo <= x < hi) -> Forall (inside lo hi) (byte_loads l).
Proof.
  intros H. apply Forall_forall. intros [a n] I. unfold byte_loads in I. apply in_map_iff in I as (x & E & I).
  inversion E; subst. specialize (H _ I). unfold inside. cbn. lia.
Qed.

Lemma path_loads_inside shm size hdr rd p : mapping_ok shm size hdr -> is_word p ->
  Forall (inside (shm + 2 * hdr) (shm + size)) (path_loads (library_heap shm size hdr) rd p).
Proof.
  intros M Wp. unfold path_loads. destruct (strdup_out _ _ _ _) as [r| | | |] eqn:E; try constructor.
  apply byte_loads_inside. exact (proj1 (strdup_out_safe _ _ _ _ _ _ _ M Wp E)).
Qed.

Section HANDLERS.
Variables (calls : list (list text * leaf)) (oks : list bool) (t : FileTreeModel.dir) (shm size hdr : Z) (k : kernel) (hist : list (netop * policy)).
Hypothesis HC : host_calls calls.
Hypothesis RH : run_host calls = Ret (oks, t).
Hypothesis M : mapping_ok shm size hdr.
Local Notation h := (library_heap shm size hdr).
Local Notation ex := (combine calls oks).
Local Notation lo := (shm + 2 * hdr).
Local Notation hi := (shm + size).
Variables (rd1 rd2 : reads) (hd : Z -> Z) (resolver : list kop -> list addrinfo) (alloc : Z -> Z).
Local Notation run := (run_builtin k t (policy_after hist) h rd1 rd2 hd resolver alloc).

Definition fine (sent : option Z) (o : outcome (result * effects)) : Prop :=
  exists r e, o = Ret (r, e) /\ good k ex hist sent lo hi r e.

Lemma refused_good sent res ops reads : ops = [] -> r_fd res = None -> Forall (inside lo hi) reads ->
  good k ex hist sent lo hi res (Effects ops (stat_writes ops) reads []).
Proof.
  intros -> R F. unfold good; cbn [e_ops e_writes e_reads e_replies stat_writes flat_map].
  split; [apply allp_nil|]. repeat split; auto; congruence.
Qed.

Lemma open_fine sent p flags mode : is_word p ->
  fine sent (obind (handle_open k t h rd1 true p flags mode []) (fun '(r, ops) => Ret (r, Effects ops [] (path_loads h rd1 p) []))).
Proof.
  intros Wp. pose proof (path_loads_inside shm size hdr rd1 p M Wp) as PL.
  unfold handle_open.
  destruct (path_syscall_cases _ _ _ _ _ _ rd1 p HC RH M Wp) as [[_ A]|[[_ A]|(fd & tail & q & A & R & D)]]; rewrite A; cbn [obind].
  1,2: eexists _, _; split; [reflexivity|]; repeat split; cbn; auto; [apply allp_nil|discriminate..].
  destruct D as [[D1 D2]|(D1 & D2 & D3)]; unfold is_empty.
  - rewrite D1. cbn [negb kcall obind]. unfold kcall. cbn [obind app].
    eexists _, _. split; [reflexivity|]. unfold good; cbn [e_ops e_writes e_reads e_replies].
    split; [apply allp_one; eapply P_dup; eauto|]. split; [auto|]. split; [auto|]. split; [repeat constructor|]. split; [auto|].
    unfold return_fd. intros f. destruct (Z.leb_spec 0 (fst (k [] (KDup fd)))); cbn [r_fd]; [|discriminate].
    intros E. inversion E; subst. apply opened_first; auto.
  - destruct (comps tail) as [|c r] eqn:E; [congruence|]. cbn [negb]. unfold openat_beneath, kcall. cbn [obind app].
    change resolve_beneath with 8.
    eexists _, _. split; [reflexivity|]. unfold good; cbn [e_ops e_writes e_reads e_replies].
    split; [apply allp_one; eapply P_open; eauto|]. split; [auto|]. split; [auto|]. split; [repeat constructor|]. split; [auto|].
    unfold return_fd. intros f. destruct (Z.leb_spec 0 (fst (k [] (KOpenat2 fd (Some (str tail)) (wrap flags) mode 8)))); cbn [r_fd]; [|discriminate].
    intros F. inversion F; subst. apply opened_first; auto.
Qed.

Lemma stat_fine sent p buf : is_word p -> is_word buf ->
  fine sent (obind (handle_stat k t h rd1 true sizeof_stat p buf []) (fun '(r, ops) => Ret (r, Effects ops (stat_writes ops) (path_loads h rd1 p) []))).
Proof.
  intros Wp Wb. pose proof (path_loads_inside shm size hdr rd1 p M Wp) as PL.
  destruct (fs_stat_confined calls oks t shm size hdr k rd1 p buf sizeof_stat HC RH M Wp Wb) as (res & ops & E & C);
    [unfold is_word, sizeof_stat, W; lia|unfold sizeof_stat; lia|].
  assert (NF : r_fd res = None).
  { revert E. unfold handle_stat.
    destruct (path_syscall_cases _ _ _ _ _ _ rd1 p HC RH M Wp) as [[_ A]|[[_ A]|(fd & tail & q & A & _)]]; rewrite A;
      intros E; inversion E; try reflexivity.
    destruct (negb (check_pointer h sizeof_stat buf =? 0)); [|inversion H0; reflexivity].
    destruct (if is_empty tail then _ else _) as [rr ll]. inversion H0. unfold return_int. destruct (0 <=? fst rr); reflexivity. }
  rewrite E. cbn [obind]. exists res; eexists; split; [reflexivity|].
  destruct C as [[-> _]|[(_ & -> & _)|[B C]]]; [apply refused_good; auto..|].
  assert (I : inside lo hi (buf, 144)).
  { unfold inside, block_within, sizeof_stat in *. cbn [fst snd]. pose proof (B buf ltac:(lia)). pose proof (B (buf + 143) ltac:(lia)). lia. }
  assert (G : all_permitted k ex hist sent ops /\ Forall (answers_inside lo hi) ops).
  { destruct C as [(q & fd & X & _ & -> & _)|(q & fd & tail & pp & rest & X & _ & BP & -> & [(_ & -> & _)|(P & -> & _)])].
    - split; [apply allp_one; eapply P_fstat; eauto|repeat constructor; exact (proj1 I) || exact (proj2 I)].
    - split; [apply allp_one; eapply P_open; eauto|repeat constructor].
    - split; [|repeat constructor; exact (proj1 I) || exact (proj2 I)].
      set (op := KOpenat2 fd (Some pp) 2097152 0 8) in *. set (pfd := fst (k [] op)) in *.
      change [op; KFstatat pfd [] buf 4096; KClose pfd] with (([op] ++ [KFstatat pfd [] buf 4096]) ++ [KClose pfd]).
      apply allp_snoc; [apply allp_snoc; [apply allp_one; eapply P_open; eauto|]|].
      + apply P_stat_opened. apply opened_first; auto; exact Logic.I.
      + apply P_close_opened. apply opened_first; auto; exact Logic.I. }
  destruct G as [G1 G2]. unfold good; cbn [e_ops e_writes e_reads e_replies].
  split; [exact G1|]. split; [apply stat_writes_inside; exact G2|]. split; [exact PL|]. split; [exact G2|]. split; [reflexivity|].
  intros f F. congruence.
Qed.

Lemma access_fine sent p mode : is_word p ->
  fine sent (obind (handle_access k t h rd1 true p mode []) (fun '(r, ops) => Ret (r, Effects ops [] (path_loads h rd1 p) []))).
Proof.
  intros Wp. pose proof (path_loads_inside shm size hdr rd1 p M Wp) as PL.
  destruct (fs_access_confined calls oks t shm size hdr k rd1 p mode HC RH M Wp) as (res & ops & E & C).
  assert (NF : r_fd res = None).
  { revert E. unfold handle_access.
    destruct (path_syscall_cases _ _ _ _ _ _ rd1 p HC RH M Wp) as [[_ A]|[[_ A]|(fd & tail & q & A & _)]]; rewrite A;
      intros E; inversion E; try reflexivity.
    destruct (faccessat_beneath _ _ _ _ _ _) as [rr ll]. inversion H0. unfold return_int. destruct (0 <=? fst rr); reflexivity. }
  rewrite E. cbn [obind]. exists res; eexists; split; [reflexivity|].
  assert (G : all_permitted k ex hist sent ops /\ Forall (answers_inside lo hi) ops).
  { destruct C as [[-> _]|(q & fd & tail & path & rest & _ & X & -> & Y)]; [split; [apply allp_nil|constructor]|].
    assert (P0 : permitted k ex hist sent [] (KOpenat2 fd path 2097152 0 8)).
    { destruct X as [(X & _ & ->)|(X & pp & -> & BP)]; [eapply P_open_null; eauto|eapply P_open; eauto]. }
    destruct Y as [(_ & -> & _)|(P & -> & _)]; [split; [apply allp_one; exact P0|repeat constructor]|].
    split; [|repeat constructor].
    set (op := KOpenat2 fd path 2097152 0 8) in *. set (pfd := fst (k [] op)) in *.
    change [op; KFaccessat2 pfd [] mode 4096; KClose pfd] with (([op] ++ [KFaccessat2 pfd [] mode 4096]) ++ [KClose pfd]).
    apply allp_snoc; [apply allp_snoc; [apply allp_one; exact P0|]|].
    + apply P_access_opened. apply opened_first; auto; exact Logic.I.
    + apply P_close_opened. apply opened_first; auto; exact Logic.I. }
  destruct G as [G1 G2]. unfold good; cbn [e_ops e_writes e_reads e_replies].
  split; [exact G1|]. split; [constructor|]. split; [exact PL|]. split; [exact G2|]. split; [reflexivity|].
  intros f F. congruence.
Qed.

Lemma openat_fine sent p flags mode : is_word p ->
  fine sent (obind (handle_openat k h rd1 true p flags mode sent []) (fun '(r, ops) => Ret (r, Effects ops [] (path_loads h rd1 p) []))).
Proof.
  intros Wp. pose proof (path_loads_inside shm size hdr rd1 p M Wp) as PL. unfold handle_openat.
  destruct (get_path_total shm size hdr rd1 p M Wp) as (o & G & _). rewrite G. cbn [obind].
  unfold openat_beneath, kcall. cbn [obind app]. change resolve_beneath with 8.
  eexists _, _. split; [reflexivity|]. unfold good; cbn [e_ops e_writes e_reads e_replies r_fd].
  split.
  { destruct sent as [f|].
    - change (all_permitted k ex hist (Some f) ([KOpenat2 f o (wrap flags) mode 8] ++ [KClose f])).
      apply allp_snoc; [apply allp_one; apply P_open_sent; auto|apply P_close_sent; auto].
    - apply allp_one. apply P_open_nowhere. auto. }
  split; [constructor|]. split; [exact PL|]. split; [destruct sent; repeat constructor|]. split; [auto|]. discriminate.
Qed.

Lemma net_invoke_perm sent op a before r ops : (forall f buf len, a = NAddr f buf len -> sent = Some f) ->
  net_invoke k (policy_after hist) before op a = (r, ops) ->
  ops = before \/ exists who, ops = before ++ [KNet who op a] /\ permitted k ex hist sent before (KNet who op a).
Proof.
  intros A E. destruct (net_policy_last_setting_decides hist op k before a) as (s & S & I). rewrite I in E.
  destruct s as [[| |tag]|]; inversion E; subst; auto; right; eexists; (split; [reflexivity|]);
    eapply P_net; eauto.
Qed.

Lemma bind_fine sent op addr len : is_word addr -> 0 <= len < 2 ^ 32 ->
  fine sent (let '(r, ops) := handle_bind_or_connect k (policy_after hist) h rd1 op addr len sent [] in
             Ret (r, Effects ops [] (addr_loads h rd1 addr len sent) [])).
Proof.
  intros Wa Wl. assert (Wl' : is_word len) by (unfold is_word, W; lia).
  unfold handle_bind_or_connect, addr_loads.
  destruct ((match sent with Some f => f | None => -1 end <? 0) || (max_sockaddr <? len) || negb (contains h addr len)) eqn:B.
  - eexists _, _. split; [reflexivity|]. unfold good; cbn [e_ops e_writes e_reads e_replies r_fd app].
    split; [destruct sent; [apply allp_one; apply P_close_sent; auto|apply allp_nil]|].
    split; [constructor|]. split; [constructor|]. split; [destruct sent; repeat constructor|]. split; [auto|]. discriminate.
  - apply orb_false_iff in B as [B C]. apply orb_false_iff in B as [B L].
    apply negb_false_iff in C. apply contains_iff in C; auto.
    destruct sent as [f|]; [|cbn in B; discriminate].
    destruct (memcpy_out rd1 0 addr (Z.to_nat len)) as [[bytes tt] tr] eqn:MC.
    destruct (net_invoke k (policy_after hist) [] op (NAddr f (bytes ++ repeat fill_byte (Z.to_nat (max_sockaddr - len))) len)) as [r ops] eqn:N.
    eexists _, _. split; [reflexivity|]. unfold good; cbn [e_ops e_writes e_reads e_replies].
    apply (net_invoke_perm (Some f)) in N; [|intros; congruence].
    split.
    { apply allp_snoc; [|apply P_close_sent; reflexivity].
      destruct N as [-> |(who & -> & P)]; [apply allp_nil|apply allp_one; exact P]. }
    split; [constructor|]. split.
    { apply byte_loads_inside. intros x X. pose proof (proj2 (memcpy_out_facts _ _ _ _ _ _ _ MC) x X). lia. }
    split; [destruct N as [-> |(who & -> & P)]; repeat constructor|]. split; [reflexivity|].
    unfold return_int. destruct (0 <=? fst r); discriminate.
Qed.

Hypothesis AL : forall n, alloc n = 0 \/ inside lo hi (alloc n, n).
Hypothesis RS : forall log, 48 * Z.of_nat (length (resolver log)) +
  fold_right (fun a n => Z.of_nat (length (ai_sockaddr a)) + n) 0 (resolver log) < W.

Lemma within_inside a b ss : lo <= a -> b <= hi -> Forall (within a b) ss -> Forall (inside lo hi) (map store_range ss).
Proof.
  intros A B F. induction F as [|s ss H _ IH]; [constructor|]. constructor; [|exact IH].
  unfold inside, within in *. destruct s; cbn in *; unfold sizeof_addrinfo, sizeof_ptr; lia.
Qed.

Lemma gai_fine sent a b c d : is_word a -> is_word b -> is_word c -> is_word d ->
  fine sent (obind (handle_getaddrinfo k (policy_after hist) h rd1 rd2 true hd resolver alloc a b c d []) (fun g =>
        Ret (g_reply g, Effects (g_log g) (map store_range (g_stores g)) (gai_loads h rd1 rd2 a b c d) []))).
Proof.
  intros Wa Wb Wc Wd. unfold handle_getaddrinfo, gai_loads.
  pose proof (path_loads_inside shm size hdr rd1 a M Wa) as PA.
  pose proof (path_loads_inside shm size hdr rd2 b M Wb) as PB.
  destruct (contains h d sizeof_ptr) eqn:C; cbn [negb].
  2:{ eexists _, _. split; [reflexivity|]. apply good_none. reflexivity. }
  destruct (negb (c =? 0) && negb (contains h c sizeof_addrinfo)) eqn:C2.
  { eexists _, _. split; [reflexivity|]. apply good_none. reflexivity. }
  apply contains_iff in C; [|auto|auto|unfold is_word, sizeof_ptr, W; lia]. unfold sizeof_ptr in C.
  set (loads := (if c =? 0 then [] else _) ++ _ ++ _).
  assert (LI : Forall (inside lo hi) loads).
  { unfold loads. apply Forall_app. split; [|apply Forall_app; auto].
    destruct (c =? 0) eqn:Z0; [constructor|]. cbn [negb andb] in C2. apply negb_false_iff in C2.
    apply contains_iff in C2; [|auto|auto|unfold is_word, sizeof_addrinfo, W; lia]. unfold sizeof_addrinfo in C2.
    repeat (apply Forall_cons; [unfold inside; cbn [fst snd]; lia|]). apply Forall_nil. }
  clearbody loads.
  destruct (get_path_total shm size hdr rd1 a M Wa) as (o1 & G1 & _).
  destruct (get_path_total shm size hdr rd2 b M Wb) as (o2 & G2 & _).
  rewrite G1. cbn [obind]. rewrite G2. cbn [obind].
  destruct (net_invoke k (policy_after hist) [] NGetAddrInfo _) as [r log1] eqn:N.
  apply (net_invoke_perm sent) in N; [|intros; congruence].
  assert (OK : forall res ss, r_fd res = None -> Forall (inside lo hi) (map store_range ss) ->
     good k ex hist sent lo hi res (Effects log1 (map store_range ss) loads [])).
  { intros res ss F1 F2. unfold good; cbn [e_ops e_writes e_reads e_replies].
    split; [destruct N as [-> |(who & -> & P)]; [apply allp_nil|apply allp_one; exact P]|].
    split; [exact F2|]. split; [exact LI|]. split; [destruct N as [-> |(who & -> & P)]; repeat constructor|].
    split; [reflexivity|]. intros f F. congruence. }
  assert (NR : forall x, r_fd (return_int x) = None) by (intros x; unfold return_int; destruct (0 <=? fst x); reflexivity).
  destruct (fst r =? 0).
  2:{ cbn [obind]. eexists _, _. split; [reflexivity|]. apply OK; [apply NR|constructor]. }
  destruct (0 <? Z.of_nat (length (resolver log1))) eqn:Ln.
  2:{ cbn [obind]. eexists _, _. split; [reflexivity|]. apply OK; [apply NR|constructor]. }
  destruct (alloc_array alloc 1 _) as [pl|] eqn:A.
  2:{ cbn [obind]. eexists _, _. split; [reflexivity|]. apply OK; [apply NR|constructor]. }
  cbn [obind]. eexists _, _. split; [reflexivity|]. apply OK; [apply NR|]. cbn [g_stores].
  specialize (RS log1). set (l := resolver log1) in *.
  change (fold_right _ 0 l) with (addr_bytes l) in RS.
  pose proof (addr_bytes_nonneg l) as Nn. apply Z.ltb_lt in Ln.
  assert (EX : ai_extra l = addr_bytes l) by (unfold ai_extra; rewrite ai_extra_eq; lia).
  rewrite EX in A. unfold sizeof_addrinfo in *.
  set (total := 48 * Z.of_nat (length l) + addr_bytes l) in *.
  assert (Wt : is_word total) by (unfold is_word, total; lia).
  rewrite wrap_small in A by exact Wt.
  apply alloc_array_facts in A; [|unfold is_word, W; lia|exact Wt]. rewrite Z.mul_1_l in A.
  destruct A as (_ & _ & A1 & A2 & A3 & _).
  destruct (AL total) as [X|X]; [congruence|]. rewrite <- A1 in X. unfold inside in X. cbn [fst snd] in X.
  rewrite !map_app. apply Forall_app. split; [|apply Forall_app; split].
  - apply (within_inside (pl_addr pl) (pl_addr pl + total)); [lia|lia|].
    apply Forall_forall. intros s Hs. apply in_map_iff in Hs as ([x y] & <- & I). apply A3 in I.
    unfold within. cbn [extent fst snd]. lia.
  - apply (within_inside (pl_addr pl) (pl_addr pl + total)); [lia|lia|].
    eapply Forall_impl; [|apply ai_copy_extents]. unfold within, total. intros s [Hs|Hs]; lia.
  - cbn [map store_range]. unfold sizeof_ptr. constructor; [|constructor; [|constructor]]; unfold inside; cbn [fst snd]; unfold total in X; lia.
Qed.

Definition takes (tag : Z) : bool := (tag =? K_OpenAt) || (tag =? K_Bind) || (tag =? K_Connect).

Lemma builtin_fine sent tag bytes : 0 <= tag < 7 ->
  fine sent (run tag bytes (if takes tag then sent else None)).
Proof.
  intros T. unfold run_builtin.
  assert (NONE : fine sent (Ret (no_result, no_effects))).
  { eexists _, _. split; [reflexivity|]. apply good_none. reflexivity. }
  destruct (decode (tuple_widths tag) bytes) as [vs|] eqn:D; [|exact NONE].
  apply decode_range in D as [L R].
  assert (W8 : forall v, 0 <= v < 256 ^ Z.of_nat 8 -> is_word v) by (intros v V; exact V).
  assert (W4 : forall v, 0 <= v < 256 ^ Z.of_nat 4 -> 0 <= v < 2 ^ 32) by (intros v V; exact V).
  assert (tag = 0 \/ tag = 1 \/ tag = 2 \/ tag = 3 \/ tag = 4 \/ tag = 5 \/ tag = 6) as Cs by lia.
  destruct Cs as [-> |[-> |[-> |[-> |[-> |[-> | ->]]]]]]; cbn [tuple_widths takes] in *; cbn in L, R.
  - destruct vs as [|a [|b [|c [|? ?]]]]; try discriminate. apply open_fine. apply W8. apply (R 0%nat 8%nat); reflexivity.
  - destruct vs as [|a [|b [|? ?]]]; try discriminate. apply stat_fine; apply W8; [apply (R 0%nat 8%nat)|apply (R 1%nat 8%nat)]; reflexivity.
  - destruct vs as [|a [|b [|? ?]]]; try discriminate. apply access_fine; apply W8; apply (R 0%nat 8%nat); reflexivity.
  - destruct vs as [|a [|b [|c [|d [|? ?]]]]]; try discriminate. apply openat_fine; apply W8; apply (R 1%nat 8%nat); reflexivity.
  - destruct vs as [|a [|b [|c [|? ?]]]]; try discriminate. apply bind_fine; [apply W8; apply (R 1%nat 8%nat)|apply W4; apply (R 2%nat 4%nat)]; reflexivity.
  - destruct vs as [|a [|b [|c [|? ?]]]]; try discriminate. apply bind_fine; [apply W8; apply (R 1%nat 8%nat)|apply W4; apply (R 2%nat 4%nat)]; reflexivity.
  - destruct vs as [|a [|b [|c [|d [|? ?]]]]]; try discriminate.
    apply gai_fine; apply W8; [apply (R 0%nat 8%nat)|apply (R 1%nat 8%nat)|apply (R 2%nat 8%nat)|apply (R 3%nat 8%nat)]; reflexivity.
Qed.
End HANDLERS.

(** *** What is not read does not matter *)

Lemma covers_app l1 l2 x : covers (l1 ++ l2) x <-> covers l1 x \/ covers l2 x.
Proof.
  unfold covers. split.
  - intros (a & n & I & R). apply in_app_iff in I as [I|I]; eauto.
  - intros [(a & n & I & R)|(a & n & I & R)]; exists a, n; rewrite in_app_iff; auto.
Qed.
Lemma covers_bytes l x : covers (byte_loads l) x <-> In x l.
Proof.
  unfold covers, byte_loads. split.
  - intros (a & n & I & R). apply in_map_iff in I as (y & E & I). inversion E; subst. replace x with a by lia. exact I.
  - intros I. exists x, 1. split; [apply in_map_iff; eauto|lia].
Qed.

Definition same (l : list (Z * Z)) (rd rd' : reads) : Prop := forall n x, covers l x -> rd' n x = rd n x.
Lemma same_app l1 l2 rd rd' : same (l1 ++ l2) rd rd' -> same l1 rd rd' /\ same l2 rd rd'.
Proof. intros S. split; intros n x C; apply S, covers_app; auto. Qed.

Lemma strnlen_ext rd rd' : forall k t p n t' tr, strnlen rd t p k = (n, t', tr) ->
  (forall t x, In x tr -> rd' t x = rd t x) -> strnlen rd' t p k = (n, t', tr).
Proof.
  induction k as [|k IH]; intros t p n t' tr H A; cbn [strnlen] in *; [exact H|].
  destruct (ascii_dec (rd t p) nul) as [z|z].
  - inversion H; subst. rewrite A by (left; reflexivity). rewrite z. reflexivity.
  - destruct (strnlen rd (S t) (p + 1) k) as [[n1 t1] tr1] eqn:E. inversion H; subst.
    rewrite A by (left; reflexivity). destruct (ascii_dec (rd t p) nul); [contradiction|].
    rewrite (IH _ _ _ _ _ E); [reflexivity|]. intros u x I. apply A. right. exact I.
Qed.
Lemma memcpy_ext rd rd' : forall k t p bs t' tr, memcpy_out rd t p k = (bs, t', tr) ->
  (forall t x, In x tr -> rd' t x = rd t x) -> memcpy_out rd' t p k = (bs, t', tr).
Proof.
  induction k as [|k IH]; intros t p bs t' tr H A; cbn [memcpy_out] in *; [exact H|].
  destruct (memcpy_out rd (S t) (p + 1) k) as [[b1 t1] tr1] eqn:E. inversion H; subst.
  rewrite (IH _ _ _ _ _ E); [|intros u x I; apply A; right; exact I]. rewrite A by (left; reflexivity). reflexivity.
Qed.
Lemma strdup_ext h rd rd' p r : strdup_out h rd true p = Ret r ->
  (forall t x, In x (dup_trace r) -> rd' t x = rd t x) -> strdup_out h rd' true p = Ret r.
Proof.
  unfold strdup_out. destruct (contains h p 1); [|auto].
  destruct (strnlen rd 0 p _) as [[n t] tr] eqn:E. destruct (n =? h_top h - p) eqn:F.
  - intros H S. inversion H; subst. cbn [dup_trace] in S. rewrite (strnlen_ext _ _ _ _ _ _ _ _ E S), F. reflexivity.
  - destruct (memcpy_out rd t p _) as [[b t1] tr1] eqn:M. intros H S. inversion H; subst. cbn [dup_trace] in S.
    rewrite (strnlen_ext _ _ _ _ _ _ _ _ E), F by (intros; apply S, in_app_iff; auto).
    rewrite (memcpy_ext _ _ _ _ _ _ _ _ M) by (intros; apply S, in_app_iff; auto). reflexivity.
Qed.
Lemma path_ext h rd rd' p : same (path_loads h rd p) rd rd' ->
  get_path h rd' true p = get_path h rd true p /\ path_loads h rd' p = path_loads h rd p.
Proof.
  intros S. unfold get_path, path_loads in *. destruct (strdup_out h rd true p) as [r| | | |] eqn:E;
    try (exfalso; unfold strdup_out in E; destruct (contains h p 1); [|discriminate];
         destruct (strnlen _ _ _ _) as [[? ?] ?]; destruct (_ =? _); [discriminate|];
         destruct (memcpy_out _ _ _ _) as [[? ?] ?]; discriminate).
  rewrite (strdup_ext _ _ rd' _ _ E); [split; reflexivity|]. intros t x I. apply S, covers_bytes. exact I.
Qed.

Section READS.
Variables (k : kernel) (vfs : FileTreeModel.dir) (np : netpolicy) (h : heap).
Variables (resolver : list kop -> list addrinfo) (alloc : Z -> Z).

Lemma addr_ext rd rd' op a n fd log : same (addr_loads h rd a n fd) rd rd' ->
  handle_bind_or_connect k np h rd' op a n fd log = handle_bind_or_connect k np h rd op a n fd log /\
  addr_loads h rd' a n fd = addr_loads h rd a n fd.
Proof.
  unfold handle_bind_or_connect, addr_loads. intros S.
  destruct (_ || _ || _); [split; reflexivity|].
  destruct (memcpy_out rd 0 a (Z.to_nat n)) as [[b t1] tr1] eqn:M.
  rewrite (memcpy_ext _ rd' _ _ _ _ _ _ M); [split; reflexivity|]. intros t x I. apply S, covers_bytes. exact I.
Qed.
Lemma gai_ext rd1 rd1' rd2 rd2' hd hd' a b c d log :
  same (gai_loads h rd1 rd2 a b c d) rd1 rd1' -> same (gai_loads h rd1 rd2 a b c d) rd2 rd2' ->
  (forall x, covers (gai_loads h rd1 rd2 a b c d) x -> hd' x = hd x) ->
  handle_getaddrinfo k np h rd1' rd2' true hd' resolver alloc a b c d log = handle_getaddrinfo k np h rd1 rd2 true hd resolver alloc a b c d log /\
  gai_loads h rd1' rd2' a b c d = gai_loads h rd1 rd2 a b c d.
Proof.
  unfold handle_getaddrinfo, gai_loads. destruct (negb (contains h d sizeof_ptr)); [split; reflexivity|].
  destruct (negb (c =? 0) && negb (contains h c sizeof_addrinfo)); [split; reflexivity|]. intros S1 S2 S3.
  apply same_app in S1 as [_ S1]. apply same_app in S1 as [S1 _]. apply same_app in S2 as [_ S2]. apply same_app in S2 as [_ S2].
  destruct (path_ext _ _ _ _ S1) as [G1 L1]. destruct (path_ext _ _ _ _ S2) as [G2 L2]. rewrite G1, G2, L1, L2.
  split; [|reflexivity]. destruct (c =? 0); [reflexivity|].
  assert (C : copy_hints hd' c = copy_hints hd c).
  { unfold copy_hints. f_equal; apply S3, covers_app; left.
    - exists c, 4. split; [left; reflexivity|lia].
    - exists (c + 4), 4. split; [right; left; reflexivity|lia].
    - exists (c + 8), 4. split; [right; right; left; reflexivity|lia].
    - exists (c + 12), 4. split; [right; right; right; left; reflexivity|lia]. }
  rewrite C. reflexivity.
Qed.

Lemma obind_ret {A B} (o : outcome A) (f : A -> outcome B) r : obind o f = Ret r -> exists a, o = Ret a /\ f a = Ret r.
Proof. destruct o; cbn; try discriminate. eauto. Qed.

Lemma builtin_ext rd1 rd1' rd2 rd2' hd hd' tag bytes fd r e :
  run_builtin k vfs np h rd1 rd2 hd resolver alloc tag bytes fd = Ret (r, e) ->
  same (e_reads e) rd1 rd1' -> same (e_reads e) rd2 rd2' -> (forall x, covers (e_reads e) x -> hd' x = hd x) ->
  run_builtin k vfs np h rd1' rd2' hd' resolver alloc tag bytes fd = Ret (r, e).
Proof.
  unfold run_builtin. destruct (decode (tuple_widths tag) bytes) as [vs|]; [|auto].
  assert (PATH : forall (o : outcome (result * list kop)) o' p (w : list kop -> list (Z * Z)),
    (get_path h rd1' true p = get_path h rd1 true p -> o' = o) ->
    obind o (fun '(r, ops) => Ret (r, Effects ops (w ops) (path_loads h rd1 p) [])) = Ret (r, e) ->
    same (e_reads e) rd1 rd1' ->
    obind o' (fun '(r, ops) => Ret (r, Effects ops (w ops) (path_loads h rd1' p) [])) = Ret (r, e)).
  { intros o o' p w O E S. apply obind_ret in E as ([r0 ops] & E1 & E2). inversion E2; subst. cbn [e_reads] in S.
    destruct (path_ext _ _ _ _ S) as [G L]. rewrite (O G), L. reflexivity. }
  destruct vs as [|a [|b [|c [|d [|? ?]]]]]; auto.
  - destruct (tag =? K_Stat); [|destruct (tag =? K_Access); [|auto]].
    + intros E S1 S2 S3. refine (PATH _ _ a stat_writes _ E S1). intros G. unfold handle_stat, handle_path_syscall. rewrite G. reflexivity.
    + intros E S1 S2 S3. refine (PATH _ _ a (fun _ => []) _ E S1). intros G. unfold handle_access, handle_path_syscall. rewrite G. reflexivity.
  - destruct (tag =? K_Open); [|destruct (tag =? K_Bind); [|destruct (tag =? K_Connect); [|auto]]].
    + intros E S1 S2 S3. refine (PATH _ _ a (fun _ => []) _ E S1). intros G. unfold handle_open, handle_path_syscall. rewrite G. reflexivity.
    + intros E S1 S2 S3. destruct (handle_bind_or_connect k np h rd1 NBind b c fd []) as [r0 ops] eqn:B. inversion E; subst. cbn [e_reads] in S1.
      destruct (addr_ext _ _ NBind b c fd [] S1) as [G L]. rewrite G, B, L. reflexivity.
    + intros E S1 S2 S3. destruct (handle_bind_or_connect k np h rd1 NConnect b c fd []) as [r0 ops] eqn:B. inversion E; subst. cbn [e_reads] in S1.
      destruct (addr_ext _ _ NConnect b c fd [] S1) as [G L]. rewrite G, B, L. reflexivity.
  - destruct (tag =? K_OpenAt); [|destruct (tag =? K_GetAddrInfo); [|auto]].
    + intros E S1 S2 S3. refine (PATH _ _ b (fun _ => []) _ E S1). intros G. unfold handle_openat. rewrite G. reflexivity.
    + intros E S1 S2 S3. apply obind_ret in E as (g & E1 & E2). inversion E2; subst. cbn [e_reads] in S1, S2, S3.
      destruct (gai_ext _ _ _ _ _ _ a b c d [] S1 S2 S3) as [G L]. rewrite G, E1, L. reflexivity.
Qed.
End READS.
