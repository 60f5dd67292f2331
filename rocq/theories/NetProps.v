(** Claimed theorems about the network callbacks (C26, C27, C28). *)
From Coq Require Import String Ascii List ZArith Lia Bool.
From Verif Require Import Base RegionModel RegionSpec RegionProof DispatchModel DispatchProps
  HostCallsModel HostCallsSpec HostCallsProof NetProof.
Import ListNotations.
Open Scope Z_scope.

(** A host program's use of the policy: the settings it made, oldest first. *)
Definition policy_after (hist : list (netop * policy)) : netpolicy :=
  fold_left (fun n c => set_policy n (fst c) (snd c)) hist new_netpolicy.

Definition netop_eq_dec (a b : netop) : {a = b} + {a <> b}.
Proof. decide equality. Defined.

(** The last setting made for [op] in the history, if any. *)
Inductive last_setting (op : netop) : list (netop * policy) -> option policy -> Prop :=
| LS_none : last_setting op [] None
| LS_same h p : last_setting op (h ++ [(op, p)]) (Some p)
| LS_other h op' p r : op' <> op -> last_setting op h r -> last_setting op (h ++ [(op', p)]) r.

Lemma get_set_same n op p : get_policy (set_policy n op p) op = p.
Proof. destruct op; reflexivity. Qed.
Lemma get_set_other n op op' p : op' <> op -> get_policy (set_policy n op' p) op = get_policy n op.
Proof. destruct op, op'; intros H; try reflexivity; congruence. Qed.

Lemma policy_after_last op h r : last_setting op h r ->
  get_policy (policy_after h) op = match r with Some p => p | None => PDeny end.
Proof.
  induction 1 as [|h p|h op' p r N H IH]; [destruct op; reflexivity| |].
  - unfold policy_after. rewrite fold_left_app. cbn [fold_left fst snd]. apply get_set_same.
  - unfold policy_after in *. rewrite fold_left_app. cbn [fold_left fst snd]. rewrite get_set_other by auto. exact IH.
Qed.

Lemma last_setting_total op h : exists r, last_setting op h r.
Proof.
  induction h as [|[op' p] h [r IH]] using rev_ind; [eexists; constructor|].
  destruct (netop_eq_dec op' op) as [->|N]; [eexists; apply LS_same|eexists; apply LS_other; eauto].
Qed.

(** C26: an operation reaches the system iff the last setting for that very
    operation was allow, reaches the registered function iff it was
    register_handler; otherwise nothing happens and it fails with ENOSYS. *)
Theorem net_policy_last_setting_decides : forall hist op k log a,
  exists setting, last_setting op hist setting /\
  net_invoke k (policy_after hist) log op a =
    match setting with
    | Some PAllow => (k log (KNet BySystem op a), log ++ [KNet BySystem op a])
    | Some (PCallback tag) => (k log (KNet (ByHandler tag) op a), log ++ [KNet (ByHandler tag) op a])
    | Some PDeny | None => (-1, 38, log)
    end.
Proof.
  intros hist op k log a. destruct (last_setting_total op hist) as [r R]. exists r. split; [exact R|].
  unfold net_invoke. rewrite (policy_after_last _ _ _ R). destruct r as [[| |tag]|]; reflexivity.
Qed.
Print Assumptions net_policy_last_setting_decides.

(** C26: the setting named above is unique. *)
Theorem net_last_setting_unique : forall op hist r1 r2,
  last_setting op hist r1 -> last_setting op hist r2 -> r1 = r2.
Proof.
  intros op hist r1 r2 H. revert r2. induction H as [|h p|h op' p r N H IH]; intros r2 H2.
  - inversion H2 as [|h p E|h op' p r N E X]; auto; destruct h; discriminate.
  - inversion H2 as [E|h' p' E|h' op' p' r N E X].
    + destruct h; discriminate.
    + apply app_inj_tail in E as [_ E]. congruence.
    + apply app_inj_tail in X as [_ X]. congruence.
  - inversion H2 as [E|h' p' E|h' op'' p' r' N' E X].
    + destruct h; discriminate.
    + apply app_inj_tail in E as [_ E]. congruence.
    + apply app_inj_tail in X as [-> X]. subst. auto.
Qed.
Print Assumptions net_last_setting_unique.

(** C26: settings for one operation never affect another. *)
Theorem net_policy_operations_independent : forall h1 h2 op op' p k log a,
  op' <> op ->
  net_invoke k (policy_after (h1 ++ (op', p) :: h2)) log op a = net_invoke k (policy_after (h1 ++ h2)) log op a.
Proof.
  intros h1 h2 op op' p k log a N. unfold net_invoke.
  assert (E : get_policy (policy_after (h1 ++ (op', p) :: h2)) op = get_policy (policy_after (h1 ++ h2)) op).
  { unfold policy_after. rewrite !fold_left_app. cbn [fold_left].
    assert (G : forall h n1 n2, get_policy n1 op = get_policy n2 op ->
      get_policy (fold_left (fun n c => set_policy n (fst c) (snd c)) h n1) op
      = get_policy (fold_left (fun n c => set_policy n (fst c) (snd c)) h n2) op).
    { induction h as [|[o q] h IH]; intros n1 n2 H; [exact H|]. cbn [fold_left]. apply IH. cbn [fst snd].
      destruct (netop_eq_dec o op) as [->|M]; [rewrite !get_set_same; auto|rewrite !get_set_other by auto; auto]. }
    apply G. cbn [fst snd]. apply get_set_other, N. }
  rewrite E. reflexivity.
Qed.
Print Assumptions net_policy_operations_independent.

(** C27: bind and connect.  A bad request touches no network; a good one
    gives the policy the received descriptor, the length, and a private buffer
    that starts with exactly that many bytes read once each from the sandbox
    and contains nothing else but filler. *)
Theorem bind_connect_private_copy : forall k hist shm size hdr rd op addr addrlen in_fd,
  mapping_ok shm size hdr -> is_word addr -> 0 <= addrlen < 2 ^ 32 ->
  let h := library_heap shm size hdr in
  let snapshot := map (fun i => rd i (addr + Z.of_nat i)) (seq 0 (Z.to_nat addrlen)) in
  let '(res, ops) := handle_bind_or_connect k (policy_after hist) h rd op addr addrlen in_fd [] in
  ((exists fd, in_fd = Some fd /\ 0 <= fd /\ addrlen <= 4096 /\
      shm + 2 * hdr <= addr /\ addr < shm + size /\ addr + addrlen <= shm + size) /\
   exists fd buf r, in_fd = Some fd /\ firstn (Z.to_nat addrlen) buf = snapshot /\
     Z.of_nat (length buf) = 4096 /\ Forall (eq (ascii_of_nat 165)) (skipn (Z.to_nat addrlen) buf) /\
     net_invoke k (policy_after hist) [] op (NAddr fd buf addrlen) = (r, removelast ops) /\
     last ops (KDup 0) = KClose fd /\
     res = (if 0 <=? fst r then Result (fst r) None else Result (- snd r) None)) \/
  (~ (exists fd, in_fd = Some fd /\ 0 <= fd /\ addrlen <= 4096 /\
      shm + 2 * hdr <= addr /\ addr < shm + size /\ addr + addrlen <= shm + size) /\
   res = Result (-22) None /\ ops = match in_fd with Some fd => [KClose fd] | None => [] end).
Proof.
  intros k hist shm size hdr rd op addr addrlen in_fd M Wa Wl h snapshot.
  assert (Wl' : is_word addrlen) by (unfold is_word, W; lia).
  unfold handle_bind_or_connect, h.
  set (fd := match in_fd with Some f => f | None => -1 end).
  destruct ((fd <? 0) || (max_sockaddr <? addrlen) || negb (contains (library_heap shm size hdr) addr addrlen)) eqn:B.
  - right. split; [|split; reflexivity]. intros (f & E & P & L & X).
    assert (C : contains (library_heap shm size hdr) addr addrlen = true) by (apply contains_iff; auto).
    rewrite C in B. unfold fd, max_sockaddr in B. rewrite E in B.
    assert (f <? 0 = false) by lia. assert (4096 <? addrlen = false) by lia.
    rewrite H, H0 in B. discriminate.
  - apply orb_false_iff in B as [B C]. apply orb_false_iff in B as [B L].
    apply negb_false_iff in C. apply contains_iff in C; auto. unfold max_sockaddr in L.
    destruct in_fd as [f|]; [|cbn in B; discriminate]. cbn in fd. subst fd.
    rewrite memcpy_out_eq. cbn [Nat.add]. fold snapshot.
    set (buf := snapshot ++ repeat fill_byte (Z.to_nat (max_sockaddr - addrlen))).
    destruct (net_invoke k (policy_after hist) [] op (NAddr f buf addrlen)) as [r log1] eqn:I.
    assert (SL : length snapshot = Z.to_nat addrlen) by (unfold snapshot; rewrite map_length, seq_length; auto).
    left. split; [exists f; repeat split; lia|].
    exists f, buf, r. split; [auto|]. split.
    { unfold buf. rewrite firstn_app, SL, Nat.sub_diag, firstn_O, app_nil_r. apply firstn_all2. lia. }
    split. { unfold buf. rewrite app_length, SL, repeat_length. unfold max_sockaddr. lia. }
    split. { unfold buf. rewrite skipn_app, SL, Nat.sub_diag, skipn_all2 by lia. cbn [app skipn].
             apply Forall_forall. intros x Hx. apply repeat_spec in Hx. symmetry. exact Hx. }
    split. { rewrite removelast_last. exact I. }
    split; [apply last_last|]. reflexivity.
Qed.
Print Assumptions bind_connect_private_copy.

(** C27: under the default policy no network operation ever happens. *)
Theorem net_default_deny : forall k h rd op addr addrlen in_fd,
  let '(_, ops) := handle_bind_or_connect k new_netpolicy h rd op addr addrlen in_fd [] in
  forall w o a, ~ In (KNet w o a) ops.
Proof.
  intros k h rd op addr addrlen in_fd. unfold handle_bind_or_connect.
  destruct (_ || _ || _).
  - intros w o a. destruct in_fd; cbn; [intros [X|[]]|intros []]; discriminate.
  - destruct (memcpy_out _ _ _ _) as [[bs u] tr]. unfold net_invoke. destruct op; cbn [get_policy new_netpolicy np_bind np_getaddrinfo np_connect];
      intros w o a; destruct in_fd; cbn; try (intros [X|[]]; discriminate); intros [].
Qed.
Print Assumptions net_default_deny.

Lemma gai_shape :
  forall k n shm size hdr rd1 rd2 hd resolver alloc in_host in_service in_hints in_res g l ops,
  mapping_ok shm size hdr -> is_word in_host -> is_word in_service -> is_word in_hints -> is_word in_res ->
  handle_getaddrinfo k n (library_heap shm size hdr) rd1 rd2 true hd resolver alloc
    in_host in_service in_hints in_res [] = Ret g ->
  g_log g = ops -> l = resolver ops -> l <> [] ->
  g_reply g = Result 0 None -> g_leak g = false -> g_stores g <> [] ->
  let total := 48 * Z.of_nat (length l) + fold_right (fun a t => Z.of_nat (length (ai_sockaddr a)) + t) 0 l in
  let ais := alloc total in
  total < W -> 0 < ais -> (in_res + 8 <= ais \/ ais + total <= in_res) ->
  exists zeros, g_stores g = zeros ++ ai_copy l ais (ais + 48 * Z.of_nat (length l)) ++
    [SNext (ais + 48 * (Z.of_nat (length l) - 1)) 0; SPtr in_res ais].
Proof.
  intros k n shm size hdr rd1 rd2 hd resolver alloc in_host in_service in_hints in_res g l ops
    M W1 W2 W3 W4 H GL El Nl R Lk NS total ais Tw Pa D.
  unfold handle_getaddrinfo in H.
  destruct (contains (library_heap shm size hdr) in_res sizeof_ptr) eqn:C; cbn [negb] in H.
  2:{ injection H as <-. cbn in NS. congruence. }
  apply contains_iff in C; [|auto|auto|unfold is_word, sizeof_ptr, W; lia]. unfold sizeof_ptr in C.
  destruct (negb (in_hints =? 0) && negb (contains (library_heap shm size hdr) in_hints sizeof_addrinfo)).
  { injection H as <-. cbn in NS. congruence. }
  destruct (get_path_total shm size hdr rd1 in_host M W1) as (o1 & G1 & _).
  destruct (get_path_total shm size hdr rd2 in_service M W2) as (o2 & G2 & _).
  rewrite G1 in H. cbn [obind] in H. rewrite G2 in H. cbn [obind] in H.
  destruct (net_invoke k n [] NGetAddrInfo _) as [r log1].
  destruct (fst r =? 0) eqn:Z0; [|injection H as <-; cbn in NS; congruence].
  destruct (0 <? Z.of_nat (length (resolver log1))) eqn:Cn; [|injection H as <-; cbn in NS; congruence].
  assert (ET : fold_right (fun a t => Z.of_nat (length (ai_sockaddr a)) + t) 0 l = addr_bytes l) by reflexivity.
  destruct (alloc_array alloc 1 (wrap (sizeof_addrinfo * Z.of_nat (length (resolver log1)) + ai_extra (resolver log1)))) as [pl|] eqn:A.
  2:{ injection H as <-. cbn in NS. congruence. }
  injection H as <-. cbn [g_log g_stores g_reply g_leak] in *. subst ops. rewrite <- El in *.
  pose proof (addr_bytes_nonneg l) as Nn.
  assert (Lp : 1 <= Z.of_nat (length l)) by lia.
  assert (EX : ai_extra l = addr_bytes l).
  { unfold ai_extra. rewrite ai_extra_eq; [lia|lia|]. unfold total in Tw. rewrite ET in Tw. lia. }
  rewrite EX in A. unfold sizeof_addrinfo in *.
  assert (Wt : is_word (48 * Z.of_nat (length l) + addr_bytes l)) by (unfold is_word; unfold total in Tw; rewrite ET in Tw; lia).
  rewrite wrap_small in A by exact Wt.
  apply alloc_array_facts in A; [|unfold is_word, W; lia|exact Wt]. rewrite Z.mul_1_l in A.
  destruct A as (_ & _ & Pl & _ & Zs & _).
  replace (48 * Z.of_nat (length l) + addr_bytes l) with total in * by (unfold total; rewrite ET; reflexivity).
  fold ais in Pl. rewrite Pl in *.
  set (zeros := map (fun '(a, b) => SByte a b) (pl_stored pl)) in *.
  exists zeros. reflexivity.
Qed.

(** C28: when the policy function answers 0 with the list [l], the sandbox
    finds at the address stored into its result pointer a list with the same
    elements in the same order, entirely inside one block of exactly the
    requested size; nothing else is written. *)
Lemma gai_list_rebuilt_aux :
  forall k n shm size hdr rd1 rd2 hd resolver alloc in_host in_service in_hints in_res g l ops,
  mapping_ok shm size hdr -> is_word in_host -> is_word in_service -> is_word in_hints -> is_word in_res ->
  handle_getaddrinfo k n (library_heap shm size hdr) rd1 rd2 true hd resolver alloc
    in_host in_service in_hints in_res [] = Ret g ->
  g_log g = ops -> l = resolver ops -> l <> [] ->
  g_reply g = Result 0 None -> g_leak g = false -> g_stores g <> [] ->
  let total := 48 * Z.of_nat (length l) + fold_right (fun a t => Z.of_nat (length (ai_sockaddr a)) + t) 0 l in
  let ais := alloc total in
  total < W -> 0 < ais -> (in_res + 8 <= ais \/ ais + total <= in_res) ->
  ptr_at (g_stores g) in_res = Some ais /\
  list_at (g_stores g) ais (map address_of l) /\
  block_within (shm + 2 * hdr) (shm + size) in_res 8 /\
  (forall s, In s (g_stores g) ->
     s = SPtr in_res ais \/ (ais <= fst (extent s) /\ fst (extent s) + snd (extent s) <= ais + total)).
Proof.
  intros k n shm size hdr rd1 rd2 hd resolver alloc in_host in_service in_hints in_res g l ops
    M W1 W2 W3 W4 H GL El Nl R Lk NS total ais Tw Pa D.
  unfold handle_getaddrinfo in H.
  destruct (contains (library_heap shm size hdr) in_res sizeof_ptr) eqn:C; cbn [negb] in H.
  2:{ injection H as <-. cbn in NS. congruence. }
  apply contains_iff in C; [|auto|auto|unfold is_word, sizeof_ptr, W; lia]. unfold sizeof_ptr in C.
  destruct (negb (in_hints =? 0) && negb (contains (library_heap shm size hdr) in_hints sizeof_addrinfo)).
  { injection H as <-. cbn in NS. congruence. }
  destruct (get_path_total shm size hdr rd1 in_host M W1) as (o1 & G1 & _).
  destruct (get_path_total shm size hdr rd2 in_service M W2) as (o2 & G2 & _).
  rewrite G1 in H. cbn [obind] in H. rewrite G2 in H. cbn [obind] in H.
  destruct (net_invoke k n [] NGetAddrInfo _) as [r log1].
  destruct (fst r =? 0) eqn:Z0; [|injection H as <-; cbn in NS; congruence].
  destruct (0 <? Z.of_nat (length (resolver log1))) eqn:Cn; [|injection H as <-; cbn in NS; congruence].
  assert (ET : fold_right (fun a t => Z.of_nat (length (ai_sockaddr a)) + t) 0 l = addr_bytes l) by reflexivity.
  destruct (alloc_array alloc 1 (wrap (sizeof_addrinfo * Z.of_nat (length (resolver log1)) + ai_extra (resolver log1)))) as [pl|] eqn:A.
  2:{ injection H as <-. cbn in NS. congruence. }
  injection H as <-. cbn [g_log g_stores g_reply g_leak] in *. subst ops. rewrite <- El in *.
  pose proof (addr_bytes_nonneg l) as Nn.
  assert (Lp : 1 <= Z.of_nat (length l)) by lia.
  assert (EX : ai_extra l = addr_bytes l).
  { unfold ai_extra. rewrite ai_extra_eq; [lia|lia|]. unfold total in Tw. rewrite ET in Tw. lia. }
  rewrite EX in A. unfold sizeof_addrinfo in *.
  assert (Wt : is_word (48 * Z.of_nat (length l) + addr_bytes l)) by (unfold is_word; unfold total in Tw; rewrite ET in Tw; lia).
  rewrite wrap_small in A by exact Wt.
  apply alloc_array_facts in A; [|unfold is_word, W; lia|exact Wt]. rewrite Z.mul_1_l in A.
  destruct A as (_ & _ & Pl & _ & Zs & _).
  replace (48 * Z.of_nat (length l) + addr_bytes l) with total in * by (unfold total; rewrite ET; reflexivity).
  fold ais in Pl. rewrite Pl in *.
  set (zeros := map (fun '(a, b) => SByte a b) (pl_stored pl)) in *.
  assert (Dm : in_res + 8 <= ais \/ ais + (48 * Z.of_nat (length l) + addr_bytes l) <= in_res) by (unfold total in D; rewrite ET in D; lia).
  split; [|split; [|split]].
  - unfold ptr_at. rewrite !fold_left_app. cbn [fold_left].
    cbn [ptr_step]. rewrite Z.eqb_refl. reflexivity.
  - pose proof (ai_built l ais in_res zeros Nl Pa Dm 0%nat) as Bu. cbn [skipn] in Bu.
    replace (ais + 48 * Z.of_nat 0) with ais in Bu by lia. apply Bu. destruct l; [congruence|cbn; lia].
  - intros x Hx. lia.
  - intros s Hs. apply in_app_or in Hs as [Hs|Hs].
    + right. unfold zeros in Hs. apply in_map_iff in Hs as ([a b] & <- & Hin).
      destruct (Zs _ _ Hin) as [Q _]. cbn [extent fst snd]. lia.
    + apply in_app_or in Hs as [Hs|[Hs|[Hs|[]]]].
      * right. pose proof (ai_copy_extents l ais (ais + 48 * Z.of_nat (length l))) as F.
        rewrite Forall_forall in F. specialize (F s Hs). unfold within in F. unfold total. rewrite ET. lia.
      * right. subst s. cbn [extent fst snd]. unfold total. rewrite ET.
        change (ais <= ais + 48 * (Z.of_nat (length l) - 1) + 40 /\
          ais + 48 * (Z.of_nat (length l) - 1) + 40 + 8 <= ais + (48 * Z.of_nat (length l) + addr_bytes l)).
        lia.
      * left. auto.
Qed.

(** C28: when the policy function answers 0 with the list [l], the reply is 0
    and the sandbox finds at the address stored into its result pointer a list
    with the same elements in the same order, entirely inside one block of
    exactly the requested size; nothing else is written. *)
Theorem gai_list_rebuilt :
  forall k hist shm size hdr rd1 rd2 hd l alloc in_host in_service in_hints in_res setting,
  mapping_ok shm size hdr -> is_word in_host -> is_word in_service -> is_word in_hints -> is_word in_res ->
  last_setting NGetAddrInfo hist (Some setting) -> setting <> PDeny ->
  (forall log who a, fst (k log (KNet who NGetAddrInfo a)) = 0) ->
  shm + 2 * hdr <= in_res -> in_res + 8 <= shm + size ->
  (in_hints = 0 \/ (shm + 2 * hdr <= in_hints /\ in_hints + 48 <= shm + size)) ->
  l <> [] ->
  let total := 48 * Z.of_nat (length l) + fold_right (fun a t => Z.of_nat (length (ai_sockaddr a)) + t) 0 l in
  let ais := alloc total in
  total < W -> 0 < ais -> (in_res + 8 <= ais \/ ais + total <= in_res) ->
  exists g, handle_getaddrinfo k (policy_after hist) (library_heap shm size hdr) rd1 rd2 true hd (fun _ => l) alloc
    in_host in_service in_hints in_res [] = Ret g /\
  g_reply g = Result 0 None /\ g_leak g = false /\
  ptr_at (g_stores g) in_res = Some ais /\
  list_at (g_stores g) ais (map address_of l) /\
  block_within (shm + 2 * hdr) (shm + size) in_res 8 /\
  (forall s, In s (g_stores g) ->
     s = SPtr in_res ais \/ (ais <= fst (extent s) /\ fst (extent s) + snd (extent s) <= ais + total)).
Proof.
  intros k hist shm size hdr rd1 rd2 hd l alloc in_host in_service in_hints in_res setting
    M W1 W2 W3 W4 LS ND K A1 A2 HH Nl total ais Tw Pa D.
  assert (E : exists g, handle_getaddrinfo k (policy_after hist) (library_heap shm size hdr) rd1 rd2 true hd (fun _ => l) alloc
    in_host in_service in_hints in_res [] = Ret g /\ g_reply g = Result 0 None /\ g_leak g = false /\ g_stores g <> []).
  { unfold handle_getaddrinfo.
    assert (C : contains (library_heap shm size hdr) in_res sizeof_ptr = true).
    { apply contains_iff; [auto|auto|unfold is_word, sizeof_ptr, W; lia|]. unfold sizeof_ptr. lia. }
    rewrite C. cbn [negb].
    assert (C2 : negb (in_hints =? 0) && negb (contains (library_heap shm size hdr) in_hints sizeof_addrinfo) = false).
    { destruct HH as [->|HH]; [reflexivity|].
      assert (contains (library_heap shm size hdr) in_hints sizeof_addrinfo = true) as ->.
      { apply contains_iff; [auto|auto|unfold is_word, sizeof_addrinfo, W; lia|]. unfold sizeof_addrinfo. lia. }
      apply andb_false_r. }
    rewrite C2.
    destruct (get_path_total shm size hdr rd1 in_host M W1) as (o1 & G1 & _).
    destruct (get_path_total shm size hdr rd2 in_service M W2) as (o2 & G2 & _).
    rewrite G1. cbn [obind]. rewrite G2. cbn [obind].
    unfold net_invoke. rewrite (policy_after_last _ _ _ LS).
    assert (EX : ai_extra l = addr_bytes l).
    { pose proof (addr_bytes_nonneg l).
      assert (ET : fold_right (fun a t => Z.of_nat (length (ai_sockaddr a)) + t) 0 l = addr_bytes l) by reflexivity.
      unfold ai_extra. rewrite ai_extra_eq; [lia|lia|]. unfold total in Tw. rewrite ET in Tw. lia. }
    assert (AL : exists pl, alloc_array alloc 1 (wrap (sizeof_addrinfo * Z.of_nat (length l) + ai_extra l)) = Some pl).
    { rewrite EX. change (sizeof_addrinfo * Z.of_nat (length l) + addr_bytes l) with total.
      pose proof (addr_bytes_nonneg l) as Nn.
      assert (ET : fold_right (fun a t => Z.of_nat (length (ai_sockaddr a)) + t) 0 l = addr_bytes l) by reflexivity.
      assert (Wt : is_word total) by (unfold is_word; split; [unfold total; rewrite ET; lia|exact Tw]).
      rewrite wrap_small by exact Wt. unfold alloc_array, alloc_request, umul. rewrite Z.mul_1_l.
      assert (W <=? total = false) as -> by lia. rewrite wrap_small by exact Wt. fold ais.
      assert (ais =? 0 = false) as -> by lia. eauto. }
    destruct AL as [pl AL].
    assert (Ln : 0 <? Z.of_nat (length l) = true) by (destruct l; [congruence|reflexivity]).
    destruct setting as [| |tag]; [congruence| |]; unfold kcall; rewrite K; rewrite Z.eqb_refl, Ln, AL;
      (eexists; split; [reflexivity|]); cbn [g_reply g_leak g_stores];
      (split; [unfold return_int; rewrite K; reflexivity|]); (split; [reflexivity|]);
      intros X; apply app_eq_nil in X as [_ X]; apply app_eq_nil in X as [_ X]; discriminate. }
  destruct E as (g & H & R & Lk & NS). exists g. split; [exact H|]. split; [exact R|]. split; [exact Lk|].
  exact (gai_list_rebuilt_aux k (policy_after hist) shm size hdr rd1 rd2 hd (fun _ => l) alloc
    in_host in_service in_hints in_res g l (g_log g) M W1 W2 W3 W4 H eq_refl eq_refl Nl R Lk NS Tw Pa D).
Qed.
Print Assumptions gai_list_rebuilt.

(** C28: requests with a bad result pointer or bad hints resolve nothing. *)
Theorem gai_bad_pointers_refused :
  forall k n shm size hdr rd1 rd2 hd resolver alloc in_host in_service in_hints in_res,
  mapping_ok shm size hdr -> is_word in_hints -> is_word in_res ->
  (~ (shm + 2 * hdr <= in_res /\ in_res < shm + size /\ in_res + 8 <= shm + size) \/
   (in_hints <> 0 /\
    ~ (shm + 2 * hdr <= in_hints /\ in_hints < shm + size /\ in_hints + 48 <= shm + size))) ->
  exists code, handle_getaddrinfo k n (library_heap shm size hdr) rd1 rd2 true hd resolver alloc
    in_host in_service in_hints in_res [] = Ret (GaiResult (Result code None) [] [] false) /\
    (code = -10 \/ code = -1).
Proof.
  intros k n shm size hdr rd1 rd2 hd resolver alloc in_host in_service in_hints in_res M W3 W4 B.
  unfold handle_getaddrinfo.
  destruct (contains (library_heap shm size hdr) in_res sizeof_ptr) eqn:C; cbn [negb].
  2:{ eexists. split; [reflexivity|]. left. reflexivity. }
  apply contains_iff in C; [|auto|auto|unfold is_word, sizeof_ptr, W; lia]. unfold sizeof_ptr in C.
  destruct B as [B|[Nz B]]; [tauto|].
  assert (in_hints =? 0 = false) as -> by lia.
  destruct (contains (library_heap shm size hdr) in_hints sizeof_addrinfo) eqn:C2.
  - apply contains_iff in C2; [|auto|auto|unfold is_word, sizeof_addrinfo, W; lia].
    unfold sizeof_addrinfo in C2. tauto.
  - cbn [negb andb]. eexists. split; [reflexivity|]. right. reflexivity.
Qed.
Print Assumptions gai_bad_pointers_refused.

(** C28: the resolver gets only the copied integers of the hints and private
    copies of the names, and is consulted only as the policy allows. *)
Theorem gai_consults_policy_once :
  forall k hist shm size hdr rd1 rd2 hd resolver alloc in_host in_service in_hints in_res g,
  mapping_ok shm size hdr -> is_word in_host -> is_word in_service ->
  let h := library_heap shm size hdr in
  handle_getaddrinfo k (policy_after hist) h rd1 rd2 true hd resolver alloc
    in_host in_service in_hints in_res [] = Ret g ->
  g_log g = [] \/
  exists host service who setting, string_or_null (shm + 2 * hdr) (shm + size) rd1 in_host host /\
    string_or_null (shm + 2 * hdr) (shm + size) rd2 in_service service /\
    last_setting NGetAddrInfo hist setting /\
    (setting = Some PAllow /\ who = BySystem \/ exists tag, setting = Some (PCallback tag) /\ who = ByHandler tag) /\
    g_log g = [KNet who NGetAddrInfo (NNames host service
      (if in_hints =? 0 then None
       else Some (Hints (hd in_hints) (hd (in_hints + 4)) (hd (in_hints + 8)) (hd (in_hints + 12)))))].
Proof.
  intros k hist shm size hdr rd1 rd2 hd resolver alloc in_host in_service in_hints in_res g M W1 W2 h H.
  unfold handle_getaddrinfo, h in H.
  destruct (negb (contains (library_heap shm size hdr) in_res sizeof_ptr)); [injection H as <-; auto|].
  destruct (negb (in_hints =? 0) && negb (contains (library_heap shm size hdr) in_hints sizeof_addrinfo));
    [injection H as <-; auto|].
  destruct (get_path_total shm size hdr rd1 in_host M W1) as (o1 & G1 & _ & RD1).
  destruct (get_path_total shm size hdr rd2 in_service M W2) as (o2 & G2 & _ & RD2).
  rewrite G1 in H. cbn [obind] in H. rewrite G2 in H. cbn [obind] in H.
  destruct (net_policy_last_setting_decides hist NGetAddrInfo k []
    (NNames o1 o2 (if in_hints =? 0 then None else Some (copy_hints hd in_hints)))) as (s & S & I).
  rewrite I in H.
  assert (G : forall r log, (let '(r, log1) := (r, log) in
    if fst r =? 0 then
      if 0 <? Z.of_nat (length (resolver log1)) then
        match alloc_array alloc 1 (wrap (sizeof_addrinfo * Z.of_nat (length (resolver log1)) + ai_extra (resolver log1))) with
        | None => Ret (GaiResult (return_int (EAI_MEMORY, snd r)) log1 [] true)
        | Some pl => Ret (GaiResult (return_int r) log1
            (map (fun '(a, b) => SByte a b) (pl_stored pl) ++
             ai_copy (resolver log1) (pl_addr pl) (pl_addr pl + sizeof_addrinfo * Z.of_nat (length (resolver log1))) ++
             [SNext (pl_addr pl + sizeof_addrinfo * (Z.of_nat (length (resolver log1)) - 1)) 0; SPtr in_res (pl_addr pl)]) false)
        end
      else Ret (GaiResult (return_int r) log1 [] false)
    else Ret (GaiResult (return_int r) log1 [] false)) = Ret g -> g_log g = log).
  { intros r log E. destruct (fst r =? 0); [|injection E as <-; reflexivity].
    destruct (0 <? _); [|injection E as <-; reflexivity].
    destruct (alloc_array _ _ _); injection E as <-; reflexivity. }
  destruct s as [[| |tag]|].
  - left. apply (G (-1, 38)). exact H.
  - right. exists o1, o2, BySystem, (Some PAllow). repeat (split; [auto|]).
    apply (G (k [] (KNet BySystem NGetAddrInfo (NNames o1 o2 (if in_hints =? 0 then None else Some (copy_hints hd in_hints)))))).
    exact H.
  - right. exists o1, o2, (ByHandler tag), (Some (PCallback tag)). repeat (split; [eauto|]).
    apply (G (k [] (KNet (ByHandler tag) NGetAddrInfo (NNames o1 o2 (if in_hints =? 0 then None else Some (copy_hints hd in_hints)))))).
    exact H.
  - left. apply (G (-1, 38)). exact H.
Qed.
Print Assumptions gai_consults_policy_once.

Lemma host_pointers_stored :
  forall l ais in_res zeros, l <> [] -> 0 < ais ->
  let total := 48 * Z.of_nat (length l) + fold_right (fun a t => Z.of_nat (length (ai_sockaddr a)) + t) 0 l in
  (in_res + 8 <= ais \/ ais + total <= in_res) ->
  let ss := zeros ++ ai_copy l ais (ais + 48 * Z.of_nat (length l)) ++
            [SNext (ais + 48 * (Z.of_nat (length l) - 1)) 0; SPtr in_res ais] in
  forall i a, nth_error l i = Some a ->
    (exists c, cell_at ss (ais + 48 * Z.of_nat i) = Some c /\ c_canonname c = ai_canonname a) /\
    (exists c, In (SCell (ais + 48 * Z.of_nat i) c) ss /\ c_addr c = ai_addr a /\ c_next c = ai_next a).
Proof.
  intros l ais in_res zeros Nl Pa total D ss i a Hi. split.
  - eexists. split; [exact (ai_built_cell l ais in_res zeros Nl Pa D i a Hi)|reflexivity].
  - exists (raw_cell a). split; [|split; reflexivity]. unfold ss. apply in_or_app. right. apply in_or_app. left.
    clear -Hi. generalize (ais + 48 * Z.of_nat (length l)) as sa. revert ais i Hi.
    induction l as [|x r IH]; intros ais [|i] Hi sa; try discriminate.
    + injection Hi as ->. left. f_equal. lia.
    + cbn in Hi. cbn [ai_copy]. apply in_or_app. right. apply in_or_app. right. apply in_or_app. right.
      replace (ais + 48 * Z.of_nat (S i)) with ((ais + sizeof_addrinfo) + 48 * Z.of_nat i) by (unfold sizeof_addrinfo; lia).
      apply IH. exact Hi.
Qed.

(** C28, limits.  The ai_canonname field of every element, as finally seen by
    the sandbox, is the host's pointer; and each element is first stored with
    the host's ai_addr and ai_next. *)
Theorem gai_host_pointers_leak :
  forall k hist shm size hdr rd1 rd2 hd l alloc in_host in_service in_hints in_res setting,
  mapping_ok shm size hdr -> is_word in_host -> is_word in_service -> is_word in_hints -> is_word in_res ->
  last_setting NGetAddrInfo hist (Some setting) -> setting <> PDeny ->
  (forall log who a, fst (k log (KNet who NGetAddrInfo a)) = 0) ->
  shm + 2 * hdr <= in_res -> in_res + 8 <= shm + size ->
  (in_hints = 0 \/ (shm + 2 * hdr <= in_hints /\ in_hints + 48 <= shm + size)) ->
  l <> [] ->
  let total := 48 * Z.of_nat (length l) + fold_right (fun a t => Z.of_nat (length (ai_sockaddr a)) + t) 0 l in
  let ais := alloc total in
  total < W -> 0 < ais -> (in_res + 8 <= ais \/ ais + total <= in_res) ->
  exists g, handle_getaddrinfo k (policy_after hist) (library_heap shm size hdr) rd1 rd2 true hd (fun _ => l) alloc
    in_host in_service in_hints in_res [] = Ret g /\
  forall i a, nth_error l i = Some a ->
    (exists c, cell_at (g_stores g) (ais + 48 * Z.of_nat i) = Some c /\ c_canonname c = ai_canonname a) /\
    (exists c, In (SCell (ais + 48 * Z.of_nat i) c) (g_stores g) /\ c_addr c = ai_addr a /\ c_next c = ai_next a).
Proof.
  intros k hist shm size hdr rd1 rd2 hd l alloc in_host in_service in_hints in_res setting
    M W1 W2 W3 W4 LS Ns K A B Hh Nl total ais Tw Pa D.
  destruct (gai_list_rebuilt k hist shm size hdr rd1 rd2 hd l alloc in_host in_service in_hints in_res setting
    M W1 W2 W3 W4 LS Ns K A B Hh Nl Tw Pa D) as (g & E & R & Lk & P & _).
  exists g. split; [exact E|].
  assert (NS : g_stores g <> []) by (intros X; rewrite X in P; discriminate).
  destruct (gai_shape k (policy_after hist) shm size hdr rd1 rd2 hd (fun _ => l) alloc in_host in_service in_hints in_res
    g l _ M W1 W2 W3 W4 E eq_refl eq_refl Nl R Lk NS Tw Pa D) as (zeros & ->).
  apply host_pointers_stored; assumption.
Qed.
Print Assumptions gai_host_pointers_leak.

(** C28, limits: a resolver error (a negative EAI code) is replaced by the
    unrelated -errno; when the sandbox is out of memory the list is leaked. *)
Theorem gai_error_code_lost :
  forall k shm size hdr rd1 rd2 hd resolver alloc in_host in_service in_res r e,
  mapping_ok shm size hdr -> is_word in_host -> is_word in_service -> is_word in_res ->
  shm + 2 * hdr <= in_res -> in_res + 8 <= shm + size ->
  (forall log a, k log (KNet BySystem NGetAddrInfo a) = (r, e)) -> r < 0 ->
  exists g, handle_getaddrinfo k (policy_after [(NGetAddrInfo, PAllow)]) (library_heap shm size hdr)
    rd1 rd2 true hd resolver alloc in_host in_service 0 in_res [] = Ret g /\ g_reply g = Result (- e) None.
Proof.
  intros k shm size hdr rd1 rd2 hd resolver alloc in_host in_service in_res r e M W1 W2 W4 A B K R.
  unfold handle_getaddrinfo.
  assert (C : contains (library_heap shm size hdr) in_res sizeof_ptr = true).
  { apply contains_iff; [auto|auto|unfold is_word, sizeof_ptr, W; lia|]. unfold sizeof_ptr. lia. }
  rewrite C. cbn [negb andb Z.eqb].
  destruct (get_path_total shm size hdr rd1 in_host M W1) as (o1 & G1 & _).
  destruct (get_path_total shm size hdr rd2 in_service M W2) as (o2 & G2 & _).
  rewrite G1. cbn [obind]. rewrite G2. cbn [obind].
  unfold net_invoke, kcall. cbn [policy_after fold_left set_policy get_policy fst snd np_getaddrinfo].
  rewrite K. cbn [fst]. assert (r =? 0 = false) as -> by lia. eexists. split; [reflexivity|].
  cbn [g_reply]. unfold return_int. cbn [fst snd]. assert (0 <=? r = false) as -> by lia. reflexivity.
Qed.
Print Assumptions gai_error_code_lost.

(** Instances. *)
Example net_history_ex :
  last_setting NBind [(NBind, PAllow); (NConnect, PCallback 3); (NBind, PDeny); (NConnect, PAllow)] (Some PDeny).
Proof.
  change [(NBind, PAllow); (NConnect, PCallback 3); (NBind, PDeny); (NConnect, PAllow)]
    with (([(NBind, PAllow); (NConnect, PCallback 3)] ++ [(NBind, PDeny)]) ++ [(NConnect, PAllow)]).
  apply LS_other; [discriminate|]. apply LS_same.
Qed.

Example bind_ex :
  handle_bind_or_connect (fun _ _ => (0, 0)) (policy_after [(NConnect, PAllow)])
    (library_heap 0x10000 0x4000 256) (fun i _ => ascii_of_nat i) NConnect 0x12000 3 (Some 9) []
  = (Result 0 None,
     [KNet BySystem NConnect (NAddr 9 ([ascii_of_nat 0; ascii_of_nat 1; ascii_of_nat 2] ++ repeat fill_byte 4093) 3);
      KClose 9]).
Proof. vm_compute. reflexivity. Qed.

Definition gai_demo_list : list addrinfo :=
  [ AddrInfo 0 2 1 6 (tx "abcd") 0x7777000 0x5555000 0x5555100;
    AddrInfo 0 10 1 6 (tx "xyz") 0 0x5555200 0 ].

Example gai_ex : exists g,
  handle_getaddrinfo (fun _ _ => (0, 0)) (policy_after [(NGetAddrInfo, PAllow)]) (library_heap 0x10000 0x4000 256)
    (fun _ _ => nul) (fun _ _ => nul) true (fun _ => 0) (fun _ => gai_demo_list) (fun _ => 0x13000)
    0x12000 0x12000 0 0x12100 [] = Ret g /\
  g_reply g = Result 0 None /\ g_leak g = false /\ g_stores g <> [] /\
  cell_at (g_stores g) 0x13030 = Some (AICell 0 10 1 6 3 0x13064 0 0) /\
  byte_at (g_stores g) 0x13064 = Some "x"%char.
Proof. eexists. split; [vm_compute; reflexivity|]. repeat split; vm_compute; congruence. Qed.
