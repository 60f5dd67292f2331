(** Lemmas for GateProps.v. *)
From Coq Require Import String Ascii List ZArith Lia Bool Permutation.
From Verif Require Import Base PathModel PathSpec PathProof FileTreeModel FileTreeSpec FileTreeProof FileTreeProps RegionModel RegionSpec RegionProof
  DispatchModel DispatchProps HostCallsModel HostCallsSpec HostCallsProof HostCallsProps NetProof NetProps ChildCallsModel EffectsModel EffectsSpec EffectsProof EffectsProps
  HandleModel OwnModel OwnSpec OwnProof OwnProps GateModel GateSpec.
Import ListNotations.
Local Open Scope Z_scope.

(** ** What the built-in handlers ask for, for any exported tree *)

Lemma decode_total : forall ws bs, length bs = list_sum ws -> exists vs, decode ws bs = Some vs.
Proof.
  induction ws as [|w ws IH]; intros bs L; cbn [decode].
  - destruct bs; [eauto|discriminate].
  - change (list_sum (w :: ws)) with (w + list_sum ws)%nat in L. destruct (Nat.ltb_spec (length bs) w); [lia|].
    destruct (IH (skipn w bs)) as [vs E]; [rewrite skipn_length; lia|]. rewrite E. eauto.
Qed.

Section SHAPE.
Variables (t : FileTreeModel.dir) (k : kernel) (hist : list (netop * policy)).

Definition file_fd (f : Z) : Prop := exists p tail, lookup_file t p = Some (f, tail) /\ comps tail = [].
Definition dir_fd (f : Z) (p : text) : Prop :=
  exists q tail, lookup_file t q = Some (f, tail) /\ comps tail <> [] /\ beneath_path p (comps tail).
Definition may_net (who : netimpl) (op : netop) : Prop := exists setting, last_setting op hist (Some setting) /\
  (setting = PAllow /\ who = BySystem \/ exists tag, setting = PCallback tag /\ who = ByHandler tag).

(** An operation that opens an exported object. *)
Inductive reach : kop -> Prop :=
| reach_dup f : file_fd f -> reach (KDup f)
| reach_file f : file_fd f -> reach (KOpenat2 f None 2097152 0 8)
| reach_dir f p flags mode : dir_fd f p -> reach (KOpenat2 f (Some p) flags mode 8).
(** One that looks at [f]. *)
Inductive look_at (f : Z) : kop -> Prop :=
| look_stat buf : look_at f (KFstatat f [] buf 4096)
| look_access mode : look_at f (KFaccessat2 f [] mode 4096).

Inductive shape (given : option Z) : list kop -> DispatchModel.result -> Prop :=
| sh_none i : given = None -> shape given [] (Result i None)
| sh_close i f : given = Some f -> shape given [KClose f] (Result i None)
| sh_fstat i f b : given = None -> file_fd f -> shape given [KFstat f b] (Result i None)
| sh_open o : given = None -> reach o -> 0 <= fst (k [] o) -> shape given [o] (Result (-38) (Some (fst (k [] o))))
| sh_fail i o : given = None -> reach o -> fst (k [] o) < 0 -> shape given [o] (Result i None)
| sh_via i o x : given = None -> reach o -> 0 <= fst (k [] o) -> look_at (fst (k [] o)) x ->
    shape given [o; x; KClose (fst (k [] o))] (Result i None)
| sh_names i who hs : given = None -> may_net who NGetAddrInfo -> (exists a b c, hs = NNames a b c) ->
    shape given [KNet who NGetAddrInfo hs] (Result i None)
| sh_net i who op f buf len : given = Some f -> may_net who op ->
    shape given [KNet who op (NAddr f buf len); KClose f] (Result i None).

(** openat: the only handler that keeps a descriptor. *)
Inductive shape_openat (given : option Z) : list kop -> DispatchModel.result -> Prop :=
| sho path flags mode : let f := match given with Some f => f | None => -1 end in
    shape_openat given (KOpenat2 f path flags mode 8 :: map KClose (opt_list given))
      (Result (fst (k [] (KOpenat2 f path flags mode 8))) None).

Variables (shm size hdr : Z) (rd1 rd2 : reads) (hd : Z -> Z) (resolver : list kop -> list addrinfo) (alloc : Z -> Z).
Hypothesis M : mapping_ok shm size hdr.
Local Notation h := (library_heap shm size hdr).
Local Notation run := (run_builtin k t (policy_after hist) h rd1 rd2 hd resolver alloc).

Definition shaped (given : option Z) (o : outcome (DispatchModel.result * effects)) : Prop :=
  exists r e, o = Ret (r, e) /\ shape given (e_ops e) r.

Lemma path_cases p : is_word p ->
  (exists i, forall handler, handle_path_syscall t h rd1 true p [] handler = Ret (Result i None, [])) \/
  exists f tail, (forall handler, handle_path_syscall t h rd1 true p [] handler = Ret (handler f tail)) /\
    (comps tail = [] /\ file_fd f \/ comps tail <> [] /\ dir_fd f (str tail)).
Proof.
  intros Wp. unfold handle_path_syscall.
  destruct (get_path_total shm size hdr rd1 p M Wp) as (o & G & NN & _). rewrite G. cbn [obind].
  destruct o as [s|]; [|left; eexists; reflexivity].
  destruct (path_of_cstr_total s) as [p' P]. rewrite P. cbn [obind].
  destruct (canonicalise p') as [ok pq] eqn:C. destruct ok; cbn [negb]; [|left; eexists; reflexivity].
  destruct (lookup_file t pq) as [[fd tail]|] eqn:L; [|left; eexists; reflexivity].
  right. exists fd, tail. split; [reflexivity|]. destruct pq as [a cs].
  pose proof (proj1 (lookup_some _ _ _ _ _) L) as (Ab & [(D & _)|(D & q & E & _)]).
  - left. split; [exact D|]. exists (mkPath a cs), tail. auto.
  - right. split; [exact D|]. exists (mkPath a cs), tail. split; [exact L|]. split; [exact D|].
    destruct (canonicalise_result _ _ C) as (_ & Cl & _).
    pose proof (canonicalise_incl _ _ _ C) as I. cbn [comps] in *.
    pose proof (parse_no_slash _ _ P) as NS.
    assert (inT : incl (comps tail) (comps p')).
    { intros x Hx. apply I. rewrite E. apply in_or_app. now right. }
    unfold beneath_path, segments_of, str. rewrite Ab, str_loop_false.
    split; [auto|]. split; [split; [auto|split; [|reflexivity]]|split].
    + apply Forall_forall. intros x Hx. rewrite Forall_forall in NS. auto.
    + rewrite E in Cl. apply Forall_app in Cl. apply Cl.
    + intros Hn. apply In_joined_inv in Hn as [Hn|(c & Hc & Hx)]; [discriminate|].
      exact (NN s eq_refl (comps_chars _ _ _ _ P (inT _ Hc) Hx)).
Qed.

Lemma reach_shape o (e : effects) : reach o -> e_ops e = [o] ->
  shape None (e_ops e) (return_fd (k [] o)).
Proof.
  intros R ->. unfold return_fd. destruct (Z.leb_spec 0 (fst (k [] o))); [apply sh_open; auto|apply sh_fail; auto].
Qed.

Lemma open_shape p flags mode loads : is_word p ->
  shaped None (obind (handle_open k t h rd1 true p flags mode []) (fun '(r, ops) => Ret (r, Effects ops [] loads []))).
Proof.
  intros Wp. unfold handle_open. destruct (path_cases p Wp) as [[i E]|(f & tail & E & D)]; rewrite E; cbn [obind].
  - eexists _, _. split; [reflexivity|]. apply sh_none. reflexivity.
  - unfold is_empty. destruct D as [[D1 D2]|[D1 D2]].
    + rewrite D1. cbn [negb]. eexists _, _. split; [reflexivity|]. apply reach_shape; [apply reach_dup; exact D2|reflexivity].
    + destruct (comps tail) eqn:C; [congruence|]. cbn [negb]. unfold openat_beneath, kcall. cbn [obind app].
      eexists _, _. split; [reflexivity|]. apply reach_shape; [apply reach_dir; exact D2|reflexivity].
Qed.

Lemma return_int_fd x : exists i, return_int x = Result i None.
Proof. unfold return_int. destruct (0 <=? fst x); eauto. Qed.

Lemma via_shape f path x r ops : reach (KOpenat2 f path 2097152 0 8) -> (forall pfd, look_at pfd (x pfd)) ->
  via_path_handle k [] f path x = (r, ops) -> shape None ops (return_int r).
Proof.
  intros R L. unfold via_path_handle, openat_beneath, kcall. change (wrap o_path) with 2097152. change resolve_beneath with 8. cbn [app].
  set (o := KOpenat2 f path 2097152 0 8) in *. destruct (k [] o) as [r1 e1] eqn:E. cbn [fst snd].
  assert (E1 : fst (k [] o) = r1) by (rewrite E; reflexivity).
  destruct (Z.ltb_spec r1 0); intros [= <- <-].
  - destruct (return_int_fd (-1, e1)) as [i ->]. apply sh_fail; auto. lia.
  - destruct (return_int_fd (k [o] (x r1))) as [i ->]. cbn [app]. rewrite <- E1. apply sh_via; auto. lia.
Qed.

Lemma stat_shape p buf loads w : is_word p ->
  shaped None (obind (handle_stat k t h rd1 true sizeof_stat p buf []) (fun '(r, ops) => Ret (r, Effects ops (w ops) loads []))).
Proof.
  intros Wp. unfold handle_stat. destruct (path_cases p Wp) as [[i E]|(f & tail & E & D)]; rewrite E; cbn [obind].
  - eexists _, _. split; [reflexivity|]. apply sh_none. reflexivity.
  - destruct (negb _); [|eexists _, _; split; [reflexivity|]; apply sh_none; reflexivity].
    unfold is_empty. destruct D as [[D1 D2]|[D1 D2]].
    + rewrite D1. cbn -[return_int]. destruct (return_int_fd (k [] (KFstat f (check_pointer h sizeof_stat buf)))) as [i ->].
      eexists _, _. split; [reflexivity|]. apply sh_fstat; auto.
    + destruct (comps tail) eqn:C; [congruence|]. unfold fstatat_beneath.
      destruct (via_path_handle k [] f (Some (str tail)) _) as [r ops] eqn:V. cbn [obind].
      eexists _, _. split; [reflexivity|]. cbn [e_ops]. eapply via_shape; [| |exact V]; [apply reach_dir; exact D2|].
      intros pfd. change (Z.lor 0 at_empty_path) with 4096. constructor.
Qed.

Lemma access_shape p mode loads : is_word p ->
  shaped None (obind (handle_access k t h rd1 true p mode []) (fun '(r, ops) => Ret (r, Effects ops [] loads []))).
Proof.
  intros Wp. unfold handle_access. destruct (path_cases p Wp) as [[i E]|(f & tail & E & D)]; rewrite E; cbn [obind].
  - eexists _, _. split; [reflexivity|]. apply sh_none. reflexivity.
  - unfold is_empty, faccessat_beneath.

    destruct (via_path_handle k [] f _ _) as [r ops] eqn:V.
    cbn [obind]. eexists _, _. split; [reflexivity|]. cbn [e_ops].
    assert (L : forall pfd, look_at pfd (KFaccessat2 pfd [] mode (Z.lor 0 at_empty_path))).
    { intros pfd. change (Z.lor 0 at_empty_path) with 4096. constructor. }
    destruct D as [[D1 D2]|[D1 D2]].
    + rewrite D1 in V. cbn [orb] in V. eapply via_shape; [|exact L|exact V]. apply reach_file. exact D2.
    + destruct (comps tail) eqn:C; [congruence|]. eapply via_shape; [|exact L|exact V]. apply reach_dir. exact D2.
Qed.

Lemma net_cases op a r ops : net_invoke k (policy_after hist) [] op a = (r, ops) ->
  ops = [] \/ exists who, ops = [KNet who op a] /\ may_net who op.
Proof.
  intros E. destruct (net_policy_last_setting_decides hist op k [] a) as (s & S & I). rewrite I in E.
  destruct s as [[| |tag]|]; inversion E; subst; auto; right; eexists; (split; [reflexivity|]); eexists; (split; [exact S|]); eauto.
Qed.

Lemma bind_shape op addr len given loads :
  shaped given (let '(r, ops) := handle_bind_or_connect k (policy_after hist) h rd1 op addr len given [] in Ret (r, Effects ops [] loads [])).
Proof.
  unfold handle_bind_or_connect.
  destruct ((match given with Some f => f | None => -1 end <? 0) || (max_sockaddr <? len) || negb (contains h addr len)) eqn:B.
  - eexists _, _. split; [reflexivity|]. destruct given; [apply sh_close|apply sh_none]; reflexivity.
  - apply orb_false_iff in B as [B C]. apply orb_false_iff in B as [B L].
    destruct given as [f|]; [|cbn in B; discriminate].
    destruct (memcpy_out rd1 0 addr (Z.to_nat len)) as [[bytes tt] tr] eqn:MC.
    destruct (net_invoke k (policy_after hist) [] op _) as [r ops] eqn:N.
    destruct (return_int_fd r) as [i ->].
    eexists _, _. split; [reflexivity|]. cbn [e_ops].
    apply net_cases in N as [-> |(who & -> & P)]; [apply sh_close; reflexivity|]. apply sh_net; auto.
Qed.

Lemma gai_shape a b c d w loads : is_word a -> is_word b ->
  shaped None (obind (handle_getaddrinfo k (policy_after hist) h rd1 rd2 true hd resolver alloc a b c d []) (fun g =>
        Ret (g_reply g, Effects (g_log g) (w g) loads []))).
Proof.
  intros Wa Wb. unfold handle_getaddrinfo.
  destruct (contains h d sizeof_ptr) eqn:C; cbn [negb].
  2:{ eexists _, _. split; [reflexivity|]. apply sh_none. reflexivity. }
  destruct (negb (c =? 0) && negb (contains h c sizeof_addrinfo)) eqn:C2.
  { eexists _, _. split; [reflexivity|]. apply sh_none. reflexivity. }
  destruct (get_path_total shm size hdr rd1 a M Wa) as (o1 & G1 & _).
  destruct (get_path_total shm size hdr rd2 b M Wb) as (o2 & G2 & _).
  rewrite G1. cbn [obind]. rewrite G2. cbn [obind].
  destruct (net_invoke k (policy_after hist) [] NGetAddrInfo _) as [r log1] eqn:N.
  apply net_cases in N.
  assert (OK : forall i e, e_ops e = log1 -> shape None (e_ops e) (Result i None)).
  { intros i e ->. destruct N as [-> |(who & -> & P)]; [apply sh_none|apply sh_names]; eauto. }
  destruct (fst r =? 0).
  2:{ cbn [obind g_reply g_log]. destruct (return_int_fd r) as [i ->]. eexists _, _. split; [reflexivity|]. apply OK. reflexivity. }
  destruct (0 <? Z.of_nat (length (resolver log1))) eqn:Ln.
  2:{ cbn [obind g_reply g_log]. destruct (return_int_fd r) as [i ->]. eexists _, _. split; [reflexivity|]. apply OK. reflexivity. }
  destruct (alloc_array alloc 1 _) as [pl|] eqn:A; cbn [obind g_reply g_log].
  - destruct (return_int_fd r) as [i ->]. eexists _, _. split; [reflexivity|]. apply OK. reflexivity.
  - destruct (return_int_fd (EAI_MEMORY, snd r)) as [i ->]. eexists _, _. split; [reflexivity|]. apply OK. reflexivity.
Qed.

Lemma openat_shape p flags mode given : is_word p ->
  exists r ops, handle_openat k h rd1 true p flags mode given [] = Ret (r, ops) /\ shape_openat given ops r.
Proof.
  intros Wp. unfold handle_openat.
  destruct (get_path_total shm size hdr rd1 p M Wp) as (o & G & _). rewrite G. cbn [obind].
  unfold openat_beneath, kcall. cbn [obind app]. change resolve_beneath with 8.
  eexists _, _. split; [reflexivity|]. pose proof (sho given o (wrap flags) mode) as S. cbn zeta in S. destruct given; exact S.
Qed.

(** Every built-in handler, given the bytes of its argument tuple. *)
Lemma builtin_shape tag bytes given : 0 <= tag < 7 -> length bytes = Z.to_nat (tuple_size tag) ->
  (takes tag = false -> given = None) ->
  exists r e, run tag bytes given = Ret (r, e) /\
    (tag <> 3 /\ shape given (e_ops e) r \/ tag = 3 /\ shape_openat given (e_ops e) r).
Proof.
  intros T L G. unfold run_builtin, tuple_size in *. rewrite Nat2Z.id in L.
  destruct (decode_total _ _ L) as [vs D]. rewrite D. apply decode_range in D as [Lv R]. clear L.
  assert (W8 : forall v, 0 <= v < 256 ^ Z.of_nat 8 -> is_word v) by (intros v V; exact V).
  assert (tag = 0 \/ tag = 1 \/ tag = 2 \/ tag = 3 \/ tag = 4 \/ tag = 5 \/ tag = 6) as Cs by lia.
  assert (OTHER : forall o, tag <> 3 -> shaped given o -> exists r e, o = Ret (r, e) /\
    (tag <> 3 /\ shape given (e_ops e) r \/ tag = 3 /\ shape_openat given (e_ops e) r)).
  { intros o N (r & e & E & S). eauto 8. }
  destruct Cs as [-> |[-> |[-> |[-> |[-> |[-> | ->]]]]]]; cbn [tuple_widths takes] in *; cbn in Lv, R.
  - rewrite (G eq_refl) in *. destruct vs as [|a [|b [|c [|? ?]]]]; try discriminate. apply OTHER; [lia|].
    apply open_shape. apply W8. apply (R 0%nat 8%nat); reflexivity.
  - rewrite (G eq_refl) in *. destruct vs as [|a [|b [|? ?]]]; try discriminate. apply OTHER; [lia|].
    apply stat_shape. apply W8. apply (R 0%nat 8%nat); reflexivity.
  - rewrite (G eq_refl) in *. destruct vs as [|a [|b [|? ?]]]; try discriminate. apply OTHER; [lia|].
    apply access_shape. apply W8. apply (R 0%nat 8%nat); reflexivity.
  - destruct vs as [|a [|b [|c [|d [|? ?]]]]]; try discriminate. cbn -[handle_openat].
    destruct (openat_shape b (to_int32 c) d given) as (r & ops & E & S); [apply W8; apply (R 1%nat 8%nat); reflexivity|].
    rewrite E. cbn [obind]. eexists _, _. split; [reflexivity|]. right. auto.
  - destruct vs as [|a [|b [|c [|? ?]]]]; try discriminate. apply OTHER; [lia|]. apply bind_shape.
  - destruct vs as [|a [|b [|c [|? ?]]]]; try discriminate. apply OTHER; [lia|]. apply bind_shape.
  - rewrite (G eq_refl) in *. destruct vs as [|a [|b [|c [|d [|? ?]]]]]; try discriminate. apply OTHER; [lia|].
    apply gai_shape; apply W8; [apply (R 0%nat 8%nat)|apply (R 1%nat 8%nat)]; reflexivity.
Qed.
End SHAPE.

(** ** The descriptor table *)
Definition shut (f : Z) (u : nat) (s : state) : state := St (tree s) (drop f (kern s)) (next s) (closes s ++ [(f, Some u)]).

Lemma lookup_app n (a b : list (Z * nat)) : lookup n (a ++ b) = match lookup n a with Some u => Some u | None => lookup n b end.
Proof. induction a as [|[m u] a IH]; cbn; [reflexivity|]. destruct (m =? n); auto. Qed.
Lemma lookup_one n m u : lookup n [(m, u)] = if m =? n then Some u else None.
Proof. reflexivity. Qed.
Lemma drop_app n (a b : list (Z * nat)) : lookup n a = None -> drop n (a ++ b) = a ++ drop n b.
Proof. induction a as [|[m u] a IH]; cbn; [reflexivity|]. destruct (m =? n); [discriminate|]. intros E. rewrite IH; auto. Qed.
Lemma drop_app_some n (a b : list (Z * nat)) u : lookup n a = Some u -> drop n (a ++ b) = drop n a ++ b.
Proof. induction a as [|[m w] a IH]; cbn; [discriminate|]. destruct (m =? n); [reflexivity|]. intros E. cbn. rewrite IH; auto. Qed.

Section ASKS.
Variables (debug : bool) (k : kernel).
Definition on_of (o : kop) (s : state) : option nat := match subject o with Some f => lookup f (kern s) | None => None end.
Lemma asks_open r o s : opens o = true -> 0 <= fst r ->
  asks debug r o s = Ret (arrive (fst r) s, Asked o (on_of o s) (Some (next s))).
Proof. intros O R. apply Z.leb_le in R. destruct o; try discriminate O; unfold asks, on_of, arrive; rewrite R; reflexivity. Qed.
Lemma asks_fail r o s : opens o = true -> fst r < 0 -> asks debug r o s = Ret (s, Asked o (on_of o s) None).
Proof. intros O R. apply Z.leb_gt in R. destruct o; try discriminate O; unfold asks, on_of; rewrite R; reflexivity. Qed.
Lemma asks_close r f u s : 0 <= f -> lookup f (kern s) = Some u ->
  asks debug r (KClose f) s = Ret (shut f u s, Asked (KClose f) (Some u) None).
Proof. intros F L. unfold asks, on_of, shut. cbn. apply Z.ltb_ge in F. rewrite F, L. reflexivity. Qed.
Definition plain (o : kop) : bool := match o with KFaccessat2 _ _ _ _ | KFstat _ _ | KFstatat _ _ _ _ | KNet _ _ _ => true | _ => false end.
Lemma asks_plain r o s : plain o = true -> asks debug r o s = Ret (s, Asked o (on_of o s) None).
Proof. intros P. destruct o; try discriminate P; reflexivity. Qed.
End ASKS.

(** ** Requests as steps of OwnModel *)
Section GHOST.
Variable debug : bool.
Definition own_event (lo : nat) (x : op * OwnModel.result) : Prop :=
  (exists n u, x = (Open n, Opened u) /\ (lo <= u)%nat) \/ (exists u, x = (Close u, Done) /\ (lo <= u)%nat).

Lemma runs_arrive es s n : runs debug es s -> 0 <= n -> lookup n (kern s) = None ->
  runs debug (es ++ [(Open n, Opened (next s))]) (arrive n s).
Proof. intros R A B. eapply runs_snoc; [exact R|split; auto|reflexivity]. Qed.

Lemma runs_shut es s f u : runs debug es s -> holds es u -> lookup f (kern s) = Some u ->
  runs debug (es ++ [(Close u, Done)]) (shut f u s).
Proof.
  intros R H L. eapply runs_snoc; [exact R|exact H|]. destruct (runs_Inv _ _ _ R) as (kt & km & kc & I).
  pose proof L as L'. apply (lookup_in _ _ _ (i_num _ _ _ _ _ I)) in L'.
  pose proof (i_nonneg _ _ _ _ _ I _ _ L') as P. cbn [step].
  rewrite (number_in u (kern s) f); [|eapply NoDup_app_l, (i_ids_nodup _ _ _ _ _ I)|exact L'].
  cbn [destroy]. apply Z.ltb_ge in P. rewrite P, L. reflexivity.
Qed.

Lemma runs_fresh es s l u n : runs debug es s -> (next s <= u)%nat -> Forall (own_event (next s)) l ->
  In (Open n, Opened u) l -> ~ In (Close u, Done) l -> holds (es ++ l) u.
Proof.
  intros R U F O C. destruct (runs_Inv _ _ _ R) as (kt & km & kc & I). split; [exists n; apply in_or_app; auto|]. split.
  - intros X. apply in_app_or in X as [X|X]; [|auto]. apply (i_closing _ _ _ _ _ I) in X. lia.
  - intros p file X. apply in_app_or in X as [X|X]; [apply (i_adding _ _ _ _ _ I) in X; lia|].
    rewrite Forall_forall in F. destruct (F _ X) as [(? & ? & Y & _)|(? & Y & _)]; discriminate.
Qed.
End GHOST.

(** Descriptors that arrive and are dropped. *)
Fixpoint pairs (ns : list Z) (u : nat) : list (Z * nat) := match ns with [] => [] | n :: r => (n, u) :: pairs r (S u) end.
Lemma lost_state ns : forall s, fold_left (fun s n => arrive n s) ns s =
  St (tree s) (kern s ++ pairs ns (next s)) (next s + length ns) (closes s).
Proof.
  induction ns as [|n ns IH]; intros s; cbn [fold_left pairs length].
  - rewrite app_nil_r, Nat.add_0_r. destruct s; reflexivity.
  - rewrite IH. unfold arrive. cbn. rewrite <- app_assoc. f_equal. lia.
Qed.
Lemma pairs_lookup ns : forall u n, lookup n (pairs ns u) = None <-> ~ In n ns.
Proof.
  induction ns as [|m ns IH]; intros u n; cbn; [tauto|]. destruct (Z.eqb_spec m n); [split; [discriminate|tauto]|]. rewrite IH. tauto.
Qed.
Lemma runs_lost debug ns : forall es s, runs debug es s -> NoDup ns -> (forall n, In n ns -> 0 <= n /\ lookup n (kern s) = None) ->
  exists l, Forall (own_event (next s)) l /\ (forall u, ~ In (Close u, Done) l) /\
    runs debug (es ++ l) (fold_left (fun s n => arrive n s) ns s).
Proof.
  induction ns as [|n ns IH]; intros es s R N A; cbn [fold_left].
  - exists []. rewrite app_nil_r. auto.
  - inversion N as [|? ? N1 N2]; subst. destruct (A n) as [P L]; [left; reflexivity|].
    destruct (IH _ _ (runs_arrive _ _ _ _ R P L) N2) as (l & F & C & R').
    { intros m Im. destruct (A m) as [P' L']; [right; exact Im|]. split; [exact P'|]. unfold arrive. cbn [kern].
      rewrite lookup_app, L', lookup_one. destruct (Z.eqb_spec n m); [subst; contradiction|reflexivity]. }
    exists ((Open n, Opened (next s)) :: l). split; [|split].
    + constructor; [left; eauto|]. eapply Forall_impl; [|exact F]. cbn. unfold own_event, arrive. cbn [next].
      intros x [(m & u & E & Le)|(u & E & Le)]; [left; exists m, u|right; exists u]; split; auto; lia.
    + intros u [X|X]; [discriminate|]. exact (C u X).
    + rewrite <- app_assoc in R'. exact R'.
Qed.

(** ** One request *)
Section SERVE.
Variables (debug : bool) (shm size hdr : Z) (hist : list (netop * policy)) (s : state) (t : FileTreeModel.dir) (q : request).
Hypothesis M : mapping_ok shm size hdr.
Hypothesis Et : tree s = Some t.
Hypothesis Ks : forall n u, In (n, u) (kern s) -> 0 <= n.
Hypothesis Tr : forall p f tail, lookup_file t p = Some (f, tail) -> f = -1 \/ exists w, lookup f (kern s) = Some w.
Hypothesis Wd : forall rq fd, q_msg q = Some (rq, fd) -> is_word (cr_kind rq) /\ is_word (cr_size rq) /\ is_word (cr_data rq).
Hypothesis Nd : NoDup (arriving q).
Hypothesis Ar : forall n, In n (arriving q) -> 0 <= n /\ lookup n (kern s) = None.
Hypothesis Fk : fair (q_kernel q) (map fst (kern s) ++ arriving q).
Local Notation h := (library_heap shm size hdr).
Local Notation k := (q_kernel q).

Definition got_of : option nat := match q_msg q with Some (_, Some _) => Some (next s + length (q_lost q))%nat | _ => None end.

(** The events, as a recursive condition. *)
Fixpoint okev (mine : list nat) (es : list seen) : Prop :=
  match es with
  | [] => True
  | Asked o on new :: r =>
      rightful s hist got_of mine o on /\ (forall u, new = Some u -> (next s <= u)%nat /\ on <> None) /\
      okev (mine ++ match new with Some u => [u] | None => [] end) r
  | _ :: r => okev mine r
  end.
Lemma okev_split es : forall mine before o on new after, okev mine es -> es = before ++ Asked o on new :: after ->
  rightful s hist got_of (mine ++ opened_in before) o on /\ forall u, new = Some u -> (next s <= u)%nat /\ on <> None.
Proof.
  induction es as [|e es IH]; intros mine before o on new after H E; [destruct before; discriminate|].
  destruct before as [|b before]; cbn [app] in E; injection E as -> E.
  - cbn in H. unfold opened_in. cbn. rewrite app_nil_r. tauto.
  - destruct b as [o' on' new'|i fd|]; cbn [okev] in H.
    + destruct H as (_ & _ & H). destruct (IH _ _ _ _ _ _ H E) as [A B]. split; [|exact B].
      unfold opened_in in *. cbn [flat_map]. rewrite app_assoc. exact A.
    + exact (IH _ _ _ _ _ _ H E).
    + exact (IH _ _ _ _ _ _ H E).
Qed.

Record fine_run (es : list seen) (s' : state) : Prop := {
  fr_events : okev [] es;
  fr_tree : tree s' = tree s;
  fr_table : kern s' = kern s ++ pairs (q_lost q) (next s) \/
    exists r u, kern s' = (kern s ++ pairs (q_lost q) (next s)) ++ [(r, u)] /\ opened_in es = [u] /\
      exists rq fd, q_msg q = Some (rq, fd) /\ cr_kind rq = 3 /\ (q_sends q = true -> In (Replied r None) es);
  fr_closed : forall c, In c (closed_in es) -> exists u, c = Some u /\ (next s <= u)%nat;
  fr_once : NoDup (closed_in es);
  fr_got : forall u, got_of = Some u -> In (Some u) (closed_in es);
  fr_answer : match q_msg q with
    | None => es = []
    | Some _ => if q_sends q
        then exists before i fd after, es = before ++ Replied i fd :: after /\ answers_in before = [] /\ answers_in after = [] /\
          forall x, fd = Some x -> exists u, x = Some u /\ In u (opened_in before) /\ In (Some u) (closed_in after)
        else answers_in es = [Killed]
    end;
  fr_ghost : forall es0, runs debug es0 s -> exists l, Forall (own_event (next s)) l /\ runs debug (es0 ++ l) s' }.

Local Notation s1 := (fold_left (fun s n => arrive n s) (q_lost q) s).

Lemma s1_kern : kern s1 = kern s ++ pairs (q_lost q) (next s).
Proof. rewrite lost_state. reflexivity. Qed.
Lemma s1_next : next s1 = (next s + length (q_lost q))%nat.
Proof. rewrite lost_state. reflexivity. Qed.
Lemma s1_tree : tree s1 = tree s.
Proof. rewrite lost_state. reflexivity. Qed.

Lemma in_numbers n (l : list (Z * nat)) : In n (map fst l) <-> lookup n l <> None.
Proof. rewrite lookup_none. split; [tauto|]. intros H. destruct (in_dec Z.eq_dec n (map fst l)); tauto. Qed.

(** What the kernel hands out is new. *)
Lemma fresh_answer o f : opens o = true -> subject o = Some f -> 0 <= fst (k [] o) ->
  lookup (fst (k [] o)) (kern s1) = None /\ (forall rq n, q_msg q = Some (rq, Some n) -> fst (k [] o) <> n) /\
  In f (map fst (kern s) ++ arriving q).
Proof.
  intros O S P. destruct (Fk [] o f O S P) as [A B]. cbn [open_after] in A, B. rewrite in_app_iff in A. split; [|split; [|exact B]].
  - rewrite s1_kern, lookup_app. destruct (lookup _ (kern s)) eqn:L; [exfalso; apply A; left; apply in_numbers; congruence|].
    apply pairs_lookup. intros X. apply A. right. unfold arriving. apply in_or_app. auto.
  - intros rq n Q E. apply A. right. unfold arriving. rewrite Q. apply in_or_app. right. left. auto.
Qed.
Lemma sent_new rq n : q_msg q = Some (rq, Some n) -> 0 <= n /\ lookup n (kern s1) = None.
Proof.
  intros Q. assert (I : In n (arriving q)) by (unfold arriving; rewrite Q; apply in_or_app; right; left; reflexivity).
  destruct (Ar n I) as [P L]. split; [exact P|]. rewrite s1_kern, lookup_app, L. apply pairs_lookup.
  intros X. unfold arriving in Nd. rewrite Q in Nd. apply NoDup_remove_2 in Nd. rewrite app_nil_r in Nd. contradiction.
Qed.

(** An exported descriptor is the same one throughout the request. *)
Lemma still (f : Z) (u : nat) l : lookup f (kern s) = Some u -> lookup f (kern s ++ l) = Some u.
Proof. intros L. rewrite lookup_app, L. reflexivity. Qed.
Lemma never_minus l : (forall n u, In (n, u) l -> 0 <= n) -> lookup (-1) l = None.
Proof.
  intros A. destruct (lookup (-1) l) as [u|] eqn:L; [|reflexivity]. exfalso.
  assert (In (-1) (map fst l)) by (apply in_numbers; congruence). apply in_map_iff in H as ([n w] & E & I). cbn in E. subst. apply A in I. lia.
Qed.

Variables (rq : crequest) (sent : option Z).
Hypothesis Qm : q_msg q = Some (rq, sent).
Local Notation s2 := (receive q s).
Local Notation rep r := (if q_sends q then [AReply (r_int r) (r_fd r)] else [ATerminate]).
Local Notation np := (policy_after hist).

Lemma s2_is : s2 = match sent with Some n => arrive n s1 | None => s1 end.
Proof. unfold receive. rewrite Qm. destruct sent; reflexivity. Qed.
Lemma s2_kern : kern s2 = kern s ++ pairs (q_lost q) (next s) ++ match sent with Some n => [(n, next s1)] | None => [] end.
Proof.
  rewrite s2_is, app_assoc, <- s1_kern. destruct sent; [reflexivity|]. rewrite app_nil_r. reflexivity.
Qed.
Lemma pairs_in ns : forall u n w, In (n, w) (pairs ns u) -> In n ns.
Proof. induction ns as [|m ns IH]; intros u n w; cbn; [tauto|]. intros [[= -> _]|I]; eauto. Qed.
Lemma s2_nonneg : forall n u, In (n, u) (kern s2) -> 0 <= n.
Proof.
  intros n u I. rewrite s2_kern in I. rewrite !in_app_iff in I. destruct I as [I|[I|I]]; [eauto| |].
  - apply pairs_in in I. apply Ar. unfold arriving. apply in_or_app. auto.
  - destruct sent as [m|] eqn:Es; [|destruct I]. destruct I as [[= -> _]|[]]. apply (sent_new rq n Qm).
Qed.
Lemma s2_open f : In f (map fst (kern s) ++ arriving q) -> lookup f (kern s2) <> None.
Proof.
  intros I. rewrite s2_kern, !lookup_app. apply in_app_or in I as [I|I].
  - apply in_numbers in I. destruct (lookup f (kern s)); congruence.
  - destruct (lookup f (kern s)); [discriminate|]. unfold arriving in I. rewrite Qm in I. apply in_app_or in I as [I|I].
    + destruct (lookup f (pairs _ _)) eqn:L; [discriminate|]. apply pairs_lookup in L. contradiction.
    + destruct (lookup f (pairs _ _)); [discriminate|]. destruct sent as [m|]; [|destruct I]. destruct I as [->|[]].
      cbn. rewrite Z.eqb_refl. discriminate.
Qed.

(** The number of an exported object, at the start of the request and when the
    handler runs. *)
Lemma exported_on p f tail : lookup_file t p = Some (f, tail) ->
  f = -1 /\ lookup f (kern s2) = None \/ exists w, lookup f (kern s2) = Some w /\ lookup f (kern s) = Some w.
Proof.
  intros L. destruct (Tr _ _ _ L) as [-> |[w E]].
  - left. split; [reflexivity|]. apply never_minus. exact s2_nonneg.
  - right. exists w. split; [|exact E]. rewrite s2_kern. apply still. exact E.
Qed.
Lemma file_is f : file_fd t f -> exported_file_is s f (lookup f (kern s2)).
Proof.
  intros (p & tail & L & C). exists t, p, tail. split; [exact Et|]. split; [exact L|]. split; [exact C|].
  destruct (exported_on _ _ _ L) as [[-> N]|(w & E & E')]; [left; auto|right; eauto].
Qed.
Lemma dir_is f p : dir_fd t f p -> exists names, exported_dir_is s f (lookup f (kern s2)) names /\ beneath_path p names.
Proof.
  intros (p' & tail & L & C & B). exists (comps tail). split; [|exact B]. exists t, p', tail. split; [exact Et|]. split; [exact L|].
  split; [reflexivity|]. split; [exact C|].
  destruct (exported_on _ _ _ L) as [[-> N]|(w & E & E')]; [left; auto|right; eauto].
Qed.
Lemma reach_rightful o mine : reach t o -> rightful s hist got_of mine o (on_of o s2).
Proof.
  intros R. destruct R as [f F|f F|f p fl m D]; unfold on_of; cbn [subject].
  - apply R_dup. apply file_is. exact F.
  - apply R_open_file. apply file_is. exact F.
  - apply dir_is in D as (names & D & B). eapply R_open; eauto.
Qed.
Lemma opens_on o f : opens o = true -> subject o = Some f -> 0 <= fst (k [] o) -> on_of o s2 <> None.
Proof.
  intros O S P. unfold on_of. rewrite S. apply s2_open. apply (fresh_answer o f O S P).
Qed.
Lemma got_is : got_of = match sent with Some _ => Some (next s1) | None => None end.
Proof. unfold got_of. rewrite Qm, s1_next. destruct sent; reflexivity. Qed.

(** Computing with the table. *)
Lemma lk_last n K (U : nat) : lookup n K = None -> lookup n (K ++ [(n, U)]) = Some U.
Proof. intros L. rewrite lookup_app, L, lookup_one, Z.eqb_refl. reflexivity. Qed.
Lemma lk_mid n r K (U Wn : nat) : lookup n K = None -> lookup n ((K ++ [(n, U)]) ++ [(r, Wn)]) = Some U.
Proof. intros L. rewrite lookup_app, lk_last by exact L. reflexivity. Qed.
Lemma lk_new r n K (U : nat) : lookup r K = None -> r <> n -> lookup r (K ++ [(n, U)]) = None.
Proof. intros L N. rewrite lookup_app, L, lookup_one. destruct (Z.eqb_spec n r); congruence. Qed.
Lemma dr_last n K (U : nat) : lookup n K = None -> drop n (K ++ [(n, U)]) = K.
Proof. intros L. rewrite drop_app by exact L. cbn. rewrite Z.eqb_refl, app_nil_r. reflexivity. Qed.
Lemma dr_mid n r K (U Wn : nat) : lookup n K = None -> drop n ((K ++ [(n, U)]) ++ [(r, Wn)]) = K ++ [(r, Wn)].
Proof. intros L. rewrite (drop_app_some _ _ _ U) by (apply lk_last; exact L). rewrite dr_last by exact L. reflexivity. Qed.

Lemma act_loads tr l b x : act debug h t np q b (map ALoad tr ++ l) x = act debug h t np q b l x.
Proof.
  induction tr as [|a tr IH]; cbn [map app act]; [reflexivity|]. cbn [obind]. rewrite IH.
  destruct (act debug h t np q b l x) as [[s' es]| | | |]; reflexivity.
Qed.

Section CHAIN.
Variable es0 : list (op * OwnModel.result).
Definition chained (l : list (op * OwnModel.result)) (x : state) : Prop := Forall (own_event (next s)) l /\ runs debug (es0 ++ l) x.
Lemma ch_arrive l n x : chained l x -> 0 <= n -> lookup n (kern x) = None -> (next s <= next x)%nat ->
  chained (l ++ [(Open n, Opened (next x))]) (arrive n x).
Proof.
  intros [F R] P L Le. split; [|rewrite app_assoc; apply runs_arrive; auto]. apply Forall_app. split; [exact F|].
  constructor; [left; eauto|constructor].
Qed.
Lemma ch_shut l f u n x : runs debug es0 s -> chained l x -> lookup f (kern x) = Some u -> In (Open n, Opened u) l -> ~ In (Close u, Done) l ->
  (next s <= u)%nat -> chained (l ++ [(Close u, Done)]) (shut f u x).
Proof.
  intros R0 [F R] L O C Le. split.
  - apply Forall_app. split; [exact F|]. constructor; [right; eauto|constructor].
  - rewrite app_assoc. apply runs_shut; auto. eapply runs_fresh; eauto.
Qed.
End CHAIN.

Lemma nodup_arr_lost : NoDup (q_lost q) /\ forall n, In n (q_lost q) -> 0 <= n /\ lookup n (kern s) = None.
Proof.
  split.
  - unfold arriving in Nd. apply NoDup_app_l in Nd. exact Nd.
  - intros n I. apply Ar. unfold arriving. apply in_or_app. auto.
Qed.

Ltac notin := let X := fresh in intros X; rewrite ?in_app_iff in X; cbn [In] in X;
  repeat match goal with
  | H : _ \/ _ |- _ => destruct H
  | H : (_, _) = (_, _) |- _ => first [discriminate H | injection H; intros; cbn [next arrive] in *; lia]
  | H : False |- _ => destruct H
  | C : (forall u, ~ In (Close u, Done) ?l), H : In (Close _, Done) ?l |- _ => exact (C _ H)
  end.
Ltac isin := rewrite ?in_app_iff; cbn [In]; auto 10.

(** The sequences of operations that requests lead to. *)
Definition lost_ghost := fun es0 R => runs_lost debug (q_lost q) es0 s R (proj1 nodup_arr_lost) (proj2 nodup_arr_lost).

(** Nothing opened, the received descriptor closed. *)
Lemma ghost_close : forall es0, runs debug es0 s -> exists l, Forall (own_event (next s)) l /\
  runs debug (es0 ++ l) (match sent with Some n => shut n (next s1) (arrive n s1) | None => s1 end).
Proof.
  intros es0 R. destruct (lost_ghost es0 R) as (l & F & C & R1). pose proof s1_next as Sn.
  assert (G : chained es0 l s1) by (split; auto). destruct sent as [n|] eqn:Es; [|exists l; exact G].
  destruct (sent_new rq n Qm) as [P L].
  eapply ch_arrive in G; [|exact P|exact L|lia].
  eapply ch_shut in G; [eexists; exact G|exact R|apply lk_last; exact L|isin|notin|lia].
Qed.
Lemma kern_close : kern (match sent with Some n => shut n (next s1) (arrive n s1) | None => s1 end) = kern s1.
Proof. destruct sent as [n|] eqn:Es; [|reflexivity]. unfold shut, arrive. cbn [kern]. apply dr_last. apply (sent_new rq n Qm). Qed.

(** Opened and closed again. *)
Section OPENED.
Variable r : Z.
Hypothesis Rp : 0 <= r.
Hypothesis Rn : lookup r (kern s1) = None.
Hypothesis Rs : forall rq n, q_msg q = Some (rq, Some n) -> r <> n.
Definition Wn : nat := next s2.
Lemma Wn_is : Wn = match sent with Some _ => S (next s1) | None => next s1 end.
Proof. unfold Wn. rewrite s2_is. destruct sent; reflexivity. Qed.
Lemma r_new : lookup r (kern s2) = None.
Proof.
  rewrite s2_is. destruct sent as [n|] eqn:Es; [|exact Rn]. unfold arrive. cbn [kern]. apply lk_new; [exact Rn|]. eapply Rs; exact Qm.
Qed.
Definition close_sent (x : state) : state := match sent with Some n => shut n (next s1) x | None => x end.
Lemma lk_sent n : sent = Some n -> lookup n (kern (arrive r s2)) = Some (next s1) /\ lookup n (kern s2) = Some (next s1).
Proof.
  intros E. rewrite s2_is, E. unfold arrive. cbn [kern]. destruct (sent_new rq n) as [_ L]; [rewrite Qm, E; reflexivity|].
  split; [apply lk_mid|apply lk_last]; exact L.
Qed.
Lemma kern_leak : kern (close_sent (arrive r s2)) = kern s1 ++ [(r, Wn)].
Proof.
  unfold close_sent, Wn. rewrite s2_is. destruct sent as [n|] eqn:Es; [|reflexivity]. unfold shut, arrive. cbn [kern next].
  apply dr_mid. apply (sent_new rq n Qm).
Qed.
Lemma ghost_leak : forall es0, runs debug es0 s -> exists l, Forall (own_event (next s)) l /\
  runs debug (es0 ++ l) (close_sent (arrive r s2)).
Proof.
  intros es0 R. destruct (lost_ghost es0 R) as (l & F & C & R1). pose proof s1_next as Sn. pose proof r_new as Rw. pose proof (lk_sent) as Ls.
  assert (G : chained es0 l s1) by (split; auto). revert Rw Ls. unfold close_sent. rewrite s2_is. destruct sent as [n|] eqn:Es; intros Rw Ls.
  - destruct (sent_new rq n Qm) as [P L]. destruct (Ls n eq_refl) as [Ls1 _].
    eapply ch_arrive in G; [|exact P|exact L|lia]. eapply ch_arrive in G; [|exact Rp|exact Rw|cbn [arrive next]; lia].
    eapply ch_shut in G; [eexists; exact G|exact R|exact Ls1|isin|notin|lia].
  - eapply ch_arrive in G; [|exact Rp|exact Rn|lia]. eexists; exact G.
Qed.
(** The received one closed first. *)
Definition both1 : state := shut r Wn (close_sent (arrive r s2)).
Lemma lk_r1 : lookup r (kern (close_sent (arrive r s2))) = Some Wn.
Proof. rewrite kern_leak. apply lk_last. exact Rn. Qed.
Lemma kern_both1 : kern both1 = kern s1.
Proof. unfold both1, shut at 1. cbn [kern]. rewrite kern_leak. apply dr_last. exact Rn. Qed.
Lemma ghost_both1 : forall es0, runs debug es0 s -> exists l, Forall (own_event (next s)) l /\ runs debug (es0 ++ l) both1.
Proof.
  intros es0 R. destruct (lost_ghost es0 R) as (l & F & C & R1). pose proof s1_next as Sn. pose proof r_new as Rw. pose proof (lk_sent) as Ls. pose proof lk_r1 as Lr. pose proof Wn_is as Wi.
  assert (G : chained es0 l s1) by (split; auto). revert Rw Ls Lr Wi. unfold both1, Wn, close_sent. rewrite s2_is. destruct sent as [n|] eqn:Es; intros Rw Ls Lr Wi.
  - destruct (sent_new rq n Qm) as [P L]. destruct (Ls n eq_refl) as [Ls1 _]. cbn [arrive next] in *.
    eapply ch_arrive in G; [|exact P|exact L|lia]. eapply ch_arrive in G; [|exact Rp|exact Rw|cbn [arrive next]; lia]. cbn [arrive next] in G.
    eapply ch_shut in G; [|exact R|exact Ls1|isin|notin|lia].
    eapply ch_shut in G; [eexists; exact G|exact R|exact Lr|isin|notin|lia].
  - eapply ch_arrive in G; [|exact Rp|exact Rn|lia].
    eapply ch_shut in G; [eexists; exact G|exact R|exact Lr|isin|notin|lia].
Qed.
(** The opened one closed first. *)
Definition both2 : state := close_sent (shut r Wn (arrive r s2)).
Lemma lk_r2 : lookup r (kern (arrive r s2)) = Some Wn.
Proof. unfold arrive. cbn [kern]. apply lk_last. apply r_new. Qed.
Lemma kern_shut2 : kern (shut r Wn (arrive r s2)) = kern s2.
Proof. unfold shut, arrive. cbn [kern]. apply dr_last. apply r_new. Qed.
Lemma kern_both2 : kern both2 = kern s1.
Proof.
  pose proof kern_shut2 as Ks2. rewrite <- kern_close. pose proof s2_is as Si. unfold both2, close_sent.
  destruct sent as [n|] eqn:Es; [|rewrite Ks2, Si; reflexivity].
  unfold shut at 1 3. cbn [kern]. rewrite Ks2, Si. reflexivity.
Qed.
Lemma ghost_both2 : forall es0, runs debug es0 s -> exists l, Forall (own_event (next s)) l /\ runs debug (es0 ++ l) both2.
Proof.
  intros es0 R. destruct (lost_ghost es0 R) as (l & F & C & R1). pose proof s1_next as Sn. pose proof r_new as Rw. pose proof (lk_sent) as Ls. pose proof lk_r2 as Lr. pose proof Wn_is as Wi. pose proof kern_shut2 as Ks2.
  assert (G : chained es0 l s1) by (split; auto). revert Rw Ls Lr Wi Ks2. unfold both2, Wn, close_sent. rewrite s2_is. destruct sent as [n|] eqn:Es; intros Rw Ls Lr Wi Ks2.
  - destruct (sent_new rq n Qm) as [P L]. destruct (Ls n eq_refl) as [_ Ls2]. cbn [arrive next] in *.
    eapply ch_arrive in G; [|exact P|exact L|lia]. eapply ch_arrive in G; [|exact Rp|exact Rw|cbn [arrive next]; lia]. cbn [arrive next] in G.
    eapply ch_shut in G; [|exact R|exact Lr|isin|notin|lia].
    eapply ch_shut in G; [eexists; exact G|exact R| |isin|notin|lia]. rewrite Ks2. exact Ls2.
  - eapply ch_arrive in G; [|exact Rp|exact Rn|lia].
    eapply ch_shut in G; [eexists; exact G|exact R|exact Lr|isin|notin|lia].
Qed.
End OPENED.

Lemma le_s1 : (next s <= next s1)%nat.
Proof. rewrite s1_next. lia. Qed.

(** The answer, as an event. *)
Definition answer (i : Z) (fd : option (option nat)) : list seen := if q_sends q then [Replied i fd] else [Killed].
Lemma act_rep b r x l : act debug h t np q b (rep r ++ l) x =
  obind (act debug h t np q b l x) (fun '(x', es) => Ret (x', answer (r_int r) (option_map (fun n => lookup n (kern x)) (r_fd r)) ++ es)).
Proof.
  unfold answer. destruct (q_sends q); cbn [app act obind]; destruct (act debug h t np q b l x) as [[x' es]| | | |]; reflexivity.
Qed.
Lemma act_nil b x : act debug h t np q b [] x = Ret (x, []).
Proof. reflexivity. Qed.
(** Closing the received descriptor. *)
Definition close_ev : list seen := match sent with Some n => [Asked (KClose n) (Some (next s1)) None] | None => [] end.
Lemma act_close_sent b x l : (forall n, sent = Some n -> lookup n (kern x) = Some (next s1)) ->
  act debug h t np q b (close_opt sent ++ l) x =
  obind (act debug h t np q (b ++ map KClose (opt_list sent)) l (close_sent x)) (fun '(x', es) => Ret (x', close_ev ++ es)).
Proof.
  intros L. pose proof (sent_new rq) as Sn. unfold close_ev, close_sent. destruct sent as [n|] eqn:Es.
  - cbn [close_opt app act]. rewrite (asks_close debug _ n (next s1)); [|apply (Sn n Qm)|apply L; reflexivity]. cbn [obind].
    destruct (act _ _ _ _ _ _ _ _) as [[x' es]| | | |]; reflexivity.
  - cbn [close_opt app map opt_list]. rewrite app_nil_r. destruct (act _ _ _ _ _ _ _ _) as [[x' es]| | | |]; reflexivity.
Qed.
Lemma perform_close b x : (forall n, sent = Some n -> lookup n (kern x) = Some (next s1)) ->
  perform debug k b (map KClose (opt_list sent)) x = Ret (close_sent x, close_ev).
Proof.
  intros L. pose proof (sent_new rq) as Sn. unfold close_ev, close_sent. destruct sent as [n|] eqn:Es; [|reflexivity].
  cbn [map opt_list perform]. rewrite (asks_close debug _ n (next s1)); [|apply (Sn n Qm)|apply L; reflexivity]. reflexivity.
Qed.
Lemma close_ev_ok mine : okev mine close_ev.
Proof.
  unfold close_ev. pose proof got_is as G. destruct sent as [n|]; [|exact I]. cbn [okev]. split; [|split; [discriminate|exact I]].
  apply R_close_sent. exact G.
Qed.
Lemma okev_app a : forall mine b, okev mine a -> okev (mine ++ opened_in a) b -> okev mine (a ++ b).
Proof.
  induction a as [|e a IH]; intros mine b A B; cbn [app okev]; [cbn in B; rewrite app_nil_r in B; exact B|].
  destruct e as [o on new|i fd|]; cbn [okev] in A.
  - destruct A as (A1 & A2 & A3). split; [exact A1|]. split; [exact A2|]. apply IH; [exact A3|].
    unfold opened_in in *. cbn [flat_map] in B. rewrite app_assoc in B. exact B.
  - apply IH; auto.
  - apply IH; auto.
Qed.
Lemma okev_answer mine i fd : okev mine (answer i fd).
Proof. unfold answer. destruct (q_sends q); exact I. Qed.
Lemma opened_app' a b : opened_in (a ++ b) = opened_in a ++ opened_in b.
Proof. apply flat_map_app. Qed.
Lemma closed_app a b : closed_in (a ++ b) = closed_in a ++ closed_in b.
Proof. apply flat_map_app. Qed.
Lemma answers_app a b : answers_in (a ++ b) = answers_in a ++ answers_in b.
Proof. apply filter_app. Qed.
Lemma opened_answer i fd : opened_in (answer i fd) = [].
Proof. unfold answer. destruct (q_sends q); reflexivity. Qed.
Lemma closed_answer i fd : closed_in (answer i fd) = [].
Proof. unfold answer. destruct (q_sends q); reflexivity. Qed.
Lemma opened_close : opened_in close_ev = [].
Proof. unfold close_ev. destruct sent; reflexivity. Qed.
Definition sent_id : list (option nat) := match sent with Some _ => [Some (next s1)] | None => [] end.
Lemma closed_close : closed_in close_ev = sent_id.
Proof. unfold close_ev, sent_id. destruct sent; reflexivity. Qed.
Lemma answers_close : answers_in close_ev = [].
Proof. unfold close_ev. destruct sent; reflexivity. Qed.

(** Summary of the conditions on what is closed. *)
Lemma closing_fine es' cl : (cl = [] \/ cl = [Some Wn]) -> Permutation (closed_in es') (sent_id ++ cl) ->
  (forall c, In c (closed_in es') -> exists u, c = Some u /\ (next s <= u)%nat) /\ NoDup (closed_in es') /\
  (forall u, got_of = Some u -> In (Some u) (closed_in es')).
Proof.
  intros D P. pose proof le_s1 as Le. pose proof Wn_is as Wi. pose proof got_is as G. unfold sent_id in P. split; [|split].
  - intros c I. rewrite P in I. apply in_app_or in I as [I|I].
    + destruct sent; [|destruct I]. destruct I as [<-|[]]. eauto.
    + destruct D as [-> | ->]; [destruct I|]. destruct I as [<-|[]]. exists Wn. split; [reflexivity|]. rewrite Wi. destruct sent; lia.
  - rewrite P. destruct sent, D as [-> | ->]; cbn [app]; repeat constructor; cbn; try tauto. intros [E|[]]. injection E as E. lia.
  - intros u E. rewrite P, E in *. destruct sent; [|discriminate]. left. congruence.
Qed.

Lemma table_same x : kern x = kern s1 -> kern x = kern s ++ pairs (q_lost q) (next s).
Proof. intros ->. apply s1_kern. Qed.
Lemma tree_s2 : tree s2 = tree s.
Proof. rewrite s2_is. destruct sent; [unfold arrive; cbn [tree]|]; apply s1_tree. Qed.
Lemma tree_close x : tree (close_sent x) = tree x.
Proof. unfold close_sent. destruct sent; reflexivity. Qed.
Lemma s2_sent n : sent = Some n -> lookup n (kern s2) = Some (next s1).
Proof.
  intros E. rewrite s2_is, E. unfold arrive. cbn [kern]. apply lk_last. apply (sent_new rq n). rewrite Qm, E. reflexivity.
Qed.
Lemma close_s2 : close_sent s2 = match sent with Some n => shut n (next s1) (arrive n s1) | None => s1 end.
Proof. unfold close_sent. rewrite s2_is. destruct sent; reflexivity. Qed.

(** Answer without a descriptor, somewhere among events that are no answers. *)
Lemma answered a i b : answers_in a = [] -> answers_in b = [] ->
  if q_sends q
  then exists before i' fd after, a ++ answer i None ++ b = before ++ Replied i' fd :: after /\ answers_in before = [] /\ answers_in after = [] /\
    forall x, fd = Some x -> exists u, x = Some u /\ In u (opened_in before) /\ In (Some u) (closed_in after)
  else answers_in (a ++ answer i None ++ b) = [Killed].
Proof.
  intros A B. unfold answer. destruct (q_sends q).
  - exists a, i, None, b. repeat split; auto. discriminate.
  - rewrite !answers_app, A, B. reflexivity.
Qed.

(** Nothing opened: [mid] are operations without effect on the table. *)
Lemma fine_plain mid i a b : okev [] mid -> opened_in mid = [] -> closed_in mid = [] -> answers_in mid = [] ->
  (a = close_ev /\ b = [] \/ a = [] /\ b = close_ev) -> fine_run ((mid ++ a) ++ answer i None ++ b) (close_sent s2).
Proof.
  intros O1 O2 O3 O4 D.
  assert (C : Permutation (closed_in ((mid ++ a) ++ answer i None ++ b)) (sent_id ++ [])).
  { rewrite !closed_app, O3, closed_answer. cbn [app]. rewrite app_nil_r. destruct D as [[-> ->]|[-> ->]]; cbn [app]; rewrite ?app_nil_r, closed_close; reflexivity. }
  destruct (closing_fine _ [] (or_introl eq_refl) C) as (C1 & C2 & C3).
  constructor; auto.
  - apply okev_app; [apply okev_app; [exact O1|]|].
    + destruct D as [[-> ->]|[-> ->]]; [apply close_ev_ok|exact I].
    + apply okev_app; [apply okev_answer|]. destruct D as [[-> ->]|[-> ->]]; [exact I|apply close_ev_ok].
  - rewrite tree_close. apply tree_s2.
  - left. apply table_same. rewrite close_s2. apply kern_close.
  - rewrite Qm. apply answered; [rewrite answers_app, O4|]; destruct D as [[-> ->]|[-> ->]]; auto using answers_close.
  - rewrite close_s2. apply ghost_close.
Qed.

Section OPENS.
Variable o : kop.
Hypothesis Oo : opens o = true.
Hypothesis Op : 0 <= fst (k [] o).
Hypothesis Or : rightful s hist got_of [] o (on_of o s2).
Local Notation r := (fst (k [] o)).
Lemma sub_o : exists f, subject o = Some f.
Proof. clear Or Op. destruct o; try discriminate Oo; cbn; eauto. Qed.
Lemma o_new : lookup r (kern s1) = None /\ forall rq n, q_msg q = Some (rq, Some n) -> r <> n.
Proof. destruct sub_o as [f S]. destruct (fresh_answer o f Oo S Op) as (A & B & _). auto. Qed.
Lemma o_on : on_of o s2 <> None.
Proof. destruct sub_o as [f S]. eapply opens_on; eauto. Qed.
Definition open_ev : seen := Asked o (on_of o s2) (Some Wn).
Lemma asks_o : asks debug (k [] o) o s2 = Ret (arrive r s2, open_ev).
Proof. apply asks_open; auto. Qed.
Lemma open_ev_ok : okev [] [open_ev].
Proof.
  cbn [okev open_ev]. split; [exact Or|]. split; [|exact I]. intros u [= <-]. split; [|apply o_on].
  pose proof le_s1. rewrite Wn_is. destruct sent; lia.
Qed.

(** Opened for the sandbox and sent. *)
Lemma fine_open i : fine_run (([open_ev] ++ close_ev) ++ answer i (Some (Some Wn)) ++ [Asked (KClose r) (Some Wn) None]) (both1 r).
Proof.
  destruct o_new as [N1 N2].
  assert (C : Permutation (closed_in (([open_ev] ++ close_ev) ++ answer i (Some (Some Wn)) ++ [Asked (KClose r) (Some Wn) None])) (sent_id ++ [Some Wn])).
  { rewrite !closed_app, closed_answer, closed_close. unfold open_ev. cbn [closed_in flat_map app].
    destruct o; try discriminate Oo; reflexivity. }
  destruct (closing_fine _ _ (or_intror eq_refl) C) as (C1 & C2 & C3).
  constructor; auto.
  - rewrite <- app_assoc. apply (okev_app [open_ev]); [apply open_ev_ok|]. apply okev_app; [apply close_ev_ok|].
    apply okev_app; [apply okev_answer|]. cbn [okev]. split; [|split; [discriminate|exact I]].
    apply R_close_opened. rewrite !in_app_iff. left. left. right. left. reflexivity.
  - unfold both1, shut. cbn [tree]. rewrite tree_close. cbn [arrive tree]. apply tree_s2.
  - left. apply table_same. apply kern_both1; auto.
  - rewrite Qm. unfold answer. destruct (q_sends q).
    + exists ([open_ev] ++ close_ev), i, (Some (Some Wn)), [Asked (KClose r) (Some Wn) None]. split; [reflexivity|].
      split; [rewrite answers_app, answers_close; reflexivity|]. split; [reflexivity|]. intros x [= <-]. exists Wn. split; [reflexivity|].
      split; [rewrite opened_app'; left; reflexivity|]. left. reflexivity.
    + rewrite !answers_app, answers_close. reflexivity.
  - apply ghost_both1; auto.
Qed.

(** Opened to be looked at. *)
Lemma fine_via x i : look_at r x ->
  fine_run (([open_ev; Asked x (Some Wn) None; Asked (KClose r) (Some Wn) None] ++ close_ev) ++ answer i None ++ []) (both2 r).
Proof.
  intros Lx. destruct o_new as [N1 N2].
  assert (C : Permutation (closed_in (([open_ev; Asked x (Some Wn) None; Asked (KClose r) (Some Wn) None] ++ close_ev) ++ answer i None ++ [])) (sent_id ++ [Some Wn])).
  { rewrite !closed_app, closed_answer, closed_close. unfold open_ev. rewrite !app_nil_r. transitivity ([Some Wn] ++ sent_id); [|apply Permutation_app_comm].
    apply Permutation_app_tail. destruct o; try discriminate Oo; destruct Lx; reflexivity. }
  destruct (closing_fine _ _ (or_intror eq_refl) C) as (C1 & C2 & C3).
  constructor; auto.
  - rewrite <- app_assoc. change (okev [] ([open_ev] ++ ([Asked x (Some Wn) None; Asked (KClose r) (Some Wn) None] ++ (close_ev ++ answer i None ++ [])))).
    apply okev_app; [apply open_ev_ok|]. apply okev_app.
    + cbn [okev open_ev opened_in flat_map app]. split; [destruct Lx; [apply R_stat_opened|apply R_access_opened]; left; reflexivity|].
      split; [discriminate|]. split; [apply R_close_opened; left; reflexivity|]. split; [discriminate|exact I].
    + apply okev_app; [apply close_ev_ok|]. apply okev_app; [apply okev_answer|exact I].
  - unfold both2. rewrite tree_close. unfold shut. cbn [arrive tree]. apply tree_s2.
  - left. apply table_same. apply kern_both2; auto.
  - rewrite Qm. apply answered; [|reflexivity]. rewrite answers_app, answers_close. reflexivity.
  - apply ghost_both2; auto.
Qed.

(** Opened and forgotten: openat. *)
Lemma fine_leak : cr_kind rq = 3 -> fine_run (([open_ev] ++ close_ev) ++ answer r None ++ []) (close_sent (arrive r s2)).
Proof.
  intros K3. destruct o_new as [N1 N2].
  assert (C : Permutation (closed_in (([open_ev] ++ close_ev) ++ answer r None ++ [])) (sent_id ++ [])).
  { rewrite !closed_app, closed_answer, closed_close. unfold open_ev. rewrite !app_nil_r. destruct o; try discriminate Oo; reflexivity. }
  destruct (closing_fine _ [] (or_introl eq_refl) C) as (C1 & C2 & C3).
  constructor; auto.
  - rewrite <- app_assoc. apply (okev_app [open_ev]); [apply open_ev_ok|]. apply okev_app; [apply close_ev_ok|].
    apply okev_app; [apply okev_answer|exact I].
  - rewrite tree_close. cbn [arrive tree]. apply tree_s2.
  - right. exists r, Wn. split; [rewrite <- s1_kern; apply kern_leak; auto|].
    split; [rewrite !opened_app', opened_answer, opened_close; reflexivity|]. exists rq, sent. split; [exact Qm|]. split; [exact K3|].
    intros S. unfold answer. rewrite S. apply in_or_app. right. left. reflexivity.
  - rewrite Qm. apply answered; [|reflexivity]. rewrite answers_app, answers_close. reflexivity.
  - apply ghost_leak; auto.
Qed.
End OPENS.

(** The request as a whole. *)
Lemma shape_given given closing r ops :
  (given = sent /\ closing = None \/ given = None /\ closing = sent) ->
  shape t k hist given ops r ->
  exists x es, obind (perform debug k [] ops s2) (fun '(x1, es1) =>
     obind (act debug h t np q ops (close_opt closing ++ rep r ++ close_opt (r_fd r)) x1) (fun '(x2, es2) => Ret (x2, es1 ++ es2))) = Ret (x, es) /\
   fine_run es x.
Proof.
  intros D S.
  assert (NOFD : forall b x, act debug h t np q b (close_opt (@None Z)) x = Ret (x, [])) by reflexivity.
  (* a handler that was not given the descriptor: it is closed afterwards *)
  assert (AFTER : given = None -> forall i mid, perform debug k [] ops s2 = Ret (s2, mid) -> r = Result i None ->
     okev [] mid -> opened_in mid = [] -> closed_in mid = [] -> answers_in mid = [] ->
     exists x es, obind (perform debug k [] ops s2) (fun '(x1, es1) =>
       obind (act debug h t np q ops (close_opt closing ++ rep r ++ close_opt (r_fd r)) x1) (fun '(x2, es2) => Ret (x2, es1 ++ es2))) = Ret (x, es) /\
       fine_run es x).
  { intros G i mid P -> O1 O2 O3 O4. rewrite P. cbn [obind]. assert (closing = sent) as -> by (destruct D as [[D1 D2]|[D1 D2]]; congruence).
    rewrite act_close_sent by apply s2_sent. rewrite act_rep. cbn [r_fd r_int close_opt option_map]. rewrite act_nil. cbn [obind].
    eexists _, _. split; [reflexivity|]. rewrite app_assoc. apply fine_plain; auto. }
  (* one that was *)
  assert (BEFORE : forall f, given = Some f -> sent = Some f /\ closing = None) by (intros f ->; destruct D as [[D1 D2]|[D1 D2]]; [auto|discriminate]).
  assert (CL : forall f, sent = Some f -> map KClose (opt_list sent) = [KClose f]) by (intros f ->; reflexivity).
  destruct S as [i G|i f G|i f b G F|o G R P|i o G R P|i o x G R P L|i who hs G N (a & b & c & ->)|i who op f buf len G N].
  - apply (AFTER G i []); auto. exact I.
  - destruct (BEFORE f G) as [Sf ->]. rewrite <- (CL f Sf). rewrite perform_close by apply s2_sent. cbn [obind close_opt app].
    rewrite act_rep. cbn [r_fd r_int close_opt option_map]. rewrite act_nil. cbn [obind].
    eexists _, _. split; [reflexivity|]. apply (fine_plain [] i close_ev []); auto. exact I.
  - apply (AFTER G i [Asked (KFstat f b) (on_of (KFstat f b) s2) None]); try reflexivity. cbn [okev]. split; [|split; [discriminate|exact I]].
    apply R_fstat. apply file_is. exact F.
  - assert (closing = sent) as -> by (destruct D as [[D1 D2]|[D1 D2]]; congruence).
    assert (Oo : opens o = true) by (destruct R; reflexivity).
    pose proof (reach_rightful o [] R) as Or. destruct (o_new o Oo P) as [N1 N2].
    cbn [perform]. rewrite asks_o by auto. cbn [obind]. rewrite act_close_sent by (intros n Sn; apply (lk_sent (fst (k [] o)) n Sn)).
    rewrite act_rep. cbn [r_fd r_int close_opt option_map act].
    rewrite (asks_close debug _ _ Wn); [|exact P|apply lk_r1; auto]. cbn [obind].
    rewrite (lk_r1 _ N1).
    eexists _, _. split; [reflexivity|]. rewrite app_assoc. apply (fine_open o Oo P Or).
  - assert (Oo : opens o = true) by (destruct R; reflexivity).
    apply (AFTER G i [Asked o (on_of o s2) None]); try reflexivity.
    + cbn [perform]. rewrite asks_fail by auto. reflexivity.
    + cbn [okev]. split; [|split; [discriminate|exact I]]. apply reach_rightful. exact R.
    + destruct R; reflexivity.
  - assert (closing = sent) as -> by (destruct D as [[D1 D2]|[D1 D2]]; congruence).
    assert (Oo : opens o = true) by (destruct R; reflexivity).
    pose proof (reach_rightful o [] R) as Or. destruct (o_new o Oo P) as [N1 N2].
    pose proof (lk_r2 (fst (k [] o)) N1 N2) as Lr.
    cbn [perform]. rewrite asks_o by auto. cbn [obind]. rewrite asks_plain by (destruct L; reflexivity). cbn [obind].
    assert (On : on_of x (arrive (fst (k [] o)) s2) = Some Wn) by (destruct L; unfold on_of; cbn [subject]; exact Lr).
    rewrite On. rewrite (asks_close debug _ _ Wn); [|exact P|exact Lr]. cbn [obind].
    rewrite act_close_sent by (intros n Sn; rewrite kern_shut2 by auto; apply s2_sent; exact Sn).
    rewrite act_rep. cbn [r_fd r_int close_opt option_map]. rewrite act_nil. cbn [obind].
    eexists _, _. split; [reflexivity|]. rewrite app_assoc. apply (fine_via o Oo P Or x i L).
  - apply (AFTER G i [Asked (KNet who NGetAddrInfo (NNames a b c)) None None]); try reflexivity. cbn [okev]. split; [|split; [discriminate|exact I]].
    destruct N as (setting & N1 & N2). eapply R_names; eauto.
  - destruct (BEFORE f G) as [Sf ->].
    change [KNet who op (NAddr f buf len); KClose f] with (KNet who op (NAddr f buf len) :: [KClose f]). rewrite <- (CL f Sf).
    cbn [perform]. rewrite asks_plain by reflexivity. cbn [obind]. rewrite perform_close by apply s2_sent.
    unfold on_of. cbn [obind subject close_opt app]. rewrite (s2_sent f Sf).
    rewrite act_rep. cbn [r_fd r_int close_opt option_map]. rewrite act_nil. cbn [obind].
    eexists _, _. split; [reflexivity|].
    apply (fine_plain [Asked (KNet who op (NAddr f buf len)) (Some (next s1)) None] i close_ev []); auto.
    cbn [okev]. split; [|split; [discriminate|exact I]]. destruct N as (setting & N3 & N4). eapply R_net; eauto. rewrite got_is, Sf. reflexivity.
Qed.

Lemma shape_leak r ops : cr_kind rq = 3 -> shape_openat k sent ops r ->
  exists x es, obind (perform debug k [] ops s2) (fun '(x1, es1) =>
     obind (act debug h t np q ops (rep r ++ close_opt (r_fd r)) x1) (fun '(x2, es2) => Ret (x2, es1 ++ es2))) = Ret (x, es) /\
   fine_run es x.
Proof.
  intros K3 [path flags mode f]. set (o := KOpenat2 f path flags mode 8).
  assert (Or : rightful s hist got_of [] o (on_of o s2)).
  { assert (E : on_of o s2 = got_of).
    { unfold on_of, o. cbn [subject]. rewrite got_is. pose proof s2_sent as Ss. pose proof (never_minus _ s2_nonneg) as Nm.
      unfold f. destruct sent as [n|]; [apply Ss; reflexivity|exact Nm]. }
    rewrite E. apply R_open_sent. rewrite got_is. unfold f. destruct sent; [discriminate|reflexivity]. }
  change (map KClose (opt_list sent)) with (map KClose (opt_list sent)).
  destruct (Z.ltb_spec (fst (k [] o)) 0) as [P|P].
  - cbn [perform]. rewrite asks_fail by auto. cbn [obind]. rewrite perform_close by apply s2_sent. cbn [obind].
    rewrite act_rep. cbn [r_fd r_int close_opt option_map]. rewrite act_nil. cbn [obind].
    eexists _, _. split; [reflexivity|].
    apply (fine_plain [Asked o (on_of o s2) None] (fst (k [] o)) close_ev []); auto. cbn [okev]. split; [exact Or|split; [discriminate|exact I]].
  - destruct (o_new o eq_refl P) as [N1 N2].
    cbn [perform]. rewrite asks_o by auto. cbn [obind]. rewrite perform_close by (intros n Sn; apply (lk_sent (fst (k [] o)) n Sn)). cbn [obind].
    rewrite act_rep. cbn [r_fd r_int close_opt option_map]. rewrite act_nil. cbn [obind].
    eexists _, _. split; [reflexivity|]. apply (fine_leak o eq_refl P Or K3).
Qed.

Lemma request_fine : exists x es,
  act debug h t np q [] (DispatchModel.handle (new_dispatcher tuple_size) h
     (builtin_result k t np h (q_mem1 q) (q_mem2 q) (q_hints q) (q_resolver q) (q_alloc q)) (q_args q) (q_msg q) (q_sends q)) s2 = Ret (x, es) /\
  fine_run es x.
Proof.
  rewrite Qm. unfold handle. destruct (Wd _ _ Qm) as (Wk & Ws & Wa).
  assert (REF : forall a rest, (a = close_opt sent /\ rest = None) \/ (a = [] /\ rest = sent) ->
    exists x es, act debug h t np q [] (a ++ rep no_result ++ close_opt (r_fd no_result) ++ close_opt rest) s2 = Ret (x, es) /\ fine_run es x).
  { intros a rest [[-> ->]|[-> ->]]; cbn [close_opt r_fd no_result app].
    - rewrite act_close_sent by apply s2_sent. rewrite act_rep, act_nil. cbn [obind]. eexists _, _. split; [reflexivity|].
      apply (fine_plain [] (-38) close_ev []); auto. exact I.
    - rewrite act_rep. rewrite <- (app_nil_r (close_opt sent)), act_close_sent by apply s2_sent. rewrite act_nil. cbn [obind]. eexists _, _. split; [reflexivity|].
      rewrite app_nil_r. apply (fine_plain [] (-38) [] close_ev); auto. exact I. }
  unfold select_handler.
  assert (DH : d_handlers (new_dispatcher tuple_size) =
    map (fun tag => SFn tag (tuple_size tag) (takes tag)) [0; 1; 2; 3; 4; 5; 6]) by reflexivity.
  rewrite DH. rewrite map_length. change (Z.of_nat (length [0; 1; 2; 3; 4; 5; 6])) with 7.
  destruct (Z.ltb_spec (cr_kind rq) 7) as [K7|K7]; [|apply (REF [] sent); auto].
  assert (NT : nth_error [0; 1; 2; 3; 4; 5; 6] (Z.to_nat (cr_kind rq)) = Some (cr_kind rq)).
  { unfold is_word in Wk. assert (cr_kind rq = 0 \/ cr_kind rq = 1 \/ cr_kind rq = 2 \/ cr_kind rq = 3 \/ cr_kind rq = 4 \/ cr_kind rq = 5 \/ cr_kind rq = 6) as C by lia.
    destruct C as [-> |[-> |[-> |[-> |[-> |[-> | ->]]]]]]; reflexivity. }
  apply (map_nth_error (fun tag => SFn tag (tuple_size tag) (takes tag))) in NT. rewrite NT. clear NT DH.
  unfold invoke.
  destruct (Z.eqb_spec (cr_size rq) (tuple_size (cr_kind rq))) as [Ez|]; cbn [negb]; [|apply (REF (close_opt sent) None); auto].
  destruct (contains h (cr_data rq) (cr_size rq)) eqn:C; cbn [negb]; [|apply (REF (close_opt sent) None); auto].
  clear REF. destruct (memcpy_out (q_args q) 0 (cr_data rq) (Z.to_nat (tuple_size (cr_kind rq)))) as [[bytes n] tr] eqn:MC.
  pose proof (proj1 (memcpy_out_facts _ _ _ _ _ _ _ MC)) as Lb. unfold is_word in Wk. assert (T : 0 <= cr_kind rq < 7) by lia.
  set (given := if takes (cr_kind rq) then sent else None).
  set (closing := if takes (cr_kind rq) then None else sent).
  destruct (builtin_shape t k hist shm size hdr (q_mem1 q) (q_mem2 q) (q_hints q) (q_resolver q) (q_alloc q) M (cr_kind rq) bytes given T Lb)
    as (r & e & E & Sh); [unfold given; intros ->; reflexivity|].
  assert (BR : builtin_result k t np h (q_mem1 q) (q_mem2 q) (q_hints q) (q_resolver q) (q_alloc q) (cr_kind rq) bytes given = r)
    by (unfold builtin_result; rewrite E; reflexivity).
  assert (X : exists x es, obind (perform debug k [] (e_ops e) s2) (fun '(x1, es1) =>
     obind (act debug h t np q (e_ops e) (close_opt closing ++ rep r ++ close_opt (r_fd r)) x1) (fun '(x2, es2) => Ret (x2, es1 ++ es2))) = Ret (x, es) /\
     fine_run es x).
  { destruct Sh as [[N3 Sh]|[K3 Sh]].
    - apply (shape_given given closing); [|exact Sh]. unfold given, closing. destruct (takes (cr_kind rq)); auto.
    - unfold given, closing in *. rewrite K3 in *. apply (shape_leak r (e_ops e)); auto. }
  destruct X as (x & es & X & FR). exists x, es. split; [|exact FR].
  assert (Y : act debug h t np q [] (map ALoad tr ++ (AInvoke (cr_kind rq) bytes given :: close_opt closing ++ rep r ++ close_opt (r_fd r))) s2 = Ret (x, es)).
  { rewrite act_loads. cbn [act]. rewrite E. cbn [obind app]. rewrite <- X.
    destruct (perform debug k [] (e_ops e) s2) as [[x1 es1]| | | |]; reflexivity. }
  rewrite <- Y. unfold given, closing in *. clear Y X.
  destruct (takes (cr_kind rq)); rewrite BR; cbn [close_opt app]; rewrite <- ?app_assoc, ?app_nil_r; reflexivity.
Qed.
End SERVE.
