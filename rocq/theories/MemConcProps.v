(** The memory service and the host's chunk allocator under concurrency
    (property C66). *)
From Coq Require Import List ZArith Bool Lia.
From Verif Require Import Base RegionModel RegionSpec BuddyModel
  MemSvcModel MemSvcSpec MemSvcProof MemSvcProps MemConcModel MemConcSpec MemConcProof.
Import ListNotations.
Open Scope Z_scope.

(** ** C66 *)

(** Whatever the interleaving of the service thread's and the program threads'
    accesses, every operation takes effect at one instant between its call and
    its return: there is a history of whole operations, in the order of those
    instants and with the same results, that a single thread could have run.
    When no operation is in progress the shared data are the same. *)
Theorem concurrent_memory_operations_one_at_a_time : forall c evs0 st0 tr0 ls h m cs,
  cfg_ok c -> polite_history c evs0 -> run c init_state evs0 = (st0, tr0) ->
  execution c (call_ok c) (owner (books tr0)) st0 ls h m cs ->
  exists evs st tr s,
    polite_history c (evs0 ++ evs) /\
    run c init_state (evs0 ++ evs) = (st, tr0 ++ tr) /\
    one_at_a_time (fun _ => SIdle) ls tr s /\
    (quiescent cs -> same_memory (c_mem cs) st).
Proof.
  intros c evs0 st0 tr0 ls h m cs C P R X.
  pose proof (polite_inv c evs0 st0 tr0 C P R) as I0.
  destruct (linearise c _ _ _ _ _ _ C I0 X) as (evs & st & tr & s & A & R1 & O & Ij).
  exists evs, st, tr, s. split; [|split; [|split]].
  - unfold polite_history. eapply admissible_app; eauto.
  - eapply run_app_eq; eauto.
  - exact O.
  - intros Q. split; [exact (J_box _ _ _ _ _ _ Ij)|].
    intros j. pose proof (J_free _ _ _ _ _ _ Ij (j * chunk c)) as F.
    pose proof (chunk_pos c). rewrite Z.div_mul in F by lia. apply F.
    intros t (op & p & E & _). rewrite (Q t) in E. discriminate.
Qed.
Print Assumptions concurrent_memory_operations_one_at_a_time.

(** When an allocation is about to return, nobody holds a byte of its block,
    and no other allocation is about to return one. *)
Theorem concurrent_blocks_are_exclusive : forall c evs0 st0 tr0 ls h m cs t op r size x,
  cfg_ok c -> polite_history c evs0 -> run c init_state evs0 = (st0, tr0) ->
  execution c (call_ok c) (owner (books tr0)) st0 ls h m cs ->
  c_thr cs t = Some (op, PDone r) -> allocates op size -> rs_error r = 0 ->
  rs_ret r <= x < rs_ret r + size ->
  h x = Nobody /\
  (forall u op' r' size', u <> t -> c_thr cs u = Some (op', PDone r') -> allocates op' size' ->
     rs_error r' = 0 -> ~ (rs_ret r' <= x < rs_ret r' + size')).
Proof.
  intros c evs0 st0 tr0 ls h m cs t op r size x C P R X Ht Al Er Hx.
  pose proof (polite_inv c evs0 st0 tr0 C P R) as I0.
  destruct (linearise c _ _ _ _ _ _ C I0 X) as (evs & st & tr & s & A & R1 & O & Ij).
  assert (Cl : forall op r size, allocates op size -> rs_error r = 0 ->
             exists w, claim c op (PDone r) = Some (rs_ret r, size, w)).
  { intros o q n Ao Eq. destruct o as [i rq|i sz ra m0|i a sz|sh bi|i]; cbn in Ao; try contradiction; cbn [claim].
    - destruct Ao as [-> <-]. rewrite Eq. exists Sandbox. reflexivity.
    - subst n. rewrite Eq. exists Host. reflexivity. }
  destruct (Cl op r size Al Er) as (w & Ec). split.
  - eapply (J_own _ _ _ _ _ _ Ij); eauto.
  - intros u op' r' size' Ne Hu Al' Er' Hx'. destruct (Cl op' r' size' Al' Er') as (w' & Ec').
    apply (J_disj _ _ _ _ _ _ Ij u t x Ne).
    + exists op', (PDone r'). split; [exact Hu|]. exists (rs_ret r'), size', w'. auto.
    + exists op, (PDone r). split; [exact Ht|]. exists (rs_ret r), size, w. auto.
Qed.
Print Assumptions concurrent_blocks_are_exclusive.

(** At every moment, also in the middle of other threads' operations, the
    pagemap has for every byte of a slab the host holds exactly what the
    host's allocator stored for that slab, and never a sandbox's mark. *)
Theorem concurrent_slab_entries_stable : forall c evs0 st0 tr0 ls h m cs x mp ras,
  cfg_ok c -> polite_history c evs0 -> run c init_state evs0 = (st0, tr0) ->
  execution c (call_ok c) (owner (books tr0)) st0 ls h m cs ->
  m x = Some (mp, ras) ->
  let e := g_pm (c_mem cs) (x / chunk c) in
  h x = Host /\ get_slab_metadata e = mp /\ e_ras e = ras /\ is_sandbox_owned e = false.
Proof.
  intros c evs0 st0 tr0 ls h m cs x mp ras C P R X Hm e.
  pose proof (polite_inv c evs0 st0 tr0 C P R) as I0.
  destruct (linearise_slabs c _ _ _ _ _ _ C I0 X) as (evs & st & tr & s & (A & R1 & O & Ij) & [K1 _]).
  destruct (K1 _ _ _ Hm) as (Hh & (old & He) & M1 & M2). split; [exact Hh|].
  assert (Ee : e = assign old (Entry mp ras)).
  { unfold e. rewrite <- He. apply (J_free _ _ _ _ _ _ Ij).
    intros u (op & p & E & a & n & w & Ec & Hx).
    destruct (J_own _ _ _ _ _ _ Ij _ _ _ _ _ _ _ E Ec Hx). congruence. }
  rewrite Ee. apply host_entry_round_trip; auto.
Qed.
Print Assumptions concurrent_slab_entries_stable.

(** At every moment, an entry with a sandbox's mark belongs to a byte that no
    program thread holds or is being given or is giving back. *)
Theorem concurrent_marks_never_on_host_memory : forall c evs0 st0 tr0 ls h m cs x,
  cfg_ok c -> polite_history c evs0 -> run c init_state evs0 = (st0, tr0) ->
  execution c (call_ok c) (owner (books tr0)) st0 ls h m cs ->
  is_sandbox_owned (g_pm (c_mem cs) (x / chunk c)) = true ->
  h x <> Host /\
  (forall t i size ras mp r, c_thr cs t = Some (EvHostAlloc i size ras mp, PDone r) -> rs_error r = 0 ->
     ~ (rs_ret r <= x < rs_ret r + size)) /\
  (forall t i a size p, c_thr cs t = Some (EvHostFree i a size, p) -> (forall r, p <> PDone r) ->
     ~ (a <= x < a + size)).
Proof.
  intros c evs0 st0 tr0 ls h m cs x C P R X M.
  pose proof (polite_inv c evs0 st0 tr0 C P R) as I0.
  destruct (linearise c _ _ _ _ _ _ C I0 X) as (evs & st & tr & s & A & R1 & O & Ij).
  assert (MS : is_sandbox_owned (g_pm st (x / chunk c)) = true).
  { destruct (is_sandbox_owned (g_pm st (x / chunk c))) eqn:G; [reflexivity|].
    rewrite <- M, <- G. f_equal. symmetry. apply (J_free _ _ _ _ _ _ Ij).
    intros u (op & p & E & Q). pose proof (J_view _ _ _ _ _ _ Ij _ _ _ _ E Q) as V.
    rewrite (view_marked _ _ _ _ _ V M) in G. discriminate. }
  apply (I_mark _ _ _ (J_inv _ _ _ _ _ _ Ij)) in MS.
  assert (NC : forall t op p, c_thr cs t = Some (op, p) -> is_req op = false -> is_destroy op = false -> ~ claims c op p x).
  { intros t op p E Rq Nd (a & n & w & Ec & Hx).
    destruct (J_own _ _ _ _ _ _ Ij _ _ _ _ _ _ _ E Ec Hx) as [Ow _].
    pose proof (claim_who _ _ _ _ _ _ Ec) as Ew. rewrite Rq, Nd in Ew. subst w.
    specialize (Ow ltac:(discriminate)). congruence. }
  split; [|split].
  - intros Hh. pose proof (J_hold _ _ _ _ _ _ Ij x ltac:(congruence)). congruence.
  - intros t i size ras mp r E Er Hx. apply (NC _ _ _ E eq_refl eq_refl).
    exists (rs_ret r), size, Host. cbn [claim]. rewrite Er. auto.
  - intros t i a size p E Np Hx. apply (NC _ _ _ E eq_refl eq_refl). exists a, size, Host.
    pose proof (J_pc _ _ _ _ _ _ Ij _ _ _ E) as Pc. cbn [pcok] in Pc.
    destruct p; cbn [claim]; auto; try (destruct Pc as [_ []]; fail). destruct (Np r eq_refl).
Qed.
Print Assumptions concurrent_marks_never_on_host_memory.

(** At every moment, an entry with a sandbox's mark belongs to the memory of a
    library that exists: creation and destruction on other threads leave no
    mark behind. *)
Theorem concurrent_marks_only_in_live_libraries : forall c evs0 st0 tr0 ls h m cs x,
  cfg_ok c -> polite_history c evs0 -> run c init_state evs0 = (st0, tr0) ->
  execution c (call_ok c) (owner (books tr0)) st0 ls h m cs ->
  is_sandbox_owned (g_pm (c_mem cs) (x / chunk c)) = true ->
  exists i b, nth_error (g_box (c_mem cs)) i = Some b /\ b_live b = true /\
              b_shm b <= x < b_shm b + region_size b.
Proof.
  intros c evs0 st0 tr0 ls h m cs x C P R X M.
  pose proof (polite_inv c evs0 st0 tr0 C P R) as I0.
  destruct (linearise c _ _ _ _ _ _ C I0 X) as (evs & st & tr & s & A & R1 & O & Ij).
  assert (MS : is_sandbox_owned (g_pm st (x / chunk c)) = true).
  { destruct (is_sandbox_owned (g_pm st (x / chunk c))) eqn:G; [reflexivity|].
    rewrite <- M, <- G. f_equal. symmetry. apply (J_free _ _ _ _ _ _ Ij).
    intros u (op & p & E & Q). pose proof (J_view _ _ _ _ _ _ Ij _ _ _ _ E Q) as V.
    rewrite (view_marked _ _ _ _ _ V M) in G. discriminate. }
  pose proof (J_inv _ _ _ _ _ _ Ij) as Iv. apply (I_mark _ _ _ Iv) in MS.
  destruct (I_owned_live _ _ _ Iv x) as (i & b & Hi & Lv & Hx); [congruence|].
  rewrite (J_box _ _ _ _ _ _ Ij). pose proof (chunk_pos c). exists i, b.
  split; [exact Hi|]. split; [exact Lv|]. lia.
Qed.
Print Assumptions concurrent_marks_only_in_live_libraries.

(** ** Concrete schedules *)


Definition ex_h0 := [EvCreate ex_base 18].
Definition ex_st0 := fst (run ex_cfg init_state ex_h0).
Definition ex_bk0 := books (snd (run ex_cfg init_state ex_h0)).
Definition ex_alloc : event := EvHostAlloc 0 ck 0x7f0040004000 0x5000.

Example ex_h0_polite : polite_history ex_cfg ex_h0.
Proof.
  unfold polite_history, ex_h0. nextev.
  { split; [|exact I]. cbn [hostile_ok fresh_region]. unfold fresh_region, ex_base, W.
    cbn [cbits ex_cfg]. repeat split; try lia.
    - exists (0x7f0040000000 / 2 ^ 18). reflexivity.
    - intros r []. }
  exact I.
Qed.


(** A schedule: who calls, steps or returns, in order. *)
Inductive act := ACall (t : nat) (op : event) | AStep (t : nat) | ARet (t : nat).
Record seen := Seen {
  s_ls : list label; s_h : Z -> who; s_m : Z -> option (Z * Z); s_cs : cstate }.

(** Executable forms of the conditions on calls and steps for schedules of
    threads below [n]; [ex] is the first thread that a destructor waits for. *)
Definition uses (cs : cstate) (i u : nat) : bool :=
  match c_thr cs u with
  | Some (op, _) => match op_box op with Some j => Nat.eqb i j | None => false end
  | None => false
  end.
Definition destroys (cs : cstate) (i u : nat) : bool :=
  match c_thr cs u with Some (EvDestroy j, _) => Nat.eqb i j | _ => false end.
Definition callb (n ex : nat) (cs : cstate) (t : nat) (op : event) : bool :=
  Nat.ltb t n &&
  match op with
  | EvReq i _ => Nat.eqb t 0 && negb (existsb (destroys cs i) (seq 0 n))
  | EvHostAlloc i _ _ _ => negb (Nat.eqb t 0) && negb (existsb (destroys cs i) (seq 0 n))
  | EvHostFree _ _ _ => false
  | EvCreate _ _ => negb (Nat.eqb t 0)
  | EvDestroy i =>
    negb (Nat.eqb t 0) &&
    match nth_error (g_box (c_mem cs)) i with Some b => b_live b | None => false end &&
    negb (existsb (uses cs i) (seq ex (n - ex)))
  end.
Definition stepb (c : cfg) (st : gstate) (op : event) (p : pc) : bool :=
  match op, p with
  | EvCreate shm bits, PStart =>
    Nat.ltb (cbits c) bits && Nat.leb bits 62 && (0 <? shm) && (shm mod 2 ^ Z.of_nat bits =? 0) &&
    (shm + 2 ^ Z.of_nat bits <? W) &&
    forallb (fun b => negb (b_live b) || (b_shm b + region_size b <=? shm)
                      || (shm + 2 ^ Z.of_nat bits <=? b_shm b)) (g_box st)
  | _, _ => true
  end.

Definition do1 (c : cfg) (n ex : nat) (q : seen) (a : act) : option seen :=
  let '(Seen ls h m cs) := q in
  match a with
  | ACall t op =>
    match c_thr cs t with
    | None =>
      if callb n ex cs t op then
        Some (Seen (ls ++ [LCall t op]) (hold_after (c_mem cs) h (LCall t op))
                   (slab_after (c_mem cs) m (LCall t op))
                   (CState (c_mem cs) (set_thr (c_thr cs) t (Some (op, PStart)))))
      else None
    | Some _ => None
    end
  | AStep t =>
    match c_thr cs t with
    | Some (op, PDone _) => None
    | Some (op, p) =>
      if stepb c (c_mem cs) op p then
        let '(st', p') := tstep c (c_mem cs) op p in
        Some (Seen ls h m (CState st' (set_thr (c_thr cs) t (Some (op, p')))))
      else None
    | None => None
    end
  | ARet t =>
    match c_thr cs t with
    | Some (op, PDone r) =>
      Some (Seen (ls ++ [LRet t op r]) (hold_after (c_mem cs) h (LRet t op r))
                 (slab_after (c_mem cs) m (LRet t op r))
                 (CState (c_mem cs) (set_thr (c_thr cs) t None)))
    | _ => None
    end
  end.
Fixpoint doall (c : cfg) (n ex : nat) (q : seen) (l : list act) : option seen :=
  match l with
  | [] => Some q
  | a :: r => match do1 c n ex q a with Some q' => doall c n ex q' r | None => None end
  end.

(** What an operation's arguments must satisfy. *)
Definition args_ok (c : cfg) (op : event) : Prop :=
  match op with
  | EvReq _ rq => request_words rq /\ (rq_kind rq = 1 -> (rq_1 rq | rq_0 rq))
  | EvHostAlloc _ size _ mp => chunk_size c size /\ (16 | mp) /\ 0 <= mp
  | _ => True
  end.

(** The conditions on calls, except that a destructor waits only for threads
    from [ex] on. *)
Definition call_ok_from (ex : nat) (c : cfg) (cs : cstate) (h : Z -> who) (t : nat) (op : event) : Prop :=
  match op with
  | EvDestroy i =>
    t <> 0%nat /\ (exists b, nth_error (g_box (c_mem cs)) i = Some b /\ b_live b = true) /\
    (forall u op' p, (ex <= u)%nat -> c_thr cs u = Some (op', p) -> op_box op' <> Some i)
  | _ => call_ok c cs h t op
  end.

Definition below (n : nat) (cs : cstate) : Prop := forall u, (n <= u)%nat -> c_thr cs u = None.

Lemma existsb_seq f a n u : existsb f (seq a n) = false -> (a <= u < a + n)%nat -> f u = false.
Proof.
  intros E Hu. destruct (f u) eqn:F; [|reflexivity]. rewrite <- E. symmetry. apply existsb_exists.
  exists u. split; [apply in_seq; lia|exact F].
Qed.

Lemma callb_ok c n ex cs h t op : below n cs -> args_ok c op -> callb n ex cs t op = true ->
  call_ok_from ex c cs h t op.
Proof.
  intros Bl A E. apply andb_true_iff in E as [_ E].
  assert (ND : forall i, existsb (destroys cs i) (seq 0 n) = false -> not_being_destroyed cs i).
  { intros i X u p Eu. destruct (Nat.lt_ge_cases u n) as [L|L]; [|rewrite (Bl u L) in Eu; discriminate].
    pose proof (existsb_seq _ _ _ u X ltac:(lia)) as F. unfold destroys in F. rewrite Eu in F.
    rewrite Nat.eqb_refl in F. discriminate. }
  destruct op as [i rq|i sz ras mp|i A0 sz|sh bi|i]; cbn [call_ok_from call_ok args_ok] in *;
    try discriminate.
  - apply andb_true_iff in E as [E1 E2]. apply Nat.eqb_eq in E1. apply negb_true_iff in E2.
    destruct A. auto.
  - apply andb_true_iff in E as [E1 E2]. apply negb_true_iff in E1, E2. apply Nat.eqb_neq in E1.
    destruct A as (A1 & A2). auto.
  - apply negb_true_iff in E. apply Nat.eqb_neq in E. exact E.
  - apply andb_true_iff in E as [E E3]. apply andb_true_iff in E as [E1 E2].
    apply negb_true_iff in E1, E3. apply Nat.eqb_neq in E1. split; [exact E1|]. split.
    + destruct (nth_error (g_box (c_mem cs)) i) as [b|]; [eauto|discriminate].
    + intros u op' p Le Eu Eo. destruct (Nat.lt_ge_cases u n) as [L|L]; [|rewrite (Bl u L) in Eu; discriminate].
      pose proof (existsb_seq _ _ _ u E3 ltac:(lia)) as F. unfold uses in F. rewrite Eu, Eo, Nat.eqb_refl in F.
      discriminate.
Qed.

Lemma stepb_ok c st op p : stepb c st op p = true -> step_ok c st op p.
Proof.
  destruct op as [i rq|i sz ras mp|i A0 sz|sh bi|i]; destruct p; cbn [stepb step_ok]; auto.
  intros E. apply andb_true_iff in E as [E E6]. apply andb_true_iff in E as [E E5].
  apply andb_true_iff in E as [E E4]. apply andb_true_iff in E as [E E3]. apply andb_true_iff in E as [E1 E2].
  apply Nat.ltb_lt in E1. apply Nat.leb_le in E2. split; [exact E1|]. split; [exact E2|].
  split; [lia|]. split.
  - apply Z.mod_divide; [apply Z.pow_nonzero; lia|lia].
  - split; [lia|]. intros i b Hi Lv. apply nth_error_In in Hi.
    pose proof (proj1 (forallb_forall _ _) E6 b Hi) as F. cbn beta in F. rewrite Lv in F. cbn [negb orb] in F.
    apply orb_true_iff in F as [F|F]; [left|right]; lia.
Qed.

Lemma doall_execution c n ex h0 st0 : forall l ls h m cs q',
  execution c (call_ok_from ex c) h0 st0 ls h m cs -> below n cs ->
  (forall t op, In (ACall t op) l -> args_ok c op) ->
  doall c n ex (Seen ls h m cs) l = Some q' ->
  execution c (call_ok_from ex c) h0 st0 (s_ls q') (s_h q') (s_m q') (s_cs q') /\ below n (s_cs q').
Proof.
  induction l as [|a l IH]; intros ls h m cs q' X Bl Ok D; cbn [doall] in D.
  - injection D as <-. split; [exact X|exact Bl].
  - assert (Ok' : forall t op, In (ACall t op) l -> args_ok c op)
      by (intros t op Hin; apply (Ok t); right; exact Hin).
    assert (Bl' : forall st t v, (t < n)%nat -> below n (CState st (set_thr (c_thr cs) t v))).
    { intros st t v Lt u Hu. cbn [c_thr]. rewrite set_thr_other by lia. apply Bl. exact Hu. }
    assert (Lt : forall t v, c_thr cs t = Some v -> (t < n)%nat).
    { intros t v E. destruct (Nat.lt_ge_cases t n) as [L|L]; [exact L|]. rewrite (Bl t L) in E. discriminate. }
    destruct a as [t op|t|t]; cbn [do1] in D.
    + destruct (c_thr cs t) eqn:E; [discriminate|].
      destruct (callb n ex cs t op) eqn:K; [|discriminate].
      assert (Ct : (t < n)%nat) by (apply andb_true_iff in K as [K _]; apply Nat.ltb_lt in K; exact K).
      refine (IH _ _ _ _ _ (X_call _ _ _ _ _ _ _ _ t op X E _) (Bl' _ _ _ Ct) Ok' D).
      apply (callb_ok c n); auto. apply (Ok t). left. reflexivity.
    + destruct (c_thr cs t) as [[op p]|] eqn:E; [|discriminate].
      assert (N : forall r, p <> PDone r) by (intros r ->; discriminate).
      destruct (stepb c (c_mem cs) op p) eqn:K; [|destruct p; discriminate].
      destruct (tstep c (c_mem cs) op p) as [st' p'] eqn:T.
      assert (D' : doall c n ex (Seen ls h m (CState st' (set_thr (c_thr cs) t (Some (op, p'))))) l = Some q').
      { destruct p; try exact D. destruct (N r eq_refl). }
      exact (IH _ _ _ _ _ (X_step _ _ _ _ _ _ _ _ t op p st' p' X E N (stepb_ok _ _ _ _ K) T)
               (Bl' _ _ _ (Lt _ _ E)) Ok' D').
    + destruct (c_thr cs t) as [[op p]|] eqn:E; [|discriminate].
      destruct p; try discriminate.
      exact (IH _ _ _ _ _ (X_ret _ _ _ _ _ _ _ _ t op r X E) (Bl' _ _ _ (Lt _ _ E)) Ok' D).
Qed.

Lemma execution_weaken c (ok1 ok2 : cstate -> (Z -> who) -> nat -> event -> Prop) h0 st0 ls h m cs :
  (forall cs h t op, ok1 cs h t op -> ok2 cs h t op) ->
  execution c ok1 h0 st0 ls h m cs -> execution c ok2 h0 st0 ls h m cs.
Proof. intros H X. induction X; [constructor|..]; econstructor; eauto. Qed.

Definition start_seen : seen := Seen [] (owner ex_bk0) (fun _ => None) (idle_state ex_st0).

Ltac args l :=
  let t := fresh in let op := fresh in let Hin := fresh in
  intros t op Hin; unfold l in Hin; cbn [In app repeat] in Hin;
  repeat (destruct Hin as [Hin|Hin]; [try discriminate Hin; injection Hin as <- <-|]); try contradiction;
  try exact I;
  cbn [args_ok ex_alloc].

(** What a schedule led to: the labels, who holds the given bytes, the entries
    the host's allocations were given there, and the first four threads. *)
Definition report (xs : list Z) (o : option seen) :=
  match o with
  | Some q => Some (s_ls q, map (s_h q) xs, map (s_m q) xs, map (c_thr (s_cs q)) (seq 0 4))
  | None => None
  end.

Lemma report_inv xs q ls hs ms ts : report xs (Some q) = Some (ls, hs, ms, ts) ->
  s_ls q = ls /\ map (s_h q) xs = hs /\ map (s_m q) xs = ms /\ map (c_thr (s_cs q)) (seq 0 4) = ts.
Proof. cbn [report]. intros E. injection E. auto. Qed.

Lemma quiet cs : below 4 cs -> map (c_thr cs) (seq 0 4) = [None; None; None; None] -> quiescent cs.
Proof.
  intros Bl E t. cbn [seq map] in E. injection E as E0 E1 E2 E3.
  destruct t as [|[|[|[|t]]]]; auto. apply Bl. lia.
Qed.

(** The host's allocation has its block but has not written the pagemap yet;
    meanwhile the sandbox gets a chunk and starts to free it, and another
    thread creates a second library; the host's allocation returns while the
    service thread scans; then the second library is destroyed while the first
    one serves another request. *)
Definition ex_base2 : Z := ex_base + 2 ^ 20.
Definition ex_schedule : list act :=
  [ACall 1 ex_alloc; AStep 1; ACall 0 (EvReq 0 (alloc_rq 1)); AStep 0; AStep 0; AStep 0; ARet 0;
   ACall 0 (EvReq 0 (free_rq 2 1)); AStep 0; AStep 0; ACall 2 (EvCreate ex_base2 15); AStep 2; ARet 2;
   AStep 1; AStep 1; ARet 1;
   AStep 0; AStep 0; AStep 0; ACall 3 (EvDestroy 1); AStep 3; AStep 3; AStep 0; ARet 0;
   AStep 3; AStep 3; ARet 3].

Example interleaving :
  exists ls h m cs, execution ex_cfg (call_ok ex_cfg) (owner ex_bk0) ex_st0 ls h m cs /\ quiescent cs /\
    ls = [LCall 1 ex_alloc; LCall 0 (EvReq 0 (alloc_rq 1));
          LRet 0 (EvReq 0 (alloc_rq 1)) (Response 0 (ex_base + 2 * ck));
          LCall 0 (EvReq 0 (free_rq 2 1));
          LCall 2 (EvCreate ex_base2 15); LRet 2 (EvCreate ex_base2 15) (Response 0 0);
          LRet 1 ex_alloc (Response 0 (ex_base + ck));
          LCall 3 (EvDestroy 1);
          LRet 0 (EvReq 0 (free_rq 2 1)) (Response 0 0);
          LRet 3 (EvDestroy 1) (Response 0 0)] /\
    h (ex_base + ck) = Host /\ h (ex_base + 2 * ck) = Nobody /\
    m (ex_base + ck) = Some (0x5000, 0x7f0040004000).
Proof.
  assert (R : report [ex_base + ck; ex_base + 2 * ck] (doall ex_cfg 4 0 start_seen ex_schedule) =
    Some ([LCall 1 ex_alloc; LCall 0 (EvReq 0 (alloc_rq 1));
          LRet 0 (EvReq 0 (alloc_rq 1)) (Response 0 (ex_base + 2 * ck));
          LCall 0 (EvReq 0 (free_rq 2 1));
          LCall 2 (EvCreate ex_base2 15); LRet 2 (EvCreate ex_base2 15) (Response 0 0);
          LRet 1 ex_alloc (Response 0 (ex_base + ck));
          LCall 3 (EvDestroy 1);
          LRet 0 (EvReq 0 (free_rq 2 1)) (Response 0 0);
          LRet 3 (EvDestroy 1) (Response 0 0)],
          [Host; Nobody], [Some (0x5000, 0x7f0040004000); None], [None; None; None; None]))
    by (vm_compute; reflexivity).
  destruct (doall ex_cfg 4 0 start_seen ex_schedule) as [q|] eqn:D; [|discriminate R].
  apply report_inv in R as (El & Eh & Em & Et).
  destruct (doall_execution ex_cfg 4 0 (owner ex_bk0) ex_st0 ex_schedule _ _ _ _ q
              (X_start _ _ _ _) (fun u _ => eq_refl)) with (2 := D) as [X Bl].
  - args ex_schedule.
    + split; [apply (ck_size 14); [cbn; lia|reflexivity]|]. split; [exists 0x500; reflexivity|lia].
    + split; [words|]. intros; discriminate.
    + split; [words|]. intros _. cbn. exists (ex_base / ck + 2). reflexivity.
  - exists (s_ls q), (s_h q), (s_m q), (s_cs q). split.
    + apply (execution_weaken ex_cfg (call_ok_from 0 ex_cfg)); [|exact X].
      intros cs h t op. destruct op; cbn [call_ok_from]; auto.
      intros (A & B & U). split; [exact A|]. split; [exact B|]. intros u op' p. apply U. lia.
    + split; [|split; [exact El|]].
      * apply quiet; [exact Bl|exact Et].
      * cbn [map] in Eh, Em. injection Eh as Eh1 Eh2. injection Em as Em1 Em2. auto.
Qed.

(** ** A request that is being served while its library is destroyed *)

(** The same conditions, except that the program destroys a library while the
    service thread may still be inside a request of its (dead) sandbox.
    Nothing in the code rules this out: ~Library waits for the child process,
    not for the service thread.  See C44 for the destroyed object itself. *)
Definition racing_ok (c : cfg) : cstate -> (Z -> who) -> nat -> event -> Prop := call_ok_from 1 c.

(** The request has its block; the destructor clears the pagemap; the request's
    entry is written; the destructor finishes. *)
Definition race_first : list act :=
  [ACall 0 (EvReq 0 (alloc_rq 1)); AStep 0; ACall 2 (EvDestroy 0)] ++ repeat (AStep 2) 17 ++
  [AStep 0; AStep 0; ARet 0; AStep 2; ARet 2].
(** A new library gets the same memory.  Its sandbox frees that chunk, which
    nobody gave it, and the next two allocations return the same chunk: one to
    the host, one to the sandbox. *)
Definition race_then : list act :=
  [ACall 2 (EvCreate ex_base 18); AStep 2; ARet 2;
   ACall 0 (EvReq 1 (free_rq 1 1)); AStep 0; AStep 0; AStep 0; AStep 0; AStep 0; AStep 0; ARet 0;
   ACall 1 (EvHostAlloc 1 ck 0x7f0040004000 0x5000); AStep 1; AStep 1; AStep 1; ARet 1;
   ACall 0 (EvReq 1 (alloc_rq 1)); AStep 0; AStep 0; AStep 0].

Lemma race_args l : l = race_first \/ l = race_first ++ race_then ->
  forall t op, In (ACall t op) l -> args_ok ex_cfg op.
Proof.
  intros E t op Hin.
  assert (Hin' : In (ACall t op) (race_first ++ race_then))
    by (destruct E as [-> | ->]; [apply in_or_app; left|]; exact Hin).
  clear E Hin. revert t op Hin'. unfold race_first, race_then. args race_first.
  - split; [words|]. intros; discriminate.
  - split; [words|]. intros _. cbn. exists (ex_base / ck + 1). reflexivity.
  - split; [apply (ck_size 14); [cbn; lia|reflexivity]|]. split; [exists 0x500; reflexivity|lia].
  - split; [words|]. intros; discriminate.
Qed.

Lemma race_execution l q : l = race_first \/ l = race_first ++ race_then ->
  doall ex_cfg 4 1 start_seen l = Some q ->
  execution ex_cfg (racing_ok ex_cfg) (owner ex_bk0) ex_st0 (s_ls q) (s_h q) (s_m q) (s_cs q) /\
  below 4 (s_cs q).
Proof.
  intros E D. exact (doall_execution ex_cfg 4 1 (owner ex_bk0) ex_st0 l _ _ _ _ q
    (X_start _ _ _ _) (fun u _ => eq_refl) (race_args l E) D).
Qed.

(** Then a sandbox's mark can stay behind although no library exists and no
    operation is in progress ... *)
Theorem concurrent_mark_survives_racing_destruction_refuted :
  ~ (forall c evs0 st0 tr0 ls h m cs x,
       cfg_ok c -> polite_history c evs0 -> run c init_state evs0 = (st0, tr0) ->
       execution c (racing_ok c) (owner (books tr0)) st0 ls h m cs -> quiescent cs ->
       is_sandbox_owned (g_pm (c_mem cs) (x / chunk c)) = true ->
       exists i b, nth_error (g_box (c_mem cs)) i = Some b /\ b_live b = true /\
                   b_shm b <= x < b_shm b + region_size b).
Proof.
  intros H.
  assert (R : match doall ex_cfg 4 1 start_seen race_first with
              | Some q => Some (map (c_thr (s_cs q)) (seq 0 4),
                                is_sandbox_owned (g_pm (c_mem (s_cs q)) ((ex_base + ck) / chunk ex_cfg)),
                                map b_live (g_box (c_mem (s_cs q))))
              | None => None
              end = Some ([None; None; None; None], true, [false]))
    by (vm_compute; reflexivity).
  destruct (doall ex_cfg 4 1 start_seen race_first) as [q|] eqn:D; [|discriminate R].
  injection R as E0 E1 E2 E3 Em El.
  destruct (race_execution race_first q (or_introl eq_refl) D) as [X Bl].
  destruct (H ex_cfg ex_h0 ex_st0 (snd (run ex_cfg init_state ex_h0)) _ _ _ _ (ex_base + ck)
              ex_cfg_ok ex_h0_polite (surjective_pairing _) X) as (i & b & Hi & Lv & _).
  - apply quiet; [exact Bl|]. cbn [seq map]. congruence.
  - replace ((ex_base + ck) / chunk ex_cfg) with (139639050485760 / chunk ex_cfg); [exact Em|reflexivity].
  - apply nth_error_In, (in_map b_live) in Hi. rewrite El in Hi. destruct Hi as [Hi|[]]. congruence.
Qed.
Print Assumptions concurrent_mark_survives_racing_destruction_refuted.

(** ... and a block that a host thread holds can be given to a sandbox. *)
Theorem concurrent_blocks_shared_after_racing_destruction_refuted :
  ~ (forall c evs0 st0 tr0 ls h m cs t op r size x,
       cfg_ok c -> polite_history c evs0 -> run c init_state evs0 = (st0, tr0) ->
       execution c (racing_ok c) (owner (books tr0)) st0 ls h m cs ->
       c_thr cs t = Some (op, PDone r) -> allocates op size -> rs_error r = 0 ->
       rs_ret r <= x < rs_ret r + size ->
       h x = Nobody).
Proof.
  intros H.
  assert (R : match doall ex_cfg 4 1 start_seen (race_first ++ race_then) with
              | Some q => Some (c_thr (s_cs q) 0, s_h q (ex_base + ck))
              | None => None
              end = Some (Some (EvReq 1 (alloc_rq 1), PDone (Response 0 (ex_base + ck))), Host))
    by (vm_compute; reflexivity).
  destruct (doall ex_cfg 4 1 start_seen (race_first ++ race_then)) as [q|] eqn:D; [|discriminate R].
  injection R as Et Eh.
  destruct (race_execution _ q (or_intror eq_refl) D) as [X _].
  pose proof (H ex_cfg ex_h0 ex_st0 (snd (run ex_cfg init_state ex_h0)) _ _ _ _ _ _ _ ck (ex_base + ck)
                ex_cfg_ok ex_h0_polite (surjective_pairing _) X Et) as N.
  change (s_h q (ex_base + ck) = Host) in Eh.
  rewrite N in Eh; [discriminate Eh|split; reflexivity|reflexivity|cbn [rs_ret]; unfold ex_base, ck; lia].
Qed.
Print Assumptions concurrent_blocks_shared_after_racing_destruction_refuted.
