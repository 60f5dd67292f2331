(** Claimed theorems about the memory a sandboxed process gets (C57). *)
From Coq Require Import List ZArith Lia Bool Arith.
From Verif Require Import Base CheckModel MemSvcModel MemSvcSpec MemSvcProof MemSvcProps ChildHeapModel ChildHeapSpec ChildHeapProof.
Import ListNotations.
Open Scope Z_scope.

(** ** Answers reach the thread that asked *)

(** The two failure checks do raise exceptions, so the steps that say so can
    happen. *)
Lemma write_check_raises : raises site_write.
Proof. intros release f values. reflexivity. Qed.
Lemma read_check_raises : raises site_read.
Proof. intros release f values. reflexivity. Qed.

(** Whatever the schedule of the sandbox's threads, the service and the host, as
    long as no failed read was survived, the results handed to the callers are, in order, the replies of the host to
    those very requests; at most one reply is still on its way. *)
Theorem heap_answers_match : forall c i evs h s, runs c i evs h s -> kept h ->
  exists rest, served i (n_start c evs) (tr s) = map (fun x => (snd (fst x), Response 0 (snd x))) (results h) ++ rest /\
    (length rest <= 1)%nat.
Proof.
  intros c i evs h s R KP. destruct (flow_runs c i evs h s R KP) as [F _].
  destruct F as [A1 A2 A3 A4 A5|v q A1 A2 A3 A4 A5 A6|v q A1 A2 A3 A4 A5 A6|v q w A1 A2 A3 A4 A5 A6|v q w A1 A2 A3 A4 A5 A6 A7 A8];
    [exists []|exists []|exists []|exists [(q, w)]|exists [(q, w)]]; rewrite ?app_nil_r; cbn; auto.
Qed.
Print Assumptions heap_answers_match.

(** Each thread's calls end in the order it makes them, with one result or one
    exception for one call; a call not yet answered is the one the thread is in. *)
Theorem heap_calls_in_order : forall c i evs h s t, runs c i evs h s ->
  exists rest, entered t h = map fst (ended t h) ++ rest /\ (length rest <= 1)%nat /\ (thr s t = Out <-> rest = []).
Proof.
  intros c i evs h s t R. exists (pend (thr s t)). split; [eapply calls_in_order; eauto|].
  destruct (thr s t); cbn; split; auto; split; auto; discriminate.
Qed.
Print Assumptions heap_calls_in_order.

(** ** Blocks *)

(** The blocks the program holds have the sizes asked for, are aligned to their
    size, lie in the sandbox's own region above its header, belong to the sandbox
    in the host's books, and no two overlap. *)
Theorem heap_blocks_private : forall c i evs h s, begins c i evs -> runs c i evs h s -> kept h ->
  exists r, nth_error (regions (books (tr s))) i = Some r /\ r_live r = true /\ NoDup (held h) /\
  (forall g, In g (held h) ->
     chunk_size c (g_size g) /\ (g_size g | g_at g) /\ r_start r + chunk c <= g_at g /\ g_at g + g_size g <= r_end r /\
     forall x, g_at g <= x < g_at g + g_size g -> owner (books (tr s)) x = Sandbox) /\
  (forall g k, In g (held h) -> In k (held h) -> g <> k -> separate g k).
Proof.
  intros c i evs h s BG R KP. destruct (blocks_runs c i evs h s BG R KP) as (r & _ & B). exists r.
  split; [eapply B_reg; eauto|]. split; [eapply B_live; eauto|]. split; [eapply B_nodup; eauto|]. split.
  - intros g H. apply (B_good _ _ _ _ _ B (KH g) g). cbn. auto.
  - intros g k H H' N. apply (B_sep _ _ _ _ _ B (KH g) g (KH k) k); cbn; auto. congruence.
Qed.
Print Assumptions heap_blocks_private.

(** For every chunk of a block it holds, the program finds in the shared page map
    the two words it asked to be recorded, until it gives the block back. *)
Theorem heap_metadata_kept : forall c i evs h s g x, begins c i evs -> runs c i evs h s -> kept h -> In g (held h) ->
  g_at g <= x < g_at g + g_size g ->
  e_ras (g_pm (mem s) (x / chunk c)) = g_ras g /\
  ((16 | g_meta g) -> 0 <= g_meta g -> get_slab_metadata (g_pm (mem s) (x / chunk c)) = g_meta g).
Proof.
  intros c i evs h s g x BG R KP H X. destruct (blocks_runs c i evs h s BG R KP) as (r & _ & B).
  destruct (B_held _ _ _ _ _ B g H x X) as [E1 E2]. split; auto. intros D P. rewrite E2.
  rewrite <- (slab_of_aligned empty_entry (g_meta g) (g_ras g) D P) at 2.
  unfold get_slab_metadata, assign. cbn [e_meta empty_entry].
  apply Z.bits_inj'. intros n Hn. rewrite !Z.ldiff_spec, !Z.lor_spec. rewrite ?Z.land_spec, ?Z.ldiff_spec.
  rewrite ?Z.bits_0. cbn. destruct (Z.testbit (g_meta g) n), (Z.testbit SANDBOX_BIT n), (Z.testbit META_BOUNDARY_BIT n); reflexivity.
Qed.
Print Assumptions heap_metadata_kept.

(** ** Failure *)

(** The process is killed by a failed or interrupted system call, or because the
    host had no aligned free place for a block that was asked for; by nothing
    else. *)
Theorem heap_death_causes : forall c i evs h s, begins c i evs -> runs c i evs h s -> kept h -> dead s = true ->
  call_failed h \/
  exists t1 rq t2 r, tr s = t1 ++ (EvReq i rq, Response 2 0) :: t2 /\ (n_start c evs <= length t1)%nat /\ rq_kind rq = 0 /\
    nth_error (regions (books (tr s))) i = Some r /\ exhausted c r (books t1) (rq_0 rq).
Proof.
  intros c i evs h s BG R KP D. destruct (blocks_runs c i evs h s BG R KP) as (r & HR & B).
  destruct (ends_runs c i evs h s r BG R KP HR) as [RP ED]. destruct (ED D) as [H|(rq & rs & H & NZ)]; [auto|right].
  apply in_served in H as (t1 & t2 & E & L). destruct (RP t1 rq rs t2 E L) as [[Z _]|(-> & K & X)]; [contradiction|].
  exists t1, rq, t2, r. split; auto. split; auto. split; auto. split; auto. eapply B_reg; eauto.
Qed.
Print Assumptions heap_death_causes.

(** Conversely a read or write of a request that is interrupted or fails ends the
    process when nothing handles the exception, and no call ever returns after
    it; *)
Theorem heap_failed_call_kills : forall c i evs h s, runs c i evs h s -> call_failed h -> dead s = true.
Proof.
  induction 1 as [|h s o s' x R IH P S]; intros (t & y & C).
  { destruct C as [[]|[]]. }
  assert (K : dead s = true -> dead s' = true).
  { intros D. destruct P as [E _]. destruct o; cbn in E; try (destruct E; congruence);
      cbn [step] in S; [destruct (up s); [|destruct (MemSvcModel.step _ _ _)]|destruct (MemSvcModel.step _ _ _)];
      injection S as <- <-; exact D. }
  assert (C' : call_failed h \/ o = Write t false \/ o = Read t false).
  { destruct C as [C|C]; apply in_app_or in C as [C|[C|[]]]; try (injection C as -> ->; auto; fail); left; exists t, y; auto. }
  destruct C' as [C'|[-> | ->]]; [auto| |]; destruct P as [E _]; cbn [enabled] in E; cbn [step] in S.
  - destruct E as (_ & rq & T). rewrite T in S. injection S as <- <-. reflexivity.
  - destruct E as (_ & (rq & T) & _). rewrite T in S. destruct (down s); injection S as <- <-; reflexivity.
Qed.
Print Assumptions heap_failed_call_kills.

(** otherwise its caller gets the exception, and no result. *)
Theorem heap_failed_call_raises : forall c i evs h s t x, runs c i evs h s ->
  In (WriteThrown t, x) h \/ In (ReadThrown t, x) h -> exists rq, x = [GaveUp t rq].
Proof.
  intros c i evs h s t x R H. pose proof (tidy_runs _ _ _ _ _ R) as T. rewrite Forall_forall in T.
  destruct H as [H|H]; apply (T _ H).
Qed.
Print Assumptions heap_failed_call_raises.

(** No allocation returns the null pointer, so the branch of alloc_chunk that
    returns the metadata and reports failure is never taken: *)
Theorem heap_alloc_never_null : forall c i evs h s t rq v, begins c i evs -> runs c i evs h s -> kept h ->
  In (t, rq, v) (results h) -> rq_kind rq = 0 -> 0 < v /\ alloc_chunk_result v (rq_1 rq) = Some (v, rq_1 rq).
Proof.
  intros c i evs h s t rq v BG R KP H K. destruct (blocks_runs c i evs h s BG R KP) as (r & HR & B).
  destruct (ends_runs c i evs h s r BG R KP HR) as [RP _]. destruct (heap_answers_match c i evs h s R KP) as (rest & E & _).
  assert (I : In (rq, Response 0 v) (served i (n_start c evs) (tr s))).
  { rewrite E. apply in_or_app. left. apply in_map_iff. exists (t, rq, v). auto. }
  apply in_served in I as (t1 & t2 & E' & L). destruct (RP t1 _ _ t2 E' L) as [[Z X]|(X & _)]; [|discriminate].
  destruct BG as (C & _). destruct (region_bounds c s i r C (B_past _ _ _ _ _ B) (B_reg _ _ _ _ _ B) (B_live _ _ _ _ _ B)) as (B1 & _ & _).
  assert (0 < chunk c) by (unfold chunk; apply Z.pow_pos_nonneg; lia).
  specialize (X K). cbn [rs_ret] in X. split; [lia|]. unfold alloc_chunk_result. destruct (Z.eqb_spec v 0); [lia|auto].
Qed.
Print Assumptions heap_alloc_never_null.

(** instead, a request the host cannot meet ends the whole process when its
    answer is read, without the caller seeing any result (a limit). *)
Theorem heap_exhaustion_kills : forall c i evs h s s' x rq r t, begins c i evs -> runs c i evs h s -> kept h ->
  dead s = false -> thr s t = Waiting rq -> up s = [rq] -> rq_kind rq = 0 ->
  nth_error (regions (books (tr s))) i = Some r -> exhausted c r (books (tr s)) (rq_0 rq) ->
  step c i Serve s = (s', x) ->
  let (s2, y) := step c i (Read t true) s' in dead s2 = true /\ y = [] /\ forall o, enabled o s2 -> o = Serve \/ exists ev, o = Env ev.
Proof.
  intros c i evs h s s' x rq r t BG R KP D T U K HR EX S. destruct (blocks_runs c i evs h s BG R KP) as (r' & HR' & B).
  assert (r' = r) by (rewrite (B_reg _ _ _ _ _ B) in HR; congruence). subst r'.
  destruct (flow_runs c i evs h s R KP) as [F _]. pose proof BG as (C & _).
  assert (DN : down s = []).
  { destruct F as [A1 A2 A3 A4 A5|v q A1 A2 A3 A4 A5 A6|v q A1 A2 A3 A4 A5 A6|v q w A1 A2 A3 A4 A5 A6|v q w A1 A2 A3 A4 A5 A6 A7 A8]; try congruence. }
  cbn [step] in S. rewrite U, DN in S. destruct (MemSvcModel.step c (mem s) (EvReq i rq)) as [m rs] eqn:SV. injection S as <- <-.
  assert (E : rs_error rs <> 0).
  { intros Z. destruct (B_past _ _ _ _ _ B) as (es & P1 & R1).
    destruct (B_ask _ _ _ _ _ B t rq) as [(size & ms & ras & -> & WR & CS & MO)|(a & n & ->)]; [rewrite T; left; auto| |discriminate].
    destruct (memsvc_grants_fresh_aligned_blocks c es _ _ i _ _ _ C P1 R1 WR K SV Z) as (G1 & G2 & r2 & G3 & G4 & G5 & G6).
    assert (r2 = r) by congruence. subst r2. cbn [rq_0 req_alloc] in *. pose proof (chunk_size_pos _ _ CS).
    pose proof (G5 (rs_ret rs) ltac:(lia)). pose proof (G5 (rs_ret rs + size - 1) ltac:(lia)).
    destruct (EX (rs_ret rs) G2 ltac:(lia) ltac:(lia)) as (y & Y & NY). apply NY. apply G6. auto. }
  cbn [step thr down app]. rewrite T. destruct (Z.eqb_spec (rs_error rs) 0) as [Z|_]; [contradiction|].
  split; auto. split; auto. intros o. destruct o; cbn; eauto; intros [H _]; discriminate.
Qed.
Print Assumptions heap_exhaustion_kills.

(** ** Progress *)

(** While the process lives, a thread in a call can always be brought to the end
    of it by at most seven further steps of the sandbox's threads and the service,
    whatever the other threads were doing: no deadlock on the lock or the socket. *)
Theorem heap_calls_can_finish : forall c i evs h s t, runs c i evs h s -> kept h -> dead s = false -> thr s t <> Out ->
  exists k s', runs c i evs (h ++ k) s' /\ Forall (fun e => progress (fst e)) k /\ (length k <= 7)%nat /\ (dead s' = true \/ thr s' t = Out).
Proof. exact calls_finish. Qed.
Print Assumptions heap_calls_can_finish.

(** ** A survived failed read *)

(** Limit.  If a read fails and the program goes on, the reply stays in the
    socket, and from then on every call is given the host's answer to the call
    before it: the first one the answer to the call that failed. *)
Theorem heap_lost_reply_shifts : forall c i evs h t q k s j u rq v,
  runs c i evs (h ++ (ReadThrown t, [GaveUp t q]) :: k) s -> kept h -> kept k -> nth_error (results k) j = Some (u, rq, v) ->
  exists q', nth_error (q :: map (fun x => snd (fst x)) (results k)) j = Some q' /\
    nth_error (served i (n_start c evs) (tr s)) (length (results h) + j) = Some (q', Response 0 v).
Proof. exact lost_shifts. Qed.
Print Assumptions heap_lost_reply_shifts.

(** ** A concrete run *)
Fixpoint play (c : cfg) (i : nat) (h : history) (s : st) (l : list op) : history * st :=
  match l with [] => (h, s) | o :: r => let (s', x) := step c i o s in play c i (h ++ [(o, x)]) s' r end.
Lemma runs_play c i evs o l h s : runs c i evs h s -> possible c i h o s ->
  (runs c i evs (h ++ [(o, snd (step c i o s))]) (fst (step c i o s)) -> runs c i evs (fst (play c i (h ++ [(o, snd (step c i o s))]) (fst (step c i o s)) l)) (snd (play c i (h ++ [(o, snd (step c i o s))]) (fst (step c i o s)) l))) ->
  runs c i evs (fst (play c i h s (o :: l))) (snd (play c i h s (o :: l))).
Proof.
  intros R P N. cbn [play]. destruct (step c i o s) as [s' x] eqn:S. apply N. cbn. econstructor; eauto.
Qed.
Lemma heap_ex_begins : begins ex_cfg 0 polite_ex.
Proof.
  split; [exact ex_cfg_ok|]. split; [exact polite_ex_ok|]. eexists. split; vm_compute; reflexivity.
Qed.

(** Thread 0 wants one chunk with metadata, thread 1 two chunks; the host
    allocates in between; thread 1 gives its chunks back. *)
Definition heap_ops : list op :=
  [Enter 0 (req_alloc ck 0x5010 7); Enter 1 (req_alloc (2 * ck) 0x6010 9); Lock 1; Write 1 true;
   Env (EvHostAlloc 0 ck 0x7f0040004000 0x7000); Serve; Read 1 true; Lock 0; Write 0 true; Serve; Read 0 true;
   Enter 1 (req_free (ex_base + 2 * ck) (2 * ck))].
Definition heap_ex_h := fst (play ex_cfg 0 [] (start ex_cfg polite_ex) heap_ops).
Definition heap_ex_s := snd (play ex_cfg 0 [] (start ex_cfg polite_ex) heap_ops).
Example heap_ex_held : map (fun g => ((g_at g - ex_base) / ck, g_size g / ck, g_meta g, g_ras g)) (held heap_ex_h) = [(5, 1, 0x5010, 7)].
Proof. vm_compute. reflexivity. Qed.
Example heap_ex_results : map (fun x => (fst (fst x), (snd x - ex_base) / ck)) (results heap_ex_h) = [(1%nat, 2); (0%nat, 5)].
Proof. vm_compute. reflexivity. Qed.
Ltac alloc_fine n := left; do 4 eexists; split; [reflexivity|]; split; [words|]; split;
  [apply (ck_size n); [cbn; lia|reflexivity]|]; split; [vm_compute; reflexivity|]; split; [left; reflexivity|vm_compute; discriminate].
Ltac easy_step := apply runs_play; [assumption|split; [cbn; eauto|exact I]|intros ?].
Example heap_ex_runs : runs ex_cfg 0 polite_ex heap_ex_h heap_ex_s.
Proof.
  unfold heap_ex_h, heap_ex_s, heap_ops. pose proof (runs_0 ex_cfg 0 polite_ex) as R.
  apply runs_play; [exact R|split; [vm_compute; auto|alloc_fine 14]|clear R; intros R].
  apply runs_play; [exact R|split; [vm_compute; auto|alloc_fine 15]|clear R; intros R].
  apply runs_play; [exact R|split; [vm_compute; eauto|exact I]|clear R; intros R].
  apply runs_play; [exact R|split; [vm_compute; eauto|exact I]|clear R; intros R].
  apply runs_play; [exact R|split; [exact I|]|clear R; intros R].
  { split; [|split; [discriminate|discriminate]]. split; [|exact I].
    split; [apply (ck_size 14); [cbn; lia|reflexivity]|]. split; [exists 0x700; reflexivity|lia]. }
  apply runs_play; [exact R|split; [vm_compute; discriminate|exact I]|clear R; intros R].
  apply runs_play; [exact R|split; [|exact I]|clear R; intros R].
  { split; [vm_compute; reflexivity|]. split; [eexists; vm_compute; reflexivity|]. intros _. vm_compute. discriminate. }
  apply runs_play; [exact R|split; [vm_compute; eauto|exact I]|clear R; intros R].
  apply runs_play; [exact R|split; [vm_compute; eauto|exact I]|clear R; intros R].
  apply runs_play; [exact R|split; [vm_compute; discriminate|exact I]|clear R; intros R].
  apply runs_play; [exact R|split; [|exact I]|clear R; intros R].
  { split; [vm_compute; reflexivity|]. split; [eexists; vm_compute; reflexivity|]. intros _. vm_compute. discriminate. }
  apply runs_play; [exact R|split; [vm_compute; auto|]|clear R; intros R; exact R].
  right. exists (Grant (ex_base + 2 * ck) (2 * ck) 0x6010 9). split; [vm_compute; auto|reflexivity].
Qed.
(** The block of thread 0 is held, recorded as asked; thread 1 is in a call. *)
Example heap_ex_state : dead heap_ex_s = false /\ thr heap_ex_s 1%nat <> Out /\ In (Grant (ex_base + 5 * ck) ck 0x5010 7) (held heap_ex_h) /\
  e_ras (g_pm (mem heap_ex_s) ((ex_base + 5 * ck) / chunk ex_cfg)) = 7 /\
  get_slab_metadata (g_pm (mem heap_ex_s) ((ex_base + 5 * ck) / chunk ex_cfg)) = 0x5010.
Proof. split; [vm_compute; reflexivity|]. split; [vm_compute; discriminate|]. vm_compute. auto. Qed.

(** Asking for the whole region: the answer kills the process. *)
Definition heap_end_ops : list op := [Enter 0 (req_alloc (16 * ck) 0x5010 7); Lock 0; Write 0 true].
Definition heap_end_h := fst (play ex_cfg 0 [] (start ex_cfg polite_ex) heap_end_ops).
Definition heap_end_s := snd (play ex_cfg 0 [] (start ex_cfg polite_ex) heap_end_ops).
Example heap_end_runs : runs ex_cfg 0 polite_ex heap_end_h heap_end_s.
Proof.
  unfold heap_end_h, heap_end_s, heap_end_ops. pose proof (runs_0 ex_cfg 0 polite_ex) as R.
  apply runs_play; [exact R|split; [vm_compute; auto|alloc_fine 18]|clear R; intros R].
  apply runs_play; [exact R|split; [vm_compute; eauto|exact I]|clear R; intros R].
  apply runs_play; [exact R|split; [vm_compute; eauto|exact I]|clear R; intros R; exact R].
Qed.
Example heap_end_hyps : exists rq r, dead heap_end_s = false /\ thr heap_end_s 0%nat = Waiting rq /\ up heap_end_s = [rq] /\ rq_kind rq = 0 /\
  nth_error (regions (books (tr heap_end_s))) 0 = Some r /\ exhausted ex_cfg r (books (tr heap_end_s)) (rq_0 rq).
Proof.
  do 2 eexists. split; [vm_compute; reflexivity|]. split; [vm_compute; reflexivity|]. split; [vm_compute; reflexivity|].
  split; [reflexivity|]. split; [vm_compute; reflexivity|].
  intros a A B1 B2. cbn [r_start] in B1. unfold r_end in B2. cbn [r_start r_bits rq_0] in *. exfalso.
  change (chunk ex_cfg) with 16384 in B1. change (2 ^ Z.of_nat 18) with 262144 in B2. lia.
Qed.

(** ** After a survived failed read two blocks can overlap *)
Definition heap_call (t : nat) (rq : request) : list op := [Enter t rq; Lock t; Write t true; Serve; Read t true].
Definition heap_lost_ops : list op :=
  [Enter 0 (req_alloc ck 0x5010 7); Lock 0; Write 0 true; Serve; ReadThrown 0] ++
  heap_call 0 (req_alloc (2 * ck) 0x5010 7) ++ heap_call 0 (req_alloc ck 0x6010 9).
Definition heap_lost_h := fst (play ex_cfg 0 [] (start ex_cfg polite_ex) heap_lost_ops).
Definition heap_lost_s := snd (play ex_cfg 0 [] (start ex_cfg polite_ex) heap_lost_ops).
Ltac lost_call n := apply runs_play; [eassumption|split; [vm_compute; auto|alloc_fine n]|clear; intros ?];
  apply runs_play; [eassumption|split; [vm_compute; eauto|exact Logic.I]|clear; intros ?];
  apply runs_play; [eassumption|split; [vm_compute; eauto|exact Logic.I]|clear; intros ?];
  apply runs_play; [eassumption|split; [vm_compute; discriminate|exact Logic.I]|clear; intros ?].
Ltac lost_read := apply runs_play; [eassumption|split; [|exact Logic.I]|clear; intros ?];
  [split; [vm_compute; reflexivity|]; split; [eexists; vm_compute; reflexivity|]; intros _; vm_compute; discriminate|].
Example heap_lost_runs : runs ex_cfg 0 polite_ex heap_lost_h heap_lost_s.
Proof.
  unfold heap_lost_h, heap_lost_s, heap_lost_ops, heap_call. cbn [app]. pose proof (runs_0 ex_cfg 0 polite_ex) as R.
  lost_call 14.
  apply runs_play; [eassumption|split; [|exact Logic.I]|clear; intros ?].
  { split; [vm_compute; reflexivity|]. split; [eexists; vm_compute; reflexivity|]. exact read_check_raises. }
  lost_call 15. lost_read. lost_call 14. lost_read. assumption.
Qed.
Theorem heap_blocks_private_after_lost_reply_refuted :
  exists c i evs h s g k, begins c i evs /\ runs c i evs h s /\ dead s = false /\ In g (held h) /\ In k (held h) /\ g <> k /\ ~ separate g k.
Proof.
  exists ex_cfg, 0%nat, polite_ex, heap_lost_h, heap_lost_s, (Grant (ex_base + ck) (2 * ck) 0x5010 7), (Grant (ex_base + 2 * ck) ck 0x6010 9).
  split; [exact heap_ex_begins|]. split; [exact heap_lost_runs|]. split; [vm_compute; reflexivity|].
  split; [vm_compute; auto|]. split; [vm_compute; auto|]. split; [discriminate|].
  unfold separate. cbn [g_at g_size]. unfold ck. lia.
Qed.
Print Assumptions heap_blocks_private_after_lost_reply_refuted.
(** The hypotheses of heap_lost_reply_shifts. *)
Example heap_lost_split : exists h k, heap_lost_h = h ++ (ReadThrown 0, [GaveUp 0 (req_alloc ck 0x5010 7)]) :: k /\ kept h /\ kept k /\
  map (fun x => (snd x - ex_base) / ck) (results k) = [1; 2].
Proof.
  exists (firstn 4 heap_lost_h), (skipn 5 heap_lost_h). split; [vm_compute; reflexivity|].
  assert (K : forall l, forallb (fun e : op * list out => match fst e with ReadThrown _ => false | _ => true end) l = true -> kept l).
  { intros l E t x H. rewrite forallb_forall in E. specialize (E _ H). discriminate. }
  split; [apply K; vm_compute; reflexivity|]. split; [apply K; vm_compute; reflexivity|vm_compute; reflexivity].
Qed.
