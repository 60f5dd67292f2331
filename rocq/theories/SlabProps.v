(** Claimed theorems about the slabs of a sandboxed process (C72). *)
From Coq Require Import List ZArith Lia Bool Arith Permutation.
From Verif Require Import Base MemSvcModel MemSvcSpec MemSvcProof MemSvcProps ChildHeapModel ChildHeapSpec ChildHeapProof ChildHeapProps SlabModel SlabSpec SlabProof.
Import ListNotations.
Open Scope Z_scope.

(** Whatever the schedule: the slabs the program holds do not overlap, each has a
    metadata block of its own, which no other slab has and no thread is getting or
    giving back, and for every byte of the slab the shared page map leads to that
    block. *)
Theorem slab_metadata_private : forall c i evs h m s, begins c i evs -> mruns c i evs h m s -> kept h ->
  NoDup (map sl_meta (slabs s)) /\
  (forall x y, In x (slabs s) -> In y (slabs s) -> x <> y -> apart x y) /\
  (forall sl, In sl (slabs s) -> chunk_size c (sl_size sl) /\ (sl_size sl | sl_at sl) /\ 0 < sl_meta sl /\ ~ in_hand s (sl_meta sl) /\
     forall x, sl_at sl <= x < sl_at sl + sl_size sl ->
       owner (books (tr (base s))) x = Sandbox /\ get_slab_metadata (g_pm (mem (base s)) (x / chunk c)) = sl_meta sl).
Proof.
  intros c i evs h m s BG R KP. pose proof (inv_mruns c i evs h m s BG R KP) as I. pose proof (V_runs _ _ _ _ _ _ I) as RB.
  destruct (heap_blocks_private c i evs h (base s) BG RB KP) as (r & _ & _ & _ & GD & SP).
  assert (G : forall sl, In sl (slabs s) -> exists ras, In (Grant (sl_at sl) (sl_size sl) (sl_meta sl) ras) (held h)).
  { intros sl H. destruct (V_held _ _ _ _ _ _ I (WS sl) (sl_at sl) (sl_size sl)) as (mt & ras & A & _ & E); [cbn; auto|]. cbn in E. subst. eauto. }
  split; [|split].
  - pose proof (V_slabs _ _ _ _ _ _ I) as N. pose proof (V_mo _ _ _ _ _ _ I) as M. revert N M. unfold mo.
    generalize (slabs s) as l. induction l as [|y l IH]; intros N M; cbn; constructor.
    + inversion N; subst. intros H. apply in_map_iff in H as (z & E & H). pose proof (M (WS y) (WS z) (sl_meta y) ltac:(cbn; auto) ltac:(cbn; auto)) as Q.
      injection Q as ->. contradiction.
    + inversion N; subst. apply IH; auto. intros k k' ms H H'. apply (M k k' ms); [destruct k; cbn in *; tauto|destruct k'; cbn in *; tauto].
  - intros x y X Y NE. destruct (G x X) as (rx & GX), (G y Y) as (ry & GY). apply (SP _ _ GX GY).
    intros E. injection E as E1 E2 E3 _. apply NE. destruct x, y; cbn in *; congruence.
  - intros sl H. destruct (G sl H) as (ras & GS). destruct (GD _ GS) as (C1 & C2 & _ & _ & C5). cbn in C1, C2, C5.
    destruct (V_pos _ _ _ _ _ _ I (WS sl) (sl_meta sl)) as [P D]; [cbn; auto|].
    split; auto. split; auto. split; auto. split.
    + intros (t & T). assert (Q : WS sl = WT t); [|discriminate].
      apply (V_mo _ _ _ _ _ _ I (WS sl) (WT t) (sl_meta sl)); [cbn; auto|]. cbn. destruct (jobs s t); auto.
    + intros x X. split; [auto|]. apply (heap_metadata_kept c i evs h (base s) _ x BG RB KP GS X); cbn; auto. lia.
Qed.
Print Assumptions slab_metadata_private.

(** The metadata allocator is never given back a block that is not out.  The
    blocks that are out are exactly those of the slabs the program holds, those in
    the hands of a thread that is in alloc_chunk or dealloc_chunk, and those of
    calls that were left by an exception; and no block is of two of these kinds. *)
Theorem slab_metadata_accounted_for : forall c i evs h m s, begins c i evs -> mruns c i evs h m s -> kept h ->
  exists l, accounts m = Some l /\ NoDup l /\
  (forall ms, In ms l <-> In ms (map sl_meta (slabs s)) \/ in_hand s ms \/ (ms <> 0 /\ lost h ms)) /\
  (forall ms, lost h ms -> ms <> 0 -> ~ In ms (map sl_meta (slabs s)) /\ ~ in_hand s ms).
Proof.
  intros c i evs h m s BG R KP. pose proof (inv_mruns c i evs h m s BG R KP) as I.
  destruct (V_acc _ _ _ _ _ _ I) as (l & A & N & L & U). exists l. split; auto. split; auto.
  assert (O : forall ms, (exists k, mo s k ms) <-> In ms (map sl_meta (slabs s)) \/ in_hand s ms).
  { intros ms. split.
    - intros ([x|t] & H); cbn in H; [left; apply in_map_iff; exists x; tauto|right; exists t; auto].
    - intros [H|(t & H)]; [apply in_map_iff in H as (x & E & H); exists (WS x); cbn; auto|exists (WT t); auto]. }
  split.
  - intros ms. rewrite L, O. tauto.
  - intros ms H NZ. assert (Q : ~ exists k, mo s k ms) by (intros (k & K); eapply U; eauto). rewrite O in Q. tauto.
Qed.
Print Assumptions slab_metadata_accounted_for.

(** So without exceptions nothing leaks: when no thread is in the allocator, the
    blocks that are out are those of the slabs held, each once; *)
Theorem slab_metadata_not_leaked : forall c i evs h m s, begins c i evs -> mruns c i evs h m s -> kept h ->
  (forall o x t rq, In (o, x) h -> ~ In (GaveUp t rq) x) -> (forall t, jobs s t = Idle) ->
  exists l, accounts m = Some l /\ Permutation l (map sl_meta (slabs s)).
Proof.
  intros c i evs h m s BG R KP NG ID. destruct (slab_metadata_accounted_for c i evs h m s BG R KP) as (l & A & N & L & _).
  exists l. split; auto. apply NoDup_Permutation; auto; [apply (slab_metadata_private c i evs h m s BG R KP)|].
  intros ms. rewrite L. split; auto. intros [H|[(t & H)|[_ (o & x & t & size & ras & H1 & H2)]]]; auto.
  - rewrite ID in H. contradiction.
  - exfalso. eapply NG; eauto.
Qed.
Print Assumptions slab_metadata_not_leaked.

(** but a call left by an exception leaks its metadata block, for the rest of the
    process's life (a limit): however the run goes on, the block stays out, without
    belonging to a slab or a thread. *)
Theorem slab_exception_leaks_metadata : forall c i evs h m s h' m' s' ms, begins c i evs -> mruns c i evs h m s -> lost h ms -> ms <> 0 ->
  mruns c i evs (h ++ h') m' s' -> kept (h ++ h') ->
  exists l, accounts m' = Some l /\ In ms l /\ ~ In ms (map sl_meta (slabs s')) /\ ~ in_hand s' ms.
Proof.
  intros c i evs h m s h' m' s' ms BG _ LO NZ R KP.
  destruct (slab_metadata_accounted_for c i evs _ m' s' BG R KP) as (l & A & _ & L & U).
  assert (LO' : lost (h ++ h') ms).
  { destruct LO as (o & x & t & size & ras & H1 & H2). exists o, x, t, size, ras. split; auto. apply in_or_app. auto. }
  exists l. split; auto. split; [apply L; auto|]. apply U; auto.
Qed.
Print Assumptions slab_exception_leaks_metadata.

(** ** A concrete run *)
Fixpoint mplay (c : cfg) (i : nat) (h : history) (m : list mcall) (s : mst) (l : list mop) : history * list mcall * mst :=
  match l with
  | [] => (h, m, s)
  | o :: r => mplay c i (h ++ snd (mstep c i o s)) (m ++ snd (fst (mstep c i o s))) (fst (fst (mstep c i o s))) r
  end.
Fixpoint mfine (c : cfg) (i : nat) (h : history) (m : list mcall) (s : mst) (l : list mop) : Prop :=
  match l with
  | [] => True
  | o :: r => mpossible c i h m o s /\ mfine c i (h ++ snd (mstep c i o s)) (m ++ snd (fst (mstep c i o s))) (fst (fst (mstep c i o s))) r
  end.
Lemma mruns_play c i evs : forall l h m s, mruns c i evs h m s -> mfine c i h m s l ->
  mruns c i evs (fst (fst (mplay c i h m s l))) (snd (fst (mplay c i h m s l))) (snd (mplay c i h m s l)).
Proof.
  induction l as [|o r IH]; intros h m s R F; cbn [mplay fst snd]; auto. destruct F as [P F]. apply IH; auto.
  destruct (mstep c i o s) as [[s' m'] h'] eqn:S. cbn. econstructor; eauto.
Qed.
Lemma mfine_cons c i h m s o r : mpossible c i h m o s ->
  mfine c i (h ++ snd (mstep c i o s)) (m ++ snd (fst (mstep c i o s))) (fst (fst (mstep c i o s))) r -> mfine c i h m s (o :: r).
Proof. intros A B. split; auto. Qed.
Lemma go_alloc c i h m s t ms size ras : alive s -> jobs s t = Has ms size ras ->
  sensible c i (books (tr (base s))) (held h) (req_alloc size ms ras) -> mpossible c i h m (Go t) s.
Proof. intros A J S. split; auto. rewrite J. auto. Qed.
Lemma go_free c i h m s t a n : alive s -> jobs s t = Freed a n -> mpossible c i h m (Go t) s.
Proof. intros A J. split; auto. rewrite J. auto. Qed.
Lemma go_raw c i h m s t rq : alive s -> jobs s t = Raw rq ->
  sensible c i (books (tr (base s))) (arenas h) rq -> (rq_kind rq = 0 -> rq_1 rq = 0) -> mpossible c i h m (Go t) s.
Proof. intros A J S. split; auto. rewrite J. auto. Qed.
Lemma mfine_first c i : forall l n h m s, mfine c i h m s l -> mfine c i h m s (firstn n l).
Proof. induction l as [|o r IH]; intros [|n] h m s F; cbn; auto. destruct F as [P F]. split; auto. Qed.

(** Threads 0 and 1 allocate a slab each; thread 1 gives its slab back, and has
    given back the metadata and not yet told the host, when thread 0 allocates
    another slab and gets that metadata block; then it tells the host, and thread 2
    gets a block for an arena. *)
Definition slab1 := Slab (ex_base + 2 * ck) (2 * ck) 0x6010.
Definition slab_ops : list mop :=
  [CallAlloc 0 ck 7; CallAlloc 1 (2 * ck) 9; Meta 0 0x5010; Meta 1 0x6010; Go 0; Go 1;
   Basic (Lock 1); Basic (Write 1 true); Basic Serve; Basic (Read 1 true);
   Basic (Lock 0); Basic (Write 0 true); Basic Serve; Basic (Read 0 true);
   CallFree 1 slab1; MetaBack 1;
   CallAlloc 0 ck 7; Meta 0 0x6010; Go 0; Basic (Lock 0); Basic (Write 0 true); Basic Serve; Basic (Read 0 true);
   CallRaw 2 (req_alloc ck 0 0); Go 2; Go 1; Basic (Lock 1); Basic (Write 1 true); Basic Serve; Basic (Read 1 true);
   Basic (Lock 2); Basic (Write 2 true); Basic Serve; Basic (Read 2 true)].
Definition slab_ex (n : nat) := mplay ex_cfg 0 [] [] (mstart ex_cfg polite_ex) (firstn n slab_ops).
Definition slab_h n := fst (fst (slab_ex n)).
Definition slab_m n := snd (fst (slab_ex n)).
Definition slab_s n := snd (slab_ex n).

Ltac mstep_fine n :=
  match goal with
  | |- mfine _ _ ?h ?m ?s [] => exact Logic.I
  | |- mfine _ _ _ _ _ (Go _ :: _) => apply mfine_cons;
    [first [eapply go_alloc; [split; vm_compute; reflexivity|vm_compute; reflexivity|alloc_fine n]
           |eapply go_free; [split; vm_compute; reflexivity|vm_compute; reflexivity]
           |eapply go_raw; [split; vm_compute; reflexivity|vm_compute; reflexivity|alloc_fine n|intros _; reflexivity]]|]
  | |- mfine _ _ _ _ _ (CallRaw _ _ :: _) => apply mfine_cons; [split; [split; vm_compute; reflexivity|vm_compute; reflexivity]|]
  | |- mfine _ _ _ _ _ (Meta _ _ :: _) =>
    apply mfine_cons; [split; [split; vm_compute; reflexivity|]; split; [do 2 eexists; vm_compute; reflexivity|]; right;
            split; [lia|]; split; [apply Z.mod_divide; [lia|reflexivity]|]; vm_compute; intros l E; injection E as <-; cbn; intuition discriminate|]
  | |- mfine _ _ _ _ _ (CallFree _ _ :: _) => apply mfine_cons; [split; [split; vm_compute; reflexivity|]; split; [vm_compute; reflexivity|vm_compute; auto]|]
  | |- mfine _ _ _ _ _ (MetaBack _ :: _) => apply mfine_cons; [split; [split; vm_compute; reflexivity|]; eexists; vm_compute; reflexivity|]
  | |- mfine _ _ _ _ _ (CallAlloc _ _ _ :: _) => apply mfine_cons; [split; [split; vm_compute; reflexivity|vm_compute; reflexivity]|]
  | |- mfine _ _ _ _ _ (Basic Serve :: _) => apply mfine_cons; [split; [split; [vm_compute; discriminate|exact Logic.I]|split; [discriminate|auto]]|]
  | |- mfine _ _ _ _ _ (Basic (Lock _) :: _) => apply mfine_cons; [split; [split; [vm_compute; eauto|exact Logic.I]|split; [discriminate|left; vm_compute; reflexivity]]|]
  | |- mfine _ _ _ _ _ (Basic (Write _ _) :: _) => apply mfine_cons; [split; [split; [vm_compute; eauto|exact Logic.I]|split; [discriminate|left; vm_compute; reflexivity]]|]
  | |- mfine _ _ _ _ _ (Basic (WriteThrown _) :: _) => apply mfine_cons; [split; [split; [split; [vm_compute; reflexivity|]; split; [eexists; vm_compute; reflexivity|exact write_check_raises]|exact Logic.I]|split; [discriminate|left; vm_compute; reflexivity]]|]
  | |- mfine _ _ _ _ _ (Basic (Read _ _) :: _) =>
    apply mfine_cons; [split; [split; [split; [vm_compute; reflexivity|]; split; [eexists; vm_compute; reflexivity|]; intros _; vm_compute; discriminate|exact Logic.I]
                   |split; [discriminate|left; vm_compute; reflexivity]]|]
  end.
Lemma slab_fine : mfine ex_cfg 0 [] [] (mstart ex_cfg polite_ex) slab_ops.
Proof.
  unfold slab_ops. do 5 mstep_fine 14. mstep_fine 15. do 28 mstep_fine 14. exact Logic.I.
Qed.
Lemma slab_runs n : mruns ex_cfg 0 polite_ex (slab_h n) (slab_m n) (slab_s n).
Proof. apply mruns_play; [constructor|]. apply mfine_first, slab_fine. Qed.
Lemma no_thrown h : forallb (fun e : op * list out => match fst e with ReadThrown _ => false | _ => true end) h = true -> kept h.
Proof. intros E t x H. rewrite forallb_forall in E. specialize (E _ H). discriminate. Qed.
(** The hypotheses hold after 14 steps, with two slabs, and after 23. *)
Example slab_ex_kept : kept (slab_h 14) /\ kept (slab_h 23).
Proof. split; apply no_thrown; vm_compute; reflexivity. Qed.
Example slab_ex_state : map (fun x => ((sl_at x - ex_base) / ck, sl_size x / ck, sl_meta x)) (slabs (slab_s 14)) = [(1, 1, 0x5010); (2, 2, 0x6010)] /\
  accounts (slab_m 14) = Some [0x6010; 0x5010] /\ (forall t, jobs (slab_s 14) t = Idle).
Proof.
  split; [vm_compute; reflexivity|]. split; [vm_compute; reflexivity|].
  intros [|[|t]]; vm_compute; reflexivity.
Qed.
Example slab_ex_again : map (fun x => ((sl_at x - ex_base) / ck, sl_size x / ck, sl_meta x)) (slabs (slab_s 23)) = [(5, 1, 0x6010); (1, 1, 0x5010)].
Proof. vm_compute. reflexivity. Qed.

Example slab_ex_end : map (fun x => ((sl_at x - ex_base) / ck, sl_size x / ck, sl_meta x)) (slabs (slab_s 34)) = [(5, 1, 0x6010); (1, 1, 0x5010)] /\
  map (fun g => ((g_at g - ex_base) / ck, g_meta g)) (held (slab_h 34)) = [(2, 0); (5, 0x6010); (1, 0x5010)] /\
  accounts (slab_m 34) = Some [0x6010; 0x5010].
Proof. vm_compute. auto. Qed.

(** ** Limits *)

(** dealloc_chunk gives the metadata back before it tells the host, so the page
    map can lead from two blocks that are both the sandbox's to one metadata
    block: the statement that it never does is false. *)
Theorem slab_metadata_unique_in_pagemap_refuted :
  exists c i evs h m s x y, begins c i evs /\ mruns c i evs h m s /\ kept h /\ alive s /\
    owner (books (tr (base s))) x = Sandbox /\ owner (books (tr (base s))) y = Sandbox /\
    (exists g, In g (held h) /\ g_at g <= x < g_at g + g_size g) /\ (exists g, In g (held h) /\ g_at g <= y < g_at g + g_size g /\ ~ g_at g <= x < g_at g + g_size g) /\
    get_slab_metadata (g_pm (mem (base s)) (x / chunk c)) = get_slab_metadata (g_pm (mem (base s)) (y / chunk c)) /\
    get_slab_metadata (g_pm (mem (base s)) (y / chunk c)) <> 0.
Proof.
  exists ex_cfg, 0%nat, polite_ex, (slab_h 23), (slab_m 23), (slab_s 23), (ex_base + 2 * ck), (ex_base + 5 * ck).
  split; [exact heap_ex_begins|]. split; [apply slab_runs|]. split; [apply slab_ex_kept|]. split; [split; vm_compute; reflexivity|].
  split; [vm_compute; reflexivity|]. split; [vm_compute; reflexivity|].
  split; [exists (Grant (ex_base + 2 * ck) (2 * ck) 0x6010 9); split; [vm_compute; auto|unfold ck; cbn; lia]|].
  split; [exists (Grant (ex_base + 5 * ck) ck 0x6010 7); split; [vm_compute; auto|unfold ck; cbn; lia]|].
  split; [vm_compute; reflexivity|vm_compute; discriminate].
Qed.
Print Assumptions slab_metadata_unique_in_pagemap_refuted.

(** Nothing keeps two threads from using metadata_range at the same time: in a
    reachable state both have called it and neither has its answer. *)
Theorem metadata_range_exclusive_refuted :
  exists c i evs h m s t u, begins c i evs /\ mruns c i evs h m s /\ kept h /\ alive s /\ t <> u /\
    mpossible c i h m (Meta t 0x5010) s /\ mpossible c i h m (Meta u 0x6010) s.
Proof.
  exists ex_cfg, 0%nat, polite_ex, (slab_h 2), (slab_m 2), (slab_s 2), 0%nat, 1%nat.
  split; [exact heap_ex_begins|]. split; [apply slab_runs|]. split; [apply no_thrown; vm_compute; reflexivity|].
  split; [split; vm_compute; reflexivity|]. split; [discriminate|].
  assert (A : alive (slab_s 2)) by (split; vm_compute; reflexivity).
  split; (split; [exact A|]; split; [do 2 eexists; vm_compute; reflexivity|]; right; split; [lia|];
    split; [apply Z.mod_divide; [lia|reflexivity]|]; vm_compute; intros l E; injection E as <-; auto).
Qed.
Print Assumptions metadata_range_exclusive_refuted.

(** A write that fails, and is survived: the hypotheses of
    slab_exception_leaks_metadata. *)
Definition leak_ops : list mop := [CallAlloc 0 ck 7; Meta 0 0x5010; Go 0; Basic (Lock 0); Basic (WriteThrown 0)].
Lemma leak_fine : mfine ex_cfg 0 [] [] (mstart ex_cfg polite_ex) leak_ops.
Proof. unfold leak_ops. do 5 mstep_fine 14. exact Logic.I. Qed.
Definition leak_ex := mplay ex_cfg 0 [] [] (mstart ex_cfg polite_ex) leak_ops.
Example leak_runs : mruns ex_cfg 0 polite_ex (fst (fst leak_ex)) (snd (fst leak_ex)) (snd leak_ex).
Proof. apply mruns_play; [constructor|exact leak_fine]. Qed.
Example leak_state : kept (fst (fst leak_ex)) /\ lost (fst (fst leak_ex)) 0x5010 /\ alive (snd leak_ex) /\
  accounts (snd (fst leak_ex)) = Some [0x5010] /\ slabs (snd leak_ex) = [] /\ forall t, jobs (snd leak_ex) t = Idle.
Proof.
  split; [apply no_thrown; vm_compute; reflexivity|]. split; [|].
  { exists (WriteThrown 0), [GaveUp 0 (req_alloc ck 0x5010 7)], 0%nat, ck, 7. split; [vm_compute; auto|left; reflexivity]. }
  split; [split; vm_compute; reflexivity|]. split; [vm_compute; reflexivity|]. split; [vm_compute; reflexivity|].
  intros [|t]; vm_compute; reflexivity.
Qed.

(** C72: when there is no metadata left the process dies of it: nothing is asked of
    the host, no slab comes or goes, and from then on only the host makes steps. *)
Theorem slab_null_metadata_kills : forall c i evs h m s t s' m' h',
  mruns c i evs h m s -> mpossible c i h m (Meta t 0) s -> mstep c i (Meta t 0) s = (s', m', h') ->
  ~ alive s' /\ m' = [] /\ h' = [] /\ slabs s' = slabs s /\
  forall o s2 m2 h2, mpossible c i h m o s' -> mstep c i o s' = (s2, m2, h2) ->
    (o = Basic Serve \/ exists ev, o = Basic (Env ev)) /\ ~ alive s2 /\ m2 = [] /\ slabs s2 = slabs s.
Proof.
  intros c i evs h m s t s' m' h' R (_ & (size & ras & J) & _) E. cbn [mstep] in E. rewrite J in E. cbn in E. injection E as <- <- <-.
  assert (D : ~ alive (MSt (base s) (jobs s) (slabs s) true)) by (intros [_ X]; discriminate).
  split; [exact D|]. split; [reflexivity|]. split; [reflexivity|]. split; [reflexivity|]. intros o s2 m2 h2 P E.
  destruct o as [t' ? ?|t' ?|t' ?|t' ?|t'|t'|o]; cbn [mpossible] in P; try (exfalso; apply D; apply P).
  destruct P as (_ & _ & [X|P]); [discriminate|]. split; [destruct P as [->|[ev ->]]; eauto|].
  assert (K : forall b x, step c i o (base s) = (b, x) -> x = []).
  { intros b x S. destruct P as [->|[ev ->]]; cbn [step] in S.
    - destruct (up (base s)); [injection S as _ <-; reflexivity|]. destruct (MemSvcModel.step c (mem (base s)) _). injection S as _ <-. reflexivity.
    - destruct (MemSvcModel.step c (mem (base s)) ev). injection S as _ <-. reflexivity. }
  cbn [mstep base] in E. destruct (step c i o (base s)) as [b x] eqn:S. rewrite (K _ _ eq_refl) in E. cbn in E. injection E as <- <- _.
  split; [intros [_ Y]; discriminate|]. split; reflexivity.
Qed.
(** Thread 0 of the history above, just after its call. *)
Example slab_null_ex : mruns ex_cfg 0 polite_ex (slab_h 1) (slab_m 1) (slab_s 1) /\ mpossible ex_cfg 0 (slab_h 1) (slab_m 1) (Meta 0 0) (slab_s 1).
Proof.
  split; [apply mruns_play; [constructor|]; apply mfine_first, slab_fine|].
  split; [split; vm_compute; reflexivity|]. split; [exists ck, 7; reflexivity|auto].
Qed.
Print Assumptions slab_null_metadata_kills.
