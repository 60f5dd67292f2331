(** Proofs about slabs: one invariant over all runs. *)
From Coq Require Import List ZArith Lia Bool Arith Permutation.
From Verif Require Import Base MemSvcModel MemSvcSpec ChildHeapModel ChildHeapSpec ChildHeapProof ChildHeapProps SlabModel SlabSpec.
Import ListNotations.
Open Scope Z_scope.

Lemma job_same t j f : set_job t j f t = j.
Proof. unfold set_job. rewrite Nat.eqb_refl. auto. Qed.
Lemma job_other t j f u : u <> t -> set_job t j f u = f u.
Proof. unfold set_job. intros N. destruct (Nat.eqb_spec u t); congruence. Qed.
Lemma slab_eqb_spec x y : slab_eqb x y = true <-> x = y.
Proof.
  destruct x as [a n m], y as [a' n' m']. unfold slab_eqb. cbn. rewrite !andb_true_iff, !Z.eqb_eq.
  split; [intros [[-> ->] ->]; auto|intros E; injection E; auto].
Qed.
Lemma in_rest sl l y : In y (filter (fun y => negb (slab_eqb sl y)) l) <-> In y l /\ y <> sl.
Proof.
  rewrite filter_In. destruct (slab_eqb sl y) eqn:E; cbn.
  - apply slab_eqb_spec in E. subst. split; [intros [_ H]; discriminate|intros [_ H]; congruence].
  - split; intros [A B]; split; auto. intros ->. rewrite (proj2 (slab_eqb_spec sl sl) eq_refl) in E. discriminate.
Qed.
Lemma nodup_filter {A} (f : A -> bool) l : NoDup l -> NoDup (filter f l).
Proof.
  induction 1 as [|x l N D IH]; cbn; [constructor|]. destruct (f x); auto. constructor; auto. rewrite filter_In. tauto.
Qed.
Lemma nodup_remove x l : NoDup l -> NoDup (remove Z.eq_dec x l).
Proof.
  induction 1 as [|y l N D IH]; cbn; [constructor|]. destruct (Z.eq_dec x y); auto. constructor; auto.
  intros H. apply in_remove in H. tauto.
Qed.
Lemma accounts_snoc m x : accounts (m ++ [x]) = account (accounts m) x.
Proof. unfold accounts. rewrite fold_left_app. auto. Qed.

(** Who has a metadata block, and who has a chunk. *)
Inductive who := WS (sl : slab) | WT (t : nat).
Definition mo (s : mst) (k : who) (ms : Z) : Prop :=
  match k with
  | WS sl => In sl (slabs s) /\ sl_meta sl = ms
  | WT t => match jobs s t with Has ms' _ _ | Asked ms' _ => ms' = ms | Frees sl => sl_meta sl = ms | _ => False end
  end.
Definition co (s : mst) (k : who) (a n : Z) : Prop :=
  match k with
  | WS sl => In sl (slabs s) /\ sl_at sl = a /\ sl_size sl = n
  | WT t => match jobs s t with Frees sl => sl_at sl = a /\ sl_size sl = n | Freed a' n' => a' = a /\ n' = n | _ => False end
  end.
(** What requestHostService is doing for a thread. *)
Definition inside (s : mst) (t : nat) : Prop :=
  match jobs s t with
  | Asked ms size => exists ras, pend (thr (base s) t) = [req_alloc size ms ras]
  | Returning => exists a n, pend (thr (base s) t) = [req_free a n]
  | RawAsked => exists rq, pend (thr (base s) t) = [rq] /\ (rq_kind rq = 0 -> rq_1 rq = 0)
  | _ => thr (base s) t = Out
  end.
Definition meta_of (s : mst) (k : who) : Z -> Prop := fun mt =>
  match k with
  | WS sl => mt = sl_meta sl
  | WT t => match jobs s t with Frees sl => mt = sl_meta sl | _ => True end
  end.
Record inv (c : cfg) (i : nat) (evs : list event) (h : history) (m : list mcall) (s : mst) : Prop := {
  V_runs : runs c i evs h (base s);
  V_in : forall t, inside s t;
  V_mo : forall k k' ms, mo s k ms -> mo s k' ms -> k = k';
  V_pos : forall k ms, mo s k ms -> 0 < ms /\ (16 | ms);
  V_co : forall k k' a n n', co s k a n -> co s k' a n' -> k = k';
  V_held : forall k a n, co s k a n -> exists mt ras, In (Grant a n mt ras) (held h) /\ 0 < mt /\ meta_of s k mt;
  V_slabs : NoDup (slabs s);
  V_acc : exists l, accounts m = Some l /\ NoDup l /\
    (forall ms, In ms l <-> (exists k, mo s k ms) \/ (ms <> 0 /\ lost h ms)) /\
    (forall k ms, mo s k ms -> ~ lost h ms) }.

Lemma lost_snoc h o x ms : lost (h ++ [(o, x)]) ms <-> lost h ms \/ exists t size ras, In (GaveUp t (req_alloc size ms ras)) x.
Proof.
  split.
  - intros (o' & x' & t & size & ras & A & B). apply in_app_or in A as [A|[A|[]]].
    + left. exists o', x', t, size, ras. auto.
    + injection A as <- <-. right. eauto.
  - intros [(o' & x' & t & size & ras & A & B)|(t & size & ras & B)].
    + exists o', x', t, size, ras. split; auto. apply in_or_app. auto.
    + exists o, x, t, size, ras. split; auto. apply in_or_app. cbn. auto.
Qed.
Lemma lost_quiet h o ms : lost (h ++ [(o, [])]) ms <-> lost h ms.
Proof. rewrite lost_snoc. split; [intros [H|(? & ? & ? & [])]; auto|auto]. Qed.
Lemma start_thr c evs t : thr (start c evs) t = Out.
Proof. unfold start. destruct (run c init_state evs). auto. Qed.

Lemma inv_start c i evs : inv c i evs [] [] (mstart c evs).
Proof.
  constructor.
  - constructor.
  - intros t. cbn. apply start_thr.
  - intros [x|t] k ms; cbn; [intros [[] _]|intros []].
  - intros [x|t] ms; cbn; [intros [[] _]|intros []].
  - intros [x|t] k a n n'; cbn; [intros [[] _]|intros []].
  - intros [x|t] a n; cbn; [intros [[] _]|intros []].
  - constructor.
  - exists []. split; [reflexivity|]. split; [constructor|]. split.
    + intros ms. split; [intros []|]. intros [([x|t] & H)|(_ & (? & ? & ? & ? & ? & [] & _))]; cbn in H; [destruct H as [[] _]|destruct H].
    + intros [x|t] ms; cbn; [intros [[] _]|intros []].
Qed.

(** A base step: nobody leaves requestHostService, or one thread does. *)
Lemma step_leaves c i o s s' x : step c i o s = (s', x) -> enabled o s -> (forall u rq, o <> Enter u rq) ->
  (x = [] /\ forall t, pend (thr s' t) = pend (thr s t)) \/
  exists t rq, pend (thr s t) = [rq] /\ thr s' = set_thr t Out (thr s) /\ (x = [GaveUp t rq] \/ exists v, x = [Returned t rq v]).
Proof.
  intros S E NE. destruct o; cbn [step] in S; cbn [enabled] in E.
  - exfalso. eapply NE; eauto.
  - left. destruct E as (_ & _ & q & T). rewrite T in S. injection S as <- <-. split; auto. intros u. cbn. unfold set_thr.
    destruct (Nat.eqb_spec u t); subst; rewrite ?T; auto.
  - left. destruct E as (_ & q & T). rewrite T in S. destruct ok; injection S as <- <-; split; auto. intros u. cbn. unfold set_thr.
    destruct (Nat.eqb_spec u t); subst; rewrite ?T; auto.
  - destruct E as (_ & (q & T) & _). rewrite T in S. destruct (down s) as [|rs rest].
    + left. destruct ok; injection S as <- <-; auto.
    + destruct ok; [destruct (rs_error rs =? 0)|]; injection S as <- <-; auto.
      right. exists t, q. rewrite T. split; auto. split; auto. right. eauto.
  - destruct E as (_ & (q & T) & _). rewrite T in S. injection S as <- <-. right. exists t, q. rewrite T. auto.
  - destruct E as (_ & (q & T) & _). rewrite T in S. injection S as <- <-. right. exists t, q. rewrite T. auto.
  - left. destruct (up s); [injection S as <- <-; auto|]. destruct (MemSvcModel.step _ _ _). injection S as <- <-. auto.
  - left. destruct (MemSvcModel.step _ _ _). injection S as <- <-. auto.
Qed.
Lemma pend_out p : pend p = [] <-> p = Out.
Proof. destruct p; cbn; split; congruence. Qed.

(** Metadata carried over from one state to the next. *)
Definition metas (h : history) (m : list mcall) (s : mst) : Prop :=
  (forall k k' ms, mo s k ms -> mo s k' ms -> k = k') /\
  (forall k ms, mo s k ms -> 0 < ms /\ (16 | ms)) /\
  exists l, accounts m = Some l /\ NoDup l /\
    (forall ms, In ms l <-> (exists k, mo s k ms) \/ (ms <> 0 /\ lost h ms)) /\
    (forall k ms, mo s k ms -> ~ lost h ms).
Definition chunks (h : history) (s : mst) : Prop :=
  (forall k k' a n n', co s k a n -> co s k' a n' -> k = k') /\
  (forall k a n, co s k a n -> exists mt ras, In (Grant a n mt ras) (held h) /\ 0 < mt /\ meta_of s k mt) /\
  NoDup (slabs s).
Lemma inv_parts c i evs h m s : inv c i evs h m s <-> runs c i evs h (base s) /\ (forall t, inside s t) /\ metas h m s /\ chunks h s.
Proof.
  split.
  - intros [A B C D E F G H]. unfold metas, chunks. auto 10.
  - intros (A & B & (C1 & C2 & C3) & D1 & D2 & D3). constructor; auto.
Qed.
Lemma metas_keep h h' m s s' (f : who -> who) : metas h m s ->
  (forall k ms, mo s' k ms -> mo s (f k) ms) -> (forall k ms, mo s k ms -> exists k', mo s' k' ms) ->
  (forall k k' ms, mo s' k ms -> mo s' k' ms -> f k = f k' -> k = k') -> (forall ms, ms <> 0 -> lost h' ms <-> lost h ms) -> metas h' m s'.
Proof.
  intros (M1 & M2 & l & A & N & L & U) F1 F2 F3 LO. split; [|split].
  - intros k k' ms H H'. apply (F3 k k' ms H H'). eapply M1; eauto.
  - intros k ms H. eapply M2; eauto.
  - exists l. split; auto. split; auto. split.
    + intros ms. rewrite L. split.
      * intros [(k & H)|[Z H]]; [left; eauto|right]. split; auto. apply LO; auto.
      * intros [(k & H)|[Z H]]; [left; eauto|right]. split; auto. apply LO; auto.
    + intros k ms H. destruct (M2 _ _ (F1 _ _ H)). rewrite LO by lia. eapply U; eauto.
Qed.
Lemma chunks_keep h h' s s' (f : who -> who) : chunks h s ->
  (forall k a n, co s' k a n -> co s (f k) a n /\ forall mt, meta_of s (f k) mt -> meta_of s' k mt) ->
  (forall k k' a n n', co s' k a n -> co s' k' a n' -> f k = f k' -> k = k') ->
  (forall k a n mt ras, co s' k a n -> 0 < mt -> In (Grant a n mt ras) (held h) -> In (Grant a n mt ras) (held h')) ->
  NoDup (slabs s') -> chunks h' s'.
Proof.
  intros (C1 & C2 & C3) F1 F2 F3 N. split; [|split]; auto.
  - intros k k' a n n' H H'. apply (F2 k k' a n n' H H'). eapply C1; [apply F1; eauto|apply F1; eauto].
  - intros k a n H. destruct (F1 _ _ _ H) as [H1 H2]. destruct (C2 _ _ _ H1) as (mt & ras & G & P & Q). exists mt, ras. eauto 10.
Qed.

(** A job that changes for thread [t] alone, holding what it held. *)
Lemma mo_job s s' t : slabs s' = slabs s -> (forall u, u <> t -> jobs s' u = jobs s u) -> (forall ms, mo s' (WT t) ms <-> mo s (WT t) ms) ->
  forall k ms, mo s' k ms <-> mo s k ms.
Proof.
  intros E J T [x|u] ms; [cbn; rewrite E; tauto|]. destruct (Nat.eq_dec u t) as [->|N]; auto. cbn. rewrite J; tauto.
Qed.
Lemma co_job s s' t : slabs s' = slabs s -> (forall u, u <> t -> jobs s' u = jobs s u) ->
  (forall a n, co s' (WT t) a n -> co s (WT t) a n /\ forall mt, meta_of s (WT t) mt -> meta_of s' (WT t) mt) ->
  forall k a n, co s' k a n -> co s k a n /\ forall mt, meta_of s k mt -> meta_of s' k mt.
Proof.
  intros E J T [x|u] a n; [cbn; rewrite E; auto|]. destruct (Nat.eq_dec u t) as [->|N]; auto. cbn. rewrite J; auto.
Qed.
Lemma metas_same h h' m s s' : metas h m s -> (forall k ms, mo s' k ms <-> mo s k ms) -> (forall ms, ms <> 0 -> lost h' ms <-> lost h ms) -> metas h' m s'.
Proof.
  intros M E L. apply (metas_keep h h' m s s' (fun k => k)); auto.
  - intros k ms. apply E.
  - intros k ms H. exists k. apply E; auto.
Qed.
Lemma chunks_same h h' s s' : chunks h s -> (forall k a n, co s' k a n -> co s k a n /\ forall mt, meta_of s k mt -> meta_of s' k mt) ->
  (forall k a n mt ras, co s' k a n -> 0 < mt -> In (Grant a n mt ras) (held h) -> In (Grant a n mt ras) (held h')) -> NoDup (slabs s') -> chunks h' s'.
Proof. intros C E F N. apply (chunks_keep h h' s s' (fun k => k)); auto. Qed.

(** Blocks held are determined by their address. *)
Lemma held_at c i evs h s g k : begins c i evs -> runs c i evs h s -> kept h -> In g (held h) -> In k (held h) -> g_at g = g_at k -> g = k.
Proof.
  intros BG R KP H H' E. destruct (heap_blocks_private c i evs h s BG R KP) as (r & _ & _ & _ & GD & SP).
  assert (D : {g = k} + {g <> k}) by (repeat decide equality). destruct D as [|D]; auto. exfalso.
  destruct (GD _ H) as (C1 & _). destruct (GD _ H') as (C2 & _). apply chunk_size_pos in C1, C2.
  destruct (SP _ _ H H' D); lia.
Qed.
Lemma new_at c i evs h o t rq v s : begins c i evs -> runs c i evs (h ++ [(o, [Returned t rq v])]) s -> kept (h ++ [(o, [Returned t rq v])]) ->
  (forall u q, o <> Enter u q) -> rq_kind rq = 0 -> forall g, In g (held h) -> g_at g <> v.
Proof.
  intros BG R KP NE K g H E.
  assert (HE : held (h ++ [(o, [Returned t rq v])]) = Grant v (rq_0 rq) (rq_1 rq) (rq_2 rq) :: held h).
  { rewrite held_snoc. unfold hold. cbn. rewrite K. destruct o; auto. exfalso. eapply NE; eauto. }
  destruct (heap_blocks_private c i evs _ s BG R KP) as (r & _ & _ & N & _). rewrite HE in N. inversion N as [|? ? NI _]; subst.
  apply NI. rewrite (held_at c i evs _ s (Grant (g_at g) (rq_0 rq) (rq_1 rq) (rq_2 rq)) g BG R KP); auto; rewrite HE; cbn; auto.
Qed.

Ltac other_jobs := cbn; intros; apply job_other; assumption.
Lemma inside_job c i evs h m s s' t : inv c i evs h m s -> base s' = base s -> (forall u, u <> t -> jobs s' u = jobs s u) ->
  inside s' t -> forall u, inside s' u.
Proof.
  intros I B J T u. destruct (Nat.eq_dec u t) as [->|N]; auto. pose proof (V_in _ _ _ _ _ _ I u) as H. unfold inside in *.
  rewrite B, J by auto. auto.
Qed.

(** Thread-local moves that log nothing and do not touch requestHostService. *)
Lemma inv_local c i evs h m s s' t : inv c i evs h m s -> base s' = base s -> slabs s' = slabs s -> (forall u, u <> t -> jobs s' u = jobs s u) ->
  inside s' t -> (forall ms, mo s' (WT t) ms <-> mo s (WT t) ms) ->
  (forall a n, co s' (WT t) a n -> co s (WT t) a n /\ forall mt, meta_of s (WT t) mt -> meta_of s' (WT t) mt) -> inv c i evs h m s'.
Proof.
  intros I B SL J IN M C. pose proof (proj1 (inv_parts _ _ _ _ _ _) I) as (R & _ & ME & CH). apply inv_parts.
  split; [rewrite B; auto|]. split; [eapply inside_job; eauto|]. split.
  - eapply metas_same; eauto; [eapply mo_job; eauto|tauto].
  - eapply chunks_same; eauto; [eapply co_job; eauto|rewrite SL; apply CH].
Qed.

(** Giving a metadata block back. *)
Lemma metas_give h h' m s s' k0 ms0 : metas h m s -> mo s k0 ms0 ->
  (forall k ms, mo s' k ms <-> mo s k ms /\ k <> k0) -> (forall ms, ms <> 0 -> lost h' ms <-> lost h ms) -> metas h' (m ++ [Gave ms0]) s'.
Proof.
  intros (M1 & M2 & l & A & N & L & U) O0 E LO. split; [|split].
  - intros k k' ms H H'. apply E in H, H'. eapply M1; [apply H|apply H'].
  - intros k ms H. apply E in H. eapply M2. apply H.
  - exists (remove Z.eq_dec ms0 l). rewrite accounts_snoc, A. cbn. destruct (in_dec Z.eq_dec ms0 l) as [_|NI]; [|exfalso; apply NI, L; eauto].
    split; auto. split; [apply nodup_remove; auto|]. split.
    + intros ms. split.
      * intros H. apply in_remove in H as [H NE]. apply L in H as [(k & H)|[Z H]].
        { left. exists k. apply E. split; auto. intros ->. apply NE. destruct k0; cbn in *; [destruct H, O0; congruence|].
          destruct (jobs s t); try contradiction; congruence. }
        { right. split; auto. apply LO; auto. }
      * intros H. apply in_in_remove.
        { intros ->. destruct H as [(k & H)|[Z H]].
          - apply E in H as [H NE]. apply NE. eapply M1; eauto.
          - apply LO in H; auto. eapply U; eauto. }
        { apply L. destruct H as [(k & H)|[Z H]]; [left; apply E in H as [H _]; eauto|right; split; auto; apply LO; auto]. }
    + intros k ms H. apply E in H as [H _]. destruct (M2 _ _ H). rewrite LO by lia. eapply U; eauto.
Qed.
(** Getting one. *)
Lemma metas_get h m s s' k0 ms0 : metas h m s -> (forall l, accounts m = Some l -> ~ In ms0 l) -> 0 < ms0 -> (16 | ms0) ->
  (forall k ms, mo s' k ms <-> mo s k ms \/ (k = k0 /\ ms = ms0)) -> metas h (m ++ [Got ms0]) s'.
Proof.
  intros (M1 & M2 & l & A & N & L & U) FR P D E. specialize (FR l A). split; [|split].
  - intros k k' ms H H'. apply E in H, H'. destruct H as [H|[-> ->]], H' as [H'|[-> H']]; auto.
    + eapply M1; eauto.
    + subst. exfalso. apply FR, L. eauto.
    + exfalso. apply FR, L. eauto.
  - intros k ms H. apply E in H as [H|[-> ->]]; auto. eapply M2; eauto.
  - exists (ms0 :: l). rewrite accounts_snoc, A. cbn. split; auto. split; [constructor; auto|]. split.
    + intros ms. rewrite L. split.
      * intros [<-|[(k & H)|H]]; auto; left; [exists k0|exists k]; apply E; auto.
      * intros [(k & H)|H]; auto. apply E in H as [H|[-> ->]]; eauto.
    + intros k ms H. apply E in H as [H|[-> ->]]; [eapply U; eauto|]. intros LS. apply FR, L. right. split; auto. lia.
Qed.
(** Losing one to an exception. *)
Lemma metas_lose h h' m s s' k0 ms0 : metas h m s -> mo s k0 ms0 -> (forall k ms, mo s' k ms <-> mo s k ms /\ k <> k0) ->
  (forall ms, lost h' ms <-> lost h ms \/ ms = ms0) -> metas h' m s'.
Proof.
  intros (M1 & M2 & l & A & N & L & U) O0 E LO. pose proof (M2 _ _ O0) as [P0 _].
  assert (ON : forall k ms, mo s k ms -> k = k0 -> ms = ms0).
  { intros k ms H ->. destruct k0; cbn in *; [destruct H, O0; congruence|]. destruct (jobs s t); try contradiction; congruence. }
  split; [|split].
  - intros k k' ms H H'. apply E in H, H'. eapply M1; [apply H|apply H'].
  - intros k ms H. apply E in H. eapply M2. apply H.
  - exists l. split; auto. split; auto. split.
    + intros ms. rewrite L, LO. split.
      * intros [(k & H)|[Z H]]; auto. destruct (Z.eq_dec ms ms0) as [->|NE]; [right; split; auto; lia|].
        left. exists k. apply E. split; auto. intros ->. apply NE. eapply ON; eauto.
      * intros [(k & H)|[Z [H|H]]]; auto; [apply E in H as [H _]; eauto|subst; eauto].
    + intros k ms H. apply E in H as [H NE]. rewrite LO. intros [LS|LS]; [eapply U; eauto|subst]. apply NE. eapply M1; eauto.
Qed.

(** requestHostService is entered. *)
Lemma inv_enter c i evs h m s t rq j : begins c i evs -> kept h -> inv c i evs h m s -> thr (base s) t = Out -> dead (base s) = false ->
  sensible c i (books (tr (base s))) (held h) rq ->
  (forall s', jobs s' t = j -> pend (thr (base s') t) = [rq] -> inside s' t) ->
  (forall s', jobs s' t = j -> (forall ms, mo s' (WT t) ms <-> mo s (WT t) ms) /\ forall a n, ~ co s' (WT t) a n) ->
  (forall g, In g (held h) -> rq = req_free (g_at g) (g_size g) -> g_meta g = 0 \/ co s (WT t) (g_at g) (g_size g)) ->
  let (b, x) := step c i (Enter t rq) (base s) in
  inv c i evs (h ++ [(Enter t rq, x)]) m (MSt b (set_job t j (jobs s)) (slabs s) (crashed s)).
Proof.
  intros BG KP I T D SE IN MC FR. destruct (step c i (Enter t rq) (base s)) as [b x] eqn:S.
  pose proof (proj1 (inv_parts _ _ _ _ _ _) I) as (R & IA & ME & CH).
  assert (X : x = [] /\ thr b = set_thr t (Spin rq) (thr (base s))) by (cbn in S; injection S as <- <-; auto). destruct X as [-> TB].
  apply inv_parts. cbn [base]. split; [econstructor; eauto; split; cbn; auto|]. split; [|split].
  - intros u. destruct (Nat.eq_dec u t) as [->|N].
    + apply IN; cbn; [apply job_same|]. rewrite TB, set_same. auto.
    + specialize (IA u). unfold inside in *. cbn. rewrite job_other by auto. rewrite TB, set_other by auto. auto.
  - eapply metas_same; eauto; [|intros; apply lost_quiet]. apply (mo_job _ _ t); auto; [other_jobs|]. apply MC. cbn. apply job_same.
  - assert (CJ : forall k a n, co {| base := b; jobs := set_job t j (jobs s); slabs := slabs s; crashed := crashed s |} k a n ->
      co s k a n /\ forall mt, meta_of s k mt -> meta_of {| base := b; jobs := set_job t j (jobs s); slabs := slabs s; crashed := crashed s |} k mt).
    { apply (co_job _ _ t); auto; [other_jobs|]. intros a n C. exfalso. eapply MC; [|exact C]. cbn. apply job_same. }
    eapply chunks_same; eauto; [|apply CH].
    intros k a n mt ras C P H. rewrite held_snoc. unfold hold. cbn. destruct (Z.eqb_spec (rq_kind rq) 1) as [K|]; auto.
    apply in_drop. split; auto. cbn. intros [E1 E2].
    assert (C' : co s k a n) by (apply CJ; auto).
    destruct SE as [(size & ms & ras' & r & -> & _)|(g & G & ->)]; [discriminate|]. cbn in E1, E2. subst a n.
    assert (EG : Grant (g_at g) (g_size g) mt ras = g).
    { eapply held_at; eauto. }
    destruct (FR g G eq_refl) as [Z|CO].
    + rewrite <- EG in Z. cbn in Z. lia.
    + assert (k = WT t) by (eapply CH; eauto). subst k. eapply MC; [|exact C]. cbn. apply job_same.
Qed.

Lemma lost_end h o x t rq : (x = [GaveUp t rq] \/ exists v, x = [Returned t rq v]) ->
  forall ms, lost (h ++ [(o, x)]) ms -> lost h ms \/ exists size ras, rq = req_alloc size ms ras.
Proof.
  intros X ms H. apply lost_snoc in H as [H|(u & size & ras & H)]; auto. right. destruct X as [->|(v & ->)]; destruct H as [H|[]]; [|discriminate].
  injection H as _ ->. eauto.
Qed.

Lemma inv_step c i evs h m s o s' m' h' : begins c i evs -> inv c i evs h m s -> mpossible c i h m o s -> mstep c i o s = (s', m', h') ->
  kept (h ++ h') -> inv c i evs (h ++ h') (m ++ m') s'.
Proof.
  intros BG I P S KP.
  assert (KH : kept h) by (intros t x H; apply (KP t x), in_or_app; auto).
  pose proof (proj1 (inv_parts _ _ _ _ _ _) I) as (R & IA & ME & CH).
  destruct o as [t size ras|t sl|t rq|t ms|t|t|o]; cbn [mpossible] in P; cbn [mstep] in S.
  - (* CallAlloc *)
    injection S as <- <- <-. rewrite !app_nil_r. destruct P as (_ & J). pose proof (IA t) as IT. unfold inside in IT. rewrite J in IT.
    apply (inv_local c i evs h m s _ t I); auto; [other_jobs| | |]; cbn; unfold inside; cbn; rewrite ?job_same, ?J; auto; tauto.
  - (* CallFree *)
    injection S as <- <- <-. rewrite !app_nil_r. destruct P as (_ & J & IS). pose proof (IA t) as IT. unfold inside in IT. rewrite J in IT.
    set (s' := MSt _ _ _ _).
    set (f := fun k => match k with WT u => if Nat.eqb u t then WS sl else k | _ => k end).
    assert (JT : jobs s' t = Frees sl) by (cbn; apply job_same).
    assert (JO : forall u, u <> t -> jobs s' u = jobs s u) by (cbn; intros; apply job_other; auto).
    assert (INJ : forall k k', (forall x, k = WS x -> x <> sl) -> (forall x, k' = WS x -> x <> sl) -> f k = f k' -> k = k').
    { intros [x|u] [y|v] H H' E; unfold f in E; auto.
      - destruct (Nat.eqb v t); [injection E as ->; destruct (H sl); auto|discriminate].
      - destruct (Nat.eqb u t); [injection E as <-; destruct (H' sl); auto|discriminate].
      - destruct (Nat.eqb_spec u t), (Nat.eqb_spec v t); subst; auto; congruence. }
    apply inv_parts. split; [auto|]. split; [apply (inside_job c i evs h m s s' t I); auto; unfold inside; rewrite JT; auto|]. split.
    + apply (metas_keep h h m s s' f ME); [| | |tauto].
      * intros [x|u] ms H; unfold f; [cbn in *; rewrite in_rest in H; tauto|]. destruct (Nat.eqb_spec u t) as [->|N].
        { unfold mo in *. rewrite JT in H. auto. } { unfold mo in *. rewrite JO in H; auto. }
      * intros [x|u] ms H.
        { destruct H as [H E]. destruct (slab_eqb sl x) eqn:Q.
          - apply slab_eqb_spec in Q. subst x. exists (WT t). unfold mo. rewrite JT. auto.
          - exists (WS x). cbn. rewrite in_rest. split; auto. split; auto. intros ->. rewrite (proj2 (slab_eqb_spec sl sl) eq_refl) in Q. discriminate. }
        { destruct (Nat.eq_dec u t) as [->|N]; [unfold mo in H; rewrite J in H; contradiction|]. exists (WT u). unfold mo in *. rewrite JO; auto. }
      * intros k k' ms H H'. apply INJ; intros x ->; cbn in *; [destruct H as [H _]; apply in_rest in H; tauto|destruct H' as [H' _]; apply in_rest in H'; tauto].
    + apply (chunks_keep h h s s' f CH); auto.
      * intros [x|u] a n H; unfold f; [cbn in *; rewrite in_rest in H; tauto|]. destruct (Nat.eqb_spec u t) as [->|N].
        { unfold co, meta_of in *. rewrite JT in *. auto. } { unfold co, meta_of in *. rewrite JO in * by auto. auto. }
      * intros k k' a n n' H H'. apply INJ; intros x ->; cbn in *; [destruct H as [H _]; apply in_rest in H; tauto|destruct H' as [H' _]; apply in_rest in H'; tauto].
      * cbn. apply nodup_filter. apply CH.
  - (* CallRaw *)
    injection S as <- <- <-. rewrite !app_nil_r. destruct P as (_ & J). pose proof (IA t) as IT. unfold inside in IT. rewrite J in IT.
    apply (inv_local c i evs h m s _ t I); auto; [other_jobs| | |]; cbn; unfold inside; cbn; rewrite ?job_same, ?J; auto; tauto.
  - (* Meta *)
    destruct P as (_ & (size & ras & J) & FR). rewrite J in S. pose proof (IA t) as IT. unfold inside in IT. rewrite J in IT.
    destruct (Z.eqb_spec ms 0) as [->|NZ]; injection S as <- <- <-; rewrite !app_nil_r.
    + apply (inv_local c i evs h m s _ t I); auto; cbn; [unfold inside; cbn; rewrite J; auto|tauto].
    + destruct FR as [|(P & D & FR)]; [contradiction|]. set (s' := MSt _ _ _ _).
      assert (JT : jobs s' t = Has ms size ras) by (cbn; apply job_same).
      assert (JO : forall u, u <> t -> jobs s' u = jobs s u) by (cbn; intros; apply job_other; auto).
      apply inv_parts. split; [auto|]. split; [apply (inside_job c i evs h m s s' t I); auto; unfold inside; rewrite JT; auto|]. split.
      * apply (metas_get h m s s' (WT t) ms ME FR P D). intros [x|u] ms'; [cbn; split; [auto|intros [H|[H _]]; [auto|discriminate]]|].
        destruct (Nat.eq_dec u t) as [->|N].
        { unfold mo. rewrite JT, J. split; [intros ->; auto|intros [[]|[_ ->]]; auto]. }
        { unfold mo. rewrite JO by auto. split; [auto|intros [H|[H _]]; [auto|congruence]]. }
      * apply (chunks_same h h s s' CH); auto; [|apply CH]. apply (co_job _ _ t); auto. unfold co. rewrite JT. tauto.
  - (* MetaBack *)
    destruct P as (_ & sl & J). rewrite J in S. pose proof (IA t) as IT. unfold inside in IT. rewrite J in IT.
    injection S as <- <- <-. rewrite !app_nil_r. set (s' := MSt _ _ _ _).
    assert (JT : jobs s' t = Freed (sl_at sl) (sl_size sl)) by (cbn; apply job_same).
    assert (JO : forall u, u <> t -> jobs s' u = jobs s u) by (cbn; intros; apply job_other; auto).
    apply inv_parts. split; [auto|]. split; [apply (inside_job c i evs h m s s' t I); auto; unfold inside; rewrite JT; auto|]. split.
    + apply (metas_give h h m s s' (WT t)); auto; [unfold mo; rewrite J; auto| |tauto].
      intros [x|u] ms; [cbn; split; [intros H; split; [auto|discriminate]|tauto]|]. destruct (Nat.eq_dec u t) as [->|N].
      { unfold mo. rewrite JT. tauto. } { unfold mo. rewrite JO by auto. split; [intros H; split; [auto|congruence]|tauto]. }
    + apply (chunks_same h h s s' CH); auto; [|apply CH]. apply (co_job _ _ t); auto. unfold co, meta_of. rewrite JT, J. auto.
  - (* Go *)
    destruct P as ((D & _) & P). pose proof (IA t) as IT. unfold inside in IT.
    destruct (jobs s t) as [|size ras|ms size ras|ms size|sl|a n| |rq|] eqn:J; try contradiction.
    + pose proof (inv_enter c i evs h m s t (req_alloc size ms ras) (Asked ms size) BG KH I IT D P) as Q.
      destruct (step c i (Enter t (req_alloc size ms ras)) (base s)) as [b x]. injection S as <- <- <-. rewrite app_nil_r. apply Q.
      * intros s' JS PS. unfold inside. rewrite JS. eauto.
      * intros s' JS. unfold mo, co. rewrite JS, J. split; [tauto|auto].
      * intros g _ E. discriminate.
    + assert (C0 : co s (WT t) a n) by (unfold co; rewrite J; auto).
      destruct (proj1 (proj2 CH) _ _ _ C0) as (mt & ras & G & _).
      assert (SE : sensible c i (books (tr (base s))) (held h) (req_free a n)) by (right; exists (Grant a n mt ras); auto).
      pose proof (inv_enter c i evs h m s t (req_free a n) Returning BG KH I IT D SE) as Q.
      destruct (step c i (Enter t (req_free a n)) (base s)) as [b x]. injection S as <- <- <-. rewrite app_nil_r. apply Q.
      * intros s' JS PS. unfold inside. rewrite JS. eauto.
      * intros s' JS. unfold mo, co. rewrite JS, J. split; [tauto|auto].
      * intros g _ E. injection E as <- <-. auto.
    + destruct P as [P P0].
      assert (SE : sensible c i (books (tr (base s))) (held h) rq).
      { destruct P as [P|(g & G & E)]; [left; auto|right; exists g; split; auto]. apply filter_In in G. tauto. }
      pose proof (inv_enter c i evs h m s t rq RawAsked BG KH I IT D SE) as Q.
      destruct (step c i (Enter t rq) (base s)) as [b x]. injection S as <- <- <-. rewrite app_nil_r. apply Q.
      * intros s' JS PS. unfold inside. rewrite JS. eauto.
      * intros s' JS. unfold mo, co. rewrite JS, J. split; [tauto|auto].
      * intros g G E. left. destruct P as [(size & ms & ras & r & -> & _)|(g' & G' & E')]; [discriminate|].
        apply filter_In in G' as [G' Z]. apply Z.eqb_eq in Z. rewrite E in E'. injection E' as E1 E2.
        rewrite (held_at c i evs h (base s) g g' BG R KH G G' E1). auto.
  - (* Basic *)
    destruct P as (P & NE & _). destruct (step c i o (base s)) as [b x] eqn:SB.
    assert (RB : runs c i evs (h ++ [(o, x)]) b) by (econstructor; eauto).
    assert (HQ : held (h ++ [(o, [])]) = held h) by (apply held_quiet; intros u q ->; exfalso; eapply NE; eauto).
    assert (HN : hold (held h) (o, x) = fold_left hold_out x (held h)) by (unfold hold; cbn; destruct o; auto; exfalso; eapply NE; eauto).
    destruct (step_leaves c i o (base s) b x SB (proj1 P) NE) as [(-> & TH)|(t & rq & PT & TH & X)].
    + cbn in S. injection S as <- <- <-. rewrite app_nil_r. apply inv_parts. cbn [base]. split; auto. split; [|split].
      * intros u. specialize (IA u). unfold inside in *. cbn. rewrite (TH u). destruct (jobs s u); auto;
          apply pend_out; rewrite (TH u); apply pend_out; auto.
      * eapply metas_same; eauto; [intros [y|u] ms; cbn; tauto|intros; apply lost_quiet].
      * apply (chunks_same h _ s _ CH); [intros [y|u] a n; cbn; auto|intros k a n mt r _ _ G; rewrite HQ; auto|apply CH].
    + pose proof (IA t) as IT. unfold inside in IT.
      assert (IO : forall s', base s' = b -> (forall u, u <> t -> jobs s' u = jobs s u) -> jobs s' t = Idle -> forall u, inside s' u).
      { clear S. intros z B JO JT u. destruct (Nat.eq_dec u t) as [->|N].
        - unfold inside. rewrite JT, B, TH, set_same. auto.
        - specialize (IA u). unfold inside in *. rewrite JO, B, TH, set_other by auto. auto. }
      assert (HM : forall g, In g (held h) -> In g (held (h ++ [(o, x)]))).
      { intros g G. rewrite held_snoc, HN. destruct X as [->|(v & ->)]; cbn; auto. destruct (rq_kind rq =? 0); cbn; auto. }
      (* a job without metadata or chunk *)
      assert (PLAIN : (forall ms, ~ mo s (WT t) ms) -> (forall ms, ms <> 0 -> lost (h ++ [(o, x)]) ms -> lost h ms) ->
        inv c i evs (h ++ [(o, x)]) m (MSt b (set_job t Idle (jobs s)) (slabs s) (crashed s))).
      { intros NM NL. apply inv_parts. cbn [base]. split; auto. split; [apply IO; cbn; auto; [other_jobs|apply job_same]|]. split.
        - eapply metas_same; eauto; [|intros ms NZ; split; [auto|intros; apply lost_snoc; auto]].
          apply (mo_job _ _ t); auto; [other_jobs|]. intros ms. split; [cbn; rewrite job_same; tauto|intros H; exfalso; eapply NM; eauto].
        - eapply chunks_same; eauto; [|apply CH]. apply (co_job _ _ t); auto; [other_jobs|]. cbn. rewrite job_same. tauto. }
      destruct (jobs s t) as [|size ras|ms size ras|ms size|sl|a n| |rq'|] eqn:J;
        try (rewrite IT in PT; discriminate).
      * (* alloc_chunk *)
        destruct IT as (ras & E). rewrite E in PT. injection PT as <-.
        assert (OW : mo s (WT t) ms) by (unfold mo; rewrite J; auto).
        destruct X as [->|(v & ->)].
        { cbn in S. injection S as <- <- <-. rewrite app_nil_r. set (s' := MSt _ _ _ _).
          assert (JT : jobs s' t = Idle) by (cbn; apply job_same).
          assert (JO : forall u, u <> t -> jobs s' u = jobs s u) by (cbn; intros; apply job_other; auto).
          apply inv_parts. split; auto. split; [apply IO; auto|]. split.
          - apply (metas_lose h _ m s s' (WT t) ms ME OW).
            + intros [y|u] ms'; [cbn; split; [intros H; split; [auto|discriminate]|tauto]|]. destruct (Nat.eq_dec u t) as [->|N].
              { unfold mo. rewrite JT. tauto. } { unfold mo. rewrite JO by auto. split; [intros H; split; [auto|congruence]|tauto]. }
            + intros ms'. rewrite lost_snoc. split.
              * intros [H|(u & n & r & [H|[]])]; auto. injection H as _ _ -> _. auto.
              * intros [H| ->]; auto. right. exists t, size, ras. cbn. auto.
          - apply (chunks_same h _ s s' CH); auto; [|apply CH]. apply (co_job _ _ t); auto. unfold co. rewrite JT. tauto. }
        { cbn [leaves leave jobs] in S. rewrite J in S.
          assert (KPB : kept (h ++ [(o, [Returned t (req_alloc size ms ras) v])])).
          { destruct (Z.eqb v 0); cbn in S; injection S as <- <- <-; auto. }
          assert (V : 0 < v).
          { eapply (heap_alloc_never_null c i evs _ b t (req_alloc size ms ras) v BG RB KPB); auto. rewrite results_snoc. apply in_or_app. cbn. auto. }
          destruct (Z.eqb_spec v 0) as [|_]; [lia|]. cbn in S. injection S as <- <- <-. rewrite app_nil_r.
          pose proof (new_at c i evs h o t (req_alloc size ms ras) v b BG RB KPB NE eq_refl) as NA.
          set (new := Slab v size ms). set (s' := MSt _ _ _ _).
          assert (JT : jobs s' t = Idle) by (cbn; apply job_same).
          assert (JO : forall u, u <> t -> jobs s' u = jobs s u) by (cbn; intros; apply job_other; auto).
          assert (NN : forall k n, ~ co s k v n).
          { intros k n C. destruct (proj1 (proj2 CH) _ _ _ C) as (mt & r & G & _). apply (NA _ G). auto. }
          set (f := fun k => match k with WS y => if slab_eqb new y then WT t else k | _ => k end).
          apply inv_parts. split; auto. split; [apply IO; auto|]. split.
          - apply (metas_keep h _ m s s' f ME).
            + intros [y|u] ms' H; unfold f.
              * destruct (slab_eqb new y) eqn:Q; [apply slab_eqb_spec in Q; subst y; destruct H as [_ <-]; auto|].
                destruct H as [[H|H] H2]; [|split; auto]. fold new in H. subst y. rewrite (proj2 (slab_eqb_spec new new) eq_refl) in Q. discriminate.
              * destruct (Nat.eq_dec u t) as [->|N]; unfold mo in *; [rewrite JT in H; contradiction|rewrite JO in H; auto].
            + intros [y|u] ms' H; [exists (WS y); destruct H; cbn; auto|]. destruct (Nat.eq_dec u t) as [->|N].
              * exists (WS new). unfold mo in H. rewrite J in H. subst ms'. cbn. auto.
              * exists (WT u). unfold mo in *. rewrite JO; auto.
            + intros [y|u] [y'|u'] ms' H H' E1; unfold f in E1.
              * destruct (slab_eqb new y) eqn:Q, (slab_eqb new y') eqn:Q'; try discriminate; auto.
                apply slab_eqb_spec in Q, Q'. subst. auto.
              * destruct (slab_eqb new y); [|discriminate]. injection E1 as <-. unfold mo in H'. rewrite JT in H'. contradiction.
              * destruct (slab_eqb new y'); [|discriminate]. injection E1 as ->. unfold mo in H. rewrite JT in H. contradiction.
              * auto.
            + intros ms' _. rewrite lost_snoc. split; [intros [H|(u & n & r & [H|[]])]; [auto|discriminate]|auto].
          - assert (CC : forall k a n, co s' k a n -> (k = WS new /\ a = v /\ n = size) \/ co s k a n).
            { intros [y|u] a n C.
              - destruct C as [[C|C] C2]; [left; fold new in C; subst y; cbn in C2; intuition|right; split; auto].
              - destruct (Nat.eq_dec u t) as [->|N]; unfold co in *; [rewrite JT in C; contradiction|rewrite JO in C; auto]. }
            split; [|split].
            + intros k k' a n n' C C'. apply CC in C, C'. destruct C as [(-> & -> & ->)|C], C' as [(-> & E1 & ->)|C']; auto.
              * exfalso. eapply NN; eauto.
              * subst a. exfalso. eapply NN; eauto.
              * eapply CH; eauto.
            + intros k a n C. pose proof C as C'. apply CC in C as [(-> & -> & ->)|C].
              * exists ms, ras. rewrite held_snoc, HN. split; [cbn; auto|]. split; [apply (proj1 (proj2 ME) _ _ OW)|reflexivity].
              * destruct (proj1 (proj2 CH) _ _ _ C) as (mt & r & G & Q1 & Q2). exists mt, r. split; auto. split; auto.
                destruct k as [y|u]; auto. destruct (Nat.eq_dec u t) as [->|N]; unfold meta_of in *; [rewrite JT; auto|rewrite JO; auto].
            + cbn. constructor; [|apply CH]. intros H. apply (NN (WS (Slab v size ms)) size). cbn. auto. }
      * (* dealloc_chunk *)
        destruct IT as (a & n & E). rewrite E in PT. injection PT as <-.
        assert (SE : (s', m', h') = (MSt b (set_job t Idle (jobs s)) (slabs s) (crashed s), [], [(o, x)])).
        { destruct X as [->|(v & ->)]; cbn in S; rewrite ?J in S; congruence. }
        injection SE as -> -> ->. rewrite app_nil_r. apply PLAIN; [unfold mo; rewrite J; auto|].
        intros ms NZ H. destruct (lost_end _ _ _ _ _ X ms H) as [|(? & ? & ?)]; [auto|discriminate].
      * (* SharedMemoryRange *)
        destruct IT as (rq' & E & Z). rewrite E in PT. injection PT as ->.
        assert (SE : (s', m', h') = (MSt b (set_job t Idle (jobs s)) (slabs s) (crashed s), [], [(o, x)])).
        { destruct X as [->|(v & ->)]; cbn in S; rewrite ?J in S; congruence. }
        injection SE as -> -> ->. rewrite app_nil_r. apply PLAIN; [unfold mo; rewrite J; auto|].
        intros ms NZ H. destruct (lost_end _ _ _ _ _ X ms H) as [|(? & ? & ->)]; [auto|]. exfalso. apply NZ, Z. auto.
Qed.

Lemma inv_mruns c i evs h m s : begins c i evs -> mruns c i evs h m s -> kept h -> inv c i evs h m s.
Proof.
  intros BG. induction 1 as [|h m s o s' m' h' R IH P S]; intros KP; [apply inv_start|].
  eapply inv_step; eauto. apply IH. intros t x H. apply (KP t x), in_or_app. auto.
Qed.
