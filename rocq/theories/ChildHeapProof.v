(** Proofs about the sandbox's memory. *)
From Coq Require Import List ZArith Bool Arith Lia.
From Verif Require Import Base RegionModel RegionSpec RegionProof BuddyModel BuddyProof MemSvcModel MemSvcSpec MemSvcProof MemSvcProps
  ChildHeapModel ChildHeapSpec.
Import ListNotations.
Open Scope Z_scope.

(** ** Histories of the host's memory, one event longer *)
Lemma mrun_snoc c ev : forall evs st st1 t1, run c st evs = (st1, t1) -> forall st2 rs, MemSvcModel.step c st1 ev = (st2, rs) ->
  run c st (evs ++ [ev]) = (st2, t1 ++ [(ev, rs)]).
Proof.
  induction evs as [|e r IH]; intros st st1 t1 H st2 rs S; cbn [run app] in *.
  - injection H as <- <-. rewrite S. reflexivity.
  - destruct (MemSvcModel.step c st e) as [sa ra]. destruct (run c sa r) as [sb tb] eqn:E. injection H as <- <-.
    rewrite (IH _ _ _ E _ _ S). reflexivity.
Qed.
Lemma adm_snoc P c ev : forall evs st bk st1 t1, run c st evs = (st1, t1) -> admissible P c st bk evs ->
  P (fold_left note t1 bk) ev -> admissible P c st bk (evs ++ [ev]).
Proof.
  induction evs as [|e r IH]; intros st bk st1 t1 H A Q; cbn [run app admissible] in *.
  - injection H as <- <-. split; [exact Q|]. destruct (MemSvcModel.step c st ev). exact I.
  - destruct A as [A1 A2]. split; [exact A1|]. destruct (MemSvcModel.step c st e) as [sa ra].
    destruct (run c sa r) as [sb tb] eqn:E. injection H as <- <-. eapply IH; eauto.
Qed.
Lemma books_snoc t x : books (t ++ [x]) = note (books t) x.
Proof. unfold books. apply fold_left_app. Qed.

(** The host's memory has a polite history. *)
Definition past (c : cfg) (s : st) : Prop :=
  exists evs, polite_history c evs /\ run c init_state evs = (mem s, tr s).

Lemma book_box c st bk i r : layout c st bk -> nth_error (regions bk) i = Some r ->
  exists b, nth_error (g_box st) i = Some b /\ r = box_region b.
Proof.
  intros L H. rewrite <- (L_book _ _ _ L), nth_error_map in H. destruct (nth_error (g_box st) i) as [b|]; [|discriminate].
  injection H as <-. eauto.
Qed.
Lemma out_of_block f a n w x : ~ (a <= x < a + n) -> set_owner f a n w x = f x.
Proof. intros H. rewrite set_owner_eq. destruct (inblk a n x) eqn:E; auto. apply inblk_true in E. contradiction. Qed.
Lemma inblk_out a n x : ~ (a <= x < a + n) -> inblk a n x = false.
Proof. intros H. destruct (inblk a n x) eqn:E; auto. apply inblk_true in E. contradiction. Qed.

(** What a polite event leaves alone. *)
Lemma keep c evs m t ev m' rs i r x : cfg_ok c -> polite_history c evs -> run c init_state evs = (m, t) ->
  polite_ok c (books t) ev -> MemSvcModel.step c m ev = (m', rs) ->
  nth_error (regions (books t)) i = Some r -> r_live r = true -> r_start r <= x < r_end r ->
  owner (books t) x = Sandbox -> ev <> EvDestroy i ->
  (forall rq, ev = EvReq i rq -> rq_kind rq = 1 -> ~ (rq_0 rq <= x < rq_0 rq + rq_1 rq)) ->
  owner (note (books t) (ev, rs)) x = Sandbox /\ g_pm m' (x / chunk c) = g_pm m (x / chunk c).
Proof.
  intros C P H PO S Hr Lr Rx Ox ND NF. pose proof (polite_inv c evs m t C P H) as I. pose proof (I_layout _ _ _ I) as L.
  destruct (book_box _ _ _ _ _ L Hr) as (b & Hb & ->). cbn [box_region r_live r_start] in Lr, Rx. unfold r_end in Rx; cbn [box_region r_start r_bits] in Rx.
  assert (AP : forall j b2, nth_error (g_box m) j = Some b2 -> b_live b2 = true -> j <> i -> ~ (b_shm b2 <= x < b_shm b2 + region_size b2)).
  { intros j b2 Hj Lj N. destruct (L_apart _ _ _ L i j b b2 Hb Hj Lr Lj) as [A|A]; auto; unfold region_size in *; lia. }
  destruct ev as [j rq|j size ras mp|j a size|shm bits|j].
  - (* a request *)
    destruct PO as [PO1 PO2]. cbn in PO1, PO2. pose proof S as S0. cbn [MemSvcModel.step] in S.
    destruct (on_box_cases m j (fun pm b => service c pm b rq)) as [(b2 & Hj & Lj & E)|E]; rewrite E in S; [|injection S as <- <-; split; auto].
    clear E. destruct (service c (g_pm m) b2 rq) as [[pm' b2'] rs'] eqn:SV. injection S as <- <-. cbn [g_pm].
    pose proof (L_ok _ _ _ L j b2 Hj Lj) as R. pose proof SV as SV0. apply service_effect in SV; auto.
    destruct SV as [rs R0 R1|a free' K0 CS V A|K1 CS Ca B1 B2 OB].
    + split; [|reflexivity]. unfold note. destruct (Z.eqb_spec (rs_error rs) 0) as [E|E]; [|exact Ox].
      destruct (R1 E) as [N1 N2]. apply Z.eqb_neq in N1, N2. rewrite N1, N2. exact Ox.
    + cbn [note rs_error rs_ret]. rewrite K0. cbn [Z.eqb owner].
      destruct (memsvc_grants_fresh_aligned_blocks c evs m t j rq _ _ C P H PO1 K0 S0 eq_refl) as (_ & AL & _ & _ & _ & _ & FR).
      cbn [rs_ret] in *. assert (N : ~ (a <= x < a + rq_0 rq)) by (intros X; rewrite (FR x X) in Ox; discriminate).
      rewrite out_of_block by exact N. split; [exact Ox|]. rewrite set_metaentry_spec.
      * rewrite inblk_out by exact N. reflexivity.
      * destruct CS as (n & Hn & Hs). rewrite Hs in AL. eapply Z.divide_trans; [|exact AL]. unfold chunk. exists (2 ^ (n - Z.of_nat (cbits c))).
        rewrite <- Z.pow_add_r by lia. f_equal. lia.
      * exact CS.
    + assert (N : ~ (rq_0 rq <= x < rq_0 rq + rq_1 rq)).
      { destruct (Nat.eq_dec j i) as [->|NE]; [apply NF; auto|]. intros X. apply (AP j b2 Hj Lj NE). pose proof (chunk_pos c). lia. }
      cbn [note rs_error]. rewrite K1. cbn [Z.eqb owner Pos.eqb]. rewrite out_of_block by exact N. split; [exact Ox|].
      rewrite set_metaentry_spec by auto. rewrite inblk_out by exact N. reflexivity.
  - (* the host takes a chunk *)
    destruct PO as [(CS & M1 & M2) _]. pose proof S as S0. cbn [MemSvcModel.step] in S.
    destruct (on_box_cases m j (fun pm b => host_alloc c pm b size ras mp)) as [(b2 & Hj & Lj & E)|E]; rewrite E in S; [|injection S as <- <-; split; auto].
    clear E. unfold host_alloc in S. destruct (alloc_range (b_free b2) size) as [[a free']|] eqn:A; cbn [fst snd] in S; injection S as <- <-.
    2:{ split; [exact Ox|reflexivity]. }
    destruct (host_chunks_fresh_aligned_blocks c evs m t j size ras mp _ _ C P H CS M1 M2 S0 eq_refl) as (AL & _ & _ & _ & _ & FR & _).
    cbn [fst snd rs_ret rs_error g_pm note Z.eqb owner] in *.
    assert (N : ~ (a <= x < a + size)) by (intros X; rewrite (FR x X) in Ox; discriminate).
    rewrite out_of_block by exact N. split; [exact Ox|]. rewrite set_metaentry_spec.
    + rewrite inblk_out by exact N. reflexivity.
    + destruct CS as (n & Hn & Hs). rewrite Hs in AL. eapply Z.divide_trans; [|exact AL]. unfold chunk. exists (2 ^ (n - Z.of_nat (cbits c))).
      rewrite <- Z.pow_add_r by lia. f_equal. lia.
    + exact CS.
  - (* the host returns a chunk *)
    destruct PO as [(CS & M1 & M2) (M3 & OH)]. cbn [MemSvcModel.step] in S.
    destruct (on_box_cases m j (fun pm b => host_free c pm b a size)) as [(b2 & Hj & Lj & E)|E]; rewrite E in S; [|injection S as <- <-; split; auto].
    clear E. unfold host_free, backend_dealloc in S. cbn [fst snd] in S. injection S as <- <-. cbn [g_pm note rs_error Z.eqb owner].
    assert (N : ~ (a <= x < a + size)) by (intros X; rewrite (OH x X) in Ox; discriminate).
    rewrite out_of_block by exact N. split; [exact Ox|]. rewrite set_metaentry_spec by auto. rewrite inblk_out by exact N. reflexivity.
  - (* a Library is created *)
    cbn [MemSvcModel.step] in S. injection S as <- <-. split; [exact Ox|reflexivity].
  - (* another Library is destroyed *)
    assert (NE : j <> i) by congruence. cbn [MemSvcModel.step] in S.
    destruct (on_box_cases m j (fun pm b0 => (fst (library_destroy c pm b0), Sbx (b_shm b0) (b_bits b0) (b_free b0) false, Response 0 0))) as [(b2 & Hj & Lj & E)|E];
      rewrite E in S; [|injection S as <- <-; split; auto].
    clear E. cbn [fst snd] in S. injection S as <- <-. pose proof (AP j b2 Hj Lj NE) as N.
    cbn [note rs_error Z.eqb g_pm]. rewrite <- (L_book _ _ _ L), nth_error_map, Hj. cbn [option_map box_region r_start r_bits owner].
    split; [rewrite out_of_block by exact N; exact Ox|].
    rewrite library_destroy_pm by (auto; eapply L_ok; eauto). fold (region_size b2). rewrite inblk_out by exact N. reflexivity.
Qed.

(** ** The lock and the socket *)
Definition quiet (p : tpc) : Prop := p = Out \/ exists rq, p = Spin rq.
Definition others (t : nat) (s : st) : Prop := forall u, u <> t -> quiet (thr s u).
Definition answered (h : history) : list (request * response) := map (fun x => (snd (fst x), Response 0 (snd x))) (results h).

Inductive flow (i n0 : nat) (h : history) (s : st) : Prop :=
| F_free : lock s = None -> up s = [] -> down s = [] -> (forall t, quiet (thr s t)) -> served i n0 (tr s) = answered h -> flow i n0 h s
| F_locked t rq : lock s = Some t -> thr s t = Locked rq -> up s = [] -> down s = [] -> others t s ->
    served i n0 (tr s) = answered h -> flow i n0 h s
| F_up t rq : lock s = Some t -> thr s t = Waiting rq -> up s = [rq] -> down s = [] -> others t s ->
    served i n0 (tr s) = answered h -> flow i n0 h s
| F_down t rq rs : lock s = Some t -> thr s t = Waiting rq -> up s = [] -> down s = [rs] -> others t s ->
    served i n0 (tr s) = answered h ++ [(rq, rs)] -> flow i n0 h s
| F_end t rq rs : lock s = Some t -> thr s t = Waiting rq -> up s = [] -> down s = [] -> others t s ->
    dead s = true -> rs_error rs <> 0 -> served i n0 (tr s) = answered h ++ [(rq, rs)] -> flow i n0 h s.

Lemma set_same t p f : set_thr t p f t = p.
Proof. unfold set_thr. rewrite Nat.eqb_refl. auto. Qed.
Lemma set_other t p f u : u <> t -> set_thr t p f u = f u.
Proof. unfold set_thr. intros H. apply Nat.eqb_neq in H. rewrite H. auto. Qed.
Lemma results_snoc h o x : results (h ++ [(o, x)]) = results h ++ flat_map (fun y => match y with Returned t rq v => [(t, rq, v)] | GaveUp _ _ => [] end) x.
Proof. unfold results. rewrite flat_map_app. cbn. rewrite app_nil_r. auto. Qed.
Lemma answered_snoc h o x : answered (h ++ [(o, x)]) = answered h ++ flat_map (fun y => match y with Returned t rq v => [(rq, Response 0 v)] | GaveUp _ _ => [] end) x.
Proof. unfold answered. rewrite results_snoc, map_app. f_equal. induction x as [|[] x IH]; cbn; auto. f_equal. auto. Qed.
Lemma served_snoc i n0 t e : (n0 <= length t)%nat -> served i n0 (t ++ [e]) = served i n0 t ++ served i 0 [e].
Proof. intros H. unfold served. rewrite skipn_app. replace (n0 - length t)%nat with 0%nat by lia. rewrite flat_map_app. auto. Qed.
Lemma answered_quiet h o : answered (h ++ [(o, [])]) = answered h.
Proof. rewrite answered_snoc. cbn. apply app_nil_r. Qed.

Lemma quiet_not t s rq : quiet (thr s t) -> thr s t <> Locked rq /\ thr s t <> Waiting rq.
Proof. intros [E|(r & E)]; rewrite E; split; discriminate. Qed.

Lemma start_tr c evs : tr (start c evs) = snd (run c init_state evs).
Proof. unfold start. destruct (run c init_state evs). auto. Qed.
Lemma start_mem c evs : mem (start c evs) = fst (run c init_state evs).
Proof. unfold start. destruct (run c init_state evs). auto. Qed.

Definition n_start (c : cfg) (evs : list event) : nat := length (snd (run c init_state evs)).

Lemma flow_start c i evs : flow i (n_start c evs) [] (start c evs).
Proof.
  unfold n_start, start. destruct (run c init_state evs) as [m t]. apply F_free; auto; [left; auto|].
  unfold served. cbn. rewrite skipn_all. auto.
Qed.

Lemma served_other i ev rs : (forall rq, ev <> EvReq i rq) -> served i 0 [(ev, rs)] = [].
Proof.
  intros H. unfold served. cbn. destruct ev; auto. destruct (Nat.eqb_spec i0 i) as [->|]; auto. destruct (H rq); auto.
Qed.
Lemma served_own i rq rs : served i 0 [(EvReq i rq, rs)] = [(rq, rs)].
Proof. unfold served. cbn. rewrite Nat.eqb_refl. auto. Qed.

Lemma flow_step c i n0 h s o s' x : flow i n0 h s -> (n0 <= length (tr s))%nat -> enabled o s ->
  (forall ev, o = Env ev -> forall rq, ev <> EvReq i rq) -> (forall t, o <> ReadThrown t) -> step c i o s = (s', x) ->
  flow i n0 (h ++ [(o, x)]) s' /\ (n0 <= length (tr s'))%nat.
Proof.
  intros F L E NE NT S. destruct o as [t rq|t|t ok|t ok|t|t| |ev]; cbn [step enabled] in *.
  - (* Enter *)
    destruct E as [D E]. injection S as <- <-. split; [|exact L].
    destruct F as [A1 A2 A3 A4 A5|u q A1 A2 A3 A4 A5 A6|u q A1 A2 A3 A4 A5 A6|u q z A1 A2 A3 A4 A5 A6|u q z A1 A2 A3 A4 A5 A6 A7 A8];
      [|assert (u <> t) by congruence..].
    + apply F_free; cbn [lock up down thr tr]; auto; [|rewrite answered_quiet; auto].
      intros v. destruct (Nat.eq_dec v t) as [->|N]; [rewrite set_same; right; eauto|rewrite set_other; auto].
    + eapply (F_locked _ _ _ _ u q); cbn [lock up down thr tr]; auto; try (rewrite set_other; auto); try (rewrite answered_quiet; auto).
      intros v N. cbn [thr]. destruct (Nat.eq_dec v t) as [->|N']; [rewrite set_same; right; eauto|rewrite set_other; auto].
    + eapply (F_up _ _ _ _ u q); cbn [lock up down thr tr]; auto; try (rewrite set_other; auto); try (rewrite answered_quiet; auto).
      intros v N. cbn [thr]. destruct (Nat.eq_dec v t) as [->|N']; [rewrite set_same; right; eauto|rewrite set_other; auto].
    + eapply (F_down _ _ _ _ u q z); cbn [lock up down thr tr]; auto; try (rewrite set_other; auto); try (rewrite answered_quiet; auto).
      intros v N. cbn [thr]. destruct (Nat.eq_dec v t) as [->|N']; [rewrite set_same; right; eauto|rewrite set_other; auto].
    + congruence.
  - (* Lock *)
    destruct E as (D & LK & rq & E). rewrite E in S. injection S as <- <-. split; [|exact L].
    destruct F as [A1 A2 A3 A4 A5|u q A1 A2 A3 A4 A5 A6|u q A1 A2 A3 A4 A5 A6|u q z A1 A2 A3 A4 A5 A6|u q z A1 A2 A3 A4 A5 A6 A7 A8]; try congruence.
    apply (F_locked _ _ _ _ t rq); cbn [lock up down thr tr]; auto; [apply set_same| |rewrite answered_quiet; auto].
    intros v N. cbn [thr]. rewrite set_other; auto.
  - (* Write *)
    destruct E as (D & rq & E). rewrite E in S.
    destruct F as [A1 A2 A3 A4 A5|u q A1 A2 A3 A4 A5 A6|u q A1 A2 A3 A4 A5 A6|u q z A1 A2 A3 A4 A5 A6|u q z A1 A2 A3 A4 A5 A6 A7 A8].
    1:{ destruct (quiet_not t s rq (A4 t)); contradiction. }
    2,3,4: destruct (Nat.eq_dec t u) as [->|N]; [congruence|destruct (quiet_not t s rq (A5 t N)); contradiction].
    destruct (Nat.eq_dec t u) as [->|N]; [|destruct (quiet_not t s rq (A5 t N)); contradiction].
    rewrite A2 in E. injection E as ->. destruct ok; injection S as <- <-; (split; [|exact L]).
    + apply (F_up _ _ _ _ u rq); cbn [lock up down thr tr]; auto; [apply set_same|rewrite A3; auto| |rewrite answered_quiet; auto].
      intros v N. cbn [thr]. rewrite set_other; auto.
    + apply (F_locked _ _ _ _ u rq); cbn [lock up down thr tr]; auto. rewrite answered_quiet; auto.
  - (* Read *)
    destruct E as (D & (rq & E) & NB). rewrite E in S.
    destruct F as [A1 A2 A3 A4 A5|u q A1 A2 A3 A4 A5 A6|u q A1 A2 A3 A4 A5 A6|u q z A1 A2 A3 A4 A5 A6|u q z A1 A2 A3 A4 A5 A6 A7 A8].
    1:{ destruct (quiet_not t s rq (A4 t)); contradiction. }
    1,4: destruct (Nat.eq_dec t u) as [->|N]; [congruence|destruct (quiet_not t s rq (A5 t N)); contradiction].
    1,2: destruct (Nat.eq_dec t u) as [->|N]; [|destruct (quiet_not t s rq (A5 t N)); contradiction]; rewrite A2 in E; injection E as ->.
    + rewrite A4 in S. destruct ok; [destruct (NB eq_refl); auto|]. injection S as <- <-. split; [|exact L].
      apply (F_up _ _ _ _ u rq); cbn [lock up down thr tr]; auto. rewrite answered_quiet; auto.
    + rewrite A4 in S. destruct ok; [destruct (Z.eqb_spec (rs_error z) 0) as [Z|Z]|]; injection S as <- <-; (split; [|exact L]).
      * apply F_free; cbn [lock up down thr tr]; auto.
        -- intros v. destruct (Nat.eq_dec v u) as [->|N]; [rewrite set_same; left; auto|rewrite set_other; auto].
        -- rewrite answered_snoc, A6. cbn. do 3 f_equal. destruct z as [e v]. cbn in *. subst e. auto.
      * apply (F_end _ _ _ _ u rq z); cbn [lock up down thr tr dead]; auto. rewrite answered_quiet; auto.
      * apply (F_down _ _ _ _ u rq z); cbn [lock up down thr tr dead]; auto. rewrite answered_quiet; auto.
  - (* WriteThrown *)
    destruct E as (D & (rq & E) & _). rewrite E in S.
    destruct F as [A1 A2 A3 A4 A5|u q A1 A2 A3 A4 A5 A6|u q A1 A2 A3 A4 A5 A6|u q z A1 A2 A3 A4 A5 A6|u q z A1 A2 A3 A4 A5 A6 A7 A8].
    1:{ destruct (quiet_not t s rq (A4 t)); contradiction. }
    2,3,4: destruct (Nat.eq_dec t u) as [->|N]; [congruence|destruct (quiet_not t s rq (A5 t N)); contradiction].
    destruct (Nat.eq_dec t u) as [->|N]; [|destruct (quiet_not t s rq (A5 t N)); contradiction].
    injection S as <- <-. split; [|exact L]. apply F_free; cbn [lock up down thr tr]; auto.
    + intros v. destruct (Nat.eq_dec v u) as [->|N]; [rewrite set_same; left; auto|rewrite set_other; auto].
    + rewrite answered_snoc, A6. cbn. rewrite app_nil_r. auto.
  - (* ReadThrown *) destruct (NT t eq_refl).
  - (* Serve *)
    destruct F as [A1 A2 A3 A4 A5|u q A1 A2 A3 A4 A5 A6|u q A1 A2 A3 A4 A5 A6|u q z A1 A2 A3 A4 A5 A6|u q z A1 A2 A3 A4 A5 A6 A7 A8]; try congruence.
    rewrite A3 in S. destruct (MemSvcModel.step c (mem s) (EvReq i q)) as [m rs]. injection S as <- <-.
    split; [|cbn [tr]; rewrite app_length; lia].
    apply (F_down _ _ _ _ u q rs); cbn [lock up down thr tr dead]; auto; [rewrite A4; auto|].
    rewrite answered_quiet, served_snoc, served_own by exact L. congruence.
  - (* Env *)
    destruct (MemSvcModel.step c (mem s) ev) as [m rs]. injection S as <- <-.
    split; [|cbn [tr]; rewrite app_length; lia].
    assert (X : served i n0 (tr s ++ [(ev, rs)]) = served i n0 (tr s)).
    { rewrite served_snoc by exact L. rewrite served_other by (apply NE; auto). apply app_nil_r. }
    destruct F as [A1 A2 A3 A4 A5|u q A1 A2 A3 A4 A5 A6|u q A1 A2 A3 A4 A5 A6|u q z A1 A2 A3 A4 A5 A6|u q z A1 A2 A3 A4 A5 A6 A7 A8].
    + apply F_free; cbn [lock up down thr tr]; auto. rewrite answered_quiet. congruence.
    + apply (F_locked _ _ _ _ u q); cbn [lock up down thr tr]; auto. rewrite answered_quiet. congruence.
    + apply (F_up _ _ _ _ u q); cbn [lock up down thr tr]; auto. rewrite answered_quiet. congruence.
    + apply (F_down _ _ _ _ u q z); cbn [lock up down thr tr]; auto. rewrite answered_quiet. congruence.
    + apply (F_end _ _ _ _ u q z); cbn [lock up down thr tr dead]; auto. rewrite answered_quiet. congruence.
Qed.

Lemma possible_env c i h o s : possible c i h o s -> forall ev, o = Env ev -> forall rq, ev <> EvReq i rq.
Proof. intros [_ P] ev -> rq. apply P. Qed.

Lemma kept_snoc h o x : kept (h ++ [(o, x)]) -> kept h /\ forall t, o <> ReadThrown t.
Proof.
  intros K. split.
  - intros t y H. apply (K t y). apply in_or_app. auto.
  - intros t ->. apply (K t x). apply in_or_app. right. left. auto.
Qed.
Lemma kept_more h o x : kept h -> (forall t, o <> ReadThrown t) -> kept (h ++ [(o, x)]).
Proof.
  intros K N t y H. apply in_app_or in H as [H|[H|[]]]; [eapply K; eauto|]. injection H as -> ->. eapply N; eauto.
Qed.
Lemma flow_runs c i evs h s : runs c i evs h s -> kept h -> flow i (n_start c evs) h s /\ (n_start c evs <= length (tr s))%nat.
Proof.
  induction 1 as [|h s o s' x R IH P S]; intros K.
  - split; [apply flow_start|]. rewrite start_tr. auto.
  - apply kept_snoc in K as [K1 K2]. destruct (IH K1) as [IH1 IH2]. eapply flow_step; eauto; [apply P|eapply possible_env; eauto].
Qed.

(** ** Calls of one thread *)
Definition pend (p : tpc) : list request := match p with Out => [] | Spin rq | Locked rq | Waiting rq => [rq] end.
Lemma entered_snoc t h o x : entered t (h ++ [(o, x)]) = entered t h ++ match o with Enter u rq => if Nat.eqb u t then [rq] else [] | _ => [] end.
Proof. unfold entered. rewrite flat_map_app. cbn. rewrite app_nil_r. auto. Qed.
Lemma ended_snoc t h o x : ended t (h ++ [(o, x)]) = ended t h ++ flat_map (ended_call t) x.
Proof. unfold ended. rewrite flat_map_app. cbn. rewrite app_nil_r. auto. Qed.
Lemma calls_in_order c i evs h s t : runs c i evs h s -> entered t h = map fst (ended t h) ++ pend (thr s t).
Proof.
  induction 1 as [|h s o s' x R IH P S].
  - unfold start. destruct (run c init_state evs). reflexivity.
  - rewrite entered_snoc, ended_snoc, map_app, IH, <- !app_assoc. f_equal. destruct P as [E _].
    destruct o as [u rq|u|u ok|u ok|u|u| |ev]; cbn [step enabled] in *.
    + destruct E as [_ E]. injection S as <- <-. cbn. destruct (Nat.eqb_spec u t) as [->|N].
      * rewrite E, set_same. auto.
      * rewrite set_other by auto. apply app_nil_r.
    + destruct E as (_ & _ & rq & E). rewrite E in S. injection S as <- <-. cbn. rewrite app_nil_r.
      destruct (Nat.eq_dec t u) as [->|N]; [rewrite E, set_same; auto|rewrite set_other; auto].
    + destruct E as (_ & rq & E). rewrite E in S. rewrite app_nil_r. destruct ok; injection S as <- <-; cbn; auto.
      destruct (Nat.eq_dec t u) as [->|N]; [rewrite E, set_same; auto|rewrite set_other; auto].
    + destruct E as (_ & (rq & E) & _). rewrite E in S. rewrite app_nil_r. destruct (down s) as [|rs rest].
      * destruct ok; injection S as <- <-; auto.
      * destruct ok; [destruct (rs_error rs =? 0)|]; injection S as <- <-; auto. cbn. destruct (Nat.eqb_spec u t) as [->|N].
        -- rewrite E, set_same. auto.
        -- rewrite set_other; auto.
    + destruct E as (_ & (rq & E) & _). rewrite E in S. rewrite app_nil_r. injection S as <- <-. cbn. destruct (Nat.eqb_spec u t) as [->|N].
      * rewrite E, set_same. auto.
      * rewrite set_other; auto.
    + destruct E as (_ & (rq & E) & _). rewrite E in S. rewrite app_nil_r. injection S as <- <-. cbn. destruct (Nat.eqb_spec u t) as [->|N].
      * rewrite E, set_same. auto.
      * rewrite set_other; auto.
    + rewrite app_nil_r. destruct (up s); [injection S as <- <-; auto|].
      destruct (MemSvcModel.step c (mem s) (EvReq i r)). injection S as <- <-. auto.
    + rewrite app_nil_r. destruct (MemSvcModel.step c (mem s) ev). injection S as <- <-. auto.
Qed.

(** ** The blocks *)
Definition good_block (c : cfg) (r : region) (bk : book) (g : grant) : Prop :=
  chunk_size c (g_size g) /\ (g_size g | g_at g) /\ r_start r + chunk c <= g_at g /\ g_at g + g_size g <= r_end r /\
  forall x, g_at g <= x < g_at g + g_size g -> owner bk x = Sandbox.
Definition entries (c : cfg) (m : gstate) (g : grant) : Prop :=
  forall x, g_at g <= x < g_at g + g_size g ->
    e_ras (g_pm m (x / chunk c)) = g_ras g /\
    get_slab_metadata (g_pm m (x / chunk c)) = get_slab_metadata (Entry (g_meta g) (g_ras g)).
Definition alloc_ok (c : cfg) (r : region) (rq : request) : Prop :=
  exists size ms ras, rq = req_alloc size ms ras /\ request_words rq /\ chunk_size c size /\ metadata_ok c r size ras.
Definition arriving (s : st) (t : nat) (g : grant) : Prop :=
  exists rq rs, thr s t = Waiting rq /\ down s = [rs] /\ rs_error rs = 0 /\ rq_kind rq = 0 /\
    g = Grant (rs_ret rs) (rq_0 rq) (rq_1 rq) (rq_2 rq).
Definition leaving (s : st) (t : nat) (g : grant) : Prop :=
  let rq := req_free (g_at g) (g_size g) in
  thr s t = Spin rq \/ thr s t = Locked rq \/ (thr s t = Waiting rq /\ up s <> []).

Inductive key := KH (g : grant) | KT (t : nat).
Definition has (h : history) (s : st) (k : key) (g : grant) : Prop :=
  match k with
  | KH g' => g = g' /\ In g (held h)
  | KT t => arriving s t g \/ leaving s t g
  end.

Record blocks (c : cfg) (i : nat) (r : region) (h : history) (s : st) : Prop := {
  B_past : past c s;
  B_reg : nth_error (regions (books (tr s))) i = Some r;
  B_live : r_live r = true;
  B_ask : forall t rq, In rq (pend (thr s t)) -> alloc_ok c r rq \/ exists a n, rq = req_free a n;
  B_good : forall k g, has h s k g -> good_block c r (books (tr s)) g;
  B_sep : forall k g k' g', has h s k g -> has h s k' g' -> k <> k' -> separate g g';
  B_held : forall g, In g (held h) -> entries c (mem s) g;
  B_arr : forall t g, arriving s t g -> entries c (mem s) g;
  B_nodup : NoDup (held h) }.

Lemma held_snoc h o x : held (h ++ [(o, x)]) = hold (held h) (o, x).
Proof. unfold held. apply fold_left_app. Qed.
Lemma held_quiet h o : (forall t rq, o = Enter t rq -> rq_kind rq <> 1) -> held (h ++ [(o, [])]) = held h.
Proof.
  intros H. rewrite held_snoc. unfold hold. cbn [fst snd fold_left]. destruct o; auto.
  destruct (Z.eqb_spec (rq_kind rq) 1); auto. destruct (H t rq); auto.
Qed.
Lemma chunk_size_pos c n : chunk_size c n -> 0 < n.
Proof. intros (k & H & ->). apply Z.pow_pos_nonneg; lia. Qed.
Lemma good_separate c r bk g g' : good_block c r bk g -> chunk_size c (g_size g') ->
  (forall x, g_at g' <= x < g_at g' + g_size g' -> owner bk x = Nobody) -> separate g g'.
Proof.
  intros (C1 & _ & _ & _ & O1) C2 O2. apply chunk_size_pos in C1, C2. unfold separate.
  destruct (Z_le_gt_dec (g_at g + g_size g) (g_at g')) as [A|A]; [auto|].
  destruct (Z_le_gt_dec (g_at g' + g_size g') (g_at g)) as [B|B]; [auto|]. exfalso.
  specialize (O1 (Z.max (g_at g) (g_at g')) ltac:(lia)). rewrite O2 in O1 by lia. discriminate.
Qed.
Lemma sep_sym g g' : separate g g' -> separate g' g. Proof. unfold separate. tauto. Qed.
Lemma not_self c r bk g g' : good_block c r bk g -> g_at g' = g_at g -> g_size g' = g_size g -> ~ separate g g'.
Proof. intros (C & _) E1 E2. apply chunk_size_pos in C. unfold separate. rewrite E1, E2. lia. Qed.
Lemma in_drop a n l g : In g (drop a n l) <-> In g l /\ ~ (g_at g = a /\ g_size g = n).
Proof.
  unfold drop. rewrite filter_In. destruct (Z.eqb_spec (g_at g) a), (Z.eqb_spec (g_size g) n); cbn; intuition congruence.
Qed.

(** Regions of the books stay put. *)
Lemma region_stays bk ev rs i r : nth_error (regions bk) i = Some r -> ev <> EvDestroy i ->
  nth_error (regions (note bk (ev, rs))) i = Some r.
Proof.
  intros H N. unfold note. destruct (rs_error rs =? 0); auto. destruct ev; cbn; auto.
  - destruct (rq_kind rq =? 0); auto. destruct (rq_kind rq =? 1); auto.
  - rewrite nth_error_app1; auto. apply nth_error_Some. congruence.
  - destruct (nth_error (regions bk) i0) eqn:E; auto. cbn [regions]. rewrite upd_other; auto; congruence.
Qed.

Lemma past_step c s ev m rs : past c s -> polite_ok c (books (tr s)) ev -> MemSvcModel.step c (mem s) ev = (m, rs) ->
  forall s', mem s' = m -> tr s' = tr s ++ [(ev, rs)] -> past c s'.
Proof.
  intros (evs & P & R) PO S s' E1 E2. exists (evs ++ [ev]). split.
  - eapply adm_snoc; eauto.
  - rewrite E1, E2. eapply mrun_snoc; eauto.
Qed.

(** An event that touches none of our blocks. *)
Lemma blocks_untouched c i r h s ev m rs g : cfg_ok c -> blocks c i r h s -> polite_ok c (books (tr s)) ev ->
  MemSvcModel.step c (mem s) ev = (m, rs) -> ev <> EvDestroy i ->
  (forall rq, ev = EvReq i rq -> rq_kind rq = 1 -> forall x, g_at g <= x < g_at g + g_size g -> ~ (rq_0 rq <= x < rq_0 rq + rq_1 rq)) ->
  good_block c r (books (tr s)) g ->
  good_block c r (books (tr s ++ [(ev, rs)])) g /\ (entries c (mem s) g -> entries c m g).
Proof.
  intros C B PO S ND NF (G1 & G2 & G3 & G4 & G5). destruct (B_past _ _ _ _ _ B) as (evs & P & R).
  assert (K : forall x, g_at g <= x < g_at g + g_size g ->
    owner (note (books (tr s)) (ev, rs)) x = Sandbox /\ g_pm m (x / chunk c) = g_pm (mem s) (x / chunk c)).
  { intros x X. eapply keep; eauto; [eapply B_reg; eauto|eapply B_live; eauto|]. pose proof (chunk_pos c). lia. }
  split.
  - rewrite books_snoc. do 4 (split; [assumption|]). intros x X. apply K. exact X.
  - intros E x X. destruct (K x X) as [_ ->]. apply E. exact X.
Qed.

Lemma req_free_words c r bk g : good_block c r bk g -> r_end r < W -> 0 <= r_start r -> request_words (req_free (g_at g) (g_size g)).
Proof.
  intros (C & _ & A & B & _) H H0. apply chunk_size_pos in C. pose proof (chunk_pos c). unfold request_words, req_free, is_word; cbn. 
  unfold W in *. lia.
Qed.

Lemma region_bounds c s i r : cfg_ok c -> past c s -> nth_error (regions (books (tr s))) i = Some r -> r_live r = true ->
  0 < r_start r /\ r_end r < W /\ exists b, nth_error (g_box (mem s)) i = Some b /\ b_live b = true /\ r = box_region b /\
    region_ok c (b_shm b) (b_bits b).
Proof.
  intros C (evs & P & R) H L. pose proof (polite_inv c evs _ _ C P R) as I. pose proof (I_layout _ _ _ I) as LY.
  destruct (book_box _ _ _ _ _ LY H) as (b & Hb & ->). cbn [box_region r_live] in L.
  pose proof (L_ok _ _ _ LY i b Hb L) as RO. pose proof RO as (R1 & R2 & R3 & R4 & R5).
  cbn [box_region r_start]. unfold r_end. cbn [box_region r_start r_bits]. split; [lia|]. split; [lia|]. eauto.
Qed.

(** The host grants what it is asked for, or has nothing left. *)
Lemma alloc_reply c s i r rq m rs : cfg_ok c -> past c s -> nth_error (regions (books (tr s))) i = Some r -> r_live r = true ->
  alloc_ok c r rq -> MemSvcModel.step c (mem s) (EvReq i rq) = (m, rs) -> rs_error rs = 0 \/ (rq_kind rq = 0 /\ rs = Response 2 0).
Proof.
  intros C P H L (size & ms & ras & -> & WR & CS & MO) S. destruct (region_bounds c s i r C P H L) as (_ & _ & b & Hb & Lb & -> & RO).
  cbn [MemSvcModel.step] in S. unfold on_box in S. rewrite Hb, Lb in S.
  destruct (service c (g_pm (mem s)) b (req_alloc size ms ras)) as [[pm' b'] rs'] eqn:SV. injection S as <- <-.
  destruct (memsvc_alloc_replies c _ _ _ _ _ _ C RO WR eq_refl SV) as (V3 & V1 & V2 & V0). cbn [rq_0 rq_2 req_alloc] in *.
  destruct (alloc_range (b_free b) size) eqn:A; [left; apply V0; split; auto; split; auto; discriminate|]. right. split; auto.
  assert (X : rs_error rs' = 2) by (apply V2; auto).
  assert (X' : rs_error rs' <> 0) by (rewrite X; discriminate).
  destruct (memsvc_failure_changes_nothing c _ _ _ _ _ _ SV (or_introl X')) as (_ & _ & Y).
  destruct rs' as [e v]. cbn in *. congruence.
Qed.
Lemma free_reply c s i r g m rs : cfg_ok c -> past c s -> nth_error (regions (books (tr s))) i = Some r -> r_live r = true ->
  good_block c r (books (tr s)) g -> MemSvcModel.step c (mem s) (EvReq i (req_free (g_at g) (g_size g))) = (m, rs) -> rs_error rs = 0.
Proof.
  intros C P H L G S. destruct (region_bounds c s i r C P H L) as (B1 & B2 & b & Hb & Lb & -> & RO).
  pose proof (req_free_words c _ _ g G B2 ltac:(lia)) as WR. destruct G as (G1 & G2 & G3 & G4 & G5).
  cbn [MemSvcModel.step] in S. unfold on_box in S. rewrite Hb, Lb in S.
  destruct (service c (g_pm (mem s)) b (req_free (g_at g) (g_size g))) as [[pm' b'] rs'] eqn:SV. injection S as <- <-.
  destruct (memsvc_dealloc_replies c _ _ _ _ _ _ C RO WR eq_refl SV) as (_ & _ & _ & _ & V0). cbn [rq_0 rq_1 req_free] in *.
  apply V0. unfold r_end in *. cbn [box_region r_start r_bits] in *. unfold region_size. pose proof (chunk_size_pos _ _ G1).
  destruct C as (C1 & C2 & C3 & C4). repeat split; auto; try lia.
  - destruct G1 as (n & Hn & Hs). rewrite Hs in G2. eapply Z.divide_trans; [|exact G2]. unfold chunk. exists (2 ^ (n - Z.of_nat (cbits c))).
    rewrite <- Z.pow_add_r by lia. f_equal. lia.
  - intros x X. destruct P as (evs & P & R). apply (memsvc_mark_is_ownership c evs (mem s) (tr s) x (conj C1 (conj C2 (conj C3 C4))) P R). auto.
Qed.

Lemma has_same h s s' : thr s' = thr s -> up s' = up s -> down s' = down s -> forall k g, has h s' k g <-> has h s k g.
Proof. intros E1 E2 E3 [g'|t] g; cbn; [tauto|]. unfold arriving, leaving. rewrite E1, E2, E3. tauto. Qed.

Definition alike (g g' : grant) : Prop := g_at g = g_at g' /\ g_size g = g_size g'.
Lemma good_alike c r bk g g' : alike g g' -> good_block c r bk g' -> good_block c r bk g.
Proof. unfold alike, good_block. intros [-> ->]. auto. Qed.
Lemma separate_alike g g' k k' : alike g g' -> alike k k' -> separate g' k' -> separate g k.
Proof. unfold alike, separate. intros [-> ->] [-> ->]. auto. Qed.
Lemma alike_refl g : alike g g. Proof. split; auto. Qed.

(** Only the threads and the lists change: what is had afterwards was had before. *)
Lemma blocks_local c i r h h' s s' (f : key -> key) : blocks c i r h s -> mem s' = mem s -> tr s' = tr s ->
  (forall t rq, In rq (pend (thr s' t)) -> alloc_ok c r rq \/ exists a n, rq = req_free a n) ->
  NoDup (held h') ->
  (forall k g, has h' s' k g -> exists g', alike g g' /\ has h s (f k) g') ->
  (forall k g k' g', has h' s' k g -> has h' s' k' g' -> f k = f k' -> k = k') ->
  (forall g, In g (held h') -> In g (held h) \/ exists t, arriving s t g) ->
  (forall t g, arriving s' t g -> arriving s t g) ->
  blocks c i r h' s'.
Proof.
  intros B E1 E2 A ND F1 F2 HH AR. constructor.
  - destruct (B_past _ _ _ _ _ B) as (evs & P & R). exists evs. rewrite E1, E2. auto.
  - rewrite E2. eapply B_reg; eauto.
  - eapply B_live; eauto.
  - exact A.
  - intros k g H. rewrite E2. destruct (F1 k g H) as (g' & K & H'). eapply good_alike; eauto. eapply B_good; eauto.
  - intros k g k' g' H H' N. destruct (F1 k g H) as (g1 & K & H1). destruct (F1 k' g' H') as (g2 & K' & H2).
    eapply separate_alike; eauto. eapply (B_sep _ _ _ _ _ B); eauto.
  - intros g H. rewrite E1. destruct (HH g H) as [H'|(t & H')]; [eapply B_held; eauto|eapply B_arr; eauto].
  - intros t g H. rewrite E1. eapply B_arr; eauto.
  - exact ND.
Qed.
Lemma blocks_same c i r h h' s s' : blocks c i r h s -> mem s' = mem s -> tr s' = tr s ->
  (forall t rq, In rq (pend (thr s' t)) -> alloc_ok c r rq \/ exists a n, rq = req_free a n) ->
  held h' = held h -> (forall t g, arriving s' t g -> arriving s t g) -> (forall t g, leaving s' t g -> leaving s t g) ->
  blocks c i r h' s'.
Proof.
  intros B E1 E2 A HH AR LV. eapply (blocks_local _ _ _ _ _ _ _ (fun k => k)); eauto; try (rewrite HH; auto).
  - eapply B_nodup; eauto.
  - intros k g H. exists g. split; [apply alike_refl|]. destruct k as [g'|t]; cbn in *.
    + rewrite HH in H. auto.
    + destruct H as [H|H]; auto.
Qed.
Lemma free_inj a n a' n' : req_free a n = req_free a' n' -> a = a' /\ n = n'.
Proof. unfold req_free. intros H. injection H as -> ->. auto. Qed.
Lemma grant_eta g : Grant (g_at g) (g_size g) (g_meta g) (g_ras g) = g. Proof. destruct g; auto. Qed.

(** ** Every step keeps the blocks apart *)
Lemma pend_set t p f u rq : In rq (pend (set_thr t p f u)) -> (u = t /\ In rq (pend p)) \/ (u <> t /\ In rq (pend (f u))).
Proof. destruct (Nat.eq_dec u t) as [->|N]; [rewrite set_same|rewrite set_other by auto]; auto. Qed.

(** In a state where nobody holds the lock or is past it, nothing arrives. *)
Lemma arriving_waits s t g : arriving s t g -> exists rq, thr s t = Waiting rq.
Proof. intros (rq & rs & H & _). eauto. Qed.

Lemma blocks_enter c i r h s t rq : blocks c i r h s -> thr s t = Out -> sensible c i (books (tr s)) (held h) rq ->
  blocks c i r (h ++ [(Enter t rq, [])]) (St (lock s) (set_thr t (Spin rq) (thr s)) (up s) (down s) (dead s) (tr s) (mem s)).
Proof.
  intros B O [(size & ms & ras & r' & -> & WR & CS & HR & MO)|(g0 & I0 & ->)].
  - assert (r' = r) by (rewrite (B_reg _ _ _ _ _ B) in HR; congruence). subst r'.
    eapply blocks_same; eauto; cbn [thr mem tr up down].
    + intros u q H. apply pend_set in H as [[-> [<-|[]]]|[N H]]; [left; exists size, ms, ras; auto|eapply B_ask; eauto].
    + apply held_quiet. intros u q E. injection E as <- <-. discriminate.
    + intros u g (q & rs & H & H'). cbn [thr down] in *. destruct (Nat.eq_dec u t) as [->|N]; [rewrite set_same in H; discriminate|].
      rewrite set_other in H by auto. exists q, rs. auto.
    + intros u g H. unfold leaving in *. cbn [thr up] in *. destruct (Nat.eq_dec u t) as [->|N]; [|rewrite set_other in H by auto; auto].
      rewrite set_same in H. destruct H as [H|[H|[H _]]]; discriminate.
  - set (s' := St _ _ _ _ _ _ _). set (h' := h ++ _).
    assert (HD : held h' = drop (g_at g0) (g_size g0) (held h)) by (unfold h'; rewrite held_snoc; reflexivity).
    assert (HK : forall k g, has h' s' k g ->
        (k <> KT t /\ has h s k g /\ k <> KH g0) \/ (k = KT t /\ alike g g0)).
    { intros [g'|u] g; cbn [has].
      - intros [-> H]. left. rewrite HD in H. apply in_drop in H as [H H2]. split; [discriminate|]. split; auto. intros E. injection E as ->. tauto.
      - destruct (Nat.eq_dec u t) as [->|N].
        + intros H. right. split; auto. destruct H as [(q & rs & H & _)|H].
          * cbn in H. rewrite set_same in H. discriminate.
          * unfold leaving in H. cbn in H. rewrite set_same in H. destruct H as [H|[H|[H _]]]; try discriminate.
            injection H as H1 H2. split; auto.
        + intros H. left. split; [congruence|]. split; [|discriminate]. destruct H as [(q & rs & H & H')|H].
          * left. cbn in H, H'. rewrite set_other in H by auto. exists q, rs. auto.
          * right. unfold leaving in *. cbn in H. rewrite set_other in H by auto. auto. }
    set (f := fun k : key => match k with KT u => if Nat.eqb u t then KH g0 else k | _ => k end).
    assert (FT : f (KT t) = KH g0) by (cbn; rewrite Nat.eqb_refl; auto).
    assert (FO : forall k, k <> KT t -> f k = k) by (intros [|u] N; cbn; auto; destruct (Nat.eqb_spec u t) as [->|]; congruence).
    eapply (blocks_local _ _ _ h _ s _ f); eauto.
    + cbn [thr s']. intros u q H. apply pend_set in H as [[-> [<-|[]]]|[N H]]; [right; eauto|eapply B_ask; eauto].
    + rewrite HD. apply NoDup_filter. eapply B_nodup; eauto.
    + intros k g H. destruct (HK k g H) as [(N & H1 & _)|(-> & AL)].
      * exists g. rewrite FO by auto. split; auto. apply alike_refl.
      * exists g0. rewrite FT. cbn. auto.
    + intros k g k' g' H H' E. destruct (HK k g H) as [(N & H1 & N1)|(-> & AL)], (HK k' g' H') as [(N' & H1' & N1')|(-> & AL')]; auto;
        rewrite ?FT, ?FO in E by auto; congruence.
    + intros g H. rewrite HD in H. apply in_drop in H. tauto.
    + intros u g (q & rs & H & H'). cbn [thr down s'] in *. destruct (Nat.eq_dec u t) as [->|N]; [rewrite set_same in H; discriminate|].
      rewrite set_other in H by auto. exists q, rs. auto.
Qed.

Lemma blocks_step c i evs r h s o s' x : cfg_ok c -> blocks c i r h s -> flow i (n_start c evs) h s -> possible c i h o s -> (forall t, o <> ReadThrown t) ->
  step c i o s = (s', x) -> blocks c i r (h ++ [(o, x)]) s'.
Proof.
  intros C B F [E P] NRT S. destruct o as [t rq|t|t ok|t ok|t|t| |ev]; cbn [step enabled] in *.
  - (* Enter *)
    destruct E as [D E]. injection S as <- <-. apply blocks_enter; auto.
  - (* Lock *)
    destruct E as (D & LK & rq & E). rewrite E in S. injection S as <- <-.
    eapply blocks_same; eauto; cbn [thr mem tr up down].
    + intros u q H. apply pend_set in H as [[-> H]|[N H]]; [|eapply B_ask; eauto]. apply (B_ask _ _ _ _ _ B t). rewrite E. exact H.
    + apply held_quiet. discriminate.
    + intros u g (q & rs & H & H'). cbn [thr down] in *. destruct (Nat.eq_dec u t) as [->|N]; [rewrite set_same in H; discriminate|].
      rewrite set_other in H by auto. exists q, rs. auto.
    + intros u g H. unfold leaving in *. cbn [thr up] in *. destruct (Nat.eq_dec u t) as [->|N]; [|rewrite set_other in H by auto; auto].
      rewrite set_same in H. destruct H as [H|[H|[H _]]]; try discriminate. injection H as ->. auto.
  - (* Write *)
    destruct E as (D & rq & E). rewrite E in S. destruct ok; injection S as <- <-.
    2:{ eapply blocks_same; eauto; cbn [thr]; [intros u q; apply (B_ask _ _ _ _ _ B)|apply held_quiet; discriminate]. }
    destruct F as [A1 A2 A3 A4 A5|u q A1 A2 A3 A4 A5 A6|u q A1 A2 A3 A4 A5 A6|u q z A1 A2 A3 A4 A5 A6|u q z A1 A2 A3 A4 A5 A6 A7 A8].
    1:{ destruct (quiet_not t s rq (A4 t)); contradiction. }
    2,3,4: destruct (Nat.eq_dec t u) as [->|N]; [congruence|destruct (quiet_not t s rq (A5 t N)); contradiction].
    destruct (Nat.eq_dec t u) as [->|N]; [|destruct (quiet_not t s rq (A5 t N)); contradiction].
    eapply blocks_same; eauto; cbn [thr mem tr up down].
    + intros v w H. apply pend_set in H as [[-> H]|[N H]]; [|eapply B_ask; eauto]. apply (B_ask _ _ _ _ _ B u). rewrite E. exact H.
    + apply held_quiet. discriminate.
    + intros v g (w & rs & H & H' & _). cbn [down] in *. congruence.
    + intros v g H. unfold leaving in *. cbn [thr up] in *. destruct (Nat.eq_dec v u) as [->|N].
      * rewrite set_same in H. destruct H as [H|[H|[H _]]]; try discriminate. injection H as ->. auto.
      * rewrite set_other in H by auto. destruct (A5 v N) as [H'|(w & H')]; rewrite H' in *; destruct H as [H|[H|[H _]]]; try discriminate. auto.
  - (* Read *)
    destruct E as (D & (rq & E) & NB). rewrite E in S.
    assert (SAME : forall s2 o2, thr s2 = thr s -> up s2 = up s -> mem s2 = mem s -> tr s2 = tr s -> (down s2 = down s \/ down s2 = []) ->
      (forall u q, o2 <> Enter u q) -> blocks c i r (h ++ [(o2, [])]) s2).
    { intros s2 o2 T1 T2 T3 T4 T5 NEN. eapply blocks_same; eauto.
      - intros u q. rewrite T1. apply (B_ask _ _ _ _ _ B).
      - apply held_quiet. intros u q ->. destruct (NEN u q); auto.
      - intros u g (q & z & H & H' & H2). rewrite T1 in H. destruct T5 as [T5|T5]; rewrite T5 in H'; [|discriminate]. exists q, z. auto.
      - intros u g H. unfold leaving in *. rewrite T1, T2 in H. auto. }
    destruct (down s) as [|z rest] eqn:DN.
    { destruct ok; injection S as <- <-; apply SAME; auto; discriminate. }
    destruct F as [A1 A2 A3 A4 A5|u q A1 A2 A3 A4 A5 A6|u q A1 A2 A3 A4 A5 A6|u q w A1 A2 A3 A4 A5 A6|u q w A1 A2 A3 A4 A5 A6 A7 A8]; try congruence.
    destruct (Nat.eq_dec t u) as [->|N]; [|destruct (quiet_not t s rq (A5 t N)); contradiction].
    rewrite A2 in E. injection E as ->. rewrite DN in A4. injection A4 as -> ->.
    destruct ok; [destruct (Z.eqb_spec (rs_error w) 0) as [Z|Z]|]; injection S as <- <-; try (apply SAME; auto; discriminate).
    set (s' := St _ _ _ _ _ _ _). set (h' := h ++ _).
    set (gn := Grant (rs_ret w) (rq_0 rq) (rq_1 rq) (rq_2 rq)).
    assert (HD : held h' = if rq_kind rq =? 0 then gn :: held h else held h).
    { unfold h'. rewrite held_snoc. cbn. destruct (rq_kind rq =? 0); auto. }
    assert (NT : forall v g, ~ arriving s' v g) by (intros v g (q1 & z1 & _ & H & _); discriminate).
    assert (LV : forall v g, leaving s' v g -> v <> u /\ leaving s v g).
    { intros v g H. unfold leaving in *. cbn [thr up s'] in *. destruct (Nat.eq_dec v u) as [->|N].
      - rewrite set_same in H. destruct H as [H|[H|[H _]]]; discriminate.
      - rewrite set_other in H by auto. auto. }
    assert (AS : forall v q1, In q1 (pend (thr s' v)) -> alloc_ok c r q1 \/ exists a n, q1 = req_free a n).
    { cbn [thr s']. intros v q1 H. apply pend_set in H as [[-> H]|[N H]]; [destruct H|eapply B_ask; eauto]. }
    destruct (Z.eqb_spec (rq_kind rq) 0) as [K|K].
    + assert (AR : arriving s u gn) by (exists rq, w; auto).
      assert (NI : ~ In gn (held h)).
      { intros I. apply (not_self c r (books (tr s)) gn gn); auto; [eapply (B_good _ _ _ _ _ B (KT u)); left; exact AR|].
        apply (B_sep _ _ _ _ _ B (KH gn) gn (KT u) gn); cbn; auto. discriminate. }
      set (f := fun k => match k with KH g => if (g_at g =? g_at gn) && (g_size g =? g_size gn) then KT u else k | _ => k end).
      assert (UQ : forall g, In g (held h) -> alike g gn -> False).
      { intros g I AL. apply (not_self c r (books (tr s)) gn g); [eapply (B_good _ _ _ _ _ B (KT u)); left; exact AR|apply AL|apply AL|].
        apply (B_sep _ _ _ _ _ B (KT u) gn (KH g) g); cbn; auto. discriminate. }
      assert (FH : forall g, In g (held h) -> f (KH g) = KH g).
      { intros g I. cbn [f]. destruct (Z.eqb_spec (g_at g) (g_at gn)), (Z.eqb_spec (g_size g) (g_size gn)); auto. exfalso. eapply UQ; eauto. split; auto. }
      assert (FN : f (KH gn) = KT u) by (cbn [f]; rewrite !Z.eqb_refl; auto).
      assert (HK : forall k g, has h' s' k g -> (k = KH gn /\ g = gn) \/ (exists g', k = KH g' /\ g = g' /\ In g (held h)) \/ (exists v, k = KT v /\ v <> u /\ leaving s v g)).
      { intros [g'|v] g; cbn [has]; rewrite ?HD.
        - intros [-> [<-|H]]; [auto|]. right; left. eauto.
        - intros [H|H]; [destruct (NT _ _ H)|]. apply LV in H. right; right. exists v. tauto. }
      eapply (blocks_local _ _ _ h _ s _ f); eauto.
      * rewrite HD. constructor; auto. eapply B_nodup; eauto.
      * intros k g H. exists g. split; [apply alike_refl|]. destruct (HK k g H) as [(-> & ->)|[(g' & -> & -> & I)|(v & -> & N & L)]].
        -- rewrite FN. left. exact AR.
        -- rewrite FH by auto. cbn. auto.
        -- cbn. auto.
      * intros k g k' g' H H' EQ. destruct (HK k g H) as [(-> & ->)|[(g1 & -> & -> & I)|(v & -> & N & L)]], (HK k' g' H') as [(-> & ->)|[(g2 & -> & -> & I')|(v' & -> & N' & L')]];
          rewrite ?FN, ?FH in EQ by auto; cbn [f] in EQ; try congruence; auto.
      * intros g H. rewrite HD in H. destruct H as [<-|H]; eauto.
      * intros v g H. destruct (NT _ _ H).
    + eapply blocks_same; eauto; [intros v g H; destruct (NT _ _ H)|intros v g H; apply LV; auto].
  - (* WriteThrown *)
    destruct E as (D & (rq & E) & _). rewrite E in S.
    destruct F as [A1 A2 A3 A4 A5|u q A1 A2 A3 A4 A5 A6|u q A1 A2 A3 A4 A5 A6|u q z A1 A2 A3 A4 A5 A6|u q z A1 A2 A3 A4 A5 A6 A7 A8].
    1:{ destruct (quiet_not t s rq (A4 t)); contradiction. }
    2,3,4: destruct (Nat.eq_dec t u) as [->|N]; [congruence|destruct (quiet_not t s rq (A5 t N)); contradiction].
    destruct (Nat.eq_dec t u) as [->|N]; [|destruct (quiet_not t s rq (A5 t N)); contradiction].
    injection S as <- <-. eapply blocks_same; eauto; cbn [thr mem tr up down].
    + intros v w H. apply pend_set in H as [[-> H]|[N H]]; [destruct H|eapply B_ask; eauto].
    + rewrite held_snoc. reflexivity.
    + intros v g (w & rs & H & H' & _). cbn [down] in *. congruence.
    + intros v g H. unfold leaving in *. cbn [thr up] in *. destruct (Nat.eq_dec v u) as [->|N].
      * rewrite set_same in H. destruct H as [H|[H|[H _]]]; discriminate.
      * rewrite set_other in H by auto. exact H.
  - (* ReadThrown *) destruct (NRT t eq_refl).
  - (* Serve *)
    destruct F as [A1 A2 A3 A4 A5|u q A1 A2 A3 A4 A5 A6|u q A1 A2 A3 A4 A5 A6|u q z A1 A2 A3 A4 A5 A6|u q z A1 A2 A3 A4 A5 A6 A7 A8]; try congruence.
    rewrite A3 in S. destruct (MemSvcModel.step c (mem s) (EvReq i q)) as [m rs] eqn:SV. injection S as <- <-. rewrite A4. cbn [app].
    pose proof (B_past _ _ _ _ _ B) as PA. pose proof (B_reg _ _ _ _ _ B) as RG. pose proof (B_live _ _ _ _ _ B) as RL.
    destruct (region_bounds c s i r C PA RG RL) as (RB1 & RB2 & _).
    set (s' := St _ _ _ _ _ _ _). set (h' := h ++ _).
    assert (HD : held h' = held h) by (apply held_quiet; discriminate).
    assert (QA : alloc_ok c r q \/ exists g, q = req_free (g_at g) (g_size g) /\ leaving s u g).
    { destruct (B_ask _ _ _ _ _ B u q) as [QA|(a & n & QA)]; [rewrite A2; left; auto|auto|]. right. exists (Grant a n 0 0). split; auto.
      right; right. cbn [g_at g_size]. rewrite <- QA, A3. split; [auto|discriminate]. }
    assert (PO : polite_ok c (books (tr s)) (EvReq i q)).
    { destruct QA as [(size & ms & ras & -> & WR & CS & MO)|(g & -> & LV)].
      - split; [exact WR|discriminate].
      - pose proof (B_good _ _ _ _ _ B (KT u) g (or_intror LV)) as G. split; [eapply req_free_words; eauto; lia|]. intros _. apply G. }
    assert (LV : forall v g, leaving s' v g -> v <> u /\ leaving s v g).
    { intros v g H. unfold leaving in *. cbn [thr up s'] in *. destruct (Nat.eq_dec v u) as [->|N].
      - rewrite A2 in H. destruct H as [H|[H|[H N]]]; try discriminate. congruence.
      - split; auto. destruct H as [H|[H|[H N']]]; auto. }
    assert (AR : forall v g, arriving s' v g -> v = u /\ rs_error rs = 0 /\ rq_kind q = 0 /\ g = Grant (rs_ret rs) (rq_0 q) (rq_1 q) (rq_2 q)).
    { intros v g (q1 & z1 & H1 & H2 & H3 & H4 & H5). cbn [thr down s'] in *. injection H2 as <-.
      destruct (Nat.eq_dec v u) as [->|N]; [|destruct (quiet_not v s q1 (A5 v N)); contradiction].
      rewrite A2 in H1. injection H1 as <-. auto. }
    assert (OLD : forall k g, has h' s' k g -> (k <> KT u /\ has h s k g) \/ (k = KT u /\ rs_error rs = 0 /\ rq_kind q = 0 /\ g = Grant (rs_ret rs) (rq_0 q) (rq_1 q) (rq_2 q))).
    { intros [g'|v] g; cbn [has]; rewrite ?HD.
      - intros H. left. split; [discriminate|exact H].
      - intros [H|H]; [apply AR in H as (-> & H); auto|apply LV in H as [N H]]. left. split; [congruence|right; exact H]. }
    assert (UN : forall k g, k <> KT u -> has h s k g -> good_block c r (books (tr s')) g /\ (entries c (mem s) g -> entries c m g)).
    { intros k g N H. eapply blocks_untouched; eauto; [discriminate| |eapply B_good; eauto].
      intros rq EQ K1 y Y1. injection EQ as <-. destruct QA as [(size & ms & ras & -> & _)|(g1 & -> & L1)]; [discriminate|].
      cbn [rq_0 rq_1 req_free]. pose proof (B_sep _ _ _ _ _ B k g (KT u) g1 H (or_intror L1) N) as SP. unfold separate in SP. lia. }
    assert (NEW : rs_error rs = 0 -> rq_kind q = 0 -> let g := Grant (rs_ret rs) (rq_0 q) (rq_1 q) (rq_2 q) in
      good_block c r (books (tr s')) g /\ entries c m g /\ forall k g', k <> KT u -> has h s k g' -> separate g' g).
    { intros Z K g. destruct QA as [(size & ms & ras & -> & WR & CS & MO)|(g1 & -> & L1)]; [|discriminate].
      destruct PA as (es & P1 & R1).
      destruct (memsvc_grants_fresh_aligned_blocks c es _ _ i _ _ _ C P1 R1 WR K SV Z) as (G1 & G2 & r2 & G3 & G4 & G5 & G6).
      assert (r2 = r) by congruence. subst r2.
      destruct (memsvc_grant_installs_checked_entry c es _ _ i _ _ _ C (polite_is_hostile c es _ _ P1) R1 WR K SV Z) as (r3 & _ & _ & _ & _ & G7).
      cbn [rq_0 rq_1 rq_2 req_alloc] in *. pose proof (chunk_size_pos _ _ CS) as PS.
      assert (BW : r_start r + chunk c <= rs_ret rs /\ rs_ret rs + size <= r_end r).
      { pose proof (G5 (rs_ret rs) ltac:(lia)). pose proof (G5 (rs_ret rs + size - 1) ltac:(lia)). lia. }
      split; [|split].
      - split; [exact CS|]. split; [exact G2|]. split; [apply BW|]. split; [apply BW|]. cbn [g_at g_size g]. intros y Y.
        cbn [tr s']. rewrite books_snoc. unfold note. rewrite Z. cbn [Z.eqb rq_kind rq_0 req_alloc owner].
        rewrite set_owner_eq. apply inblk_true in Y. rewrite Y. auto.
      - intros y Y. cbn [g_at g_size g_ras g_meta g] in *. destruct (G7 y Y) as (_ & H2 & H3). auto.
      - intros k g' N H. eapply good_separate; [eapply B_good; eauto|exact CS|exact G6]. }
    constructor.
    + eapply past_step; eauto.
    + cbn [tr s']. rewrite books_snoc. apply region_stays; auto. discriminate.
    + exact RL.
    + exact (B_ask _ _ _ _ _ B).
    + intros k g H. destruct (OLD k g H) as [[N H']|(-> & Z & K & ->)]; [eapply UN; eauto|apply NEW; auto].
    + intros k g k' g' H H' N. destruct (OLD k g H) as [[N1 H1]|(-> & Z & K & ->)], (OLD k' g' H') as [[N2 H2]|(-> & Z' & K' & ->)].
      * eapply (B_sep _ _ _ _ _ B); eauto.
      * eapply NEW; eauto.
      * apply sep_sym. eapply NEW; eauto.
      * congruence.
    + intros g H. rewrite HD in H. apply (UN (KH g) g); [discriminate|cbn; auto|]. eapply B_held; eauto.
    + intros v g H. destruct (AR v g H) as (-> & Z & K & ->). apply NEW; auto.
    + rewrite HD. eapply B_nodup; eauto.
  - (* Env *)
    destruct P as (PO & NR & ND). destruct (MemSvcModel.step c (mem s) ev) as [m rs] eqn:SV. injection S as <- <-.
    set (s' := St _ _ _ _ _ _ _). set (h' := h ++ _).
    assert (HD : held h' = held h) by (apply held_quiet; discriminate).
    assert (OLD : forall k g, has h' s' k g -> has h s k g).
    { intros [g'|v] g; cbn [has]; rewrite ?HD; auto. }
    assert (UN : forall g, good_block c r (books (tr s)) g -> good_block c r (books (tr s')) g /\ (entries c (mem s) g -> entries c m g)).
    { intros g H. eapply blocks_untouched; eauto. intros rq EQ. destruct (NR rq); auto. }
    constructor.
    + eapply past_step; eauto. eapply B_past; eauto.
    + cbn [tr s']. rewrite books_snoc. apply region_stays; auto. eapply B_reg; eauto.
    + eapply B_live; eauto.
    + exact (B_ask _ _ _ _ _ B).
    + intros k g H. apply UN. eapply B_good; eauto.
    + intros k g k' g' H H' N. eapply (B_sep _ _ _ _ _ B); eauto.
    + intros g H. rewrite HD in H. apply UN; [eapply (B_good _ _ _ _ _ B (KH g)); cbn; auto|eapply B_held; eauto].
    + intros v g H. apply UN; [eapply (B_good _ _ _ _ _ B (KT v)); left; exact H|eapply B_arr; eauto].
    + rewrite HD. eapply B_nodup; eauto.
Qed.

Lemma blocks_runs c i evs h s : begins c i evs -> runs c i evs h s -> kept h -> exists r, nth_error (regions (books (snd (run c init_state evs)))) i = Some r /\ blocks c i r h s.
Proof.
  intros (C & P & r & HR & LR) R K. exists r. split; [exact HR|]. revert K.
  induction R as [|h s o s' x R IH PS S]; intros K.
  - constructor; try rewrite start_tr; auto.
    + exists evs. split; auto. rewrite start_tr, start_mem. destruct (run c init_state evs); auto.
    + intros t rq. unfold start. destruct (run c init_state evs). intros [].
    + intros [g'|t] g; cbn.
      * intros [_ []].
      * unfold arriving, leaving, start. destruct (run c init_state evs). cbn. intros [(q & z & H & _)|[H|[H|[H _]]]]; discriminate.
    + intros [g'|t] g k' g'' H; exfalso; cbn in H.
      * destruct H as [_ []].
      * unfold arriving, leaving, start in H. destruct (run c init_state evs). cbn in H. destruct H as [(q & z & H & _)|[H|[H|[H _]]]]; discriminate.
    + intros g [].
    + intros t g (q & z & H & _). unfold start in H. destruct (run c init_state evs). discriminate.
    + constructor.
  - apply kept_snoc in K as [K1 K2]. eapply blocks_step; eauto. apply (flow_runs c i evs h s R K1).
Qed.

(** ** Replies, and what kills the process *)
Definition reply_ok (c : cfg) (r : region) (bk : book) (rq : request) (rs : response) : Prop :=
  (rs_error rs = 0 /\ (rq_kind rq = 0 -> r_start r + chunk c <= rs_ret rs /\ rs_ret rs + rq_0 rq <= r_end r)) \/
  (rs = Response 2 0 /\ rq_kind rq = 0 /\ exhausted c r bk (rq_0 rq)).
Definition replies (c : cfg) (i : nat) (r : region) (n : nat) (t : list (event * response)) : Prop :=
  forall t1 rq rs t2, t = t1 ++ (EvReq i rq, rs) :: t2 -> (n <= length t1)%nat -> reply_ok c r (books t1) rq rs.
Lemma snoc_split {A} (l l1 l2 : list A) x y : l ++ [x] = l1 ++ y :: l2 -> (l2 = [] /\ l = l1 /\ x = y) \/ (exists l3, l2 = l3 ++ [x] /\ l = l1 ++ y :: l3).
Proof.
  destruct l2 as [|z l2] using rev_ind; intros H.
  - apply app_inj_tail in H as [-> ->]. auto.
  - right. exists l2. assert (H' : l ++ [x] = (l1 ++ y :: l2) ++ [z]) by (rewrite H, <- app_assoc; reflexivity).
    apply app_inj_tail in H' as [-> ->]. auto.
Qed.
Lemma replies_snoc c i r n t ev rs : replies c i r n t -> (forall rq, ev = EvReq i rq -> reply_ok c r (books t) rq rs) -> replies c i r n (t ++ [(ev, rs)]).
Proof.
  intros R N t1 rq rs' t2 E L. apply snoc_split in E as [(-> & -> & E)|(t3 & -> & ->)]; [|eapply R; eauto].
  injection E as -> ->. auto.
Qed.
Lemma serve_reply c i evs r h s t rq m rs : cfg_ok c -> blocks c i r h s -> flow i (n_start c evs) h s -> up s = [rq] -> thr s t = Waiting rq ->
  MemSvcModel.step c (mem s) (EvReq i rq) = (m, rs) -> reply_ok c r (books (tr s)) rq rs.
Proof.
  intros C B F U T SV. pose proof (B_past _ _ _ _ _ B) as PA. pose proof (B_reg _ _ _ _ _ B) as RG. pose proof (B_live _ _ _ _ _ B) as RL.
  destruct (B_ask _ _ _ _ _ B t rq) as [QA|(a & n & QA)]; [rewrite T; left; auto| |].
  - destruct (alloc_reply c s i r rq m rs C PA RG RL QA SV) as [Z|[K ->]].
    + left. split; auto. intros K. destruct QA as (size & ms & ras & -> & WR & CS & MO). destruct PA as (es & P1 & R1).
      destruct (memsvc_grants_fresh_aligned_blocks c es _ _ i _ _ _ C P1 R1 WR K SV Z) as (G1 & G2 & r2 & G3 & G4 & G5 & G6).
      assert (r2 = r) by congruence. subst r2. cbn [rq_0 req_alloc] in *. pose proof (chunk_size_pos _ _ CS).
      pose proof (G5 (rs_ret rs) ltac:(lia)). pose proof (G5 (rs_ret rs + size - 1) ltac:(lia)). lia.
    + right. split; auto. split; auto. destruct PA as (es & P1 & R1). destruct QA as (size & ms & ras & -> & WR & CS & MO).
      intros a. eapply memsvc_no_memory_means_exhausted; eauto.
  - left. assert (L : leaving s t (Grant a n 0 0)) by (right; right; cbn; rewrite <- QA, U; split; [auto|discriminate]). subst rq.
    split; [|discriminate]. eapply (free_reply c s i r (Grant a n 0 0)); eauto. eapply (B_good _ _ _ _ _ B (KT t)). right. exact L.
Qed.
Lemma failed_more h e : call_failed h -> call_failed (h ++ [e]).
Proof. intros (t & x & [H|H]); exists t, x; [left|right]; apply in_or_app; auto. Qed.
Definition denied (i n : nat) (s : st) : Prop := exists rq rs, In (rq, rs) (served i n (tr s)) /\ rs_error rs <> 0.
Lemma denied_more i n t e rq (rs : response) : (n <= length t)%nat -> In (rq, rs) (served i n t) -> In (rq, rs) (served i n (t ++ [e])).
Proof. intros L H. rewrite served_snoc by auto. apply in_or_app. auto. Qed.
Lemma in_served i n t rq rs : In (rq, rs) (served i n t) -> exists t1 t2, t = t1 ++ (EvReq i rq, rs) :: t2 /\ (n <= length t1)%nat.
Proof.
  unfold served. intros H. apply in_flat_map in H as ((ev, rs') & H & H'). cbn [fst snd] in H'. destruct ev; try destruct H'.
  destruct (Nat.eqb_spec i0 i) as [->|]; [destruct H' as [H'|[]]|destruct H']. injection H' as -> ->.
  apply in_split in H as (l1 & l2 & H). exists (firstn n t ++ l1), l2. split.
  - rewrite <- app_assoc, <- H. symmetry. apply firstn_skipn.
  - rewrite app_length, firstn_length. assert (length (skipn n t) <> 0)%nat by (rewrite H, app_length; cbn; lia). rewrite skipn_length in *. lia.
Qed.
Lemma ends_runs c i evs h s r : begins c i evs -> runs c i evs h s -> kept h -> nth_error (regions (books (snd (run c init_state evs)))) i = Some r ->
  replies c i r (n_start c evs) (tr s) /\ (dead s = true -> call_failed h \/ denied i (n_start c evs) s).
Proof.
  intros BG R K HR. revert K. induction R as [|h s o s' x R IHR PS S]; intros K.
  - rewrite start_tr. split.
    + intros t1 rq rs t2 E L. exfalso. unfold n_start in L. rewrite E, app_length in L. cbn in L. lia.
    + unfold start. destruct (run c init_state evs). discriminate.
  - apply kept_snoc in K as [K1 K2]. destruct (IHR K1) as [IH IH2]. destruct (flow_runs c i evs h s R K1) as [F LN]. destruct (blocks_runs c i evs h s BG R K1) as (r' & HR' & B).
    assert (r' = r) by congruence. subst r'. destruct PS as [E P].
    destruct o as [t rq|t|t ok|t ok|t|t| |ev]; cbn [step enabled] in *.
    + destruct E as [D _]. injection S as <- <-. split; auto. cbn. congruence.
    + destruct E as (D & LK & rq & E). rewrite E in S. injection S as <- <-. split; auto. cbn. congruence.
    + destruct E as (D & rq & E). rewrite E in S. destruct ok; injection S as <- <-; (split; [exact IH|]); cbn; [congruence|].
      intros _. left. exists t, []. left. apply in_or_app. right. left. auto.
    + destruct E as (D & (rq & E) & NB). rewrite E in S.
      assert (FA : forall x, call_failed (h ++ [(Read t false, x)])) by (intros y; exists t, y; right; apply in_or_app; right; left; auto).
      destruct (down s) as [|z rest] eqn:DN; [destruct ok; injection S as <- <-; split; auto; cbn; congruence|].
      destruct ok; [destruct (Z.eqb_spec (rs_error z) 0) as [Z|Z]|]; injection S as <- <-; (split; [exact IH|]); cbn; auto; [congruence|].
      intros _. right. destruct F as [A1 A2 A3 A4 A5|u q A1 A2 A3 A4 A5 A6|u q A1 A2 A3 A4 A5 A6|u q w A1 A2 A3 A4 A5 A6|u q w A1 A2 A3 A4 A5 A6 A7 A8]; try congruence.
      rewrite DN in A4. injection A4 as -> ->. exists q, w. cbn. rewrite A6. split; auto. apply in_or_app. right. left. auto.
    + destruct E as (D & (rq & E) & _). rewrite E in S. injection S as <- <-. split; [exact IH|]. cbn. congruence.
    + destruct (K2 t eq_refl).
    + destruct F as [A1 A2 A3 A4 A5|u q A1 A2 A3 A4 A5 A6|u q A1 A2 A3 A4 A5 A6|u q w A1 A2 A3 A4 A5 A6|u q w A1 A2 A3 A4 A5 A6 A7 A8]; try congruence.
      rewrite A3 in S. destruct (MemSvcModel.step c (mem s) (EvReq i q)) as [m rs] eqn:SV. injection S as <- <-. cbn [tr dead]. split.
      * apply replies_snoc; auto. intros rq EQ. injection EQ as <-. eapply (serve_reply c i evs); eauto; [apply BG|eapply F_up; eauto].
      * intros D. destruct (IH2 D) as [H|(rq & z & H & H')]; [left; apply failed_more; auto|right].
        exists rq, z. split; auto. apply denied_more; auto.
    + destruct P as (PO & NR & ND). destruct (MemSvcModel.step c (mem s) ev) as [m rs] eqn:SV. injection S as <- <-. cbn [tr dead]. split.
      * apply replies_snoc; auto. intros rq EQ. destruct (NR rq EQ).
      * intros D. destruct (IH2 D) as [H|(rq & z & H & H')]; [left; apply failed_more; auto|right].
        exists rq, z. split; auto. apply denied_more; auto.
Qed.

(** ** Calls finish *)
Definition finishing (c : cfg) (i : nat) (evs : list event) (h : history) (s : st) (u n : nat) : Prop :=
  exists k s', runs c i evs (h ++ k) s' /\ Forall (fun e => progress (fst e)) k /\ (length k <= n)%nat /\
    (dead s' = true \/ (dead s' = false /\ lock s' = None /\ thr s' u = Out /\ forall v, v <> u -> thr s' v = thr s v)).
Lemma progress_keeps o : progress o -> forall t, o <> ReadThrown t.
Proof. intros P t ->. exact P. Qed.
Lemma finish_step c i evs h s u n o s1 x : runs c i evs h s -> kept h -> possible c i h o s -> step c i o s = (s1, x) -> progress o ->
  (forall v, v <> u -> thr s1 v = thr s v) ->
  (runs c i evs (h ++ [(o, x)]) s1 -> kept (h ++ [(o, x)]) -> finishing c i evs (h ++ [(o, x)]) s1 u n) -> finishing c i evs h s u (S n).
Proof.
  intros R K P S PR T N. destruct (N (runs_S _ _ _ _ _ _ _ _ R P S) (kept_more _ _ _ K (progress_keeps _ PR))) as (k & s' & R' & FA & L & E).
  exists ((o, x) :: k), s'. rewrite <- app_assoc in R'. split; [exact R'|]. split; [constructor; auto|]. split; [cbn; lia|].
  destruct E as [E|(E1 & E2 & E3 & E4)]; auto. right. repeat split; auto. intros v NE. rewrite E4, T; auto.
Qed.
Lemma finish_now c i evs h s u n : runs c i evs h s -> dead s = true \/ (dead s = false /\ lock s = None /\ thr s u = Out) -> finishing c i evs h s u n.
Proof. intros R E. exists [], s. rewrite app_nil_r. split; auto. split; auto. split; [cbn; lia|]. destruct E as [E|(E1 & E2 & E3)]; auto 10. Qed.
Lemma finish_down c i evs h s u rq rs : runs c i evs h s -> kept h -> dead s = false -> lock s = Some u -> thr s u = Waiting rq -> down s = [rs] ->
  finishing c i evs h s u 1.
Proof.
  intros R K D L T DN. destruct (step c i (Read u true) s) as [s1 x] eqn:S. eapply finish_step; eauto; try exact I.
  - split; [|exact I]. cbn. rewrite DN. repeat split; eauto. discriminate.
  - cbn in S. rewrite T, DN in S. destruct (Z.eqb_spec (rs_error rs) 0); injection S as <- <-; intros v N; cbn; auto. apply set_other; auto.
  - intros R' K'. apply finish_now; auto. cbn in S. rewrite T, DN in S. destruct (Z.eqb_spec (rs_error rs) 0); injection S as <- <-; cbn; auto.
    right. rewrite set_same. auto.
Qed.
Lemma finish_up c i evs h s u rq : runs c i evs h s -> kept h -> dead s = false -> lock s = Some u -> thr s u = Waiting rq -> up s = [rq] -> down s = [] ->
  finishing c i evs h s u 2.
Proof.
  intros R K D L T U DN. destruct (step c i Serve s) as [s1 x] eqn:S.
  pose proof S as S'. cbn [step] in S'. rewrite U, DN in S'. destruct (MemSvcModel.step c (mem s) (EvReq i rq)) as [m rs]. injection S' as E1 E2.
  eapply finish_step; eauto; try exact I.
  - split; [|exact I]. cbn. rewrite U. discriminate.
  - subst s1. auto.
  - intros R' K'. eapply finish_down; [exact R'|exact K'|..]; subst s1; cbn; eauto.
Qed.
Lemma finish_locked c i evs h s u rq : runs c i evs h s -> kept h -> dead s = false -> lock s = Some u -> thr s u = Locked rq -> up s = [] -> down s = [] ->
  finishing c i evs h s u 3.
Proof.
  intros R K D L T U DN. destruct (step c i (Write u true) s) as [s1 x] eqn:S.
  pose proof S as S'. cbn [step] in S'. rewrite T, U in S'. injection S' as E1 E2.
  eapply finish_step; eauto; try exact I.
  - split; [|exact I]. cbn. eauto.
  - subst s1. intros v N. cbn. apply set_other; auto.
  - intros R' K'. eapply finish_up; [exact R'|exact K'|..]; subst s1; cbn; eauto. apply set_same.
Qed.
Lemma finishing_more c i evs h s u n m : (n <= m)%nat -> finishing c i evs h s u n -> finishing c i evs h s u m.
Proof. intros L (k & s' & R & F & L' & E). exists k, s'. split; auto. split; auto. split; [lia|auto]. Qed.
Lemma finish_holder c i evs h s u : runs c i evs h s -> kept h -> dead s = false -> lock s = Some u -> finishing c i evs h s u 3.
Proof.
  intros R K D L. destruct (flow_runs c i evs h s R K) as [F _].
  destruct F as [A1 A2 A3 A4 A5|v q A1 A2 A3 A4 A5 A6|v q A1 A2 A3 A4 A5 A6|v q w A1 A2 A3 A4 A5 A6|v q w A1 A2 A3 A4 A5 A6 A7 A8]; try congruence;
    (assert (v = u) by congruence; subst v).
  - eapply finish_locked; eauto.
  - eapply (finishing_more _ _ _ _ _ _ 2); [lia|]. eapply finish_up; eauto.
  - eapply (finishing_more _ _ _ _ _ _ 1); [lia|]. eapply finish_down; eauto.
Qed.
Lemma finish_spin c i evs h s u rq : runs c i evs h s -> kept h -> dead s = false -> lock s = None -> thr s u = Spin rq -> finishing c i evs h s u 4.
Proof.
  intros R K D L T. destruct (step c i (Lock u) s) as [s1 x] eqn:S.
  pose proof S as S'. cbn [step] in S'. rewrite T in S'. injection S' as E1 E2.
  eapply finish_step; eauto; try exact I.
  - split; [|exact I]. cbn. eauto.
  - subst s1. intros v N. cbn. apply set_other; auto.
  - intros R' K'. eapply finish_holder; [exact R'|exact K'|..]; subst s1; cbn; auto.
Qed.
Lemma kept_progress h k : kept h -> Forall (fun e => progress (fst e)) k -> kept (h ++ k).
Proof.
  intros K F t x H. apply in_app_or in H as [H|H]; [eapply K; eauto|]. rewrite Forall_forall in F. apply (F _ H).
Qed.
Lemma calls_finish c i evs h s t : runs c i evs h s -> kept h -> dead s = false -> thr s t <> Out ->
  exists k s', runs c i evs (h ++ k) s' /\ Forall (fun e => progress (fst e)) k /\ (length k <= 7)%nat /\ (dead s' = true \/ thr s' t = Out).
Proof.
  intros R K D T. destruct (flow_runs c i evs h s R K) as [F _].
  assert (QS : quiet (thr s t) -> exists rq, thr s t = Spin rq) by (intros [H|H]; [contradiction|auto]).
  destruct (lock s) as [u|] eqn:L.
  - destruct (finish_holder c i evs h s u R K D L) as (k & s1 & R1 & F1 & L1 & E1).
    destruct E1 as [E1|(E1 & E2 & E3 & E4)]; [exists k, s1; repeat split; auto; lia|].
    destruct (Nat.eq_dec t u) as [->|N]; [exists k, s1; repeat split; auto; lia|].
    assert (Q : quiet (thr s t)).
    { destruct F as [A1 A2 A3 A4 A5|v q A1 A2 A3 A4 A5 A6|v q A1 A2 A3 A4 A5 A6|v q w A1 A2 A3 A4 A5 A6|v q w A1 A2 A3 A4 A5 A6 A7 A8]; try congruence;
       (assert (v = u) by congruence; subst v); apply A5; auto. }
    destruct (QS Q) as (rq & SP). rewrite <- (E4 t N) in SP.
    destruct (finish_spin c i evs _ s1 t rq R1 (kept_progress _ _ K F1) E1 E2 SP) as (k2 & s2 & R2 & F2 & L2 & E).
    exists (k ++ k2), s2. rewrite app_assoc. split; auto. split; [apply Forall_app; auto|]. split; [rewrite app_length; lia|]. tauto.
  - destruct F as [A1 A2 A3 A4 A5|v q A1 A2 A3 A4 A5 A6|v q A1 A2 A3 A4 A5 A6|v q w A1 A2 A3 A4 A5 A6|v q w A1 A2 A3 A4 A5 A6 A7 A8]; try congruence.
    destruct (QS (A4 t)) as (rq & SP). destruct (finish_spin c i evs _ s t rq R K D L SP) as (k2 & s2 & R2 & F2 & L2 & E).
    exists k2, s2. split; auto. split; auto. split; [lia|]. tauto.
Qed.

(** ** Replies are read in the order of the requests, also after lost ones *)
Definition values (h : history) : list response := map (fun x => Response 0 (snd x)) (results h).
Inductive turn (s : st) : list request -> Prop :=
| T_free : lock s = None -> (forall t, quiet (thr s t)) -> turn s []
| T_locked t rq : lock s = Some t -> thr s t = Locked rq -> others t s -> turn s []
| T_waiting t rq : lock s = Some t -> thr s t = Waiting rq -> others t s -> turn s [rq].
Definition fifo (i n0 : nat) (h : history) (s : st) : Prop :=
  (n0 <= length (tr s))%nat /\
  exists w e, turn s w /\ map fst (served i n0 (tr s)) ++ up s = taken h ++ w /\
    map snd (served i n0 (tr s)) = values h ++ e ++ down s /\ (dead s = false -> e = []).

Lemma taken_snoc h o x : taken (h ++ [(o, x)]) = taken h ++ taken1 (o, x).
Proof. unfold taken. rewrite flat_map_app. cbn. rewrite app_nil_r. auto. Qed.
Lemma values_snoc h o x : values (h ++ [(o, x)]) = values h ++ flat_map (fun y => match y with Returned t rq v => [Response 0 v] | GaveUp _ _ => [] end) x.
Proof. unfold values. rewrite results_snoc, map_app. f_equal. induction x as [|[] x IH]; cbn; auto. f_equal. auto. Qed.
Lemma turn_same s s' w : lock s' = lock s -> thr s' = thr s -> turn s w -> turn s' w.
Proof.
  intros L T [A1 A2|t rq A1 A2 A3|t rq A1 A2 A3]; [apply T_free|eapply T_locked|eapply T_waiting];
    unfold others in *; rewrite ?L, ?T; eauto.
Qed.
Lemma turn_waiting s w t rq : turn s w -> thr s t = Waiting rq -> w = [rq] /\ lock s = Some t /\ others t s.
Proof.
  intros [A1 A2|u q A1 A2 A3|u q A1 A2 A3] E.
  - destruct (quiet_not t s rq (A2 t)); contradiction.
  - destruct (Nat.eq_dec t u) as [->|N]; [congruence|destruct (quiet_not t s rq (A3 t N)); contradiction].
  - destruct (Nat.eq_dec t u) as [->|N]; [|destruct (quiet_not t s rq (A3 t N)); contradiction]. split; [congruence|auto].
Qed.
Lemma turn_locked s w t rq : turn s w -> thr s t = Locked rq -> w = [] /\ lock s = Some t /\ others t s.
Proof.
  intros [A1 A2|u q A1 A2 A3|u q A1 A2 A3] E.
  - destruct (quiet_not t s rq (A2 t)); contradiction.
  - destruct (Nat.eq_dec t u) as [->|N]; [|destruct (quiet_not t s rq (A3 t N)); contradiction]. split; [congruence|auto].
  - destruct (Nat.eq_dec t u) as [->|N]; [congruence|destruct (quiet_not t s rq (A3 t N)); contradiction].
Qed.
Lemma turn_released s t s' : others t s -> lock s' = None -> thr s' = set_thr t Out (thr s) -> turn s' [].
Proof.
  intros O L T. apply T_free; auto. intros v. rewrite T. destruct (Nat.eq_dec v t) as [->|N]; [rewrite set_same; left; auto|rewrite set_other; auto].
Qed.

Lemma fifo_step c i n0 h s o s' x : fifo i n0 h s -> enabled o s -> (forall ev, o = Env ev -> forall rq, ev <> EvReq i rq) ->
  step c i o s = (s', x) -> fifo i n0 (h ++ [(o, x)]) s'.
Proof.
  intros (L & w & e & T & J1 & J2 & J3) E NE S. unfold fifo. rewrite taken_snoc, values_snoc.
  destruct o as [t rq|t|t ok|t ok|t|t| |ev]; cbn [step enabled] in *.
  - (* Enter *)
    destruct E as [D E]. injection S as <- <-. split; [exact L|]. exists w, e. cbn. rewrite !app_nil_r. split; [|auto].
    destruct T as [A1 A2|u q A1 A2 A3|u q A1 A2 A3].
    + apply T_free; auto. intros v. cbn. destruct (Nat.eq_dec v t) as [->|N]; [rewrite set_same; right; eauto|rewrite set_other; auto].
    + assert (u <> t) by congruence. apply (T_locked _ u q); cbn; auto; [rewrite set_other; auto|].
      intros v N. cbn. destruct (Nat.eq_dec v t) as [->|N']; [rewrite set_same; right; eauto|rewrite set_other; auto].
    + assert (u <> t) by congruence. apply (T_waiting _ u q); cbn; auto; [rewrite set_other; auto|].
      intros v N. cbn. destruct (Nat.eq_dec v t) as [->|N']; [rewrite set_same; right; eauto|rewrite set_other; auto].
  - (* Lock *)
    destruct E as (D & LK & rq & E). rewrite E in S. injection S as <- <-. split; [exact L|]. exists w, e. cbn. rewrite !app_nil_r. split; [|auto].
    destruct T as [A1 A2|u q A1 A2 A3|u q A1 A2 A3]; try congruence. apply (T_locked _ t rq); cbn; auto; [apply set_same|].
    intros v N. cbn. rewrite set_other; auto.
  - (* Write *)
    destruct E as (D & rq & E). rewrite E in S. destruct (turn_locked s w t rq T E) as (-> & LK & O). rewrite app_nil_r in J1.
    destruct ok; injection S as <- <-; (split; [exact L|]).
    + exists [rq], e. cbn. rewrite !app_nil_r. split; [|split; [|auto]].
      * apply (T_waiting _ t rq); cbn; auto; [apply set_same|]. intros v N. cbn. rewrite set_other; auto.
      * rewrite app_assoc, J1. auto.
    + exists [], e. cbn. rewrite !app_nil_r. split; [eapply turn_same; [| |exact T]; auto|]. split; [exact J1|]. split; [exact J2|discriminate].
  - (* Read *)
    destruct E as (D & (rq & E) & NB). rewrite E in S. destruct (turn_waiting s w t rq T E) as (-> & LK & O).
    assert (e = []) by auto. subst e. cbn [app] in J2.
    destruct (down s) as [|rs rest] eqn:DN.
    + destruct ok; [destruct (NB eq_refl); auto|]. injection S as <- <-. split; [exact L|]. exists [rq], []. cbn. rewrite !app_nil_r.
      split; [eapply turn_same; [| |exact T]; auto|]. rewrite app_nil_r in J2. auto.
    + destruct ok; [destruct (Z.eqb_spec (rs_error rs) 0) as [Z|Z]|]; injection S as <- <-; (split; [exact L|]).
      * exists [], []. cbn. rewrite !app_nil_r. split; [eapply turn_released; eauto|]. split; [exact J1|]. split; [|auto].
        rewrite J2, <- app_assoc. cbn. do 2 f_equal. destruct rs. cbn in *. subst. auto.
      * exists [rq], [rs]. cbn. rewrite !app_nil_r. split; [eapply turn_same; [| |exact T]; auto|]. repeat split; auto; discriminate.
      * exists [rq], []. cbn. rewrite !app_nil_r. split; [eapply turn_same; [| |exact T]; auto|]. auto.
  - (* WriteThrown *)
    destruct E as (D & (rq & E) & _). rewrite E in S. destruct (turn_locked s w t rq T E) as (-> & LK & O). injection S as <- <-. split; [exact L|].
    exists [], e. cbn. rewrite !app_nil_r in *. split; [eapply turn_released; eauto|auto].
  - (* ReadThrown *)
    destruct E as (D & (rq & E) & _). rewrite E in S. destruct (turn_waiting s w t rq T E) as (-> & LK & O). injection S as <- <-. split; [exact L|].
    exists [], e. cbn. rewrite !app_nil_r in *. split; [eapply turn_released; eauto|auto].
  - (* Serve *)
    destruct (up s) as [|q rest] eqn:U; [congruence|]. destruct (MemSvcModel.step c (mem s) (EvReq i q)) as [m rs]. injection S as <- <-.
    cbn [tr]. split; [rewrite app_length; lia|]. exists w, e. cbn [taken1 fst snd flat_map up down dead]. rewrite !app_nil_r.
    rewrite served_snoc, served_own, !map_app by exact L. cbn [map fst snd]. split; [eapply turn_same; [| |exact T]; auto|].
    rewrite <- app_assoc. cbn [app]. split; [exact J1|]. split; [|exact J3]. rewrite J2, <- !app_assoc. auto.
  - (* Env *)
    destruct (MemSvcModel.step c (mem s) ev) as [m rs]. injection S as <- <-.
    cbn [tr]. split; [rewrite app_length; lia|]. exists w, e. cbn [taken1 fst snd flat_map up down dead]. rewrite !app_nil_r.
    rewrite served_snoc, served_other, app_nil_r by (try exact L; apply NE; auto). split; [eapply turn_same; [| |exact T]; auto|auto].
Qed.
Lemma fifo_runs c i evs h s : runs c i evs h s -> fifo i (n_start c evs) h s.
Proof.
  induction 1 as [|h s o s' x R IH P S].
  - split; [rewrite start_tr; auto|]. exists [], []. unfold n_start, start, served. destruct (run c init_state evs) as [m t]. cbn.
    rewrite skipn_all. cbn. split; [apply T_free; auto; left; auto|auto].
  - eapply fifo_step; eauto; [apply P|eapply possible_env; eauto].
Qed.

(** What the steps of a history hand out. *)
Definition tidy (e : op * list out) : Prop :=
  match fst e with
  | Read _ _ => snd e = [] \/ exists t rq v, snd e = [Returned t rq v]
  | WriteThrown t | ReadThrown t => exists rq, snd e = [GaveUp t rq]
  | _ => snd e = []
  end.
Lemma tidy_runs c i evs h s : runs c i evs h s -> Forall tidy h.
Proof.
  induction 1 as [|h s o s' x R IH P S]; [constructor|]. apply Forall_app. split; [exact IH|]. constructor; [|constructor].
  destruct P as [E _]. destruct o as [t rq|t|t ok|t ok|t|t| |ev]; cbn [step enabled tidy fst snd] in *.
  - injection S as <- <-. auto.
  - destruct E as (_ & _ & rq & E). rewrite E in S. injection S as <- <-. auto.
  - destruct E as (_ & rq & E). rewrite E in S. destruct ok; injection S as <- <-; auto.
  - destruct E as (_ & (rq & E) & _). rewrite E in S. destruct (down s) as [|z rest].
    + destruct ok; injection S as <- <-; auto.
    + destruct ok; [destruct (rs_error z =? 0)|]; injection S as <- <-; eauto.
  - destruct E as (_ & (rq & E) & _). rewrite E in S. injection S as <- <-. eauto.
  - destruct E as (_ & (rq & E) & _). rewrite E in S. injection S as <- <-. eauto.
  - destruct (up s); [injection S as <- <-; auto|]. destruct (MemSvcModel.step _ _ _). injection S as <- <-. auto.
  - destruct (MemSvcModel.step _ _ _). injection S as <- <-. auto.
Qed.
Lemma taken_kept h : Forall tidy h -> kept h -> taken h = map (fun x => snd (fst x)) (results h).
Proof.
  induction h as [|[o x] h IH]; intros F K; [reflexivity|]. inversion F as [|? ? T F']; subst.
  assert (K' : kept h) by (intros t y H; apply (K t y); right; auto).
  assert (NT : forall t, o <> ReadThrown t) by (intros t ->; apply (K t x); left; auto).
  unfold taken, results in *. cbn [flat_map]. rewrite map_app, IH by auto. f_equal. unfold taken1, tidy in *. cbn [fst snd] in *.
  destruct o as [t rq|t|t ok|t ok|t|t| |ev]; try (rewrite T; reflexivity); [destruct T as [->|(u & rq & v & ->)]; reflexivity| |destruct (NT t eq_refl)].
  destruct T as [rq ->]. reflexivity.
Qed.
Lemma results_app h k : results (h ++ k) = results h ++ results k.
Proof. unfold results. apply flat_map_app. Qed.
Lemma lost_shifts c i evs h t q k s j u rq v :
  runs c i evs (h ++ (ReadThrown t, [GaveUp t q]) :: k) s -> kept h -> kept k -> nth_error (results k) j = Some (u, rq, v) ->
  exists q', nth_error (q :: map (fun x => snd (fst x)) (results k)) j = Some q' /\
    nth_error (served i (n_start c evs) (tr s)) (length (results h) + j) = Some (q', Response 0 v).
Proof.
  intros R K1 K2 J. destruct (fifo_runs _ _ _ _ _ R) as (_ & w & e & _ & J1 & J2 & _).
  pose proof (tidy_runs _ _ _ _ _ R) as T. apply Forall_app in T as [T1 T2]. inversion T2 as [|? ? _ T3]; subst.
  assert (TK : taken (h ++ (ReadThrown t, [GaveUp t q]) :: k) = map (fun x => snd (fst x)) (results h) ++ q :: map (fun x => snd (fst x)) (results k)).
  { rewrite <- (taken_kept h T1 K1), <- (taken_kept k T3 K2). unfold taken. rewrite flat_map_app. reflexivity. }
  assert (VL : values (h ++ (ReadThrown t, [GaveUp t q]) :: k) = map (fun x => Response 0 (snd x)) (results h) ++ map (fun x => Response 0 (snd x)) (results k)).
  { unfold values. rewrite results_app, map_app. reflexivity. }
  rewrite TK in J1. rewrite VL in J2. set (sv := served i (n_start c evs) (tr s)) in *.
  assert (JL : (j < length (results k))%nat) by (apply nth_error_Some; congruence).
  assert (N2 : nth_error (map snd sv) (length (results h) + j) = Some (Response 0 v)).
  { rewrite J2, <- app_assoc, nth_error_app2; rewrite map_length; [|lia]. replace (length (results h) + j - length (results h))%nat with j by lia.
    rewrite nth_error_app1 by (rewrite map_length; auto). rewrite nth_error_map, J. auto. }
  rewrite nth_error_map in N2. destruct (nth_error sv (length (results h) + j)) as [[q' r']|] eqn:N; [|discriminate]. injection N2 as ->.
  exists q'. split; [|auto].
  assert (N1 : nth_error (map fst sv ++ up s) (length (results h) + j) = Some q').
  { rewrite nth_error_app1 by (rewrite map_length; apply nth_error_Some; congruence). rewrite nth_error_map, N. auto. }
  rewrite J1, <- app_assoc, nth_error_app2 in N1; rewrite map_length in *; [|lia].
  replace (length (results h) + j - length (results h))%nat with j in N1 by lia.
  rewrite nth_error_app1 in N1; [exact N1|]. cbn. rewrite map_length. lia.
Qed.
