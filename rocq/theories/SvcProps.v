(** The claimed theorems about the memory service (C42) and about its use of
    destroyed Libraries (C44). *)
From Coq Require Import List ZArith Bool Lia Arith.
From Verif Require Import Base RegionModel BuddyModel MemSvcModel PollModel PollProps SvcModel SvcSpec SvcProof.
Import ListNotations.
Open Scope Z_scope.

Lemma find_at_end fd i f k : find fd (socks (at_end i f k)) = option_map (fun so => if Nat.eqb (owner so) i then f so else so) (find fd (socks k)).
Proof. apply find_map_owner. Qed.
Ltac pinj E := cbn [step] in E; apply pair_equal_spec in E; destruct E as [<- <-].
Lemma create_len c m shm bits : length (g_box (fst (MemSvcModel.step c m (EvCreate shm bits)))) = S (length (g_box m)).
Proof. rewrite step_len. lia. Qed.
Lemma same_len c m ev : match ev with EvCreate _ _ => False | _ => True end -> length (g_box (fst (MemSvcModel.step c m ev))) = length (g_box m).
Proof. rewrite step_len. destruct ev; intros; try lia. Qed.
Lemma sent_snoc i tr x : sent i (tr ++ [x]) = sent i tr ++ match fst x with Send j p => if Nat.eqb j i then [p] else [] | _ => [] end.
Proof. unfold sent. rewrite flat_map_app. cbn. rewrite app_nil_r. reflexivity. Qed.
Lemma carried_snoc tr x : carried_out (tr ++ [x]) = carried_out tr ++ flat_map served_out (snd x).
Proof. unfold carried_out. rewrite flat_map_app. cbn. rewrite app_nil_r. reflexivity. Qed.
Lemma carried_for_snoc i tr x : carried_out_for i (tr ++ [x]) = carried_out_for i tr
  ++ map (fun y => snd (fst y)) (filter (fun y => Nat.eqb (fst (fst y)) i) (flat_map served_out (snd x))).
Proof. unfold carried_out_for. rewrite carried_snoc, filter_app, map_app. reflexivity. Qed.

(** What a step other than Serve puts out: nothing. *)
Lemma quiet c kq leak o s s' x : core kq s -> possible leak o s -> step c kq o s = (s', x) ->
  match o with Serve _ => True | _ => x = [] end.
Proof.
  intros C P E. destruct o as [shm bits fd|i size ras mp|i a size|i|i p|i|l|b]; auto; try (injection E as _ <-; reflexivity).
  destruct (core_create c kq shm bits fd s C P) as [Y _]. rewrite E in Y. injection Y as _ ->. auto.
Qed.

Record queues (tr : history) (s : st) : Prop := {
  q_new : forall i, (length (g_box (mem s)) <= i)%nat -> sent i tr = [] /\ carried_out_for i tr = [];
  q_all : forall i, exists rest, sent i tr = map Req (carried_out_for i tr) ++ rest
            /\ forall fd so, find fd (socks (kn s)) = Some so -> owner so = i ->
                 exists d, rest = inq so ++ d /\ (hup so = false -> d = []) }.

Lemma nil_app3 {A} (l : list A) : l ++ [] = l. Proof. apply app_nil_r. Qed.
Lemma queues_step c kq leak o tr s s' x : core kq s -> queues tr s -> possible leak o s -> step c kq o s = (s', x) ->
  queues (tr ++ [(o, x)]) s'.
Proof.
  intros C [QN QA] P E. pose proof (quiet _ _ _ _ _ _ _ C P E) as QX.
  assert (SAME : forall m t, match o with Send _ _ | Serve _ | Hang _ | Create _ _ _ => False | _ => True end ->
     length (g_box m) = length (g_box (mem s)) -> socks (kn s') = socks (kn s) -> mem s' = m -> th s' = t -> x = [] -> queues (tr ++ [(o, x)]) s').
  { intros m t W L K M _ X. constructor.
    - intros i H. rewrite sent_snoc, carried_for_snoc, X. cbn. rewrite M, L in H. destruct (QN i H) as [-> ->]. destruct o; auto; tauto.
    - intros i. destruct (QA i) as (rest & S1 & S2). exists rest. rewrite sent_snoc, carried_for_snoc, X, K. cbn. rewrite nil_app3, S1.
      split; auto. destruct o; rewrite ?nil_app3; auto; tauto. }
  destruct o as [shm bits fd|i size ras mp|i a size|i|i p|i|l|b]; cbn [possible] in P.
  - destruct (core_create c kq shm bits fd s C P) as [Y _]. rewrite E in Y. apply pair_equal_spec in Y; destruct Y as [-> ->]. clear SAME.
    pose proof (step_len c (mem s) (EvCreate shm bits)) as L. constructor; cbn [kn mem socks].
    + intros i H. rewrite sent_snoc, carried_for_snoc. cbn. rewrite !nil_app3. apply QN. cbn in H, L. lia.
    + intros i. destruct (QA i) as (rest & S1 & S2). exists rest. rewrite sent_snoc, carried_for_snoc. cbn [fst snd flat_map filter map].
      rewrite !nil_app3. split; auto. intros n so F O. cbn [find] in F. destruct (fd =? n); eauto.
      injection F as <-. cbn in O. subst i. destruct (QN (length (g_box (mem s))) (le_n _)) as [A B]. rewrite A, B in S1. cbn in S1. subst rest.
      exists []. auto.
  - pinj E. pose proof (step_len c (mem s) (EvHostAlloc i size ras mp)) as L. rewrite Nat.add_0_r in L. eapply SAME; cbn [mem]; eauto.
  - pinj E. pose proof (step_len c (mem s) (EvHostFree i a size)) as L. rewrite Nat.add_0_r in L. eapply SAME; cbn [mem]; eauto.
  - pinj E. pose proof (step_len c (mem s) (EvDestroy i)) as L. rewrite Nat.add_0_r in L. eapply SAME; cbn [mem]; eauto.
  - pinj E. clear SAME. constructor; cbn [kn mem].
    + intros j H. rewrite sent_snoc, carried_for_snoc. cbn. rewrite nil_app3. destruct (QN j H) as [-> ->].
      destruct (Nat.eqb_spec i j); [lia|auto].
    + intros j. destruct (QA j) as (rest & S1 & S2). rewrite sent_snoc, carried_for_snoc. cbn [fst snd flat_map filter map]. rewrite nil_app3, S1.
      destruct (Nat.eqb_spec i j) as [->|N].
      * exists (rest ++ [p]). rewrite app_assoc. split; auto. intros fd so F O. rewrite find_at_end in F.
        destruct (find fd (socks (kn s))) as [s0|] eqn:F0; [|discriminate]. cbn in F. injection F as <-.
        assert (O2 : owner s0 = j) by (destruct (Nat.eqb (owner s0) j); auto; destruct (hup s0); auto).
        rewrite O2, Nat.eqb_refl in *. destruct (S2 _ _ F0 O2) as (d & -> & D). destruct (hup s0) eqn:HU.
        -- exists (d ++ [p]). rewrite app_assoc. split; auto. congruence.
        -- rewrite (D eq_refl). cbn. exists []. rewrite !nil_app3. auto.
      * exists rest. rewrite nil_app3. split; auto. intros fd so F O. rewrite find_at_end in F.
        destruct (find fd (socks (kn s))) as [s0|] eqn:F0; [|discriminate]. cbn in F. injection F as <-.
        destruct (Nat.eqb_spec (owner s0) i) as [E1|E1]; [|eauto]. destruct (hup s0); cbn in O; congruence.
  - pinj E. clear SAME. constructor; cbn [kn mem].
    + intros j H. rewrite sent_snoc, carried_for_snoc. cbn. rewrite !nil_app3. auto.
    + intros j. destruct (QA j) as (rest & S1 & S2). rewrite sent_snoc, carried_for_snoc. cbn [fst snd flat_map filter map]. rewrite !nil_app3.
      exists rest. split; auto. intros fd so F O. rewrite find_at_end in F.
      destruct (find fd (socks (kn s))) as [s0|] eqn:F0; [|discriminate]. cbn in F. injection F as <-.
      destruct (Nat.eqb (owner s0) i); cbn in *; [|eauto]. destruct (S2 _ _ F0 O) as (d & -> & _). exists d. split; auto. discriminate.
  - pinj E. destruct P as [T A].
    destruct (poll_step kq l s C T A) as [Y|[(Y & _)|(fd & so & F & _ & _ & Y)]]; cbn [step] in *; rewrite Y in *;
      eapply (SAME (mem s)); eauto.
  - destruct P as (fd & eof & T & _). clear SAME QX. destruct (serve_cases c kq b s fd eof C T) as (so & F & R & S). cbn [step] in E. rewrite E in S.
    cbn [fst snd] in S.
    assert (OTHER : forall j rest, j <> owner so -> (forall n s0, find n (socks (kn s)) = Some s0 -> owner s0 = j -> exists d, rest = inq s0 ++ d /\ (hup s0 = false -> d = [])) ->
        forall q n s0, find n (alter fd (fun s1 => Sock (owner s1) q (hup s1)) (socks (kn s))) = Some s0 -> owner s0 = j ->
        exists d, rest = inq s0 ++ d /\ (hup s0 = false -> d = [])).
    { intros j rest N S2 q n s0 F0 O. rewrite find_alter in F0. destruct (Z.eqb_spec n fd) as [->|N2]; eauto.
      rewrite F in F0. cbn in F0. injection F0 as <-. cbn in O. congruence. }
    assert (OW : (owner so < length (g_box (mem s)))%nat) by (eapply c_owner; eauto).
    assert (ND : NoDup (map fst (socks (kn s)))) by (eapply c_nd; eauto).
    inversion S; subst; clear S.
    + constructor; unfold forget; cbn [kn mem k_close socks].
      * intros j H1. rewrite sent_snoc, carried_for_snoc. cbn. rewrite !nil_app3. auto.
      * intros j. destruct (QA j) as (rest & S1 & S2). rewrite sent_snoc, carried_for_snoc. cbn. rewrite !nil_app3.
        exists rest. split; auto. intros n s0 F0 O. destruct (Z.eq_dec n fd) as [->|N]; [rewrite find_del_same in F0 by auto; discriminate|].
        rewrite find_del_other in F0 by auto. eauto.
    + constructor; cbn [kn mem].
      * intros j H1. rewrite sent_snoc, carried_for_snoc. cbn. rewrite !nil_app3. auto.
      * intros j. destruct (QA j) as (rest & S1 & S2). rewrite sent_snoc, carried_for_snoc. cbn. rewrite !nil_app3. eauto.
    + match goal with H : MemSvcModel.step _ _ _ = _ |- _ => apply req_len in H; rename H into L end. constructor; cbn [kn mem taken socks].
      * intros j H2. rewrite sent_snoc, carried_for_snoc. cbn. rewrite nil_app3. destruct (QN j) as [-> ->]; [lia|]. destruct (Nat.eqb_spec (owner so) j); [lia|auto].
      * intros j. destruct (QA j) as (rest & S1 & S2). rewrite sent_snoc, carried_for_snoc. cbn [fst snd flat_map served_out app filter]. rewrite nil_app3.
        destruct (Nat.eqb_spec (owner so) j) as [<-|N].
        -- destruct (S2 _ _ F eq_refl) as (d & -> & D). match goal with H : inq so = _ |- _ => rewrite H in *; rename H into Q end. exists (q ++ d).
           cbn [map]. rewrite map_app, <- app_assoc. cbn [map app]. split; auto. intros n s0 F0 O. rewrite find_alter in F0.
           destruct (Z.eqb_spec n fd) as [->|N2]; [rewrite F in F0; cbn in F0; injection F0 as <-; cbn; eauto|].
           exfalso. apply N2. eapply c_one; eauto.
        -- exists rest. cbn [map]. rewrite nil_app3. split; eauto.
    + match goal with H : MemSvcModel.step _ _ _ = _ |- _ => apply req_len in H; rename H into L end. constructor; unfold forget; cbn [kn mem k_close taken socks].
      * intros j H2. rewrite sent_snoc, carried_for_snoc. cbn. rewrite nil_app3. destruct (QN j) as [-> ->]; [lia|]. destruct (Nat.eqb_spec (owner so) j); [lia|auto].
      * intros j. destruct (QA j) as (rest & S1 & S2). rewrite sent_snoc, carried_for_snoc. cbn [fst snd flat_map served_out app filter]. rewrite nil_app3.
        destruct (Nat.eqb_spec (owner so) j) as [<-|N].
        -- destruct (S2 _ _ F eq_refl) as (d & -> & D). match goal with H : inq so = _ |- _ => rewrite H in *; rename H into Q end. exists (q ++ d).
           cbn [map]. rewrite map_app, <- app_assoc. cbn [map app]. split; auto. intros n s0 F0 O.
           destruct (Z.eq_dec n fd) as [->|N2]; [rewrite find_del_same in F0 by (rewrite keys_alter; auto); discriminate|].
           rewrite find_del_other, find_alter in F0 by auto. rewrite (proj2 (Z.eqb_neq n fd) N2) in F0. exfalso. apply N2. eapply c_one; eauto.
        -- exists rest. cbn [map]. rewrite nil_app3. split; auto. intros n s0 F0 O.
           destruct (Z.eq_dec n fd) as [->|N2]; [rewrite find_del_same in F0 by (rewrite keys_alter; auto); discriminate|].
           rewrite find_del_other in F0 by auto. eauto.
    + constructor; unfold forget; cbn [kn mem k_close taken socks].
      * intros j H2. rewrite sent_snoc, carried_for_snoc. cbn. rewrite !nil_app3. auto.
      * intros j. destruct (QA j) as (rest & S1 & S2). rewrite sent_snoc, carried_for_snoc. cbn [fst snd flat_map served_out app filter map]. rewrite !nil_app3.
        exists rest. split; auto. intros n s0 F0 O.
        destruct (Z.eq_dec n fd) as [->|N2]; [rewrite find_del_same in F0 by (rewrite keys_alter; auto); discriminate|].
        rewrite find_del_other, find_alter in F0 by auto. rewrite (proj2 (Z.eqb_neq n fd) N2) in F0. eauto.
Qed.
Lemma queues_runs c kq leak tr s : runs c kq leak tr s -> queues tr s.
Proof.
  induction 1.
  - constructor; cbn; [auto|]. intros i. exists []. split; auto. discriminate.
  - eapply queues_step; eauto. eapply core_runs; eauto.
Qed.

(** C42. For every number of sandboxes and every interleaving: the requests
    carried out for a sandbox are the first ones it sent, each once and in order. *)
Theorem requests_served_in_order c kq leak tr s i : runs c kq leak tr s ->
  exists rest, sent i tr = map Req (carried_out_for i tr) ++ rest.
Proof. intros R. apply queues_runs in R. destruct (q_all _ _ R i) as (rest & H & _). eauto. Qed.

(** C42. A reply goes to the sandbox whose request it answers. *)
Theorem reply_to_requester c kq leak tr s j i rq rs : runs c kq leak tr s ->
  (exists o x, In (o, x) tr /\ In (Reply j i rq rs) x) -> j = i.
Proof.
  induction 1 as [|tr s o s' x R IH P E]; intros (o' & x' & H1 & H2); [destruct H1|].
  apply in_app_or in H1. destruct H1 as [H1|[H1|[]]]; [apply IH; eauto|]. injection H1 as <- <-.
  pose proof (core_runs _ _ _ _ _ R) as C. pose proof (quiet _ _ _ _ _ _ _ C P E) as QX.
  destruct o; try (subst; destruct H2; fail). destruct P as (fd & eof & T & _).
  destruct (serve_cases c kq sent s fd eof C T) as (so & _ & _ & S). cbn [step] in E. rewrite E in S. cbn [fst snd] in S.
  inversion S; subst; cbn in H2; intuition congruence.
Qed.

(** C42. What the service does to the host's memory and what it replies is
    exactly the sequential service of those requests (and so everything proved
    of histories in MemSvcProps holds here): each request acts on the region of
    the sandbox that sent it. *)
Theorem service_is_sequential c kq leak tr s : runs c kq leak tr s ->
  fst (MemSvcModel.run c init_state (memory_events tr)) = mem s
  /\ request_results (snd (MemSvcModel.run c init_state (memory_events tr))) = carried_out tr.
Proof.
  induction 1 as [|tr s o s' x R [IH1 IH2] P E]; [auto|].
  assert (EV : memory_events (tr ++ [(o, x)]) = memory_events tr ++ memory_events_of (o, x)) by (unfold memory_events; rewrite flat_map_app; cbn; rewrite app_nil_r; auto).
  rewrite EV, carried_snoc, mrun_app. destruct (MemSvcModel.run c init_state (memory_events tr)) as [m1 t1]. cbn [fst snd] in IH1, IH2. subst m1.
  pose proof (core_runs _ _ _ _ _ R) as C. pose proof (quiet _ _ _ _ _ _ _ C P E) as QX.
  assert (RR : forall a b, request_results (a ++ b) = request_results a ++ request_results b) by (intros; unfold request_results; apply flat_map_app).
  destruct o as [shm bits fd|i size ras mp|i a size|i|i p|i|l|b]; try subst x.
  - destruct (core_create c kq shm bits fd s C P) as [Y _]. rewrite E in Y. apply pair_equal_spec in Y; destruct Y as [-> _].
    cbn [memory_events_of fst snd flat_map MemSvcModel.run]. destruct (MemSvcModel.step c (mem s) (EvCreate shm bits)) as [m r] eqn:ST.
    cbn [fst snd mem]. rewrite RR, IH2. auto.
  - cbn [step] in E; apply pair_equal_spec in E; destruct E as [<- _]. cbn [memory_events_of fst snd flat_map MemSvcModel.run].
    destruct (MemSvcModel.step c (mem s) (EvHostAlloc i size ras mp)) as [m r] eqn:ST. cbn [fst snd mem]. rewrite RR, IH2. auto.
  - cbn [step] in E; apply pair_equal_spec in E; destruct E as [<- _]. cbn [memory_events_of fst snd flat_map MemSvcModel.run].
    destruct (MemSvcModel.step c (mem s) (EvHostFree i a size)) as [m r] eqn:ST. cbn [fst snd mem]. rewrite RR, IH2. auto.
  - cbn [step] in E; apply pair_equal_spec in E; destruct E as [<- _]. cbn [memory_events_of fst snd flat_map MemSvcModel.run].
    destruct (MemSvcModel.step c (mem s) (EvDestroy i)) as [m r] eqn:ST. cbn [fst snd mem]. rewrite RR, IH2. auto.
  - cbn [step] in E; apply pair_equal_spec in E; destruct E as [<- _]. cbn. rewrite !app_nil_r. auto.
  - cbn [step] in E; apply pair_equal_spec in E; destruct E as [<- _]. cbn. rewrite !app_nil_r. auto.
  - cbn [step] in E; apply pair_equal_spec in E; destruct E as [<- _]. destruct P as [T A]. cbn. rewrite !app_nil_r. split; auto.
    destruct (poll_step kq l s C T A) as [Y|[(Y & _)|(fd & so & F & _ & _ & Y)]]; cbn [step] in *; rewrite Y; auto.
  - destruct P as (fd & eof & T & _). destruct (serve_cases c kq b s fd eof C T) as (so & F & _ & S). cbn [step] in E. rewrite E in S. cbn [fst snd] in S.
    inversion S; subst; cbn [memory_events_of fst snd flat_map served_out map app MemSvcModel.run mem forget]; rewrite ?app_nil_r; auto;
      match goal with H : MemSvcModel.step _ _ _ = _ |- _ => rewrite H end; cbn [fst snd]; rewrite RR, IH2; auto.
Qed.

(** C42. One turn of the service concerns one sandbox only: every other one stays
    known under the same descriptor, with its unserved messages, and is neither
    answered nor killed. *)
Theorem others_unaffected c kq leak tr s b s' x fd eof j : runs c kq leak tr s ->
  th s = Picked fd eof -> find fd (ranges s) <> Some j -> step c kq (Serve b) s = (s', x) ->
  (forall n, find n (ranges s') = Some j <-> find n (ranges s) = Some j)
  /\ (forall n, find n (ranges s) = Some j -> find n (socks (kn s')) = find n (socks (kn s)))
  /\ forall y, In y x -> ~ about j y.
Proof.
  intros R T NJ E. pose proof (core_runs _ _ _ _ _ R) as C. destruct (serve_cases c kq b s fd eof C T) as (so & F & RG & S).
  cbn [step] in E. rewrite E in S. cbn [fst snd] in S. assert (OJ : owner so <> j) by congruence.
  assert (D : forall n, find n (ranges s) = Some j -> n <> fd) by (intros n H ->; congruence).
  assert (DR : forall n, find n (del fd (ranges s)) = Some j <-> find n (ranges s) = Some j).
  { intros n. destruct (Z.eq_dec n fd) as [->|N]; [|rewrite find_del_other; tauto].
    rewrite find_del_same by (eapply c_rnd; eauto). split; [discriminate|tauto]. }
  inversion S; subst; unfold forget; cbn [ranges kn k_close taken socks]; split; try apply DR; try tauto; split;
    try (intros n H9; pose proof (D n H9); rewrite ?find_del_other, ?find_alter by auto;
         try match goal with H : n <> fd |- _ => rewrite (proj2 (Z.eqb_neq n fd) H) end; reflexivity);
    cbn; intros y HY; intuition (subst; cbn in *; intuition congruence).
Qed.

Lemma known_owner kq s i : core kq s -> (known i s <-> exists fd so, find fd (socks (kn s)) = Some so /\ owner so = i).
Proof.
  intros C. unfold known. split.
  - intros (fd & H). rewrite (c_ranges _ _ C) in H. destruct (find fd (socks (kn s))) as [so|] eqn:F; [|discriminate]. injection H as <-. eauto.
  - intros (fd & so & F & <-). exists fd. rewrite (c_ranges _ _ C), F. auto.
Qed.
(** Forgotten sandboxes stay forgotten. *)
Lemma forgotten_step c kq leak o s s' x i : core kq s -> possible leak o s -> step c kq o s = (s', x) ->
  (i < length (g_box (mem s)))%nat -> ~ known i s ->
  ((i < length (g_box (mem s')))%nat /\ ~ known i s') /\ forall y, In y x -> ~ about i y.
Proof.
  intros C P E L NK. pose proof (quiet _ _ _ _ _ _ _ C P E) as QX. pose proof (core_step _ _ _ _ _ _ _ C P E) as C'.
  assert (SAME : ranges s' = ranges s -> (length (g_box (mem s)) <= length (g_box (mem s')))%nat -> x = [] ->
    ((i < length (g_box (mem s')))%nat /\ ~ known i s') /\ forall y, In y x -> ~ about i y).
  { intros RR LL ->. split; [split; [lia|]|intros y []]. unfold known in *. rewrite RR. auto. }
  destruct o as [shm bits fd|j size ras mp|j a size|j|j p|j|l|b]; cbn [possible] in P.
  - destruct (core_create c kq shm bits fd s C P) as [Y _]. rewrite E in Y. apply pair_equal_spec in Y; destruct Y as [-> ->]. clear SAME.
    pose proof (create_len c (mem s) shm bits) as SL. split; [split|intros y []].
    + cbn [mem]. lia.
    + intros (n & H). cbn [ranges find] in H. destruct (fd =? n); [injection H as <-; lia|]. apply NK. exists n. auto.
  - pinj E. apply SAME; auto. cbn [mem]. rewrite (same_len c (mem s) (EvHostAlloc j size ras mp)) by exact I. auto.
  - pinj E. apply SAME; auto. cbn [mem]. rewrite (same_len c (mem s) (EvHostFree j a size)) by exact I. auto.
  - pinj E. apply SAME; auto. cbn [mem]. rewrite (same_len c (mem s) (EvDestroy j)) by exact I. auto.
  - pinj E. apply SAME; auto.
  - pinj E. apply SAME; auto.
  - pinj E. destruct P as [T A].
    destruct (poll_step kq l s C T A) as [Y|[(Y & _)|(fd & so & F & _ & _ & Y)]]; cbn [step] in *; rewrite Y in *; apply SAME; auto.
  - destruct P as (fd & eof & T & _). destruct (serve_cases c kq b s fd eof C T) as (so & F & R & S). cbn [step] in E. rewrite E in S. cbn [fst snd] in S.
    clear SAME QX. assert (N : owner so <> i) by (intros <-; apply NK; exists fd; auto).
    assert (DK : ~ exists n, find n (del fd (ranges s)) = Some i).
    { intros (n & H). destruct (Z.eq_dec n fd) as [->|N2]; [rewrite find_del_same in H by (eapply c_rnd; eauto); discriminate|].
      rewrite find_del_other in H by auto. apply NK. exists n. auto. }
    inversion S; subst; unfold forget, known; cbn [ranges mem];
      try match goal with H : MemSvcModel.step _ _ _ = _ |- _ => apply req_len in H end;
      (split; [split; [lia|auto]|]); cbn; intros y HY; intuition (subst; cbn in *; intuition congruence).
Qed.
(** C42. When the service is told that a sandbox has hung up, or receives a short
    packet from it, or cannot reply to it, it forgets the sandbox (descriptor
    closed, not polled any more), and does nothing about it ever again.  In the
    last two cases it also kills it. *)
Theorem forgotten_for_good c kq leak tr s b x s1 fd eof i tr2 s2 : runs c kq leak tr s ->
  th s = Picked fd eof -> find fd (ranges s) = Some i -> step c kq (Serve b) s = (s1, x) -> eof = true \/ In (Kill i) x ->
  runs c kq leak (tr ++ (Serve b, x) :: tr2) s2 ->
  find fd (socks (kn s1)) = None /\ ~ In fd (reg (kn s1))
  /\ ~ known i s2 /\ forall o y, In (o, y) tr2 -> forall z, In z y -> ~ about i z.
Proof.
  intros R T F E K R2. pose proof (core_runs _ _ _ _ _ R) as C. destruct (serve_cases c kq b s fd eof C T) as (so & G & RG & S).
  cbn [step] in E. rewrite E in S. cbn [fst snd] in S. assert (OI : owner so = i) by congruence.
  assert (FG : exists k m, s1 = forget fd k m s /\ NoDup (map fst (socks k)) /\ length (g_box m) = length (g_box (mem s))).
  { pose proof (c_nd _ _ C). inversion S; subst.
    - eexists _, _. split; [reflexivity|]. auto.
    - destruct K as [->|[]]. congruence.
    - destruct K as [->|[K|[]]]; [congruence|discriminate].
    - eexists _, _. split; [reflexivity|]. cbn [taken socks]. rewrite keys_alter. eauto using req_len.
    - eexists _, _. split; [reflexivity|]. cbn [taken socks]. rewrite keys_alter. auto. }
  destruct FG as (k & m & -> & ND & LM). cbn [forget kn k_close socks reg]. split; [apply find_del_same; auto|].
  split; [rewrite in_unlist; tauto|].
  assert (NK : ~ known i (forget fd k m s)).
  { intros (n & H). cbn [forget ranges] in H. destruct (Z.eq_dec n fd) as [->|N2]; [rewrite find_del_same in H by (eapply c_rnd; eauto); discriminate|].
    rewrite find_del_other in H by auto. apply N2. rewrite (c_ranges _ _ C) in H. destruct (find n (socks (kn s))) as [s0|] eqn:F0; [|discriminate].
    injection H as H. eapply c_one; eauto. congruence. }
  assert (LI : (i < length (g_box (mem (forget fd k m s))))%nat) by (cbn [forget mem]; rewrite LM, <- OI; eapply c_owner; eauto).
  clear K S. assert (G2 : forall s2, runs c kq leak (tr ++ (Serve b, x) :: tr2) s2 ->
     ((i < length (g_box (mem s2)))%nat /\ ~ known i s2) /\ forall o y, In (o, y) tr2 -> forall z, In z y -> ~ about i z).
  { clear R2 s2. induction tr2 as [|[o y] tr2 IH] using rev_ind; intros s2 R2.
    - assert (s2 = forget fd k m s).
      { inversion R2 as [X|tr0 s0 o0 s0' x0 R0 P0 E0 X]; [destruct tr; discriminate|]. apply app_inj_tail in X. destruct X as [-> X]. injection X as -> ->.
        assert (s0 = s); [|subst; cbn [step] in E0; congruence].
        clear -R R0. revert s R. induction R0 as [|tr s0 o s0' x R0 IH P E]; intros s R.
        - inversion R as [X|? ? ? ? ? ? ? ? X]; auto. destruct tr; discriminate.
        - inversion R as [X|tr1 s1 o1 s1' x1 R1 P1 E1 X]; [destruct tr; discriminate|]. apply app_inj_tail in X. destruct X as [-> X]. injection X as -> ->.
          rewrite <- (IH _ R1) in E1. congruence. }
      subst. auto.
    - rewrite app_comm_cons, app_assoc in R2. inversion R2 as [X|tr0 s0 o0 s0' x0 R0 P0 E0 X]; [destruct (tr ++ (Serve b, x) :: tr2); discriminate|].
      apply app_inj_tail in X. destruct X as [-> X]. injection X as -> ->. subst s0'.
      destruct (IH _ R0) as [[A1 A2] A3]. destruct (forgotten_step _ _ _ _ _ _ _ i (core_runs _ _ _ _ _ R0) P0 E0 A1 A2) as [B1 B2].
      split; auto. intros o1 y1 H. apply in_app_or in H. destruct H as [H|[H|[]]]; [eauto|]. injection H as <- <-. auto. }
  destruct (G2 _ R2) as [[_ A] B]. auto.
Qed.
(** C42. Who is killed: only a sandbox whose message was short or whose reply did
    not fit. *)
Theorem killed_only_for_cause c kq leak tr s b s' x i : runs c kq leak tr s -> possible leak (Serve b) s ->
  step c kq (Serve b) s = (s', x) -> In (Kill i) x ->
  exists fd so, find fd (socks (kn s)) = Some so /\ owner so = i /\ ((exists q, inq so = Bad :: q) \/ b = false).
Proof.
  intros R (fd & eof & T & _) E K. pose proof (core_runs _ _ _ _ _ R) as C. destruct (serve_cases c kq b s fd eof C T) as (so & G & RG & S).
  cbn [step] in E. rewrite E in S. cbn [fst snd] in S. exists fd, so. split; auto.
  inversion S; subst; cbn in K; intuition (try discriminate; try congruence; eauto).
Qed.

(** C42. Poll reports only descriptors the service knows; the branch for unknown
    ones (135-138) is never taken. *)
Theorem polled_is_known c kq leak tr s fd eof : runs c kq leak tr s -> th s = Picked fd eof ->
  exists i, find fd (ranges s) = Some i.
Proof.
  intros R T. pose proof (core_runs _ _ _ _ _ R) as C. destruct (serve_cases c kq true s fd eof C T) as (so & _ & RG & _). eauto.
Qed.

(** C42. Progress: whenever the service is back at its poll and the oldest
    unserved message of a known, connected sandbox is a request, poll can report
    it and the service then carries it out and replies. *)
Theorem next_request_gets_reply c kq leak tr s i fd so rq q : runs c kq leak tr s -> th s = Idle ->
  find fd (socks (kn s)) = Some so -> owner so = i -> hup so = false -> inq so = Req rq :: q -> alive (mem s) i = true ->
  exists s1 s2 rs, possible leak (Poll [AEvent fd false]) s /\ step c kq (Poll [AEvent fd false]) s = (s1, [])
    /\ possible leak (Serve true) s1 /\ step c kq (Serve true) s1 = (s2, [Reply i i rq rs]) /\ th s2 = Idle.
Proof.
  intros R T F O H Q AL. pose proof (core_runs _ _ _ _ _ R) as C.
  assert (I : In fd (reg (kn s))) by (destruct (c_polled _ _ C fd) as [|X]; auto; congruence).
  assert (P1 : possible leak (Poll [AEvent fd false]) s).
  { split; auto. repeat constructor; auto. exists so. rewrite Q. split; auto. split; auto. left. discriminate. }
  set (s1 := St (kn s) (ranges s) (Picked fd false) (mem s)).
  assert (E1 : step c kq (Poll [AEvent fd false]) s = (s1, [])).
  { cbn [step]. unfold do_poll. rewrite T. destruct kq; reflexivity. }
  pose proof (core_step _ _ _ _ _ _ _ C P1 E1) as C1.
  destruct (serve_cases c kq true s1 fd false C1 eq_refl) as (so1 & F1 & _ & S). cbn [kn s1] in F1. rewrite F in F1. injection F1 as <-.
  assert (P2 : possible leak (Serve true) s1).
  { exists fd, false. split; auto. intros _ s0 F0. cbn [kn s1] in F0. congruence. }
  destruct (serve c true s1) as [s2 x] eqn:E2. cbn [fst snd] in S. rewrite O in S. exists s1, s2.
  inversion S; subst; cbn [s1 th mem] in *; try congruence.
  match goal with H : inq so = Req ?r :: _ |- _ => rewrite Q in H; injection H as -> -> end.
  exists rs. split; [exact P1|]. split; [exact E1|]. split; [exact P2|]. split; [exact E2|reflexivity].
Qed.

(** C42. With epoll the service never ends the host process unless epoll_wait
    fails for a reason other than a signal, and registering never aborts. *)
Theorem service_keeps_running c leak tr s : runs c false leak tr s ->
  (forall l x, In (Poll l, x) tr -> ~ In AFail l) -> th s <> Exited.
Proof.
  induction 1 as [|tr s o s' x R IH P E]; intros NF; [discriminate|].
  assert (NE : th s <> Exited) by (apply IH; intros l y H; eapply NF; apply in_or_app; left; eauto).
  pose proof (core_runs _ _ _ _ _ R) as C. destruct o as [shm bits fd|j size ras mp|j a size|j|j p|j|l|b]; cbn [possible] in P.
  - destruct (core_create c false shm bits fd s C P) as [Y _]. rewrite E in Y. apply pair_equal_spec in Y; destruct Y as [-> ->]. auto.
  - pinj E. auto.
  - pinj E. auto.
  - pinj E. auto.
  - pinj E. auto.
  - pinj E. auto.
  - pinj E. destruct P as [T A].
    destruct (poll_step false l s C T A) as [Y|[(Y & Z)|(fd & so & F & _ & _ & Y)]]; cbn [step]; rewrite Y; cbn; auto; try discriminate.
    exfalso. destruct Z as [Z|Z]; [|discriminate]. eapply NF; eauto. apply in_or_app. right. left. reflexivity.
  - destruct P as (fd & eof & T & _). destruct (serve_cases c false b s fd eof C T) as (so & F & RG & S). cbn [step] in E. rewrite E in S. cbn [fst snd] in S.
    inversion S; subst; cbn; try discriminate.
Qed.
Theorem registering_never_aborts c kq leak tr s o x : runs c kq leak tr s -> In (o, x) tr -> ~ In Abort x.
Proof.
  induction 1 as [|tr s o' s' x' R IH P E]; intros H; [destruct H|]. apply in_app_or in H. destruct H as [H|[H|[]]]; [auto|]. injection H as <- <-.
  pose proof (core_runs _ _ _ _ _ R) as C. pose proof (quiet _ _ _ _ _ _ _ C P E) as QX. destruct o'; try (subst; intros []; fail).
  destruct P as (fd & eof & T & _). destruct (serve_cases c kq sent s fd eof C T) as (so & F & RG & S). cbn [step] in E. rewrite E in S. cbn [fst snd] in S.
  inversion S; subst; cbn; intuition discriminate.
Qed.

(** C44. The service follows the pointer to a destroyed Library only if that
    Library was destroyed while it was known to the service... *)
Definition dead_known (s : st) (i : nat) : Prop := known i s /\ alive (mem s) i = false.
Theorem fault_needs_known_dead c kq leak tr s b s' x i : runs c kq leak tr s -> possible leak (Serve b) s ->
  step c kq (Serve b) s = (s', x) -> th s' = Fault i -> dead_known s i.
Proof.
  intros R (fd & eof & T & _) E K. pose proof (core_runs _ _ _ _ _ R) as C. destruct (serve_cases c kq b s fd eof C T) as (so & G & RG & S).
  cbn [step] in E. rewrite E in S. cbn [fst snd] in S. inversion S; subst; cbn in K; try discriminate. injection K as <-. split; auto. exists fd. auto.
Qed.

Lemma since_snoc tr x : since_poll (tr ++ [x]) = match fst x with Poll _ => [] | Destroy i => i :: since_poll tr | _ => since_poll tr end.
Proof. unfold since_poll. rewrite fold_left_app. reflexivity. Qed.
(** Without a leaked socket end, destroyed Libraries have hung up. *)
Record dead_ok (tr : history) (s : st) : Prop := {
  d_gone : forall fd so, find fd (socks (kn s)) = Some so -> alive (mem s) (owner so) = false -> hup so = true;
  d_picked : forall fd so, th s = Picked fd false -> find fd (socks (kn s)) = Some so -> alive (mem s) (owner so) = false -> In (owner so) (since_poll tr);
  d_fault : forall i, th s = Fault i -> In i (since_poll tr) }.
Lemma dead_ok_runs c kq tr s : runs c kq false tr s -> dead_ok tr s.
Proof.
  induction 1 as [|tr s o s' x R [D1 D2 D3] P E]; [constructor; cbn; intros; discriminate|].
  pose proof (core_runs _ _ _ _ _ R) as C.
  destruct o as [shm bits fd|j size ras mp|j a size|j|j p|j|l|b]; cbn [possible] in P.
  - destruct (core_create c kq shm bits fd s C P) as [Y _]. rewrite E in Y. apply pair_equal_spec in Y; destruct Y as [-> ->].
    constructor; cbn [kn mem th socks find]; intros; rewrite ?since_snoc; cbn [fst]; auto.
    + rewrite create_alive in H0. apply orb_false_iff in H0. destruct (fd =? fd0); [injection H as <-; destruct H0 as [H0 _]; cbn in H0; rewrite Nat.eqb_refl in H0; discriminate|].
      eapply D1; eauto. tauto.
    + rewrite create_alive in H1. apply orb_false_iff in H1. destruct (fd =? fd0); [injection H0 as <-; destruct H1 as [H1 _]; cbn in H1; rewrite Nat.eqb_refl in H1; discriminate|].
      eapply D2; eauto. tauto.
  - pinj E. constructor; cbn [kn mem th]; intros; rewrite ?since_snoc; cbn [fst]; auto.
    + eapply D1; eauto. rewrite <- (hostalloc_alive c (mem s) j size ras mp). exact H0.
    + eapply D2; eauto. rewrite <- (hostalloc_alive c (mem s) j size ras mp). exact H1.
  - pinj E. constructor; cbn [kn mem th]; intros; rewrite ?since_snoc; cbn [fst]; auto.
    + eapply D1; eauto. rewrite <- (hostfree_alive c (mem s) j a size). exact H0.
    + eapply D2; eauto. rewrite <- (hostfree_alive c (mem s) j a size). exact H1.
  - destruct P as [P|P]; [discriminate|]. pinj E. constructor; cbn [kn mem th]; intros; rewrite ?since_snoc; cbn [fst].
    + pose proof (destroy_alive c (mem s) j (owner so)) as X. cbn in X, H0. rewrite X in H0. destruct (Nat.eqb_spec j (owner so)) as [->|N]; [eapply P; eauto|]. eapply D1; eauto.
    + pose proof (destroy_alive c (mem s) j (owner so)) as X. cbn in X, H1. rewrite X in H1. destruct (Nat.eqb_spec j (owner so)) as [->|N]; [left; auto|]. right. eapply D2; eauto.
    + right. auto.
  - pinj E. constructor; cbn [kn mem th]; intros; rewrite ?since_snoc; cbn [fst]; auto.
    + rewrite find_at_end in H. destruct (find fd (socks (kn s))) as [s0|] eqn:F; [|discriminate]. cbn in H. injection H as <-.
      assert (O : owner (if Nat.eqb (owner s0) j then if hup s0 then s0 else Sock (owner s0) (inq s0 ++ [p]) false else s0) = owner s0)
        by (destruct (Nat.eqb (owner s0) j); auto; destruct (hup s0); auto).
      rewrite O in H0. rewrite (D1 _ _ F H0). destruct (Nat.eqb (owner s0) j); eauto.
    + rewrite find_at_end in H0. destruct (find fd (socks (kn s))) as [s0|] eqn:F; [|discriminate]. cbn in H0. injection H0 as <-.
      assert (O : owner (if Nat.eqb (owner s0) j then if hup s0 then s0 else Sock (owner s0) (inq s0 ++ [p]) false else s0) = owner s0)
        by (destruct (Nat.eqb (owner s0) j); auto; destruct (hup s0); auto).
      rewrite O in *. eauto.
  - pinj E. constructor; cbn [kn mem th]; intros; rewrite ?since_snoc; cbn [fst]; auto.
    + rewrite find_at_end in H. destruct (find fd (socks (kn s))) as [s0|] eqn:F; [|discriminate]. cbn in H. injection H as <-.
      destruct (Nat.eqb (owner s0) j); cbn in *; eauto.
    + rewrite find_at_end in H0. destruct (find fd (socks (kn s))) as [s0|] eqn:F; [|discriminate]. cbn in H0. injection H0 as <-.
      destruct (Nat.eqb (owner s0) j); cbn in *; eauto.
  - pinj E. destruct P as [T A].
    destruct (poll_step kq l s C T A) as [Y|[(Y & _)|(fd & so & F & _ & B & Y)]]; cbn [step]; rewrite Y;
      constructor; cbn [kn mem th socks]; intros; rewrite ?since_snoc; cbn [fst]; try congruence; eauto.
    injection H as <- HF. rewrite F in H0. injection H0 as <-. rewrite (D1 _ _ F H1) in HF. discriminate.
  - destruct P as (fd & eof & T & _). destruct (serve_cases c kq b s fd eof C T) as (so & F & RG & S). cbn [step] in E. rewrite E in S. cbn [fst snd] in S.
    assert (NDS : NoDup (map fst (socks (kn s)))) by (eapply c_nd; eauto).
    assert (DEL : forall q n s0, find n (del fd (alter fd (fun s1 => Sock (owner s1) q (hup s1)) (socks (kn s)))) = Some s0 -> find n (socks (kn s)) = Some s0).
    { intros q n s0 H. destruct (Z.eq_dec n fd) as [->|N]; [rewrite find_del_same in H by (rewrite keys_alter; auto); discriminate|].
      rewrite find_del_other, find_alter in H by auto. rewrite (proj2 (Z.eqb_neq n fd) N) in H. auto. }
    inversion S; subst; clear S; constructor; unfold forget; cbn [kn mem th k_close taken socks]; intros; rewrite ?since_snoc; cbn [fst]; try discriminate; eauto.
    + destruct (Z.eq_dec fd0 fd) as [->|N]; [rewrite find_del_same in H0 by auto; discriminate|]. rewrite find_del_other in H0 by auto. eauto.
    + injection H1 as <-. eauto.
    + match goal with HS : MemSvcModel.step _ _ _ = (m, _), HA : alive m _ = false, HF : find _ (alter _ _ _) = Some _ |- _ =>
        pose proof (req_alive c (mem s) (owner so) rq (owner so0)) as RA; rewrite HS in RA; cbn [fst] in RA; rewrite RA in HA;
        rewrite find_alter in HF; destruct (Z.eqb_spec fd0 fd) as [->|N]; [rewrite F in HF; cbn in HF; injection HF as <-; cbn in *; eauto|eauto] end.
    + match goal with HS : MemSvcModel.step _ _ _ = (m, _), HA : alive m _ = false, HF : find _ (del _ _) = Some _ |- _ =>
        pose proof (req_alive c (mem s) (owner so) rq (owner so0)) as RA; rewrite HS in RA; cbn [fst] in RA; rewrite RA in HA; apply DEL in HF; eauto end.
Qed.
(** ... and, when the sandbox's end of the socket is really closed by its exit,
    only if it was destroyed between the poll that reported a message of the
    sandbox and the handling of that message. *)
Theorem fault_needs_race c kq tr s i : runs c kq false tr s -> th s = Fault i -> In i (since_poll tr).
Proof. intros R H. apply dead_ok_runs in R. eapply d_fault; eauto. Qed.

Lemma dead_step c kq leak o s s' x i : core kq s -> possible leak o s -> step c kq o s = (s', x) ->
  (i < length (g_box (mem s')))%nat -> alive (mem s') i = false ->
  (i < length (g_box (mem s)))%nat /\ (alive (mem s) i = false \/ o = Destroy i).
Proof.
  intros C P E L A. destruct o as [shm bits fd|j size ras mp|j a size|j|j p|j|l|b]; cbn [possible] in P.
  - destruct (core_create c kq shm bits fd s C P) as [Y _]. rewrite E in Y. apply pair_equal_spec in Y; destruct Y as [-> ->]. cbn [mem] in *.
    rewrite create_alive in A. rewrite create_len in L. apply orb_false_iff in A. destruct A as [A1 A2]. apply Nat.eqb_neq in A1. split; [lia|auto].
  - pinj E. cbn [mem] in *. rewrite hostalloc_alive in A. rewrite (same_len c (mem s) (EvHostAlloc j size ras mp) I) in L. auto.
  - pinj E. cbn [mem] in *. rewrite hostfree_alive in A. rewrite (same_len c (mem s) (EvHostFree j a size) I) in L. auto.
  - pinj E. cbn [mem] in *. rewrite destroy_alive in A. rewrite (same_len c (mem s) (EvDestroy j) I) in L. split; auto.
    destruct (Nat.eqb_spec j i) as [->|N]; auto.
  - pinj E. auto.
  - pinj E. auto.
  - pinj E. destruct P as [T B]. destruct (poll_step kq l s C T B) as [Y|[(Y & _)|(fd & so & F & _ & _ & Y)]]; rewrite Y in *; auto.
  - destruct P as (fd & eof & T & _). destruct (serve_cases c kq b s fd eof C T) as (so & F & RG & S). cbn [step] in E. rewrite E in S. cbn [fst snd] in S.
    inversion S; subst; cbn [mem forget] in *; auto;
      match goal with HS : MemSvcModel.step _ _ _ = (?m, _) |- _ => pose proof (req_alive c (mem s) (owner so) rq i) as RA; pose proof (req_len _ _ _ _ _ _ HS);
        rewrite HS in RA; cbn [fst] in RA; rewrite RA in A end; split; auto; lia.
Qed.
(** C44. Destroying a Library only after the service has forgotten its sandbox is
    safe. *)
Theorem service_safe_if_destroyed_late c kq leak tr s : runs c kq leak tr s ->
  (forall a i x b s0, tr = a ++ (Destroy i, x) :: b -> runs c kq leak a s0 -> ~ known i s0) ->
  forall i, th s <> Fault i.
Proof.
  intros R H.
  assert (G : (forall i, (i < length (g_box (mem s)))%nat -> alive (mem s) i = false -> ~ known i s) /\ forall i, th s <> Fault i); [|apply G].
  induction R as [|tr s o s' x R IH P E]; [split; [intros i L; cbn in L; lia|discriminate]|].
  destruct IH as [IH1 IH2]. { intros a i y b s0 X. eapply (H a i y (b ++ [(o, x)])). rewrite X, <- app_assoc. reflexivity. }
  pose proof (core_runs _ _ _ _ _ R) as C. split.
  - intros i L A. destruct (dead_step _ _ _ _ _ _ _ i C P E L A) as [L0 [A0|D]].
    + apply (forgotten_step _ _ _ _ _ _ _ i C P E L0 (IH1 i L0 A0)).
    + subst o. assert (NK : ~ known i s) by (eapply (H tr i x []); eauto). apply (forgotten_step _ _ _ _ _ _ _ i C P E L0 NK).
  - intros i K. destruct o as [shm bits fd|j size ras mp|j a size|j|j p|j|l|b]; cbn [possible] in P.
    + destruct (core_create c kq shm bits fd s C P) as [Y _]. rewrite E in Y. apply pair_equal_spec in Y; destruct Y as [-> ->]. cbn in K. eapply IH2; eauto.
    + pinj E. eapply IH2; eauto.
    + pinj E. eapply IH2; eauto.
    + pinj E. eapply IH2; eauto.
    + pinj E. eapply IH2; eauto.
    + pinj E. eapply IH2; eauto.
    + pinj E. destruct P as [T B]. destruct (poll_step kq l s C T B) as [Y|[(Y & _)|(fd & so & F & _ & _ & Y)]]; rewrite Y in K; cbn in K; try discriminate. eapply IH2; eauto.
    + destruct (fault_needs_known_dead _ _ _ _ _ _ _ _ _ R P E K) as [KN AL]. eapply IH1; eauto.
      destruct KN as (fd & KN). rewrite (c_ranges _ _ C) in KN. destruct (find fd (socks (kn s))) as [so|] eqn:F; [|discriminate]. injection KN as <-. eapply c_owner; eauto.
Qed.

(** *** Concrete histories *)
Definition ex_cfg : cfg := Cfg 14 4096 64 (fun r => Z.land r (-256)) (fun r => Z.land r 127 * 16) 128.
Definition ex_req : request := Request 0 16384 0 0 0.
Fixpoint go c kq (os : list op) tr (s : st) : history * st :=
  match os with [] => (tr, s) | o :: r => let (s', x) := step c kq o s in go c kq r (tr ++ [(o, x)]) s' end.
Fixpoint oks c kq leak (os : list op) (s : st) : Prop :=
  match os with [] => True | o :: r => possible leak o s /\ oks c kq leak r (fst (step c kq o s)) end.
Lemma go_runs c kq leak os : forall tr s, runs c kq leak tr s -> oks c kq leak os s -> runs c kq leak (fst (go c kq os tr s)) (snd (go c kq os tr s)).
Proof.
  induction os as [|o os IH]; intros tr s R O; cbn [go]; auto. destruct O as [O1 O2]. destruct (step c kq o s) as [s' x] eqn:E.
  apply IH; [econstructor; eauto|auto].
Qed.

Lemma gone_all i s : Forall (fun x => owner (snd x) = i -> hup (snd x) = true) (socks (kn s)) -> gone i s.
Proof.
  intros H fd so F. rewrite Forall_forall in H. apply (H (fd, so)). clear H. induction (socks (kn s)) as [|[n a] l IH]; cbn in F; [discriminate|].
  destruct (Z.eqb_spec n fd) as [->|N]; [left; congruence|right; auto].
Qed.
(** C44, limit. For every configuration and region, a history in which the
    service uses a Library after its destruction: the sandbox sends a request,
    the service's poll reports it, the sandbox exits, the host destroys the
    Library, and then the service handles the message. *)
Definition race (shm : Z) (bits : nat) (rq : request) : list op :=
  [Create shm bits 9; Send 0 (Req rq); Poll [AEvent 9 false]; Hang 0; Destroy 0; Serve false].
Theorem library_outlives_service_refuted c kq shm bits rq :
  exists tr s, runs c kq false tr s /\ map fst tr = race shm bits rq /\ th s = Fault 0.
Proof.
  eexists _, _. split; [refine (go_runs c kq false (race shm bits rq) [] init (runs_0 c kq false) _)|split].
  - cbn -[library_destroy initial_free]. split; [reflexivity|]. split; [lia|]. split; [split; [reflexivity|]|].
    { repeat constructor; destruct kq; cbn; auto; eexists; (split; [reflexivity|]); split; auto; left; discriminate. }
    destruct kq; cbn -[library_destroy initial_free]; (split; [lia|]; split; [right; apply gone_all; repeat constructor|]; split; [|exact I]; exists 9, false; split; [reflexivity|discriminate]).
  - destruct kq; reflexivity.
  - destruct kq; reflexivity.
Qed.
(** C44, limit. With the leaked copy of the sandbox's end (C51) no race is
    needed: the message of an exited sandbox is still reported as a message after
    the Library is gone, however late the service polls. *)
Definition late (shm : Z) (bits : nat) (rq : request) : list op :=
  [Create shm bits 9; Send 0 (Req rq); Destroy 0; Poll [AEvent 9 false]; Serve false].
Theorem leaked_end_breaks_lifetime c kq shm bits rq :
  exists tr s, runs c kq true tr s /\ map fst tr = late shm bits rq /\ th s = Fault 0.
Proof.
  eexists _, _. split; [refine (go_runs c kq true (late shm bits rq) [] init (runs_0 c kq true) _)|split].
  - cbn -[library_destroy initial_free]. split; [reflexivity|]. split; [lia|]. split; [left; reflexivity|]. split; [split; [reflexivity|]|].
    { repeat constructor; destruct kq; cbn; auto; eexists; (split; [reflexivity|]); split; auto; left; discriminate. }
    destruct kq; cbn -[library_destroy initial_free]; (split; [|exact I]; exists 9, false; split; [reflexivity|discriminate]).
  - destruct kq; reflexivity.
  - destruct kq; reflexivity.
Qed.
(** C42, limit. With kqueue a signal delivered to the service thread ends the
    host. *)
Theorem kqueue_signal_ends_host c leak l tr s : runs c true leak tr s -> th s = Idle -> Forall (answer_ok (kn s)) l ->
  possible leak (Poll (AIntr :: l)) s /\ th (fst (step c true (Poll (AIntr :: l)) s)) = Exited.
Proof. intros R T A. split; [split; [auto|constructor; [exact I|auto]]|]. cbn. unfold do_poll. rewrite T. reflexivity. Qed.

(** Two sandboxes: the second sends rubbish and is killed; the first, whose
    request came later, is answered. *)
Definition two : list op :=
  [Create (2^30) 30 9; Create (2^31) 30 10; Send 1 Bad; Send 0 (Req ex_req); Poll [AIntr; AEvent 10 false]; Serve true;
   Poll [AEvent 9 false]; Serve true; Hang 0; Poll [AEvent 9 true]; Serve false; Destroy 0].
Example svc_ex : oks ex_cfg false false (firstn 8 two) init
  /\ flat_map snd (fst (go ex_cfg false (firstn 8 two) [] init)) = [Kill 1; Reply 0 0 ex_req (Response 0 (2^30 + 16384))].
Proof.
  split.
  - cbn -[MemSvcModel.step new_box]. repeat (split; auto); try lia; repeat constructor; cbn; auto; try (eexists; split; [reflexivity|]; split; auto; left; discriminate);
    try (eexists _, _; split; [reflexivity|]; intros _ so F; cbn in F; injection F as <-; reflexivity).
  - vm_compute. reflexivity.
Qed.

Print Assumptions requests_served_in_order.
Print Assumptions reply_to_requester.
Print Assumptions service_is_sequential.
Print Assumptions others_unaffected.
Print Assumptions forgotten_for_good.
Print Assumptions killed_only_for_cause.
Print Assumptions polled_is_known.
Print Assumptions next_request_gets_reply.
Print Assumptions service_keeps_running.
Print Assumptions registering_never_aborts.
Print Assumptions kqueue_signal_ends_host.
Print Assumptions fault_needs_known_dead.
Print Assumptions fault_needs_race.
Print Assumptions service_safe_if_destroyed_late.
Print Assumptions library_outlives_service_refuted.
Print Assumptions leaked_end_breaks_lifetime.
