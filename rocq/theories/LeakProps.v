(** What the sandboxes can learn from the pagemap (C83).

    One pagemap describes the memory of every sandbox (C44), and the child's
    bootstrap maps all of it for reading
    (src/library_runner.cc 413-421, src/libsandbox.cc 811-826;
    BootProps.v shows the mapping).  [seen] is therefore what every sandbox,
    whatever its number, reads about the address x. *)
From Coq Require Import List ZArith Lia Bool.
From Verif Require Import Base RegionModel RegionSpec RegionProof BuddyModel BuddyProof
  MemSvcModel MemSvcSpec MemSvcProof MemSvcProps MemSvcNISpec MemSvcNI.
Import ListNotations.
Open Scope Z_scope.

Definition seen (c : cfg) (st : gstate) (x : Z) : entry := g_pm st (x / chunk c).

(** Nobody's memory: x lies in no region that is alive. *)
Definition outside (bk : book) (x : Z) : Prop :=
  forall i r, nth_error (regions bk) i = Some r -> r_live r = true -> ~ (r_start r <= x < r_end r).

(** Which sandbox an event is about. *)
Definition about (ev : event) : option nat :=
  match ev with
  | EvReq i _ | EvHostAlloc i _ _ _ | EvHostFree i _ _ | EvDestroy i => Some i
  | EvCreate _ _ => None
  end.

Lemma step_elsewhere c st bk hp ev st' rs x :
  cfg_ok c -> hinv c st bk hp -> hostile_ok c bk ev -> step c st ev = (st', rs) ->
  (forall i b, about ev = Some i -> nth_error (g_box st) i = Some b -> b_live b = true ->
     ~ (b_shm b <= x < b_shm b + region_size b)) ->
  g_pm st' (x / chunk c) = g_pm st (x / chunk c).
Proof.
  intros C I H Hs Out. pose proof (H_layout _ _ _ _ I) as L.
  assert (Far : forall i b a size, about ev = Some i -> nth_error (g_box st) i = Some b -> b_live b = true ->
            b_shm b <= a -> a + size <= b_shm b + region_size b -> inblk a size x = false).
  { intros i b a size Ab Hi Lv B1 B2. destruct (inblk a size x) eqn:Q; [|reflexivity].
    apply inblk_true in Q. exfalso. apply (Out i b Ab Hi Lv). lia. }
  destruct ev as [i rq|i size ras mp|i a size|shm bits|i]; cbn [step about] in Hs, Out, Far.
  - destruct (on_box_cases st i (fun pm b => service c pm b rq)) as [(b & Hi & Lv & E)|E];
      rewrite E in Hs; injection Hs as <- <-; [|reflexivity].
    cbn [hostile_ok] in H.
    destruct (service c (g_pm st) b rq) as [[pm' b'] r] eqn:S. cbn [fst snd g_pm].
    pose proof (L_ok _ _ _ L i b Hi Lv) as R.
    pose proof (H_free _ _ _ _ I i b Hi Lv) as Rf.
    destruct (region_rough_pre _ _ _ R) as [P1 P2].
    apply service_effect in S; auto. destruct S as [rs R0 R1|a free' K CS V A|K CS Ca B1 B2 OB]; [reflexivity| |].
    + pose proof CS as (n & Hn & Hsz). rewrite Hsz in A.
      destruct (remove_block_f_rough _ _ _ P1 P2 _ _ _ _ _ Hn Rf A) as [F1 F2].
      destruct (rough_region _ _ _ _ R F2) as (G1 & G2 & G3). rewrite <- Hsz in G3.
      rewrite set_metaentry_spec by auto. rewrite (Far i b) by auto. reflexivity.
    + rewrite set_metaentry_spec by auto. pose proof (chunk_pos c).
      rewrite (Far i b) by (auto; lia). reflexivity.
  - destruct (on_box_cases st i (fun pm b => host_alloc c pm b size ras mp)) as [(b & Hi & Lv & E)|E];
      rewrite E in Hs; injection Hs as <- <-; [|reflexivity].
    cbn [hostile_ok] in H. destruct H as (CS & M1 & M2). unfold host_alloc.
    pose proof (L_ok _ _ _ L i b Hi Lv) as R.
    pose proof (H_free _ _ _ _ I i b Hi Lv) as Rf.
    destruct (region_rough_pre _ _ _ R) as [P1 P2].
    destruct (alloc_range (b_free b) size) as [[a free']|] eqn:A; cbn [fst snd g_pm]; [|reflexivity].
    pose proof CS as (n & Hn & Hsz). rewrite Hsz in A.
    destruct (remove_block_f_rough _ _ _ P1 P2 _ _ _ _ _ Hn Rf A) as [F1 F2].
    destruct (rough_region _ _ _ _ R F2) as (G1 & G2 & G3). rewrite <- Hsz in G3.
    rewrite set_metaentry_spec by auto. rewrite (Far i b) by auto. reflexivity.
  - destruct (on_box_cases st i (fun pm b => host_free c pm b a size)) as [(b & Hi & Lv & E)|E];
      rewrite E in Hs; injection Hs as <- <-; [|reflexivity].
    cbn [hostile_ok] in H. destruct H as (CS & Ca & IR).
    unfold host_free, backend_dealloc; cbn [fst snd g_pm].
    destruct (in_region_box _ _ _ _ _ _ L IR) as (b0 & Hi0 & _ & R1 & R2).
    rewrite Hi in Hi0. injection Hi0 as <-.
    rewrite set_metaentry_spec by auto. rewrite (Far i b) by auto. reflexivity.
  - injection Hs as <- <-. reflexivity.
  - destruct (on_box_cases st i (fun pm b =>
      (fst (library_destroy c pm b), Sbx (b_shm b) (b_bits b) (b_free b) false, Response 0 0)))
      as [(b & Hi & Lv & E)|E];
      rewrite E in Hs; injection Hs as <- <-; [|reflexivity].
    cbn [fst snd g_pm].
    apply (library_destroy_clears_region c (g_pm st) b x C (L_ok _ _ _ L i b Hi Lv)). eauto.
Qed.

Lemma requests_elsewhere c j b x : cfg_ok c -> forall reqs st bk hp st' tr,
  hinv c st bk hp -> nth_error (g_box st) j = Some b -> b_live b = true ->
  b_shm b <= x < b_shm b + region_size b ->
  (forall ev, In ev reqs -> exists i rq, ev = EvReq i rq /\ i <> j /\ request_words rq) ->
  run c st reqs = (st', tr) -> g_pm st' (x / chunk c) = g_pm st (x / chunk c).
Proof.
  intros C. induction reqs as [|ev r IH]; intros st bk hp st' tr I Hj Lv X A H; cbn in H.
  - injection H as <- <-. reflexivity.
  - destruct (step c st ev) as [st1 rs] eqn:S. destruct (run c st1 r) as [st2 tr2] eqn:E.
    injection H as <- <-. destruct (A ev (or_introl eq_refl)) as (i & rq & -> & Ne & Wr).
    pose proof (H_layout _ _ _ _ I) as L.
    pose proof (hinv_step c st bk hp (EvReq i rq) st1 rs C I Wr S) as I1.
    assert (Hj1 : nth_error (g_box st1) j = Some b).
    { cbn [step] in S. destruct (on_box_cases st i (fun pm b => service c pm b rq)) as [(b' & Hi & Lb & E')|E'];
        rewrite E' in S; injection S as <- <-; [|exact Hj].
      cbn [g_box]. rewrite upd_other by exact Ne. exact Hj. }
    rewrite (IH _ _ _ _ _ I1 Hj1 Lv X (fun e He => A e (or_intror He)) E).
    eapply (step_elsewhere c st bk hp (EvReq i rq)); eauto. intros k b' Q Hi Lb Hx. injection Q as <-.
    destruct (L_apart _ _ _ L i j b' b Hi Hj Lb Lv Ne); lia.
Qed.

(** ** The limit: addresses in the host *)

(** When the host allocates a slab in a sandbox, the address of its private
    record of that slab, which lies in the host's own memory, is readable in
    every sandbox, and stays readable whatever the sandboxes ask for. *)
Theorem pagemap_shows_host_addresses : forall c evs st tr i size ras mp st1 rs reqs st2 tr2,
  cfg_ok c -> polite_history c evs -> run c init_state evs = (st, tr) ->
  chunk_size c size -> (16 | mp) -> 0 <= mp ->
  step c st (EvHostAlloc i size ras mp) = (st1, rs) -> rs_error rs = 0 ->
  (forall ev, In ev reqs -> exists j rq, ev = EvReq j rq) ->
  admissible (polite_ok c) c st1 (note (books tr) (EvHostAlloc i size ras mp, rs)) reqs ->
  run c st1 reqs = (st2, tr2) ->
  forall x, rs_ret rs <= x < rs_ret rs + size ->
    get_slab_metadata (seen c st2 x) = mp /\ e_ras (seen c st2 x) = ras /\
    is_sandbox_owned (seen c st2 x) = false.
Proof.
  intros c evs st tr i size ras mp st1 rs reqs st2 tr2 C P H Sz A16 Pm S Ok Rq Ad H2 x X.
  set (ev := EvHostAlloc i size ras mp) in *.
  assert (Pe : polite_ok c (books tr) ev) by (split; [split; auto|exact I]).
  assert (P1 : polite_history c (evs ++ [ev])) by (eapply admissible_snoc; eauto).
  pose proof (run_snoc _ _ _ _ _ _ _ _ H S) as H1.
  assert (B1 : books (tr ++ [(ev, rs)]) = note (books tr) (ev, rs)) by (unfold books; rewrite fold_left_app; reflexivity).
  rewrite <- B1 in Ad.
  destruct (host_chunks_fresh_aligned_blocks c evs st tr i size ras mp st1 rs C P H Sz A16 Pm S Ok)
    as (_ & r & _ & _ & _ & _ & En).
  assert (Ow : owner (books (tr ++ [(ev, rs)])) x = Host).
  { rewrite B1. unfold note, ev. rewrite Ok. cbn. unfold set_owner.
    destruct (Z.leb_spec (rs_ret rs) x); [|lia]. destruct (Z.ltb_spec x (rs_ret rs + size)); [reflexivity|lia]. }
  unfold seen.
  rewrite (memsvc_host_entries_survive c _ _ _ reqs st2 tr2 C P1 H1 Rq Ad H2 x (or_introl Ow)).
  destruct (En x X) as (E1 & E2). split; [exact E1|]. split; [exact E2|].
  destruct (is_sandbox_owned (g_pm st1 (x / chunk c))) eqn:E; auto.
  apply (memsvc_mark_is_ownership c _ _ _ _ C P1 H1) in E. congruence.
Qed.
Print Assumptions pagemap_shows_host_addresses.

Lemma aligned_slab v ras : (16 | v) -> get_slab_metadata (Entry v ras) = v.
Proof.
  intros [q ->]. unfold get_slab_metadata; cbn [e_meta].
  apply Z.bits_inj'. intros n Hn. rewrite Z.ldiff_spec, Z.lor_spec.
  unfold SANDBOX_BIT, META_BOUNDARY_BIT.
  change 8 with (2 ^ 3). change 1 with (2 ^ 0). change 16 with (2 ^ 4).
  rewrite !Z.pow2_bits_eqb by lia. rewrite Z.mul_pow2_bits by lia.
  destruct (Z_lt_le_dec n 4) as [L|L].
  - rewrite Z.testbit_neg_r by lia. reflexivity.
  - replace (3 =? n) with false by (symmetry; apply Z.eqb_neq; lia).
    replace (0 =? n) with false by (symmetry; apply Z.eqb_neq; lia). apply andb_true_r.
Qed.

(** ** The limit: a channel between sandboxes *)

(** Any word that is a multiple of 16 can be published: sandbox j asks for a
    chunk and gives the word as the slab address.  Unless j's heap is
    exhausted the host grants it, stores the word unchecked where every other
    sandbox reads it, and it stays there whatever the others then ask for. *)
Theorem pagemap_is_a_channel : forall c evs st tr j r v st1 rs reqs st2 tr2,
  cfg_ok c -> class_bytes c 0 <= chunk c -> (cbits c < 64)%nat ->
  hostile_history c evs -> run c init_state evs = (st, tr) ->
  nth_error (regions (books tr)) j = Some r -> r_live r = true ->
  is_word v -> (16 | v) ->
  step c st (EvReq j (Request 0 (chunk c) v 0 0)) = (st1, rs) ->
  (forall ev, In ev reqs -> exists i rq, ev = EvReq i rq /\ i <> j /\ request_words rq) ->
  run c st1 reqs = (st2, tr2) ->
  rs_error rs = 2 \/
  (rs_error rs = 0 /\ r_start r <= rs_ret rs /\ rs_ret rs + chunk c <= r_end r /\
   forall x, rs_ret rs <= x < rs_ret rs + chunk c ->
     get_slab_metadata (seen c st2 x) = v /\ e_ras (seen c st2 x) = 0).
Proof.
  intros c evs st tr j r v st1 rs reqs st2 tr2 C Cb Cw P H Hr Lr Wv A16 S Rq H2.
  pose proof (hostile_inv c evs st tr C P H) as I. pose proof (H_layout _ _ _ _ I) as L.
  destruct (book_region_box _ _ _ _ _ L Hr) as (b & Hi & ->). cbn [box_region r_live] in Lr.
  pose proof (L_ok _ _ _ L j b Hi Lr) as R. pose proof (chunk_pos c) as Pc.
  assert (CS : chunk_size c (chunk c)) by (exists (Z.of_nat (cbits c)); split; [lia|reflexivity]).
  assert (Wc : is_word (chunk c)).
  { unfold is_word, chunk. split; [lia|]. change W with (2 ^ 64). apply Z.pow_lt_mono_r; lia. }
  set (rq := Request 0 (chunk c) v 0 0) in *.
  assert (Wr : request_words rq) by (repeat split; try apply Wc; try apply Wv; cbn; lia).
  assert (E : rs_error rs = 0 \/ rs_error rs = 2).
  { pose proof S as S2. cbn [step] in S2. unfold on_box in S2. rewrite Hi, Lr in S2.
    destruct (service c (g_pm st) b rq) as [[pm' b'] rs'] eqn:Sv. injection S2 as <- <-.
    destruct (memsvc_alloc_replies c _ _ _ _ _ _ C R Wr eq_refl Sv) as (_ & _ & X2 & X0).
    assert (M : metadata_ok c (box_region b) (rq_0 rq) (rq_2 rq)).
    { split; [left; apply C|exact Cb]. }
    destruct (alloc_range (b_free b) (rq_0 rq)) eqn:Al; [left; apply X0|right; apply X2];
      repeat split; auto; try exact CS; try apply M; discriminate. }
  destruct E as [E|E]; [right|left; exact E]. split; [exact E|].
  destruct (memsvc_grant_installs_checked_entry c evs st tr j rq st1 rs C P H Wr eq_refl S E)
    as (r0 & Hr0 & _ & _ & _ & En).
  pose proof (hinv_step c st (books tr) _ (EvReq j rq) st1 rs C I Wr S) as I1.
  assert (B : b_shm b <= rs_ret rs /\ rs_ret rs + chunk c <= b_shm b + region_size b /\
              exists b1, nth_error (g_box st1) j = Some b1 /\ b_live b1 = true /\ b_shm b1 = b_shm b /\ b_bits b1 = b_bits b).
  { pose proof S as S2. cbn [step] in S2. unfold on_box in S2. rewrite Hi, Lr in S2.
    destruct (service c (g_pm st) b rq) as [[pm' b'] rs'] eqn:Sv. injection S2 as <- <-.
    pose proof (H_free _ _ _ _ I j b Hi Lr) as Rf.
    destruct (region_rough_pre _ _ _ R) as [P1 P2].
    apply service_effect in Sv; auto. destruct Sv as [rs R0 R1|a free' K CS' V A|K CS' Ca B1 B2 OB].
    - exfalso. destruct (R1 E) as [X _]. apply X. reflexivity.
    - assert (Hsz : rq_0 rq = 2 ^ Z.of_nat (cbits c)) by reflexivity. rewrite Hsz in A.
      destruct (remove_block_f_rough _ _ _ P1 P2 _ _ _ _ _ (Z.le_refl _) Rf A) as [F1 F2].
      destruct (rough_region _ _ _ _ R F2) as (G1 & G2 & G3).
      cbn [rs_ret]. fold (chunk c) in G3. split; [exact G2|]. split; [exact G3|].
      cbn [g_box]. eexists. split; [apply (upd_same _ _ _ _ Hi)|]. auto.
    - discriminate K. }
  destruct B as (B1 & B2 & b1 & Hj1 & L1 & Es & Eb).
  unfold r_end; cbn [box_region r_start r_bits]. fold (region_size b).
  split; [exact B1|]. split; [exact B2|]. intros x X. unfold seen.
  rewrite (requests_elsewhere c j b1 x C reqs st1 _ _ st2 tr2 I1 Hj1 L1) by
    (auto; unfold region_size in *; rewrite Es, Eb; lia).
  destruct (En x X) as (_ & E1 & E2). split; [|exact E1]. rewrite E2.
  apply aligned_slab. exact A16.
Qed.
Print Assumptions pagemap_is_a_channel.


(** So sandboxes are not isolated from each other through the pagemap, although
    they are through the replies (C71): two runs in which sandbox i is asked
    and told the same differ in what i can read, by whatever j chose. *)
Theorem pagemap_noninterference_refuted : forall c evs st tr i j r v1 v2 st1 st2 rs1 rs2,
  cfg_ok c -> class_bytes c 0 <= chunk c -> (cbits c < 64)%nat ->
  hostile_history c evs -> run c init_state evs = (st, tr) ->
  nth_error (regions (books tr)) j = Some r -> r_live r = true -> i <> j ->
  is_word v1 -> (16 | v1) -> is_word v2 -> (16 | v2) -> v1 <> v2 ->
  step c st (EvReq j (Request 0 (chunk c) v1 0 0)) = (st1, rs1) ->
  step c st (EvReq j (Request 0 (chunk c) v2 0 0)) = (st2, rs2) ->
  without_others i (evs ++ [EvReq j (Request 0 (chunk c) v1 0 0)])
    = without_others i (evs ++ [EvReq j (Request 0 (chunk c) v2 0 0)]) /\
  rs1 = rs2 /\
  (rs_error rs1 = 2 \/
   exists x, get_slab_metadata (seen c st1 x) = v1 /\ get_slab_metadata (seen c st2 x) = v2).
Proof.
  intros c evs st tr i j r v1 v2 st1 st2 rs1 rs2 C Cb Cw P H Hr Lr Ne W1 A1 W2 A2 Nv S1 S2.
  split.
  { unfold without_others. rewrite !filter_app. f_equal. cbn.
    destruct (Nat.eqb_spec j i); [congruence|reflexivity]. }
  assert (E : rs1 = rs2).
  { revert S1 S2. cbn [step]. unfold on_box. destruct (nth_error (g_box st) j) as [b|]; [|congruence].
    destruct (b_live b); [|congruence]. unfold service, service_alloc; cbn [rq_kind rq_0 rq_1 rq_2 Z.eqb].
    unfold is_metaentry_valid; cbn [e_ras].
    destruct (_ || _); [intros; congruence|]. destruct (negb _); [intros; congruence|].
    destruct (alloc_range _ _) as [[a f]|]; intros; congruence. }
  split; [exact E|]. subst rs2. pose proof (chunk_pos c) as Pc.
  destruct (pagemap_is_a_channel c evs st tr j r v1 st1 rs1 [] st1 [] C Cb Cw P H Hr Lr W1 A1 S1
             (fun _ X => match X with end) eq_refl) as [X|(_ & _ & _ & X1)]; [left; exact X|].
  destruct (pagemap_is_a_channel c evs st tr j r v2 st2 rs1 [] st2 [] C Cb Cw P H Hr Lr W2 A2 S2
             (fun _ X => match X with end) eq_refl) as [X|(_ & _ & _ & X2)]; [left; exact X|].
  right. exists (rs_ret rs1). split; [apply X1|apply X2]; lia.
Qed.
Print Assumptions pagemap_noninterference_refuted.

(** ** What is not shown *)

(** Whatever the sandboxes do, the pagemap is blank outside the memory of the
    sandboxes that are alive: it says nothing about the rest of the host. *)
Theorem pagemap_blank_outside_sandboxes : forall c evs st tr x,
  cfg_ok c -> hostile_history c evs -> run c init_state evs = (st, tr) ->
  outside (books tr) x -> entry_is_clear (seen c st x).
Proof.
  intros c evs st tr x C P H. revert x.
  assert (G : forall evs st bk hp st' tr, hinv c st bk hp -> admissible (hostile_ok c) c st bk evs ->
            run c st evs = (st', tr) ->
            (forall x, outside bk x -> entry_is_clear (seen c st x)) ->
            forall x, outside (fold_left note tr bk) x -> entry_is_clear (seen c st' x)).
  { clear evs st tr P H. intros evs. induction evs as [|ev r IH]; intros st bk hp st' tr I A H B; cbn in H.
    - injection H as <- <-. exact B.
    - cbn in A. destruct A as [Pe A]. destruct (step c st ev) as [st1 rs] eqn:S.
      destruct (run c st1 r) as [st2 tr2] eqn:E. injection H as <- <-. cbn [fold_left].
      pose proof (hinv_step _ _ _ _ _ _ _ C I Pe S) as I1.
      apply (IH _ _ _ _ _ I1 A E). clear IH E A tr2 st2. intros x O.
      pose proof (H_layout _ _ _ _ I) as L. pose proof (H_layout _ _ _ _ I1) as L1.
      (* either x was outside before, or the event is the end of its region *)
      assert (D : (exists i b, ev = EvDestroy i /\ nth_error (g_box st) i = Some b /\ b_live b = true /\
                     b_shm b <= x < b_shm b + region_size b) \/ outside bk x).
      { assert (Same : regions (note bk (ev, rs)) = regions bk -> outside bk x).
        { intros Q i r0. rewrite <- Q. apply O. }
        destruct ev as [i rq|i size ras mp|i a size|shm bits|i].
        - right. apply Same. cbn [note].
          destruct (rs_error rs =? 0), (rq_kind rq =? 0), (rq_kind rq =? 1); reflexivity.
        - right. apply Same. cbn [note]. destruct (rs_error rs =? 0); reflexivity.
        - right. apply Same. cbn [note]. destruct (rs_error rs =? 0); reflexivity.
        - right. intros i r0 Hr. apply (O i r0). cbn [note]. destruct (rs_error rs =? 0); [|exact Hr].
          cbn [regions]. rewrite nth_error_app1; [exact Hr|]. apply nth_error_Some. congruence.
        - cbn [step] in S.
          destruct (on_box_cases st i (fun pm b =>
            (fst (library_destroy c pm b), Sbx (b_shm b) (b_bits b) (b_free b) false, Response 0 0)))
            as [(b & Hi & Lv & E)|E]; rewrite E in S; injection S as <- <-.
          2:{ right. apply Same. reflexivity. }
          destruct (inblk (b_shm b) (region_size b) x) eqn:Q.
          { left. apply inblk_true in Q. eauto 6. }
          right. intros k r0 Hk Lk Xk.
          pose proof (box_book_region c st bk i b L Hi) as Hr.
          destruct (Nat.eq_dec i k) as [->|Ne].
          + rewrite Hr in Hk. injection Hk as <-. apply (inblk_true (b_shm b) (region_size b)) in Xk. congruence.
          + apply (O k r0); auto. cbn [note rs_error fst snd]. rewrite Z.eqb_refl, Hr. cbn [regions].
            rewrite upd_other by exact Ne. exact Hk. }
      destruct D as [(i & b & -> & Hi & Lv & X)|O1].
      + cbn [step] in S. unfold on_box in S. rewrite Hi, Lv in S. injection S as <- <-.
        unfold seen; cbn [g_pm].
        apply (library_destroy_clears_region c (g_pm st) b x C (L_ok _ _ _ L i b Hi Lv)). exact X.
      + unfold seen. rewrite (step_elsewhere c st bk hp ev st1 rs x C I Pe S).
        * apply B. exact O1.
        * intros i b _ Hi Lv X. apply (O1 i (box_region b)); auto. apply (box_book_region c st); auto. }
  intros x. eapply (G evs); eauto.
  - apply hinv_init; auto.
  - intros y _. split; [reflexivity|]. split; reflexivity.
Qed.
Print Assumptions pagemap_blank_outside_sandboxes.


(** ** The hypotheses are met *)

(** A polite history in which the host holds a slab in the first of two
    sandboxes; its record at 0x5000 is seen, also after the second sandbox has
    asked for memory. *)
Definition leak_ex : list event := [EvCreate ex_base 18; EvCreate (ex_base + 2 ^ 18) 18].

Example leak_ex_ok : polite_history ex_cfg leak_ex /\ hostile_history ex_cfg leak_ex.
Proof.
  assert (P : polite_history ex_cfg leak_ex).
  { unfold polite_history, leak_ex.
    nextev.
    { split; [|exact Logic.I]. cbn [hostile_ok fresh_region]. unfold fresh_region, ex_base, W.
      cbn [cbits ex_cfg]. repeat split; try lia.
      - exists (0x7f0040000000 / 2 ^ 18). reflexivity.
      - intros r []. }
    nextev.
    { split; [|exact Logic.I]. cbn [hostile_ok fresh_region]. unfold fresh_region, ex_base, W.
      cbn [cbits ex_cfg]. repeat split; try lia.
      - exists (0x7f0040000000 / 2 ^ 18 + 1). reflexivity.
      - intros r [<-|[]] _. left. vm_compute. discriminate. }
    exact Logic.I. }
  split; [exact P|]. apply polite_is_hostile. exact P.
Qed.

Example host_address_seen :
  let st := fst (run ex_cfg init_state leak_ex) in
  let '(st1, rs) := step ex_cfg st (EvHostAlloc 0 ck 0x7f0040004000 0x5000) in
  let '(st2, tr2) := run ex_cfg st1 [EvReq 1 (alloc_rq 2)] in
  rs_error rs = 0 /\ map (fun er => rs_error (snd er)) tr2 = [0] /\
  get_slab_metadata (seen ex_cfg st2 (rs_ret rs)) = 0x5000.
Proof. vm_compute. auto. Qed.

Example word_sent :
  class_bytes ex_cfg 0 <= chunk ex_cfg /\ (cbits ex_cfg < 64)%nat /\
  let st := fst (run ex_cfg init_state leak_ex) in
  let '(st1, rs) := step ex_cfg st (EvReq 1 (Request 0 (chunk ex_cfg) 0xdeadbeef0 0 0)) in
  rs_error rs = 0 /\
  get_slab_metadata (seen ex_cfg st1 (rs_ret rs)) = 0xdeadbeef0.
Proof. split; [vm_compute; discriminate|]. split; [cbn; lia|]. vm_compute. auto. Qed.

Example somewhere_outside :
  outside (books (snd (run ex_cfg init_state leak_ex))) (ex_base + 2 ^ 19) /\
  ~ outside (books (snd (run ex_cfg init_state leak_ex))) (ex_base + 2 ^ 18).
Proof.
  split.
  - intros i r H L. destruct i as [|[|[|]]]; try discriminate H; injection H as <-;
      unfold r_end, ex_base; cbn [r_start r_bits]; change (2 ^ Z.of_nat 18) with 262144; lia.
  - intros H. apply (H 1%nat (Region (ex_base + 2 ^ 18) 18 true)); try reflexivity.
    unfold r_end, ex_base; cbn [r_start r_bits]; change (2 ^ Z.of_nat 18) with 262144; lia.
Qed.
